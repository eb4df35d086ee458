(** The texts of verbose containers are in the verbose grammar: pieces. *)
From Verif Require Import Base F64 Number BTree Value BaseProps BTreeProps ValueSpec ValueProps2 Nom Parse Grammar GrammarProps VGrammar VGrammarProps VAssemble VGrammarProps2 Nav Fmt FmtText FmtSpec FmtProps FmtProps2 RtSpec RtProps2 RtProps3 RtProps4 VSpec.
Open Scope N_scope.

(** ** blank lines and indents *)
Lemma bl_nl : blank_lines nl. Proof. apply (BL_line [] [10] []); [reflexivity|now left|constructor]. Qed.
Lemma bl_app a b : blank_lines a -> blank_lines b -> blank_lines (a ++ b).
Proof. intros A B. induction A as [|w e r W E _ IH]; [exact B|]. rewrite <- !app_assoc. now constructor. Qed.
Lemma indents_sp n : indents n (sp (4 * n)).
Proof. unfold sp. induction n as [|n IH]; [constructor|]. replace (4 * S n)%nat with (4 + 4 * n)%nat by lia. rewrite repeat_app. now apply (In_spaces n). Qed.
Lemma sp_blanks n : blanks (sp n).
Proof. unfold blanks, sp. induction n as [|n IH]; [reflexivity|exact IH]. Qed.
Lemma lead_sp n a : blank_lines a -> lead n (a ++ sp (4 * n)).
Proof. intros A. pose proof (Lead n a (sp (4 * n)) [] A (indents_sp n) eq_refl) as H. now rewrite app_nil_r in H. Qed.
Lemma lead_lines n a w : blank_lines a -> lead n w -> lead n (a ++ w).
Proof. intros A [x y z X Y Z]. rewrite (app_assoc a). constructor; auto. now apply bl_app. Qed.
Lemma list_lead n a t l b : blank_lines a -> vlist n t l b -> vlist n (a ++ t) l b.
Proof.
  intros A V. destruct V as [n w u i b c W I|n w u i b c r l b' W I V LE O C].
  - rewrite app_assoc. eapply V_last; [now apply lead_lines|exact I].
  - rewrite app_assoc. eapply V_next; try eassumption. now apply lead_lines.
Qed.
Lemma list_app n t l b r l' b' : vlist n t l b -> vlist n r l' b' -> line_ends r = true -> (b = true -> Grammar.opens r = false) -> closes (S n) r = true -> vlist n (t ++ r) (l ++ l') b'.
Proof.
  intros V V'. induction V as [n w u i b c W I|n w u i b c q l b0 W I V IH LE OP CL]; intros E O C.
  - rewrite <- app_assoc. now apply (V_next n w u i b c r l' b').
  - rewrite <- !app_assoc. pose proof (list_firm _ _ _ _ V) as F. apply (V_next n w u i b c (q ++ r) (l ++ l') b'); [exact W|exact I|now apply IH|now apply firm_line_ends| |].
    + intros X. rewrite firm_opens by assumption. auto.
    + intros X. apply firm_closes; auto.
Qed.

(** ** texts of items at a column *)
Definition anchor (c : char) : bool := name_char c || (c =? ch "[") || (c =? ch ":").
Lemma anchor_space c : anchor c = true -> space c = false.
Proof.
  intros A. destruct (space c) eqn:E; [|reflexivity]. unfold space in E. apply mem_In in E. each_char E; discriminate.
Qed.
Definition begins (n : nat) (c : char) (t : str) : Prop := exists e z, t = e ++ sp (4 * n) ++ c :: z /\ blank_lines e.
Lemma begins_lines n c e t : blank_lines e -> begins n c t -> begins n c (e ++ t).
Proof. intros E (e' & z & -> & B). exists (e ++ e'), z. split; [now rewrite app_assoc|now apply bl_app]. Qed.
Lemma begins_app n c t r : begins n c t -> begins n c (t ++ r).
Proof. intros (e & z & -> & B). exists e, (z ++ r). split; [|exact B]. now rewrite <- !app_assoc. Qed.
Lemma not_indented n c z : space c = false -> indented (S n) (sp (4 * n) ++ c :: z) = false.
Proof.
  intros S. assert (N : (32 =? c) = false /\ (c =? 9) = false) by (split; apply N.eqb_neq; intros <- || intros ->; discriminate). destruct N as [N1 N2].
  induction n as [|n IH].
  - change (indented 1 (sp (4 * 0) ++ c :: z)) with (if (32 =? c) && starts_with (s "   ") z then indented 0 (skipn 4 (c :: z)) else (c =? 9) && indented 0 z). now rewrite N1, N2.
  - replace (4 * Datatypes.S n)%nat with (4 + 4 * n)%nat by lia. unfold sp. rewrite repeat_app, <- app_assoc. exact IH.
Qed.
Lemma begins_closes n c t : anchor c = true -> begins n c t -> closes (S n) t = true.
Proof.
  intros A (e & z & -> & B). apply anchor_space in A. unfold closes. rewrite next_line_blank_lines by exact B. rewrite next_line_stop.
  - rewrite not_indented by exact A. apply orb_true_r.
  - left. rewrite skip_blanks_app by apply sp_blanks. rewrite skip_blanks_id by (cbn; now apply space_blank). cbn [at_eol].
    destruct (N.eqb_spec c 10) as [->|N1]; [discriminate|]. destruct (N.eqb_spec c 13) as [->|N2]; [discriminate|].
    destruct c as [|p]; [reflexivity|]. repeat (destruct p as [p|p|]; try reflexivity); congruence.
Qed.
Lemma begins_opens n c t : anchor c = true -> begins n c t -> Grammar.opens t = mem c (s "([{").
Proof.
  intros A (e & z & -> & B). apply anchor_space in A. rewrite spaces_opens by now apply blank_lines_spaces. rewrite spaces_opens by apply blanks_spaces, sp_blanks.
  cbn [Grammar.opens]. now rewrite A.
Qed.
Lemma nl_line_ends t : line_ends (nl ++ t) = true. Proof. reflexivity. Qed.

Definition chunk (n : nat) (c : char) (t : str) (l : list item) (b : bool) : Prop := vlist n t l b /\ begins n c t /\ anchor c = true.
Lemma chunk_lines n c e t l b : blank_lines e -> chunk n c t l b -> chunk n c (e ++ t) l b.
Proof. intros E (V & B & A). split; [now apply list_lead|]. split; [now apply begins_lines|exact A]. Qed.
Lemma chunk_app n c t l b e c' t' l' b' : chunk n c t l b -> blank_lines e -> chunk n c' t' l' b' -> (b = true -> mem c' (s "([{") = false) ->
  chunk n c (t ++ nl ++ e ++ t') (l ++ l') b'.
Proof.
  intros (V & B & A) E C' O. assert (X : chunk n c' (nl ++ e ++ t') l' b') by (apply chunk_lines; [exact bl_nl|]; now apply chunk_lines). destruct X as (V' & B' & A').
  split; [|split; [now apply begins_app|exact A]]. eapply list_app; [exact V|exact V'|reflexivity| |].
  - intros H. rewrite (begins_opens n c') by assumption. auto.
  - now apply (begins_closes n c').
Qed.
Lemma chunk_item n c t i b k e : blank_lines e -> vitem n (c :: t) i b k -> anchor c = true -> chunk n c (e ++ sp (4 * n) ++ c :: t) [i] b.
Proof.
  intros E I A. split; [|split; [exists e, t; auto|exact A]]. rewrite app_assoc. eapply V_last; [now apply lead_sp|exact I].
Qed.

(** ** lists of items with text between them *)
Section Chunks.
  Context {A : Type} (pre : str) (Q : str -> Prop) (T : A -> str) (I : A -> item) (B : A -> bool) (n : nat).
  (** every text ends with a new line and blank lines *)
  Definition lines_of (c : char) (x : A) : Prop := exists t e, T x = t ++ nl ++ e /\ blank_lines e /\ (Q e /\ exists z, t = pre ++ z) /\ chunk n c t [I x] (B x).
  Lemma chunks (c : char) (l : list A) : l <> [] -> Forall (lines_of c) l -> chain (fun x _ => negb (B x)) l = true ->
    exists t e, concat (map T l) = t ++ nl ++ e /\ blank_lines e /\ (Q e /\ exists z, t = pre ++ z) /\ chunk n c t (map I l) (last (map B l) false).
  Proof.
    intros NE F C. induction F as [|x l (t & e & ET & E & [QE (z & EZ)] & K) F IH]; [congruence|]. destruct l as [|y l].
    - exists t, e. cbn [map concat last]. rewrite app_nil_r. eauto 10.
    - change (chain _ (x :: y :: l)) with (negb (B x) && chain (fun x (_ : A) => negb (B x)) (y :: l)) in C. apply andb_true_iff in C as [C1 C2]. apply negb_true_iff in C1.
      destruct (IH ltac:(discriminate) C2) as (t' & e' & ET' & E' & [QE' _] & K'). exists (t ++ nl ++ e ++ t'), e'. split; [|split; [exact E'|split; [split; [exact QE'|exists (z ++ nl ++ e ++ t'); now rewrite EZ, <- !app_assoc]|]]].
      + change (concat (map T (x :: y :: l))) with (T x ++ concat (map T (y :: l))). rewrite ET', ET, <- !app_assoc. reflexivity.
      + change (map I (x :: y :: l)) with ([I x] ++ map I (y :: l)). change (last (map B (x :: y :: l)) false) with (last (map B (y :: l)) false).
        eapply chunk_app; [exact K|exact E|exact K'|]. rewrite C1. discriminate.
  Qed.
End Chunks.
Lemma fold_concat {A} (f : str -> A -> str) (T : A -> str) l : (forall acc x, In x l -> f acc x = acc ++ T x) -> forall acc, fold_left f l acc = acc ++ concat (map T l).
Proof.
  induction l as [|x l IH]; intros H acc; cbn [fold_left map concat]; [now rewrite app_nil_r|]. rewrite H by now left. rewrite IH by (intros; apply H; now right). now rewrite <- app_assoc.
Qed.

(** ** what a list of items stands for *)
Definition item_name (i : item) : option str := match i with It_id _ => None | It_field n _ | It_elem _ n _ | It_entry _ n _ _ => Some n end.
Definition gathers (l : list item) (m : list (str * kserd)) : Prop :=
  (forall k, last_binding str_cmp k m = if existsb (str_eqb k) (names l) then Some (value_of k l) else None).
Lemma last_binding_none {V} k (m : list (str * V)) : ~ In k (map fst m) -> last_binding str_cmp k m = None.
Proof.
  induction m as [|[k' v] m IH]; intros H; [reflexivity|]. cbn [map fst In] in H. cbn [last_binding fst snd]. rewrite IH by tauto.
  destruct (str_cmp k k') eqn:E; try reflexivity. apply str_eqb_cmp, str_eqb_eq in E. subst. tauto.
Qed.
Lemma parts_nil k l : existsb (str_eqb k) (names l) = false -> entries_of k l = [] /\ elems_of k l = [] /\ direct_of k l = [].
Proof. rewrite names_some. destruct (entries_of k l), (elems_of k l), (direct_of k l); (discriminate || auto). Qed.
Lemma value_app k a b : existsb (str_eqb k) (names b) = false -> value_of k (a ++ b) = value_of k a.
Proof. intros H. apply parts_nil in H as (A & B & C). unfold value_of, entries_of, elems_of, direct_of in *. rewrite !flat_map_app, A, B, C, !app_nil_r. reflexivity. Qed.
Lemma value_app2 k a b : existsb (str_eqb k) (names a) = false -> value_of k (a ++ b) = value_of k b.
Proof. intros H. apply parts_nil in H as (A & B & C). unfold value_of, entries_of, elems_of, direct_of in *. rewrite !flat_map_app, A, B, C. reflexivity. Qed.
Lemma names_app a b : names (a ++ b) = names a ++ names b. Proof. unfold names. apply flat_map_app. Qed.
Lemma names_same name its : its <> [] -> Forall (fun i => item_name i = Some name) its -> forall k, existsb (str_eqb k) (names its) = str_eqb k name.
Proof.
  intros NE F k. induction F as [|i its H F IH]; [congruence|]. change (names (i :: its)) with (names ([i] ++ its)). rewrite names_app, existsb_app.
  assert (E : existsb (str_eqb k) (names [i]) = str_eqb k name) by (destruct i; cbn in H; try discriminate; injection H as ->; cbn [names flat_map app existsb]; apply orb_false_r).
  rewrite E. destruct its as [|j its]; [apply orb_false_r|]. rewrite IH by discriminate. apply orb_diag.
Qed.
Lemma gathers_cons name v its l m : its <> [] -> Forall (fun i => item_name i = Some name) its -> value_of name its = v -> ~ In name (map fst m) ->
  gathers l m -> gathers (its ++ l) ((name, v) :: m).
Proof.
  intros NE F V N G k. cbn [last_binding fst snd]. rewrite names_app, existsb_app, (names_same name its NE F). rewrite (G k).
  destruct (str_eqb k name) eqn:E.
  - apply str_eqb_eq in E. subst k. rewrite <- (G name), last_binding_none, str_cmp_refl by exact N. cbn [orb]. rewrite value_app, V; [reflexivity|].
    pose proof (G name) as X. rewrite last_binding_none in X by exact N. destruct (existsb (str_eqb name) (names l)); [discriminate|reflexivity].
  - cbn [orb]. rewrite value_app2 by now rewrite (names_same name its NE F).
    destruct (existsb (str_eqb k) (names l)); [reflexivity|]. rewrite eqb_cmp in E. 
    destruct (str_cmp k name) eqn:E2; try reflexivity. apply str_eqb_cmp, str_eqb_eq in E2. subst. rewrite str_cmp_refl in E. discriminate.
Qed.
Lemma gathers_nil : gathers [] []. Proof. intros k. reflexivity. Qed.
Lemma fields_gathered l m : gathers l m -> fields_of (map (fun n => (n, value_of n l)) (names l)) = fields_of m.
Proof.
  intros G. unfold fields_of.
  destruct (bt_from_list_spec (fun _ => True) str_cmp str_eqb str_lawful str_eqb_cmp' (map (fun n => (n, value_of n l)) (names l)) ltac:(apply keysP_true)) as (_ & A1 & G1).
  destruct (bt_from_list_spec (fun _ => True) str_cmp str_eqb str_lawful str_eqb_cmp' m ltac:(apply keysP_true)) as (_ & A2 & G2).
  apply sorted_ext; [exact A1|exact A2|]. intros k. rewrite (G1 k Logic.I), (G2 k Logic.I), last_binding_names. symmetry. apply G.
Qed.
Lemma no_ids l : (forall i, In i l -> item_name i <> None) -> last_some (map (fun i => match i with It_id id => Some id | _ => None end) l) = None.
Proof.
  induction l as [|i l IH] using rev_ind; intros H; [reflexivity|]. rewrite map_app. cbn [map]. rewrite last_some_snoc.
  destruct i; [exfalso; apply (H (It_id id)); [apply in_or_app; right; now left|reflexivity]|..]; (apply IH; intros; apply H, in_or_app; now left).
Qed.
Lemma container_plain l m : (forall i, In i l -> item_name i <> None) -> gathers l m -> container l = Kserd None (VCntr (fields_of m)).
Proof. intros N G. unfold container. now rewrite no_ids, (fields_gathered l m G). Qed.
Lemma container_id id l m : (forall i, In i l -> item_name i <> None) -> gathers l m -> container (It_id id :: l) = Kserd (Some id) (VCntr (fields_of m)).
Proof.
  intros N G. unfold container. f_equal.
  - pose proof (no_ids l N) as H. cbn [map]. unfold last_some in *. cbn [fold_left]. revert H. generalize (map (fun i => match i with It_id id0 => Some id0 | _ => None end) l). clear.
    intros q. assert (X : forall o, fold_left (fun acc x : option str => match x with Some _ => x | None => acc end) q o = match last_some q with Some x => Some x | None => o end).
    { induction q as [|x q IH] using rev_ind; intros o; [reflexivity|]. rewrite last_some_snoc, fold_left_app. cbn [fold_left]. rewrite IH. destruct x; [reflexivity|]. reflexivity. }
    unfold last_some in X. intros H. now rewrite X, H.
  - f_equal. change (names (It_id id :: l)) with (names l). apply fields_gathered in G. exact G.
Qed.
