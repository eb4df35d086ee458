(** Proofs about the length of texts. *)
From Verif Require Import Base BaseProps F64 Number BTree Value ValueSpec ValueProps Base91 Nav NavSpec NavProps NavProps2 NavProps3 Fmt FmtText FmtSpec FmtProps FmtProps2 Formatter FormatterProps FormatterProps2 FormatterProps3 FormatterProps4 LayoutSpec LayoutProps6 RtSpec VRtProps5 SizeSpec.
Open Scope nat_scope.

Lemma fold_len {A} (step : str -> A -> str) (c : A -> nat) l :
  (forall x, In x l -> forall acc, length (step acc x) <= length acc + c x) -> forall acc, length (fold_left step l acc) <= length acc + list_sum (map c l).
Proof.
  induction l as [|x l IH]; intros H acc; cbn [fold_left map]; rewrite ?list_sum_cons; [cbn; lia|].
  etransitivity; [apply IH; intros; apply H; now right|]. specialize (H x (or_introl eq_refl) acc). lia.
Qed.
Lemma sum_le {A} (c e : A -> nat) l : (forall x, In x l -> c x <= e x) -> list_sum (map c l) <= list_sum (map e l).
Proof. induction l as [|x l IH]; intros H; cbn [map]; rewrite ?list_sum_cons; [lia|]. specialize (IH (fun y Hy => H y (or_intror Hy))). specialize (H x (or_introl eq_refl)). lia. Qed.
Lemma sum_in {A} (c : A -> nat) l x : In x l -> c x <= list_sum (map c l).
Proof. induction l as [|y l IH]; intros []; cbn [map]; rewrite list_sum_cons; [subst; lia|]. specialize (IH H). lia. Qed.
Lemma sum_mul {A} (c : A -> nat) a l : list_sum (map (fun x => a * c x) l) = a * list_sum (map c l).
Proof. induction l as [|x l IH]; cbn [map]; rewrite ?list_sum_cons; [cbn; lia|]. lia. Qed.
Lemma sum_mul_r {A} (c : A -> nat) a l : list_sum (map (fun x => c x * a) l) = list_sum (map c l) * a.
Proof. induction l as [|x l IH]; cbn [map]; rewrite ?list_sum_cons; [cbn; lia|]. lia. Qed.

Definition W (d : dk) : nat := total own_chars (undeco d).
Definition N (d : dk) : nat := total (fun _ => 1) (undeco d).
Definition kids (v : value dk) : list dk := d_children v.
Lemma undeco_children f id v : vchildren (kval (undeco (DK f id v))) = map undeco (d_children v).
Proof.
  destruct v; cbn [undeco kval vchildren d_children map]; try reflexivity; rewrite ?map_map; [reflexivity|].
  induction m as [|e m IH]; [reflexivity|]. unfold entry_list in *. cbn [map flat_map app fst snd]. now rewrite IH.
Qed.
Lemma W_unfold f id v : W (DK f id v) = own_chars (undeco (DK f id v)) + list_sum (map W (d_children v)).
Proof. unfold W at 1. rewrite total_unfold, undeco_children, map_map. reflexivity. Qed.
Lemma N_unfold f id v : N (DK f id v) = 1 + list_sum (map N (d_children v)).
Proof. unfold N at 1. rewrite total_unfold, undeco_children, map_map. reflexivity. Qed.
Lemma W_pos d : 16 <= W d.
Proof. destruct d. rewrite W_unfold. unfold own_chars. lia. Qed.
Lemma N_pos d : 1 <= N d.
Proof. destruct d. rewrite N_unfold. lia. Qed.
Lemma entry_sum {A} (g : A -> nat) (m : list (A * A)) : list_sum (map g (entry_list m)) = list_sum (map (fun e => g (fst e) + g (snd e)) m).
Proof. induction m as [|e m IH]; [reflexivity|]. unfold entry_list in *. cbn [flat_map app map]. rewrite !list_sum_cons, IH. lia. Qed.
Definition ilen (id : option str) : nat := match id with Some i => length i | None => 0 end.
Lemma prim_id_len f id : length (prim_id f id) <= ilen id + 3.
Proof. unfold prim_id, ilen. destruct (f_id f), id as [i|]; rewrite ?app_length; cbn; rewrite ?app_length; cbn; unfold str, char; lia. Qed.
Lemma nonprim_id_len f id : length (nonprim_id f id) <= ilen id + 1.
Proof. unfold nonprim_id, ilen. destruct (f_id f), id as [i|]; rewrite ?app_length; cbn [length]; try lia. cbn. unfold str, char. lia. Qed.
Lemma tuple_id_len f id : length (tuple_id f id) <= ilen id.
Proof. unfold tuple_id, ilen. destruct (f_id f), id as [i|]; cbn [length]; lia. Qed.
Lemma str_text_len t : length (str_text t) <= length t + 5.
Proof. unfold str_text. destruct (delimiter t) as [d|]; [|cbn; lia]. rewrite !app_length. destruct (d =? 34)%N; cbn; unfold str, char; lia. Qed.
Lemma b91_len b : length (b91_encode b) <= 4 * length b + 2.
Proof. pose proof (b91_width b) as H. destruct b as [|x [|y b]]; cbn [length] in *; lia. Qed.
Lemma prim_len f id v : match v with VTuple _ | VCntr _ | VSeq _ | VMap _ => False | _ => True end -> length (prim_text f id v) + 5 <= W (DK f id v).
Proof.
  intros P. rewrite W_unfold. unfold own_chars. pose proof (prim_id_len f id) as H. unfold ilen in H.
  destruct v as [|b|n|t|b| | | |]; try destruct P; cbn [prim_text undeco kid kval d_children map list_sum fold_right]; rewrite ?app_length.
  - destruct id; cbn; unfold str, char in *; lia.
  - destruct b; cbn; unfold str, char in *; lia.
  - unfold str, char in *; lia.
  - pose proof (str_text_len t). unfold str, char in *; lia.
  - pose proof (b91_len b). change (length (s "b91'")) with 4. change (length (s "'")) with 1. unfold str, char in *; lia.
Qed.
Lemma pop2_le {A} (l : list A) t : length (pop2 l t) <= length t.
Proof. rewrite pop2_length. lia. Qed.
Lemma lit1 c : length (s (String c EmptyString)) = 1. Proof. reflexivity. Qed.
Lemma lit2 c d : length (s (String c (String d EmptyString))) = 2. Proof. reflexivity. Qed.
Lemma lit3 c d e : length (s (String c (String d (String e EmptyString)))) = 3. Proof. reflexivity. Qed.
Ltac lens :=
  unfold str, char in *; repeat match goal with
    | |- context [length (_ ++ _)] => rewrite app_length
    | H : context [length (_ ++ _)] |- _ => rewrite app_length in H
    | |- context [length (s (String _ _))] => first [rewrite lit1|rewrite lit2|rewrite lit3]
    | H : context [length (s (String _ _))] |- _ => first [rewrite lit1 in H|rewrite lit2 in H|rewrite lit3 in H]
    end; unfold str, char in *.

(** inline, the text is not longer than the characters *)
Lemma inline_len d : d_all lay_node d = true -> d_line d = Inline -> forall top col, length (text top d col) + 5 <= W d.
Proof.
  induction d as [f id v IH] using dk_ind'. intros L E top col. apply d_all_children in L as [L C]. unfold lay_node in L. apply andb_true_iff in L as [_ L].
  assert (K : forall x, In x (d_children v) -> forall top col, length (text top x col) + 5 <= W x).
  { intros x Hx. rewrite Forall_forall in IH, C. apply IH; auto. rewrite forallb_forall in L. specialize (L x Hx). rewrite E in L. unfold repr_leb in L. apply Nat.leb_le in L. destruct (d_line x); cbn in L; [reflexivity|lia|lia]. }
  clear IH L C. unfold d_line in E. cbn [d_fmt] in E.
  assert (CL : forall x (a : str), length (cut x a) <= length a) by (intros; apply cut_length).
  pose proof (nonprim_id_len f id) as NI. pose proof (tuple_id_len f id) as TI. unfold ilen in *.
  destruct v as [|b|n|t|b|l|m|l|m]; try (apply (prim_len f id); exact Logic.I); cbn [text]; rewrite E, W_unfold; unfold own_chars; cbn [undeco kid kval d_children] in *.
  - pose proof (fold_len (fun acc x => cut x acc ++ text true x col ++ s ", ") W l) as F. specialize (F ltac:(intros x Hx acc; specialize (K x Hx true col); specialize (CL x acc); lens; lia) (tuple_id f id ++ s "(")).
    pose proof (pop2_le l (fold_left (fun acc x => cut x acc ++ text true x col ++ s ", ") l (tuple_id f id ++ s "("))). lens. lia.
  - pose proof (fold_len (fun acc e => cut (snd e) (acc ++ fst e ++ s " = ") ++ text true (snd e) col ++ s ", ") (fun e => length (fst e) + W (snd e)) m) as F.
    specialize (F ltac:(intros x Hx acc; specialize (K (snd x) (in_map snd _ _ Hx) true col); specialize (CL (snd x) (acc ++ fst x ++ s " = ")); lens; lia) (nonprim_id f id ++ s "(")).
    rewrite list_sum_map_add in F. pose proof (pop2_le m (fold_left (fun acc e => cut (snd e) (acc ++ fst e ++ s " = ") ++ text true (snd e) col ++ s ", ") m (nonprim_id f id ++ s "("))). rewrite !map_map. cbn [fst]. lens. lia.
  - pose proof (fold_len (fun acc x => cut x acc ++ text true x col ++ s ", ") W l) as F. specialize (F ltac:(intros x Hx acc; specialize (K x Hx true col); specialize (CL x acc); lens; lia) (nonprim_id f id ++ s "[")).
    pose proof (pop2_le l (fold_left (fun acc x => cut x acc ++ text true x col ++ s ", ") l (nonprim_id f id ++ s "["))). lens. lia.
  - set (step := fun acc e => cut (snd e) (cut (fst e) acc ++ text true (fst e) col ++ s ": ") ++ text true (snd e) col ++ s ", ").
    pose proof (fold_len step (fun e => W (fst e) + W (snd e)) m) as F. set (a0 := nonprim_id f id ++ s "{" ++ (if nonempty m then s " " else [])) in *.
    specialize (F ltac:(intros x Hx acc; unfold step; assert (K1 := K (fst x) ltac:(unfold entry_list; apply in_flat_map; exists x; cbn; auto) true col); assert (K2 := K (snd x) ltac:(unfold entry_list; apply in_flat_map; exists x; cbn; auto) true col);
      pose proof (CL (fst x) acc); pose proof (CL (snd x) (cut (fst x) acc ++ text true (fst x) col ++ s ": ")); lens; lia) a0).
    pose proof (pop2_le m (fold_left step m a0)) as P. assert (A0 : length a0 <= length (nonprim_id f id) + 2) by (unfold a0; rewrite !app_length; destruct (nonempty m); cbn; lia).
    rewrite entry_sum. change (fold_left _ m _) with (fold_left step m a0). rewrite !app_length. change (length (s "}")) with 1. assert (S1 : length (if nonempty m then s " " else []) <= 1) by (destruct (nonempty m); cbn; lia). unfold str, char in *. lia.
Qed.

(** ** in any layout *)
Definition bound (d : dk) : Prop := forall top col, length (text top d col) + 2 <= (3 * N d - 2) * (col + W d).
Lemma child_cost x T : bound x -> forall top c, c + W x <= T -> length (text top x c) + 2 <= (3 * N x - 2) * T.
Proof. intros B top c H. specialize (B top c). pose proof (N_pos x). nia. Qed.
Lemma item_cost x T a : bound x -> a <= 2 * T + 2 -> forall top c, c + W x <= T -> a + length (text top x c) <= 3 * N x * T.
Proof. intros B A top c H. pose proof (child_cost x T B top c H). pose proof (N_pos x). nia. Qed.
Lemma pair_cost x y T a : bound x -> bound y -> a <= 4 * T + 4 -> forall top c top' c', c + W x <= T -> c' + W y <= T ->
  a + length (text top x c) + length (text top' y c') <= 3 * (N x + N y) * T.
Proof. intros B B' A top c top' c' H H'. pose proof (child_cost x T B top c H). pose proof (child_cost y T B' top' c' H'). pose proof (N_pos x). pose proof (N_pos y). nia. Qed.
Lemma sp_len n : @length BinNums.N (sp n) = n.
Proof. apply repeat_length. Qed.
Lemma nl_len : @length BinNums.N nl = 1. Proof. reflexivity. Qed.
Lemma pop_le (t : str) : length (pop t) <= length t.
Proof. rewrite length_pop. lia. Qed.
Ltac lens' := lens; repeat (rewrite sp_len in * || rewrite nl_len in *).
Lemma sum_const {A} (c : A -> nat) T l : list_sum (map (fun x => 3 * c x * T) l) = 3 * list_sum (map c l) * T.
Proof. induction l as [|x l IH]; cbn [map]; rewrite ?list_sum_cons; [cbn; lia|]. rewrite IH. lia. Qed.
Lemma close_ok S n T o : o <= T -> S <= 3 * n * T + o -> S <= (3 * (1 + n) - 2) * T.
Proof. intros. replace (3 * (1 + n) - 2) with (3 * n + 1) by lia. nia. Qed.

(** the column of the value behind a key *)
Definition behind (key : dk) (kt : str) : nat := match d_line key with Inline => length kt + 2 - (if drops key then 1 else 0) | _ => 3 end.
Lemma behind_le key col top : d_all lay_node key = true -> behind key (text top key col) <= W key.
Proof.
  intros L. unfold behind. pose proof (W_pos key). destruct (d_line key) eqn:E; try lia. pose proof (inline_len key L E top col). lia.
Qed.
Lemma concise_items l col T : Forall bound l -> (forall x, In x l -> col + 16 + W x <= T) -> forall acc,
  length (fold_left (fun acc x => cut x (acc ++ sp (col + 4)) ++ text true x (col + 4) ++ nl) l acc) <= length acc + 3 * list_sum (map N l) * T.
Proof.
  intros B H acc. unfold str, char in *. rewrite <- sum_const. apply fold_len. intros x Hx a. rewrite Forall_forall in B. specialize (B x Hx). specialize (H x Hx).
  pose proof (cut_length x (a ++ sp (col + 4))). pose proof (item_cost x T (col + 4 + 1) B ltac:(lia) true (col + 4) ltac:(lia)). lens'. lia.
Qed.
Lemma concise_fields (m : list (str * dk)) col T : Forall (fun e => bound (snd e)) m -> (forall e, In e m -> col + 16 + length (fst e) + W (snd e) <= T) -> forall acc,
  length (fold_left (fun acc e => cut (snd e) (acc ++ sp (col + 4) ++ fst e ++ s " = ") ++ text true (snd e) (col + 4 + (length (fst e) + 3)) ++ nl) m acc)
  <= length acc + 3 * list_sum (map (fun e => N (snd e)) m) * T.
Proof.
  intros B H acc. unfold str, char in *. rewrite <- sum_const. apply fold_len. intros x Hx a. rewrite Forall_forall in B. specialize (B x Hx). specialize (H x Hx).
  pose proof (cut_length (snd x) (a ++ sp (col + 4) ++ fst x ++ s " = ")). pose proof (item_cost (snd x) T (col + 4 + length (fst x) + 4) B ltac:(lia) true (col + 4 + (length (fst x) + 3)) ltac:(lia)). lens'. lia.
Qed.
Lemma concise_entries (m : list (dk * dk)) col T : Forall (fun e => bound (fst e) /\ bound (snd e) /\ d_all lay_node (fst e) = true) m -> (forall e, In e m -> col + 16 + W (fst e) + W (snd e) <= T) -> forall acc,
  length (fold_left (fun acc e => let kt := text true (fst e) (col + 4) in
                let ind := match d_line (fst e) with Inline => length kt + 2 - (if drops (fst e) then 1 else 0) | _ => 3 end in
                cut (snd e) (cut (fst e) (acc ++ sp (col + 4)) ++ kt ++ s ": ") ++ text true (snd e) (col + 4 + ind) ++ nl) m acc)
  <= length acc + 3 * list_sum (map (fun e => N (fst e) + N (snd e)) m) * T.
Proof.
  intros B H acc. unfold str, char in *. rewrite <- sum_const. apply fold_len. intros x Hx a. rewrite Forall_forall in B. specialize (B x Hx) as (B1 & B2 & L). specialize (H x Hx). cbv zeta.
  match goal with |- context [match d_line (fst x) with Inline => ?b | Concise => 3 | Verbose => 3 end] => change (match d_line (fst x) with Inline => b | Concise => 3 | Verbose => 3 end) with (behind (fst x) (text true (fst x) (col + 4))) end. pose proof (behind_le (fst x) (col + 4) true L) as BL. set (ind := behind (fst x) (text true (fst x) (col + 4))) in *.
  pose proof (cut_length (fst x) (a ++ sp (col + 4))). pose proof (cut_length (snd x) (cut (fst x) (a ++ sp (col + 4)) ++ text true (fst x) (col + 4) ++ s ": ")).
  pose proof (pair_cost (fst x) (snd x) T (col + 4 + 3) B1 B2 ltac:(lia) true (col + 4) true (col + 4 + ind) ltac:(lia) ltac:(lia)). lens'. lia.
Qed.
Lemma section_items name l col T : Forall bound l -> (forall x, In x l -> col + 16 + length name + W x <= T) -> forall acc,
  length (fold_left (fun acc x =>
                             let acc := acc ++ sp col ++ s "[[" ++ name ++ s "]]" ++ nl in
                             match d_line x with
                             | Verbose => cut x acc ++ text true x (col + 4) ++ nl
                             | _ => cut x (acc ++ sp col) ++ text true x col ++ nl ++ nl
                             end) l acc) <= length acc + 3 * list_sum (map N l) * T.
Proof.
  intros B H acc. rewrite <- sum_const. apply fold_len. intros x Hx a. rewrite Forall_forall in B. specialize (B x Hx). specialize (H x Hx). cbv zeta. set (a' := a ++ sp col ++ s "[[" ++ name ++ s "]]" ++ nl).
  assert (A' : length a' = length a + col + length name + 5) by (unfold a'; lens'; lia).
  pose proof (item_cost x T (2 * col + length name + 7) B ltac:(lia) true (col + 4) ltac:(lia)) as I1. pose proof (item_cost x T (2 * col + length name + 7) B ltac:(lia) true col ltac:(lia)) as I2.
  pose proof (cut_length x a'). pose proof (cut_length x (a' ++ sp col)). destruct (d_line x); lens'; lia.
Qed.
Lemma section_entries name (m : list (dk * dk)) col T : Forall (fun e => bound (fst e) /\ bound (snd e) /\ d_all lay_node (fst e) = true) m -> (forall e, In e m -> col + 16 + length name + W (fst e) + W (snd e) <= T) -> forall acc,
  length (fold_left (fun acc e =>
                        let acc := acc ++ s "[[" ++ name ++ s "]]" ++ nl in
                        let kt := text true (fst e) col in
                        match d_line (snd e) with
                        | Verbose => cut (snd e) (cut (fst e) acc ++ kt ++ s ":" ++ nl) ++ text true (snd e) (col + 4) ++ nl
                        | _ =>
                            let ind := match d_line (fst e) with Inline => length kt + 2 - (if drops (fst e) then 1 else 0) | _ => 3 end in
                            cut (snd e) (cut (fst e) acc ++ kt ++ s ": ") ++ text true (snd e) (col + ind) ++ nl
                        end) m acc) <= length acc + 3 * list_sum (map (fun e => N (fst e) + N (snd e)) m) * T.
Proof.
  intros B H acc. rewrite <- sum_const. apply fold_len. intros x Hx a. rewrite Forall_forall in B. specialize (B x Hx) as (B1 & B2 & L). specialize (H x Hx). cbv zeta.
  match goal with |- context [match d_line (fst x) with Inline => ?b | Concise => 3 | Verbose => 3 end] => change (match d_line (fst x) with Inline => b | Concise => 3 | Verbose => 3 end) with (behind (fst x) (text true (fst x) col)) end. pose proof (behind_le (fst x) col true L) as BL. set (ind := behind (fst x) (text true (fst x) col)) in *. set (a' := a ++ s "[[" ++ name ++ s "]]" ++ nl).
  assert (A' : length a' = length a + length name + 5) by (unfold a'; lens'; lia).
  pose proof (cut_length (fst x) a') as C1. pose proof (cut_length (snd x) (cut (fst x) a' ++ text true (fst x) col ++ s ": ")) as C2. pose proof (cut_length (snd x) (cut (fst x) a' ++ text true (fst x) col ++ s ":" ++ nl)) as C3.
  pose proof (pair_cost (fst x) (snd x) T (length name + 8) B1 B2 ltac:(lia) true col true (col + ind) ltac:(lia) ltac:(lia)).
  pose proof (pair_cost (fst x) (snd x) T (length name + 8) B1 B2 ltac:(lia) true col true (col + 4) ltac:(lia) ltac:(lia)).
  destruct (d_line (snd x)); lens'; lia.
Qed.
Lemma entry_facts (m : list (dk * dk)) : Forall bound (entry_list m) -> Forall (fun x => d_all lay_node x = true) (entry_list m) -> Forall (fun e => bound (fst e) /\ bound (snd e) /\ d_all lay_node (fst e) = true) m.
Proof. intros B L. apply Forall_entries in B. apply Forall_entries in L. rewrite Forall_forall in *. intros e He. specialize (B e He). specialize (L e He). tauto. Qed.
Lemma entries_in (m : list (dk * dk)) e : In e m -> W (fst e) + W (snd e) <= list_sum (map W (entry_list m)).
Proof. intros H. rewrite entry_sum. now apply (sum_in (fun e => W (fst e) + W (snd e))). Qed.

Lemma any_bound d : d_all lay_node d = true -> bound d /\ Forall bound (d_children (d_val d)).
Proof.
  induction d as [f id v IH] using dk_ind'. intros L0. apply d_all_children in L0 as L. destruct L as [L C]. cbn [d_val].
  assert (FB : Forall bound (d_children v)) by (rewrite Forall_forall in *; intros x Hx; now apply IH; auto). split; [|exact FB].
  assert (FC : Forall (fun x => Forall bound (d_children (d_val x))) (d_children v)) by (rewrite Forall_forall in *; intros x Hx; now apply IH; auto).
  clear IH L. intros top col.
  assert (PR : match v with VTuple _ | VCntr _ | VSeq _ | VMap _ => True | _ => length (text top (DK f id v) col) + 2 <= (3 * N (DK f id v) - 2) * (col + W (DK f id v)) end).
  { pose proof (prim_len f id v) as P. pose proof (N_pos (DK f id v)) as N1. destruct v; try exact Logic.I; specialize (P Logic.I); cbn [text]; nia. }
  pose proof (nonprim_id_len f id) as NI. pose proof (tuple_id_len f id) as TI. unfold ilen in *.
  destruct (f_line f) eqn:E; [pose proof (inline_len (DK f id v) L0 E top col); pose proof (N_pos (DK f id v)); nia| |].
  all: destruct v as [|b|n|t|b|l|m|l|m]; try exact PR; clear PR; cbn [text]; rewrite E, N_unfold; set (T := col + W (DK f id _)); pose proof (W_unfold f id) as WU; unfold own_chars in WU; cbn [d_children] in *.
  all: match goal with T := _ + W (DK _ _ ?v) |- _ => specialize (WU v); cbn [undeco kid kval d_children] in WU; unfold str, char in WU end.
  - pose proof (concise_items l col T FB ltac:(intros x Hx; pose proof (sum_in W l x Hx); unfold T; lia) (tuple_id f id ++ s "(" ++ nl)) as F. apply (close_ok _ _ T (col + length (tuple_id f id) + 5)); unfold T in *; lens'; lia.
  - rewrite !map_map in *. cbn [fst snd] in *. rewrite Forall_map in FB, FC, C.
    pose proof (concise_fields m col T FB ltac:(intros x Hx; pose proof (sum_in (fun e => W (snd e)) m x Hx); pose proof (sum_in (fun e => length (fst e)) m x Hx); unfold T; lens; lia) (nonprim_id f id ++ s "(" ++ nl)) as F.
    apply (close_ok _ _ T (col + length (nonprim_id f id) + 5)); unfold T in *; lens'; lia.
  - pose proof (concise_items l col T FB ltac:(intros x Hx; pose proof (sum_in W l x Hx); unfold T; lia) (nonprim_id f id ++ s "[" ++ nl)) as F. apply (close_ok _ _ T (col + length (nonprim_id f id) + 5)); unfold T in *; lens'; lia.
  - rewrite entry_sum. pose proof (concise_entries m col T (entry_facts m FB C) ltac:(intros x Hx; pose proof (entries_in m x Hx); unfold T; lia) (nonprim_id f id ++ s "{" ++ nl)) as F. apply (close_ok _ _ T (col + length (nonprim_id f id) + 5)); unfold T in *; lens'; lia.
  - pose proof (concise_items l col T FB ltac:(intros x Hx; pose proof (sum_in W l x Hx); unfold T; lia) (tuple_id f id ++ s "(" ++ nl)) as F. apply (close_ok _ _ T (col + length (tuple_id f id) + 5)); unfold T in *; lens'; lia.
  - rewrite !map_map in *. cbn [fst snd] in *. rewrite Forall_map in FB, FC, C.
    set (a0 := match f_id f && top, id with true, Some i => sp col ++ s ":" ++ i ++ nl | _, _ => [] end).
    assert (A0 : length a0 <= col + match id with Some i => length i | None => 0 end + 2) by (unfold a0; destruct (f_id f && top), id; lens'; cbn [length]; lia).
    apply (close_ok _ _ T (length a0 + 2)); [unfold T; lens; lia|]. rewrite <- sum_const.
    match goal with |- length (fold_left ?st m a0) + 2 <= _ => pose proof (fold_len st (fun x => 3 * N (snd x) * T) m) as F end.
    match type of F with ?P -> _ => assert (H : P) end; [clear F|specialize (F H a0); unfold str, char in *; lia].
    intros [name x] Hx acc. rewrite Forall_forall in FB, FC, C. specialize (FB _ Hx). specialize (FC _ Hx). specialize (C _ Hx). cbn [fst snd] in *.
    assert (WX : col + 16 + length name + W x <= T) by (pose proof (sum_in (fun e => W (snd e)) m _ Hx); pose proof (sum_in (fun e => length (fst e)) m _ Hx); cbn [fst snd] in *; unfold T; lens; lia).
    assert (PL : length (cut x (acc ++ sp col ++ name ++ s " = ") ++ text true x (col + (length name + 3)) ++ nl) <= length acc + 3 * N x * T).
    { pose proof (cut_length x (acc ++ sp col ++ name ++ s " = ")). pose proof (item_cost x T (col + length name + 4) FB ltac:(lens; lia) true (col + (length name + 3)) ltac:(lens; lia)). lens'. lia. }
    destruct x as [vf vid vv]. destruct (f_line vf) eqn:EV; [destruct vv; exact PL|destruct vv; exact PL|].
    destruct vv as [|b|n|t|b|l'|m'|l'|m']; try exact PL; clear PL; cbn [d_val d_children] in FC.
    + set (x := DK vf vid (VCntr m')) in *. set (ti := match f_id vf, vid with true, Some i => s ":" ++ i | _, _ => [] end).
      assert (TL : length ti <= W x).
      { unfold x, ti. rewrite W_unfold. unfold own_chars. cbn [undeco kid]. destruct (f_id vf), vid; lens'; cbn [length]; lia. }
      pose proof (item_cost x T (col + length name + W x + 6) FB ltac:(lens; lia) false (col + 4) ltac:(lens; lia)). lens'. lia.
    + pose proof (section_items name l' col T FC) as SI. rewrite N_unfold in *. rewrite W_unfold in WX. cbn [d_children] in *.
      specialize (SI ltac:(intros y Hy; pose proof (sum_in W l' y Hy); lens; lia) (acc ++ nl)).
      match goal with |- length (pop ?t) <= _ => pose proof (pop_le t) end. lens'. lia.
    + pose proof (d_all_children lay_node vf vid (VMap m')) as DC. apply DC in C as [_ C]. cbn [d_children] in C. pose proof (section_entries name m' col T (entry_facts m' FC C)) as SI. rewrite N_unfold in *. rewrite W_unfold in WX. cbn [d_children] in *. rewrite entry_sum in *.
      specialize (SI ltac:(intros y Hy; pose proof (sum_in (fun e => W (fst e) + W (snd e)) m' y Hy); cbn beta in *; lens; lia) (acc ++ nl)). lens'. lia.
  - pose proof (concise_items l col T FB ltac:(intros x Hx; pose proof (sum_in W l x Hx); unfold T; lia) (nonprim_id f id ++ s "[" ++ nl)) as F. apply (close_ok _ _ T (col + length (nonprim_id f id) + 5)); unfold T in *; lens'; lia.
  - rewrite entry_sum. pose proof (concise_entries m col T (entry_facts m FB C) ltac:(intros x Hx; pose proof (entries_in m x Hx); unfold T; lia) (nonprim_id f id ++ s "{" ++ nl)) as F. apply (close_ok _ _ T (col + length (nonprim_id f id) + 5)); unfold T in *; lens'; lia.
Qed.
