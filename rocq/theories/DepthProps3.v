(** Deep values need deep recursion. *)
From Verif Require Import Base BaseProps F64 Number BTree Value ValueSpec Nom Parse ParseErr ParseSpec ParseProps ParseDepth DepthSpec DepthProps DepthProps2 CostProps.
Open Scope nat_scope.

(** ** what a parser which accepts returns *)
Definition rets {A} (Q : A -> Prop) (p : parser A) : Prop := forall i r a, p i = POk r a -> Q a.
Lemma rets_bind {A B} (Q : A -> Prop) (R : B -> Prop) (x : pres A) (f : str -> A -> pres B) r b :
  (forall j a, x = POk j a -> Q a) -> (forall j a, Q a -> f j a = POk r b -> R b) -> pbind x f = POk r b -> R b.
Proof. intros H K E. destruct x as [j a|e|e| |]; cbn [pbind] in E; try discriminate. eapply K; [|exact E]. eapply H. reflexivity. Qed.
Lemma rets_any {A} (p : parser A) : rets any p. Proof. now intros i r a _. Qed.
Lemma rets_context {A} (Q : A -> Prop) t p : rets Q p -> rets Q (context t p).
Proof. intros H i r a E. unfold context in E. destruct (p i) eqn:P; try discriminate. injection E as -> ->. eapply H, P. Qed.
Lemma rets_cut {A} (Q : A -> Prop) p : rets Q p -> rets Q (cut p).
Proof. intros H i r a E. unfold cut in E. destruct (p i) eqn:P; try discriminate. injection E as -> ->. eapply H, P. Qed.
Lemma rets_uncut {A} (Q : A -> Prop) p : rets Q p -> rets Q (uncut p).
Proof. intros H i r a E. unfold uncut in E. destruct (p i) eqn:P; try discriminate. injection E as -> ->. eapply H, P. Qed.
Lemma rets_opt {A} (Q : A -> Prop) p : rets Q p -> rets (fun o => match o with Some a => Q a | None => True end) (opt p).
Proof. intros H i r a E. unfold opt in E. destruct (p i) eqn:P; try discriminate; injection E as _ <-; [eapply H, P|exact I]. Qed.
Lemma rets_alt2 {A} (Q : A -> Prop) p q : rets Q p -> rets Q q -> rets Q (alt2 p q).
Proof. intros H K i r a E. unfold alt2 in E. destruct (p i) eqn:P; try discriminate; [injection E as -> ->; eapply H, P|]. destruct (q i) eqn:P'; try discriminate. injection E as -> ->. eapply K, P'. Qed.
Lemma rets_preceded {A B} (Q : B -> Prop) (h : parser A) p : rets Q p -> rets Q (preceded h p).
Proof. intros H i r a E. unfold preceded in E. eapply (rets_bind any) in E; [exact E|easy|]. intros j x _. apply H. Qed.
Lemma rets_terminated {A B} (Q : A -> Prop) p (h : parser B) : rets Q p -> rets Q (terminated p h).
Proof.
  intros H i r a E. unfold terminated in E. eapply (rets_bind Q) in E; [exact E|intros j x; apply H|]. intros j x X E'.
  eapply (rets_bind any) in E'; [exact E'|easy|]. cbn. intros l y _ Z. injection Z as _ <-. exact X.
Qed.
Lemma rets_ignore_ws {A} (Q : A -> Prop) p : rets Q p -> rets Q (ignore_ws p).
Proof. apply rets_preceded. Qed.
Lemma rets_pair {A B C} (P : A -> Prop) (R : C -> Prop) p (h : parser B) q : rets P p -> rets R q -> rets (fun e => P (fst e) /\ R (snd e)) (separated_pair p h q).
Proof.
  intros H K i r a. unfold separated_pair. apply (rets_bind P (fun e => P (fst e) /\ R (snd e))); [apply H|]. intros j x X. apply (rets_bind any (fun e => P (fst e) /\ R (snd e))); [easy|].
  intros j' y _. apply (rets_bind R (fun e => P (fst e) /\ R (snd e))); [apply K|]. intros l z Z E3. injection E3 as _ <-. now split.
Qed.
Lemma rets_pmap {A B} (Q : B -> Prop) p (f : A -> B) : (forall a, Q (f a)) -> rets Q (pmap p f).
Proof. intros H i r b. unfold pmap. apply (rets_bind any); [easy|]. intros j a _ E. injection E as _ <-. apply H. Qed.
Lemma rets_alt5 {A} (Q : A -> Prop) p1 p2 p3 p4 p5 : rets Q p1 -> rets Q p2 -> rets Q p3 -> rets Q p4 -> rets Q p5 -> rets Q (alt5 p1 p2 p3 p4 p5).
Proof.
  intros H1 H2 H3 H4 H5 i r a E. unfold alt5 in E. destruct (p1 i) eqn:P1; try discriminate; [injection E as -> ->; eapply H1, P1|].
  destruct (p2 i) eqn:P2; try discriminate; [injection E as -> ->; eapply H2, P2|]. destruct (p3 i) eqn:P3; try discriminate; [injection E as -> ->; eapply H3, P3|].
  destruct (p4 i) eqn:P4; try discriminate; [injection E as -> ->; eapply H4, P4|]. destruct (p5 i) eqn:P5; try discriminate. injection E as -> ->; eapply H5, P5.
Qed.
Lemma rets_sep {A B} (Q : A -> Prop) (h : parser B) p : rets Q p -> rets (Forall Q) (separated_list0 h p).
Proof.
  intros H. assert (G : forall fuel acc i r l, Forall Q acc -> sep_loop fuel h p acc i = POk r l -> Forall Q l).
  { induction fuel as [|fuel IH]; intros acc i r l F E; cbn [sep_loop] in E; [discriminate|].
    destruct (h i) as [j b|e|e| |]; try discriminate; [|now injection E as _ <-]. destruct (Nat.eqb _ _); [discriminate|].
    destruct (p j) as [j' a|e|e| |] eqn:P; try discriminate; [|now injection E as _ <-]. eapply IH; [|exact E]. apply Forall_app. split; [exact F|]. repeat constructor. eapply H, P. }
  intros i r l E. unfold separated_list0 in E. destruct (p i) as [j a|e|e| |] eqn:P; try discriminate; [|injection E as _ <-; constructor].
  eapply G; [|exact E]. repeat constructor. eapply H, P.
Qed.
Lemma rets_many0 {A} (Q : A -> Prop) p : rets Q p -> rets (Forall Q) (many0 p).
Proof.
  intros H. assert (G : forall fuel acc i r l, Forall Q acc -> many0_loop fuel p acc i = POk r l -> Forall Q l).
  { induction fuel as [|fuel IH]; intros acc i r l F E; cbn [many0_loop] in E; [discriminate|].
    destruct (p i) as [j' a|e|e| |] eqn:P; try discriminate; [|now injection E as _ <-]. destruct (Nat.eqb _ _); [discriminate|]. eapply IH; [|exact E].
    apply Forall_app. split; [exact F|]. repeat constructor. eapply H, P. }
  intros i r l E. eapply G; [|exact E]. constructor.
Qed.

(** ** heights *)
Definition low (n : nat) (k : kserd) : Prop := height k <= n.
Definition lowe {K} (n : nat) (e : K * kserd) : Prop := low n (snd e).
Definition low2 (n : nat) (e : kserd * kserd) : Prop := low n (fst e) /\ low n (snd e).
Definition lowv (n : nat) (v : value kserd) : Prop := low n (knew v).
Lemma height_tuple n l id : Forall (low n) l -> low (S n) (Kserd id (VTuple l)).
Proof. unfold low. cbn [height]. induction 1; cbn [fold_right] in *; [lia|]. lia. Qed.
Lemma height_seq n l id : Forall (low n) l -> low (S n) (Kserd id (VSeq l)).
Proof. exact (height_tuple n l id). Qed.
Lemma height_cntr n l id : Forall (lowe n) l -> low (S n) (Kserd id (VCntr l)).
Proof. unfold lowe, low. cbn [height]. induction 1; cbn [fold_right] in *; [lia|]. lia. Qed.
Lemma height_map n l id : Forall (low2 n) l -> low (S n) (Kserd id (VMap l)).
Proof. unfold low2, low. cbn [height]. induction 1 as [|e l [H1 H2] F IH]; cbn [fold_right] in *; [lia|]. lia. Qed.
Lemma height_id id id' v : height (Kserd id v) = height (Kserd id' v). Proof. reflexivity. Qed.
Lemma low_mono n m k : n <= m -> low n k -> low m k. Proof. unfold low. lia. Qed.
Lemma ctor_low n id v i r k : kserd_ctor id v i = POk r k -> lowv n v -> low n k.
Proof.
  unfold kserd_ctor, with_id. destruct id as [id|]; [|intros E; injection E as _ <-; easy].
  destruct (existsb _ id); intros E; [discriminate|]. injection E as _ <-. easy.
Qed.
Lemma from_list_all {K V} cmp eqb (P : K * V -> Prop) l : Forall P l -> Forall P (bt_from_list cmp eqb l).
Proof. rewrite !Forall_forall. intros H e I. apply H. eapply from_list_in, I. Qed.

Lemma low_prim : rets (low 1) prim.
Proof.
  intros i r k. unfold prim. apply (rets_bind (fun e => any (fst e) /\ lowv 1 (snd e))).
  - apply rets_context, rets_pair; [apply rets_any|]. unfold prim_value. apply rets_context, rets_alt5; apply rets_pmap; intros a; apply Nat.le_refl.
  - intros j [id v] [_ V] E. eapply ctor_low; [exact E|exact V].
Qed.
Section Delim.
  Variable n : nat.
  Variables inl con : parser kserd.
  Hypothesis Hi : rets (low n) inl.
  Hypothesis Hc : rets (low n) con.
  Lemma low_inline_list : rets (Forall (low n)) (inline_list_kserds inl).
  Proof. unfold inline_list_kserds. now apply rets_context, rets_sep, rets_ignore_ws. Qed.
  Lemma low_concise_list : rets (Forall (low n)) (concise_list_kserds con).
  Proof. unfold concise_list_kserds. now apply rets_preceded, rets_cut, rets_terminated, rets_sep. Qed.
  Lemma low_kvp_field b : rets (lowe n) (kvp_field inl con b).
  Proof.
    intros i r e E. unfold kvp_field in E. eapply rets_context in E; [exact E|].
    intros i' r' e' E'. eapply (rets_pair any (low n)) in E'; [now destruct E'|apply rets_any|]. apply rets_ignore_ws, rets_cut. now destruct b.
  Qed.
  Lemma low_kvp_kserd b : rets (low2 n) (kvp_kserd inl con b).
  Proof. unfold kvp_kserd. apply rets_context, rets_pair; [now apply rets_alt2|]. apply rets_ignore_ws. now destruct b. Qed.
  Lemma low_bracketed {A} (P : A -> Prop) (mk : A -> value kserd) o (body : str -> parser A) i r k :
    (forall t, rets P (body t)) -> (forall a, P a -> lowv (S n) (mk a)) ->
    (let? (i, id) := opt (ident false) i in
     let? (i, _) := ignore_ws (pchar o) i in
     let? (i, l) := body i i in
     kserd_ctor id (mk l) i) = POk r k -> low (S n) k.
  Proof.
    intros H M E. eapply (rets_bind any) in E; [exact E|easy|]. intros i1 id _ E1. eapply (rets_bind any) in E1; [exact E1|easy|]. intros i2 c _ E2.
    eapply (rets_bind P) in E2; [exact E2|apply H|]. intros i3 l L E3. eapply ctor_low; [exact E3|]. now apply M.
  Qed.
  Lemma low_body b : rets (low (S n)) (delimited_body inl con b).
  Proof.
    intros i r k E. unfold delimited_body in E. eapply (rets_bind any) in E; [exact E|easy|]. clear i E. intros i p _ E. destruct p.
    - unfold tuple in E. cbv zeta in E. eapply (low_bracketed (Forall (low n)) VTuple _ (fun i => context _ (cut (terminated _ _)))) in E; [exact E| |intros; now apply height_tuple].
      intros t. apply rets_context, rets_cut, rets_terminated. destruct (recognise_concise t && negb b); [apply low_concise_list|apply low_inline_list].
    - unfold cntr_delimited in E. cbv zeta in E. eapply (low_bracketed (Forall (lowe n)) (fun l => VCntr (fields_of l)) _ (fun i => context _ (terminated _ _))) in E; [exact E| |].
      + intros t. apply rets_context, rets_terminated. destruct (recognise_concise t && negb b).
        * unfold concise_cntr_kserds. apply rets_context, rets_preceded, rets_cut, rets_terminated, rets_sep, low_kvp_field.
        * unfold inline_cntr_kserds. apply rets_context, rets_sep, rets_ignore_ws, low_kvp_field.
      + intros l L. apply height_cntr. now apply from_list_all.
    - unfold seq_delimited in E. cbv zeta in E. eapply (low_bracketed (Forall (low n)) VSeq _ (fun i => context _ (cut (terminated _ _)))) in E; [exact E| |intros; now apply height_seq].
      intros t. apply rets_context, rets_cut, rets_terminated. destruct (recognise_concise t && negb b); [apply low_concise_list|apply low_inline_list].
    - unfold map_delimited in E. cbv zeta in E. eapply (low_bracketed (Forall (low2 n)) (fun l => VMap (map_of l)) _ (fun i => context _ (terminated _ _))) in E; [exact E| |].
      + intros t. apply rets_context, rets_terminated. destruct (recognise_concise t && negb b).
        * unfold concise_map_kserds. apply rets_context, rets_preceded, rets_terminated, rets_sep, low_kvp_kserd.
        * unfold inline_map_kserds. apply rets_context, rets_sep, rets_ignore_ws, low_kvp_kserd.
      + intros l L. apply height_map. now apply from_list_all.
    - eapply low_mono; [|exact (low_prim _ _ _ E)]. lia.
  Qed.
End Delim.
Lemma low_delimited n : forall b, rets (low n) (kserd_delimited n b).
Proof. induction n as [|n IH]; intros b i r k E; [discriminate|]. cbn [kserd_delimited] in E. eapply low_body in E; [exact E|apply IH|apply IH]. Qed.

(** ** verbose containers *)
(** the parts of a verbose container *)
Definition lowc (n : nat) (c : container_field) : Prop :=
  match c with
  | CfId _ => True
  | CfDirect _ v | CfNested _ v | CfSeq _ _ v => low n v
  | CfMap _ _ k v => low n k /\ low n v
  end.
Lemma insert_all {K V} cmp (Q : V -> Prop) (k : K) v m : Q v -> Forall (fun e => Q (snd e)) m -> Forall (fun e => Q (snd e)) (bt_insert cmp k v m).
Proof. intros H. induction 1 as [|[k' v'] m H1 F IH]; cbn [bt_insert]; [now repeat constructor|]. destruct (cmp k k'); repeat constructor; auto. Qed.
Lemma insert_all2 {K V} cmp (P : K -> Prop) (Q : V -> Prop) k v (m : list (K * V)) : P k -> Q v -> Forall (fun e => P (fst e) /\ Q (snd e)) m -> Forall (fun e => P (fst e) /\ Q (snd e)) (bt_insert cmp k v m).
Proof. apply insert_forall. Qed.
Lemma update_all {V} (Q : V -> Prop) name new upd (m : list (str * V)) : Q new -> (forall x, Q x -> Q (upd x)) -> Forall (fun e => Q (snd e)) m -> Forall (fun e => Q (snd e)) (bt_update name new upd m).
Proof. intros H K. induction 1 as [|[k v] m H1 F IH]; cbn [bt_update]; [repeat constructor; cbn [snd]; auto|]. destruct (str_cmp name k); repeat constructor; cbn [snd]; auto. Qed.
Definition lowst (n : nat) (st : vstate) : Prop :=
  Forall (fun e => Forall (low n) (snd (snd e))) (vs_seqs st) /\ Forall (fun e => Forall (low2 n) (snd (snd e))) (vs_maps st) /\ Forall (lowe n) (vs_fields st).
Lemma lowst_step n st c : lowst n st -> lowc n c -> lowst n (vs_step st c).
Proof.
  intros (H1 & H2 & H3) H. destruct c as [id|nm v|nm v|id nm v|id nm k v]; cbn [vs_step lowc] in *; (split; [|split]); cbn [vs_seqs vs_maps vs_fields]; try assumption.
  - now apply (insert_all _ (low n)).
  - now apply (insert_all _ (low n)).
  - apply (update_all (fun x => Forall (low n) (snd x))); [constructor| |assumption]. intros x X. cbn [snd]. apply Forall_app. split; [exact X|now repeat constructor].
  - apply (update_all (fun x => Forall (low2 n) (snd x))); [constructor| |assumption]. intros x X. cbn [snd]. destruct H. now apply (insert_all2 _ (low n) (low n)).
Qed.
Lemma low_assemble n l : Forall (lowc n) l -> low (S (S n)) (assemble l).
Proof.
  intros F. unfold assemble. assert (G : lowst n (fold_left vs_step l (mkVs [] [] [] None))).
  { assert (G0 : lowst n (mkVs [] [] [] None)) by (repeat split; constructor). revert G0. generalize (mkVs [] [] [] None).
    induction F as [|f l Hf F IH]; intros st Hst; [exact Hst|]. cbn [fold_left]. apply IH. now apply lowst_step. }
  destruct (fold_left vs_step l (mkVs [] [] [] None)) as [sq mp fl vid]. destruct G as (H1 & H2 & H3). cbn [vs_seqs vs_maps vs_fields vs_id] in *. apply height_cntr.
  assert (X1 : forall m, Forall (lowe (S n)) m -> Forall (lowe (S n)) (fold_left (fun m e => bt_insert str_cmp (fst e) (Kserd (fst (snd e)) (VSeq (snd (snd e)))) m) sq m)).
  { clear H3. induction H1 as [|e sq E F1 IH]; intros m Hm; [exact Hm|]. cbn [fold_left]. apply IH. apply (insert_all _ (low (S n))); [now apply height_seq|exact Hm]. }
  assert (X2 : forall m, Forall (lowe (S n)) m -> Forall (lowe (S n)) (fold_left (fun m e => bt_insert str_cmp (fst e) (Kserd (fst (snd e)) (VMap (snd (snd e)))) m) mp m)).
  { clear H3 X1. induction H2 as [|e mp E F1 IH]; intros m Hm; [exact Hm|]. cbn [fold_left]. apply IH. apply (insert_all _ (low (S n))); [now apply height_map|exact Hm]. }
  apply X2, X1. eapply Forall_impl; [|exact H3]. intros e. apply low_mono. lia.
Qed.
Lemma low_field n inl con nested k : rets (low n) inl -> rets (low n) con -> rets (low n) nested -> rets (lowc n) (verbose_cntr_field inl con nested k).
Proof.
  intros Hi Hc Hn i r c. unfold verbose_cntr_field. do 3 (apply (rets_bind any); [easy|]; clear i; intros i ? _).
  destruct (match i with [] => true | _ => false end || is_ok (ignore_ws line_ending i)); [discriminate|].
  destruct (starts_with (s ":") i). { apply (rets_bind any); [easy|]. intros j id _ E. now injection E as _ <-. }
  destruct (starts_with (s "[[") i).
  { apply (rets_bind any); [easy|]. clear i. intros i [fname id] _. apply (rets_bind any); [easy|]. clear i. intros i ? _.
    apply (rets_bind (fun o => match o with Some a => low n a | None => True end)); [now apply rets_opt, rets_terminated, rets_ignore_ws, rets_uncut|]. clear i. intros i [key|] Hk.
    - apply (rets_bind (low n)); [apply rets_context, rets_alt2; [now apply rets_ignore_ws|now apply rets_preceded]|]. intros j v V E. injection E as _ <-. now split.
    - apply (rets_bind (low n)); [now apply rets_context|]. intros j v V E. now injection E as _ <-. }
  destruct (starts_with (s "[") i).
  { apply (rets_bind any); [easy|]. clear i. intros i [fname id] _. apply (rets_bind any); [easy|]. clear i. intros i ? _.
    apply (rets_bind (low n)); [now apply rets_context|]. intros j v V E. injection E as _ <-. destruct v as [id' v]. exact V. }
  apply (rets_bind (lowe n)); [now apply rets_cut, low_kvp_field|]. intros j [fname v] V E. now injection E as _ <-.
Qed.
Lemma low_nested n : forall k, rets (low (2 * n)) (nested_within n k).
Proof.
  induction n as [|n IH]; intros k i r v; [discriminate|]. cbn [nested_within].
  assert (LD : forall b, rets (low (2 * n)) (kserd_delimited n b)) by (intros b j r' x E; eapply low_mono; [|exact (low_delimited n b j r' x E)]; lia).
  apply (rets_bind any); [easy|]. clear i. intros i verbose _. destruct verbose.
  - unfold cntr_verbose. apply (rets_bind (Forall (lowc (2 * n)))); [apply rets_many0, low_field; [apply LD|apply LD|apply IH]|]. intros j l F E. injection E as _ <-.
    eapply low_mono; [|apply low_assemble; exact F]. lia.
  - intros E. eapply low_mono; [|eapply (rets_ignore_ws _ _ (LD false)), E]. lia.
Qed.
Lemma within_height n t k : parse_within n t = ParseOk k -> height k <= 2 * n.
Proof.
  unfold parse_within, root_within. destruct t as [|c t]; [discriminate|]. unfold all_consuming.
  destruct (terminated _ _ _) as [r v|e|e| |] eqn:E; try discriminate. destruct r; [|discriminate]. intros X. injection X as <-.
  now apply (rets_terminated _ _ multiline_whitespace (low_nested n 0)) in E.
Qed.
(** without a limit *)
Lemma parsed_height t k : parse t = ParseOk k -> height k <= 2 * (opens t + 2).
Proof. intros E. apply within_height with (t := t). rewrite within_enough; [exact E|lia]. Qed.

(** ** the nesting of a text is only limited by its length *)
(** [n + 1] brackets, closed *)
Fixpoint brk (n : nat) (z : str) : str := match n with O => ch "[" :: ch "]" :: z | S n => ch "[" :: brk n (ch "]" :: z) end.
(** a sequence which contains a sequence which contains ... *)
Fixpoint nest (n : nat) : kserd := knew (VSeq match n with O => [] | S n => [nest n] end).
Lemma brk_text n : forall z, brk n z = repeat (ch "[") (S n) ++ repeat (ch "]") (S n) ++ z.
Proof.
  induction n as [|n IH]; intros z; [reflexivity|]. cbn [brk]. rewrite IH. cbn [repeat app]. do 2 f_equal. 
  assert (G : forall m, repeat (ch "]") m ++ ch "]" :: z = ch "]" :: repeat (ch "]") m ++ z).
  { induction m as [|m IHm]; [reflexivity|]. cbn [repeat app]. now rewrite IHm. }
  f_equal. now rewrite <- G.
Qed.
Lemma brk_open n z : exists w, brk n z = ch "[" :: w /\ (w = ch "]" :: z \/ exists x, w = ch "[" :: x).
Proof. destruct n as [|[|n]]; cbn [brk]; eexists; (split; [reflexivity|]); eauto. Qed.
Lemma dead_inl fuel b z : exists e, kserd_delimited (S fuel) b (ch "]" :: z) = PErr e.
Proof. now destruct (delimited_dead fuel b (ch "]") z eq_refl). Qed.
Lemma seq_step fuel b i : recognise_concise i = false ->
  kserd_delimited (S fuel) b (ch "[" :: i) =
  let? (i, l) := context (s "inline sequence") (cut (terminated (inline_list_kserds (kserd_delimited fuel true)) (ignore_ws (pchar (ch "]"))))) i in
  kserd_ctor None (VSeq l) i.
Proof.
  intros C. cbn [kserd_delimited]. unfold delimited_body. change (pattern_match_delimited (ch "[" :: i)) with (POk (ch "[" :: i) NpSeq). cbn [pbind].
  unfold seq_delimited. change (opt (ident false) (ch "[" :: i)) with (POk (ch "[" :: i) (@None str)). cbn [pbind].
  change (ignore_ws (pchar (ch "[")) (ch "[" :: i)) with (POk i (ch "[")). cbn [pbind]. now rewrite C.
Qed.
Lemma brk_read n : forall fuel b z, S n < fuel -> kserd_delimited fuel b (brk n z) = POk z (nest n).
Proof.
  induction n as [|n IH]; intros fuel b z L; (destruct fuel as [|fuel]; [lia|]).
  - cbn [brk]. rewrite seq_step by reflexivity. destruct fuel as [|fuel]; [lia|]. destruct (dead_inl fuel true z) as [e E].
    unfold inline_list_kserds, context, cut, terminated, separated_list0.
    change (ignore_ws (kserd_delimited (S fuel) true) (ch "]" :: z)) with (kserd_delimited (S fuel) true (ch "]" :: z)). rewrite E. reflexivity.
  - cbn [brk]. rewrite seq_step by (destruct n; reflexivity).
    unfold inline_list_kserds, context, cut, terminated, separated_list0.
    assert (W : ignore_ws (kserd_delimited fuel true) (brk n (ch "]" :: z)) = kserd_delimited fuel true (brk n (ch "]" :: z))) by (destruct n; reflexivity).
    rewrite W, IH by lia. reflexivity.
Qed.
Lemma brk_fuel n : forall fuel b z, fuel <= S n -> kserd_delimited fuel b (brk n z) = PFuel.
Proof.
  induction n as [|n IH]; intros fuel b z L; (destruct fuel as [|fuel]; [reflexivity|]).
  - cbn [brk]. rewrite seq_step by reflexivity. destruct fuel as [|fuel]; [|lia]. reflexivity.
  - cbn [brk]. rewrite seq_step by (destruct n; reflexivity).
    unfold inline_list_kserds, context, cut, terminated, separated_list0.
    assert (W : ignore_ws (kserd_delimited fuel true) (brk n (ch "]" :: z)) = kserd_delimited fuel true (brk n (ch "]" :: z))) by (destruct n; reflexivity).
    rewrite W, IH by lia. reflexivity.
Qed.
Lemma tuple_step fuel b i : recognise_concise i = false -> pattern_match_delimited (ch "(" :: i) = POk (ch "(" :: i) NpTuple ->
  kserd_delimited (S fuel) b (ch "(" :: i) =
  let? (i, l) := context (s "inline tuple") (cut (terminated (inline_list_kserds (kserd_delimited fuel true)) (ignore_ws (pchar (ch ")"))))) i in
  kserd_ctor None (VTuple l) i.
Proof.
  intros C P. cbn [kserd_delimited]. unfold delimited_body. rewrite P. cbn [pbind].
  unfold tuple. change (opt (ident false) (ch "(" :: i)) with (POk (ch "(" :: i) (@None str)). cbn [pbind].
  change (ignore_ws (pchar (ch "(")) (ch "(" :: i)) with (POk i (ch "(")). cbn [pbind]. now rewrite C.
Qed.
Lemma brk_assign n : forall z, recognise_field_assign (brk n z) = recognise_field_assign (ch "]" :: z).
Proof.
  assert (O : forall z, recognise_field_assign (ch "[" :: z) = recognise_field_assign z).
  { intros z. unfold recognise_field_assign, terminated, ptake_while. cbn [take_while].
    change (is_alnum (ch "[") || negb (mem (ch "[") assign_stop)) with true. cbn iota. destruct (take_while _ z) as [a r]. cbn [pbind]. now destruct (pchar (ch "=") r). }
  assert (C : forall z, recognise_field_assign (ch "]" :: z) = recognise_field_assign z).
  { intros z. unfold recognise_field_assign, terminated, ptake_while. cbn [take_while].
    change (is_alnum (ch "]") || negb (mem (ch "]") assign_stop)) with true. cbn iota. destruct (take_while _ z) as [a r]. cbn [pbind]. now destruct (pchar (ch "=") r). }
  induction n as [|n IH]; intros z; cbn [brk]; rewrite O; [reflexivity|]. now rewrite IH, C.
Qed.
Lemma brk_pattern n : pattern_match_delimited (ch "(" :: brk n (s ")")) = POk (ch "(" :: brk n (s ")")) NpTuple.
Proof.
  assert (E : forall w, pattern_match_delimited (ch "(" :: ch "[" :: w) = if recognise_field_assign (ch "[" :: w) then POk (ch "(" :: ch "[" :: w) NpCntr else POk (ch "(" :: ch "[" :: w) NpTuple).
  { intros w. unfold pattern_match_delimited. set (X := recognise_field_assign (ch "[" :: w)).
    change (opt (ident true) (ch "(" :: ch "[" :: w)) with (POk (ch "(" :: ch "[" :: w) (@None str)).
    change (opt (ident false) (ch "(" :: ch "[" :: w)) with (POk (ch "(" :: ch "[" :: w) (@None str)).
    change (starts_with (s "true") (ch "(" :: ch "[" :: w)) with false. change (starts_with (s "false") (ch "(" :: ch "[" :: w)) with false. cbn [orb pbind].
    change (multiline_whitespace (ch "(" :: ch "[" :: w)) with (POk (ch "(" :: ch "[" :: w) (@nil char)). cbn [pbind hd tl].
    change (is_ok (unit_value (ch "(" :: ch "[" :: w))) with false.
    change (multiline_whitespace (ch "[" :: w)) with (POk (ch "[" :: w) (@nil char)). cbn [pbind]. fold X. now destruct X. }
  destruct n as [|n]; [reflexivity|]. change (brk (S n) (s ")")) with (ch "[" :: brk n (ch "]" :: s ")")). rewrite E.
  change (ch "[" :: brk n (ch "]" :: s ")")) with (brk (S n) (s ")")). now rewrite brk_assign.
Qed.
Lemma nest_within n limit : root_within limit (ch "(" :: brk n (s ")")) = if Nat.ltb limit (S (S (S (S n)))) then PFuel else POk [] (knew (VTuple [nest n])).
Proof.
  unfold root_within. destruct limit as [|limit]; [reflexivity|]. unfold all_consuming, terminated. cbn [nested_within].
  change (pattern_match_verbose (ch "(" :: brk n (s ")"))) with (POk (ch "(" :: brk n (s ")")) false). cbn [pbind].
  assert (W : ignore_ws (kserd_concise limit) (ch "(" :: brk n (s ")")) = kserd_delimited limit false (ch "(" :: brk n (s ")"))) by reflexivity. rewrite W. clear W.
  destruct limit as [|limit]; [reflexivity|]. rewrite tuple_step by (apply brk_pattern || (destruct n; reflexivity)).
  unfold inline_list_kserds, context, cut, terminated, separated_list0.
  assert (W : ignore_ws (kserd_delimited limit true) (brk n (s ")")) = kserd_delimited limit true (brk n (s ")"))) by (destruct n; reflexivity). rewrite W. clear W.
  destruct (Nat.ltb_spec (S (S limit)) (S (S (S (S n))))) as [L|L].
  - rewrite brk_fuel by lia. reflexivity.
  - rewrite brk_read by lia. reflexivity.
Qed.
(** the text of [n] brackets *)
Definition deep_text (n : nat) : str := s "(" ++ repeat (ch "[") n ++ repeat (ch "]") n ++ s ")".
Lemma deep_brk n : deep_text (S n) = ch "(" :: brk n (s ")").
Proof. unfold deep_text. now rewrite brk_text. Qed.
Lemma filter_none {A} (f : A -> bool) l : forallb (fun x => negb (f x)) l = true -> filter f l = [].
Proof. induction l as [|x l IH]; [reflexivity|]. cbn [forallb filter]. intros H. apply andb_true_iff in H as [H1 H2]. destruct (f x); [discriminate|]. auto. Qed.
Lemma deep_opens n : opens (deep_text n) = S n.
Proof.
  unfold deep_text. rewrite !opens_app. change (opens (s "(")) with 1. change (opens (s ")")) with 0.
  assert (A : opens (repeat (ch "[") n) = n). { induction n as [|n IH]; [reflexivity|]. cbn [repeat]. change (S (opens (repeat (ch "[") n)) = S n). now rewrite IH. }
  assert (B : opens (repeat (ch "]") n) = 0). { clear A. induction n as [|n IH]; [reflexivity|]. cbn [repeat]. exact IH. }
  lia.
Qed.
Lemma deep_length n : length (deep_text n) = 2 * n + 2.
Proof. unfold deep_text. rewrite !app_length, !repeat_length. change (length (s "(")) with 1. change (length (s ")")) with 1. lia. Qed.
(** two more than the opening delimiters are needed *)
Lemma deep_needed n limit : parse_within limit (deep_text (S n)) = if Nat.ltb limit (opens (deep_text (S n)) + 2) then ParseFuel else ParseOk (knew (VTuple [nest n])).
Proof.
  unfold parse_within. rewrite deep_opens, deep_brk, nest_within. replace (S (S n) + 2) with (S (S (S (S n)))) by lia. now destruct (Nat.ltb _ _).
Qed.
Lemma deep_parse n : parse (deep_text (S n)) = ParseOk (knew (VTuple [nest n])).
Proof.
  rewrite <- (within_enough (opens (deep_text (S n)) + 2)) by lia. rewrite deep_needed. now rewrite Nat.ltb_irrefl.
Qed.
Lemma nest_height n : height (nest n) = S n.
Proof. induction n as [|n IH]; [reflexivity|]. cbn [nest knew height fold_right] in *. rewrite IH. lia. Qed.
Lemma needed_tight n : 0 < n -> exists k, height k = S n /\
  forall limit, parse_within limit (s "(" ++ repeat (ch "[") n ++ repeat (ch "]") n ++ s ")") =
    if Nat.ltb limit (opens (s "(" ++ repeat (ch "[") n ++ repeat (ch "]") n ++ s ")") + 2) then ParseFuel else ParseOk k.
Proof.
  intros H. destruct n as [|n]; [lia|]. exists (knew (VTuple [nest n])). split; [|exact (fun limit => deep_needed n limit)].
  cbn [knew height fold_right]. rewrite nest_height. lia.
Qed.
Lemma no_limit n : exists t k, length t = 2 * n + 4 /\ parse t = ParseOk k /\ parse_within n t = ParseFuel.
Proof.
  exists (deep_text (S n)), (knew (VTuple [nest n])). split; [rewrite deep_length; lia|]. split; [apply deep_parse|]. rewrite deep_needed, deep_opens.
  now rewrite (proj2 (Nat.ltb_lt _ _)) by lia.
Qed.
