(** Proofs about histories of a Formatter. *)
From Verif Require Import Base BaseProps F64 Number BTree Value ValueProps Nav NavSpec NavProps NavProps2 NavProps3 Fmt FmtSpec FmtText FmtProps FmtProps2 Formatter FormatterProps FormatterProps2 FormatterProps3 FormatterProps4 LayoutSpec LayoutProps LayoutProps2 LayoutProps3 LayoutProps4 LayoutProps5 HistorySpec.
From Coq Require Import Permutation.
Open Scope nat_scope.

(** ** the answer to a request *)
Definition answer (it : item) (pl : option repr) (r : repr) : option fmt_error :=
  if (fst it =? 0) && repr_eqb r Verbose && seq_or_map (snd (snd it)) then Some SeqMapAtRoot
  else if repr_lt (kind_max (snd (snd it))) r then Some (RequestTooHigh (kind_max (snd (snd it))) r)
  else match pl with
       | Some Inline => if repr_lt Inline r then Some ParentIsInline else None
       | Some Concise => if repr_lt Concise r then Some ParentIsConcise else None
       | _ => None
       end.
Lemma fmts_ext (a b : list fmt) : (forall j, nth_error a j = nth_error b j) -> a = b.
Proof.
  revert b. induction a as [|x a IH]; intros [|y b] H; [reflexivity|specialize (H 0); discriminate|specialize (H 0); discriminate|].
  pose proof (H 0) as H0. cbn in H0. injection H0 as ->. f_equal. apply IH. intros j. exact (H (S j)).
Qed.
Section Root.
Context (root : kserd).

Lemma kept_line g it j f fi : inv root g -> ok_item root it -> nth_error g (fst it) = Some fi -> nth_error g j = Some f ->
  upd (fst it) (ksize (snd (snd it))) (f_line fi) j f = f.
Proof.
  intros I O Hi Hj. unfold upd. destruct (Nat.eqb_spec j (fst it)) as [->|NE].
  - rewrite Hi in Hj. injection Hj as ->. destruct f; reflexivity.
  - destruct ((fst it <? j) && (j <? fst it + ksize (snd (snd it)))) eqn:B; [|reflexivity]. apply andb_true_iff in B as [B1 B2]. apply Nat.ltb_lt in B1, B2.
    assert (LE : repr_le (f_line f) (f_line fi)) by (eapply (descendants_le root g it I O (S j) j); [lia|split; assumption|now exists fi|now exists f]).
    unfold lower. apply repr_lt_le in LE. rewrite LE. destruct f; reflexivity.
Qed.
Lemma request_fun g it r : inv root g -> ok_item root it ->
  exists g', request_repr (full root) g (fst it) r = LRet (g', answer it (parent_line (full root) g (nd it)) r) /\
    (answer it (parent_line (full root) g (nd it)) r <> None -> g' = g) /\
    (answer it (parent_line (full root) g (nd it)) r = None -> forall j, nth_error g' j = option_map (upd (fst it) (ksize (snd (snd it))) r j) (nth_error g j)).
Proof.
  intros I O. destruct (get_fmts root g it (proj1 I) O) as [f Hf]. destruct (request_cases root g it r f (proj1 I) O Hf) as (g' & res & E & L & C). exists g'.
  assert (OK : okreq root g it r <-> answer it (parent_line (full root) g (nd it)) r = None).
  { unfold okreq, answer. destruct (repr_lt (kind_max (snd (snd it))) r) eqn:E1.
    - destruct (_ && _); (split; [|discriminate]); intros (K & _); apply repr_lt_lt in E1; unfold repr_le in K; lia.
    - apply repr_lt_le in E1. destruct ((fst it =? 0) && repr_eqb r Verbose && seq_or_map (snd (snd it))) eqn:E2.
      + split; [|discriminate]. intros (_ & _ & K). apply andb_true_iff in E2 as [E2 E3]. apply andb_true_iff in E2 as [E2 E4]. apply Nat.eqb_eq in E2. apply repr_eqb_eq in E4. rewrite K in E3 by assumption. discriminate.
      + assert (Z : fst it = 0 -> r = Verbose -> seq_or_map (snd (snd it)) = false).
        { intros Hz ->. rewrite Hz in E2. cbn in E2. exact E2. }
        destruct (parent_line (full root) g (nd it)) as [[| |]|]; split.
        * intros (_ & K & _). specialize (K Inline eq_refl). apply repr_lt_le in K. now rewrite K.
        * intros H. split; [exact E1|]. split; [|exact Z]. intros rp [= <-]. destruct (repr_lt Inline r) eqn:X; [discriminate|]. now apply repr_lt_le.
        * intros (_ & K & _). specialize (K Concise eq_refl). apply repr_lt_le in K. now rewrite K.
        * intros H. split; [exact E1|]. split; [|exact Z]. intros rp [= <-]. destruct (repr_lt Concise r) eqn:X; [discriminate|]. now apply repr_lt_le.
        * reflexivity.
        * intros _. split; [exact E1|]. split; [|exact Z]. intros rp [= <-]. unfold repr_le. destruct r; cbn; lia.
        * reflexivity.
        * intros _. split; [exact E1|]. split; [discriminate|exact Z]. }
  (* which error *)
  assert (ER : res = answer it (parent_line (full root) g (nd it)) r).
  { destruct res as [e|].
    - destruct C as (_ & NE & RF). pose proof (refused_not_ok _ _ _ _ _ RF) as NO. rewrite OK in NO.
      assert (SM : (fst it =? 0) && repr_eqb r Verbose && seq_or_map (snd (snd it)) = true -> e = SeqMapAtRoot).
      { intros X. unfold request_repr in E. rewrite (ok_get root it O), Hf in E. cbn [lunwrap lbind] in E. rewrite seq_or_map_val in E by exact O.
        replace (repr_eqb r (f_line f)) with false in E by (symmetry; now apply repr_eqb_neq). rewrite X in E. congruence. }
      assert (KM : (fst it =? 0) && repr_eqb r Verbose && seq_or_map (snd (snd it)) = false -> repr_lt (kind_max (snd (snd it))) r = true -> e = RequestTooHigh (kind_max (snd (snd it))) r).
      { intros X Y. unfold request_repr in E. rewrite (ok_get root it O), Hf in E. cbn [lunwrap lbind] in E. rewrite seq_or_map_val in E by exact O.
        replace (repr_eqb r (f_line f)) with false in E by (symmetry; now apply repr_eqb_neq). rewrite X in E. unfold line_repr_constraints in E. rewrite max_line_kind in E by exact O.
        unfold validate_request_repr in E. rewrite Y in E. cbn [lbind] in E. congruence. }
      unfold answer in *. destruct (_ && _ && _) eqn:E2; [now rewrite SM|]. destruct (repr_lt (kind_max _) r) eqn:E1; [now rewrite KM|].
      destruct e; cbn [refused] in RF.
      + destruct RF.
      + destruct RF as [R1 R2]. rewrite R1 in *. destruct (repr_lt Inline r); [reflexivity|congruence].
      + destruct RF as [R1 ->]. rewrite R1. reflexivity.
      + destruct RF as (-> & -> & RF). apply repr_lt_lt in RF. congruence.
      + destruct RF as (R1 & -> & R3). rewrite R1, R3 in E2. discriminate.
    - symmetry. apply OK. destruct C as [[-> _]|(_ & C & _)]; [|exact C].
      destruct I as (_ & KI & PI & RI). split; [exact (KI _ _ _ (ok_get root it O) (ex_intro _ f (conj Hf eq_refl)))|]. split.
      + intros rp HP. unfold parent_line, node_parent in HP. cbn [nd mk_full n_parent] in HP. destruct (i_parent (fst (snd it))) as [p|] eqn:Ep; [|discriminate]. cbn [opt_bind] in HP.
        destruct (parent_kid root it p O Ep) as (pit & Op & Epi & _). rewrite <- Epi, (ok_get root pit Op) in HP. cbn [opt_bind] in HP. change (n_idx (nd pit)) with (fst pit) in HP.
        destruct (nth_error g (fst pit)) as [fp|] eqn:Hp; [|discriminate]. injection HP as <-. rewrite Epi in Hp.
        exact (PI _ _ _ _ _ (item_lt root it O) (ok_get root it O) Ep (ex_intro _ f (conj Hf eq_refl)) (ex_intro _ fp (conj Hp eq_refl))).
      + intros Hz HV. assert (X : line_at g 0 Verbose) by (exists f; rewrite <- Hz; auto). assert (RT : snd (snd it) = root).
        { pose proof (ok_unique root it (croot root) O (root_ok root) Hz) as U. apply (f_equal n_kserd) in U. exact U. }
        rewrite RT. destruct (seq_or_map root) eqn:SR; [|reflexivity]. exfalso. exact (RI SR X). }
  rewrite <- ER. split; [exact E|]. split.
  - destruct res as [e|]; [intros _; now destruct C as (-> & _)|congruence].
  - intros ->. destruct C as [[-> ->]|(_ & _ & N)]; [|exact N]. intros j. destruct (nth_error g j) as [fj|] eqn:Hj; [|reflexivity]. cbn [option_map]. f_equal. symmetry. eapply kept_line; eauto.
Qed.

(** ** requests on unrelated nodes *)
Definition inside (it : item) (j : nat) : Prop := fst it <= j < fst it + ksize (snd (snd it)).
Lemma upd_out it r j f : ~ inside it j -> upd (fst it) (ksize (snd (snd it))) r j f = f.
Proof.
  unfold inside, upd. intros H. pose proof (ksize_pos (snd (snd it))). destruct (Nat.eqb_spec j (fst it)); [lia|].
  destruct ((fst it <? j) && (j <? fst it + ksize (snd (snd it)))) eqn:B; [|reflexivity]. apply andb_true_iff in B as [B1 B2]. apply Nat.ltb_lt in B1, B2. lia.
Qed.
Lemma parent_outside it c p : ok_item root it -> ok_item root c -> i_parent (fst (snd c)) = Some p -> ~ (fst it < fst c < fst it + ksize (snd (snd it))) -> ~ inside it p.
Proof. intros O Oc Ep H P. apply H. exact (proj2 (interval_parent root it (fst c) (nd c) p O (ok_get root c Oc) Ep) P). Qed.
Lemma parent_line_out g g' it c r : ok_item root it -> ok_item root c -> ~ (fst it < fst c < fst it + ksize (snd (snd it))) ->
  (forall j, nth_error g' j = option_map (upd (fst it) (ksize (snd (snd it))) r j) (nth_error g j)) ->
  parent_line (full root) g' (nd c) = parent_line (full root) g (nd c).
Proof.
  intros O Oc D N. unfold parent_line, node_parent. cbn [nd mk_full n_parent]. destruct (i_parent (fst (snd c))) as [p|] eqn:Ep; [|reflexivity]. cbn [opt_bind].
  destruct (parent_kid root c p Oc Ep) as (pit & Op & Epi & _). rewrite <- Epi, (ok_get root pit Op). cbn [opt_bind]. change (n_idx (nd pit)) with (fst pit). rewrite N, Epi.
  destruct (nth_error g p) as [f|]; [|reflexivity]. cbn [option_map]. now rewrite upd_out by now apply (parent_outside it c p).
Qed.
Lemma requests_commute g a b r q : inv root g -> ok_item root a -> ok_item root b ->
  fst a + ksize (snd (snd a)) <= fst b \/ fst b + ksize (snd (snd b)) <= fst a ->
  exists g1 g2 h e1 e2, request_repr (full root) g (fst a) r = LRet (g1, e1) /\ request_repr (full root) g1 (fst b) q = LRet (h, e2) /\
    request_repr (full root) g (fst b) q = LRet (g2, e2) /\ request_repr (full root) g2 (fst a) r = LRet (h, e1).
Proof.
  intros I Oa Ob D. pose proof (ksize_pos (snd (snd a))) as Pa. pose proof (ksize_pos (snd (snd b))) as Pb.
  destruct (request_fun g a r I Oa) as (g1 & E1 & S1 & N1). destruct (request_fun g b q I Ob) as (g2 & E2 & S2 & N2).
  assert (I1 : inv root g1). { destruct (request_inv root g (fst a) r I) as (x & y & X & Y & _). rewrite E1 in X. injection X as <- _. exact Y. }
  assert (I2 : inv root g2). { destruct (request_inv root g (fst b) q I) as (x & y & X & Y & _). rewrite E2 in X. injection X as <- _. exact Y. }
  destruct (request_fun g1 b q I1 Ob) as (h & E3 & S3 & N3). destruct (request_fun g2 a r I2 Oa) as (h' & E4 & S4 & N4).
  assert (PB : parent_line (full root) g1 (nd b) = parent_line (full root) g (nd b)).
  { destruct (answer a (parent_line (full root) g (nd a)) r) eqn:X; [now rewrite S1 by discriminate|]. eapply (parent_line_out g g1 a b r Oa Ob); [lia|exact (N1 eq_refl)]. }
  assert (PA : parent_line (full root) g2 (nd a) = parent_line (full root) g (nd a)).
  { destruct (answer b (parent_line (full root) g (nd b)) q) eqn:X; [now rewrite S2 by discriminate|]. eapply (parent_line_out g g2 b a q Ob Oa); [lia|exact (N2 eq_refl)]. }
  rewrite PB in *. rewrite PA in *. exists g1, g2, h. do 2 eexists. split; [exact E1|]. split; [exact E3|]. split; [exact E2|]. rewrite E4. do 2 f_equal.
  apply fmts_ext. intros j.
  destruct (answer a (parent_line (full root) g (nd a)) r) eqn:X1; destruct (answer b (parent_line (full root) g (nd b)) q) eqn:X2;
    repeat match goal with H : Some _ <> None -> ?x = ?y |- _ => rewrite (H ltac:(discriminate)) in *; clear H | H : None <> None -> _ |- _ => clear H end; try reflexivity.
  - rewrite (N3 eq_refl), (N2 eq_refl). reflexivity.
  - rewrite (N4 eq_refl), (N1 eq_refl). reflexivity.
  - rewrite (N3 eq_refl), (N1 eq_refl), (N4 eq_refl), (N2 eq_refl). destruct (nth_error g j) as [f|]; [|reflexivity]. cbn [option_map]. f_equal.
    destruct (Nat.lt_ge_cases j (fst a)); [rewrite !(upd_out a) by (unfold inside; lia); reflexivity|].
    destruct (Nat.lt_ge_cases j (fst a + ksize (snd (snd a)))).
    + rewrite !(upd_out b) by (unfold inside; lia). reflexivity.
    + rewrite !(upd_out a) by (unfold inside; lia). reflexivity.
Qed.
(** ** a smaller request after a larger one *)
Lemma answer_mono it pl r q : repr_le q r -> answer it pl r = None -> answer it pl q = None.
Proof.
  unfold repr_le, answer. intros LE H. destruct ((fst it =? 0) && repr_eqb r Verbose && seq_or_map (snd (snd it))) eqn:E; [discriminate|].
  destruct (repr_lt (kind_max _) r) eqn:E1; [discriminate|].
  assert (E' : (fst it =? 0) && repr_eqb q Verbose && seq_or_map (snd (snd it)) = false).
  { destruct q; [now rewrite andb_false_r|now rewrite andb_false_r|]. destruct r; cbn in LE; try lia. }
  rewrite E'. apply repr_lt_le in E1. assert (E2 : repr_lt (kind_max (snd (snd it))) q = false) by (apply repr_lt_le; unfold repr_le in *; lia). rewrite E2.
  destruct pl as [[| |]|]; [| |reflexivity..]; destruct (repr_lt _ r) eqn:X in H; try discriminate; apply repr_lt_le in X; (rewrite (proj2 (repr_lt_le _ _)); [reflexivity|unfold repr_le in *; lia]).
Qed.
Lemma requests_last g it r q : inv root g -> ok_item root it -> repr_le q r ->
  exists g1 e1, request_repr (full root) g (fst it) r = LRet (g1, e1) /\ request_repr (full root) g1 (fst it) q = request_repr (full root) g (fst it) q.
Proof.
  intros I O LE. destruct (request_fun g it r I O) as (g1 & E1 & S1 & N1). exists g1. eexists. split; [exact E1|].
  destruct (answer it (parent_line (full root) g (nd it)) r) eqn:X; [now rewrite S1 by discriminate|]. specialize (N1 eq_refl).
  assert (I1 : inv root g1). { destruct (request_inv root g (fst it) r I) as (x & y & Z & Y & _). rewrite E1 in Z. injection Z as <- _. exact Y. }
  destruct (request_fun g it q I O) as (g2 & E2 & _ & N2). destruct (request_fun g1 it q I1 O) as (g3 & E3 & _ & N3).
  assert (P : parent_line (full root) g1 (nd it) = parent_line (full root) g (nd it)) by (eapply (parent_line_out g g1 it it r O O); [lia|exact N1]).
  rewrite P in *. rewrite (answer_mono it _ r q LE X) in *. rewrite E2, E3. do 2 f_equal. apply fmts_ext. intros j. rewrite (N3 eq_refl), (N2 eq_refl), N1.
  destruct (nth_error g j) as [f|]; [|reflexivity]. cbn [option_map]. f_equal. unfold upd. destruct (j =? fst it); [reflexivity|]. destruct (_ && _); [|reflexivity].
  unfold lower, set_line, repr_le in *. destruct f as [fi fl], r, q, fl; cbn in *; try reflexivity; lia.
Qed.
End Root.
