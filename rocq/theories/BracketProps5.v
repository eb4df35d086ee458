(** The error for text behind a value. *)
From Verif Require Import Base BaseProps F64 Number BTree Value ValueSpec Nom Parse ParseErr ParseSpec ParseProps ParseErrProps ParseErrProps2 ParseErrProps3 Grammar GrammarProps.
Open Scope nat_scope.

Lemma extra_root w1 t w2 k b c r : blanks w1 -> reads false t k b -> spaces w2 -> w2 <> [] -> space c = false -> (b = true -> ~ In c (s "([{")) ->
  verbose_start (t ++ w2 ++ c :: r) = false -> kserd_root (w1 ++ t ++ w2 ++ c :: r) = PErr [(c :: r, ENom NkEof)].
Proof.
  intros B HR W NE SC OP V. pose proof (reads_start false t k b HR) as ST.
  assert (K : forall i, i <> [] -> kserd_root i = all_consuming (terminated (kserd_nested (S (length i)) (S (length i)) 0) multiline_whitespace) i).
  { intros [|d i] N; [congruence|reflexivity]. }
  rewrite K. 2:{ destruct w1; [|discriminate]. destruct t; [contradiction|discriminate]. }
  unfold all_consuming, terminated. cbn [kserd_nested]. unfold pattern_match_verbose.
  rewrite take_spaces; [|now apply blanks_spaces|now apply starts_space, starts_app]. cbn [pbind].
  rewrite starts_not_colon by now apply starts_app. rewrite assign_eq, encased_eq. unfold verbose_start in V. apply orb_false_iff in V as [V V3]. apply orb_false_iff in V as [V1 V2].
  rewrite V1, V2, V3. cbn [orb]. rewrite GrammarProps.skip_blanks; [|exact B|now apply starts_blank, starts_app]. unfold kserd_concise.
  rewrite (reads_ok _ false t k b (w2 ++ c :: r)); [|exact HR|rewrite !app_length; lia| |].
  - cbn [pbind]. rewrite take_spaces by (auto; exact SC). reflexivity.
  - destruct w2 as [|d w2]; [congruence|]. unfold spaces in W. cbn [forallb] in W. apply andb_true_iff in W as [W _]. cbn [app ends]. now rewrite W.
  - intros Hb. rewrite spaces_opens by assumption. cbn [Grammar.opens]. rewrite SC. destruct (mem c (s "([{")) eqn:M; [|reflexivity]. apply mem_In in M. now elim (OP Hb).
Qed.
Theorem extra_text : forall w1 t w2 k b c r, blanks w1 -> reads false t k b -> spaces w2 -> w2 <> [] -> space c = false -> (b = true -> ~ In c (s "([{")) ->
  let src := w1 ++ t ++ w2 ++ c :: r in
  verbose_start (t ++ w2 ++ c :: r) = false ->
  exists e tr, parse src = ParseErr e /\ e_len e = 1 /\ e_get e 0 = Ret (Some tr) /\ describes src (w1 ++ t ++ w2) (ENom NkEof) tr.
Proof.
  intros w1 t w2 k b c r B HR W NE SC OP src V.
  assert (P : parse src = ParseErr (error_new src [(c :: r, ENom NkEof)])) by (unfold parse, src; now rewrite (extra_root w1 t w2 k b c r B HR W NE SC OP V)).
  destruct (place_at src _ _ 0 (w1 ++ t ++ w2) (c :: r) (ENom NkEof) P eq_refl eq_refl) as (tr & G & D); [unfold src; now rewrite <- !app_assoc|].
  exists (error_new src [(c :: r, ENom NkEof)]), tr. repeat (split; [first [assumption|reflexivity]|]). exact D.
Qed.
