(** The error for a list, container or map which is not closed. *)
From Verif Require Import Base BaseProps F64 Number BTree Value ValueSpec Nom Parse ParseErr ParseSpec ParseProps ParseErrProps ParseErrProps2 ParseErrProps3 Grammar GrammarProps BracketSpec BracketProps BracketProps3.
Open Scope nat_scope.

Theorem open_bracket : forall id w o cl what t, head_ok id w -> begun [] o cl what t ->
  let before := head id w ++ [o] in
  let src := before ++ t in
  verbose_start src = false ->
  exists e, parse src = ParseErr e /\ e_len e = 2 /\
    forall i k p, nth_error [(EChar cl, src); (EContext what, before)] i = Some (k, p) ->
      exists tr, e_get e i = Ret (Some tr) /\ describes src p k tr.
Proof.
  intros id w o cl what t HO H before src V.
  assert (E : src = head id w ++ o :: t) by (unfold src, before; now rewrite <- app_assoc).
  set (pe := [([], EChar cl); (t, EContext what)]).
  assert (P : parse src = ParseErr (error_new src pe)).
  { unfold parse. rewrite E in V. destruct (refused_cases _ _ (open_list_root id w o cl what t HO H V)) as [X|X]; rewrite <- E in X; rewrite X; reflexivity. }
  exists (error_new src pe). split; [exact P|]. split; [reflexivity|]. intros i k p Hi.
  destruct i as [|[|i]]; cbn [nth_error] in Hi; [| |destruct i; discriminate Hi]; injection Hi as <- <-.
  - apply (place_at src pe _ 0 src [] _ P eq_refl eq_refl). now rewrite app_nil_r.
  - exact (place_at src pe _ 1 before t _ P eq_refl eq_refl eq_refl).
Qed.
