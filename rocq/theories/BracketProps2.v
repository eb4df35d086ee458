(** The error for a list, container or map closed by the wrong bracket. *)
From Verif Require Import Base BaseProps F64 Number BTree Value ValueSpec Nom Parse ParseErr ParseSpec ParseProps ParseErrProps ParseErrProps2 ParseErrProps3 Grammar GrammarProps BracketSpec BracketProps.
Open Scope nat_scope.

Theorem wrong_bracket : forall id w o cl what t c rest, head_ok id w -> begun (c :: rest) o cl what t -> In c (s ")]}") -> c <> cl ->
  let before := head id w ++ [o] in
  let src := before ++ t ++ c :: rest in
  verbose_start src = false ->
  exists e, parse src = ParseErr e /\ e_len e = 2 /\
    forall i k p, nth_error [(EChar cl, before ++ t); (EContext what, before)] i = Some (k, p) ->
      exists tr, e_get e i = Ret (Some tr) /\ describes src p k tr.
Proof.
  intros id w o cl what t c rest HO H C NE before src V. apply mem_In in C.
  assert (E : src = head id w ++ o :: t ++ c :: rest) by (unfold src, before; now rewrite <- app_assoc).
  set (pe := [(c :: rest, EChar cl); (t ++ c :: rest, EContext what)]).
  assert (P : parse src = ParseErr (error_new src pe)).
  { unfold parse. rewrite E in V. destruct (wrong_root c rest C id w o cl what t HO H NE V) as [X|X]; rewrite <- E in X; rewrite X; reflexivity. }
  exists (error_new src pe). split; [exact P|]. split; [reflexivity|]. intros i k p Hi.
  destruct i as [|[|i]]; cbn [nth_error] in Hi; [| |destruct i; discriminate Hi]; injection Hi as <- <-.
  - apply (place_at src pe _ 0 (before ++ t) (c :: rest) _ P eq_refl eq_refl). unfold src. now rewrite app_assoc.
  - exact (place_at src pe _ 1 before (t ++ c :: rest) _ P eq_refl eq_refl eq_refl).
Qed.
