(** The error for a string which is not closed. *)
From Verif Require Import Base BaseProps F64 Number BTree Value ValueSpec Nom Parse ParseErr ParseSpec ParseProps ParseErrProps ParseErrProps2 ParseErrProps3.
Open Scope nat_scope.

Section Open.
  Variables (t : str).
  Hypothesis H : ~ In 34%N t.
  Definition open_src : str := 34%N :: t.
  Definition open_err : perr := [([], EChar 34%N); (open_src, EContext (s "string")); (open_src, EContext (s "primitive value")); (open_src, EContext (s "primitive"))].
  Lemma open_taken : take_while (fun c => negb (34 =? c)%N) t = (t, []).
  Proof. apply take_while_spec_nil, forallb_forall. intros c Hc. apply negb_true_iff, N.eqb_neq. intros <-. contradiction. Qed.
  Lemma open_prim : prim open_src = PFail open_err.
  Proof.
    unfold prim, context at 1, separated_pair. change (opt (ident true) open_src) with (POk open_src (@None str)). cbn [pbind].
    change (inline_whitespace open_src) with (POk open_src (@nil char)). cbn [pbind].
    unfold prim_value, context at 1, alt5, alt2, pmap.
    assert (X : exists e, unit_value open_src = PErr e) by (eexists; reflexivity). destruct X as [e0 ->].
    assert (X : exists e, boolean open_src = PErr e) by (eexists; reflexivity). destruct X as [e1 ->].
    assert (X : exists e, num open_src = PErr e) by (eexists; reflexivity). destruct X as [e2 ->].
    assert (S : pstring open_src = PFail [([], EChar 34%N); (open_src, EContext (s "string"))]).
    { unfold pstring. change (starts_with (s "str") open_src) with false. cbv iota. unfold context, parse_str, preceded. change (pchar 34%N open_src) with (POk t 34%N). cbn [pbind].
      unfold cut, terminated, ptake_till, ptake_while. rewrite open_taken. reflexivity. }
    rewrite S. reflexivity.
  Qed.
  Theorem open_string : exists e, parse open_src = ParseErr e /\ e_len e = 4 /\
    forall i k p, nth_error [(EChar 34%N, open_src); (EContext (s "string"), []); (EContext (s "primitive value"), []); (EContext (s "primitive"), [])] i = Some (k, p) ->
      exists tr, e_get e i = Ret (Some tr) /\ describes open_src p k tr.
  Proof.
    assert (P : parse open_src = ParseErr (error_new open_src open_err)).
    { unfold parse. enough (K : kserd_root open_src = PFail open_err) by now rewrite K.
      unfold kserd_root. change (match open_src with [] => ?a | _ :: _ => ?b end) with b. cbv zeta. unfold all_consuming, terminated. cbn [kserd_nested].
      change (pattern_match_verbose open_src) with (POk open_src false). cbn [pbind]. unfold ignore_ws. change (opt inline_whitespace open_src) with (POk open_src (Some (@nil char))). cbn [pbind].
      unfold kserd_concise. cbn [kserd_delimited]. unfold delimited_body. change (pattern_match_delimited open_src) with (POk open_src NpNone). cbn [pbind]. rewrite open_prim. reflexivity. }
    exists (error_new open_src open_err). split; [exact P|]. split; [reflexivity|]. intros i k p Hi.
    destruct i as [|[|[|[|i]]]]; cbn [nth_error] in Hi; [| | | |destruct i; discriminate Hi]; injection Hi as <- <-.
    - apply (place_at open_src open_err _ 0 open_src [] _ P eq_refl eq_refl). now rewrite app_nil_r.
    - exact (place_at open_src open_err _ 1 [] open_src _ P eq_refl eq_refl eq_refl).
    - exact (place_at open_src open_err _ 2 [] open_src _ P eq_refl eq_refl eq_refl).
    - exact (place_at open_src open_err _ 3 [] open_src _ P eq_refl eq_refl eq_refl).
  Qed.
End Open.
