(** The errors for byte arrays and strings with a quote of their own which are not closed. *)
From Verif Require Import Base BaseProps F64 Number BTree Value ValueSpec Nom Parse ParseErr ParseSpec ParseProps ParseErrProps ParseErrProps2 ParseErrProps3.
Open Scope nat_scope.

Lemma open_root : forall c r e, let src := c :: r in pattern_match_verbose src = POk src false -> is_blank c = false -> pattern_match_delimited src = POk src NpNone ->
  prim src = PFail e -> parse src = ParseErr (error_new src e).
Proof.
  intros c r e src V B D P. unfold parse. enough (K : kserd_root src = PFail e) by now rewrite K.
  unfold kserd_root, src. cbv zeta iota. fold src. unfold all_consuming, terminated. cbn [kserd_nested]. rewrite V. cbn [pbind].
  unfold ignore_ws. assert (W : opt inline_whitespace src = POk src (Some (@nil char))) by (unfold opt, inline_whitespace, ptake_while, src; cbn [take_while]; now rewrite B). rewrite W. cbn [pbind].
  unfold kserd_concise. cbn [kserd_delimited]. unfold delimited_body. rewrite D. cbn [pbind]. rewrite P. reflexivity.
Qed.

Section Bytes.
  Variables (t : str).
  Hypothesis H : ~ In 39%N t.
  Definition bytes_src : str := s "b91'" ++ t.
  Definition bytes_err : perr := [([], EChar 39%N); (bytes_src, EContext (s "base 91 byte array")); (bytes_src, EContext (s "primitive value")); (bytes_src, EContext (s "primitive"))].
  Lemma bytes_prim : prim bytes_src = PFail bytes_err.
  Proof.
    unfold prim, context at 1, separated_pair. change (opt (ident true) bytes_src) with (POk bytes_src (@None str)). cbn [pbind].
    change (inline_whitespace bytes_src) with (POk bytes_src (@nil char)). cbn [pbind].
    unfold prim_value, context at 1, alt5, alt2, pmap.
    assert (X : exists e, unit_value bytes_src = PErr e) by (eexists; reflexivity). destruct X as [e0 ->].
    assert (X : exists e, boolean bytes_src = PErr e) by (eexists; reflexivity). destruct X as [e1 ->].
    assert (X : exists e, num bytes_src = PErr e) by (eexists; reflexivity). destruct X as [e2 ->].
    assert (X : exists e, pstring bytes_src = PErr e) by (eexists; reflexivity). destruct X as [e3 ->].
    assert (S : barr bytes_src = PFail [([], EChar 39%N); (bytes_src, EContext (s "base 91 byte array"))]).
    { unfold barr, context, preceded. change (tag (s "b91'") bytes_src) with (POk t (s "b91'")). cbn [pbind].
      unfold cut, terminated, pmap, ptake_till, ptake_while.
      assert (T : take_while (fun c => negb (39 =? c)%N) t = (t, [])) by (apply take_while_spec_nil, forallb_forall; intros c Hc; apply negb_true_iff, N.eqb_neq; intros <-; contradiction).
      rewrite T. reflexivity. }
    rewrite S. reflexivity.
  Qed.
  Theorem open_bytes : exists e, parse bytes_src = ParseErr e /\ e_len e = 4 /\
    forall i k p, nth_error [(EChar 39%N, bytes_src); (EContext (s "base 91 byte array"), []); (EContext (s "primitive value"), []); (EContext (s "primitive"), [])] i = Some (k, p) ->
      exists tr, e_get e i = Ret (Some tr) /\ describes bytes_src p k tr.
  Proof.
    assert (P : parse bytes_src = ParseErr (error_new bytes_src bytes_err)) by (apply open_root; [reflexivity|reflexivity|reflexivity|exact bytes_prim]).
    exists (error_new bytes_src bytes_err). split; [exact P|]. split; [reflexivity|]. intros i k p Hi.
    destruct i as [|[|[|[|i]]]]; cbn [nth_error] in Hi; [| | | |destruct i; discriminate Hi]; injection Hi as <- <-.
    - apply (place_at bytes_src bytes_err _ 0 bytes_src [] _ P eq_refl eq_refl). now rewrite app_nil_r.
    - exact (place_at bytes_src bytes_err _ 1 [] bytes_src _ P eq_refl eq_refl eq_refl).
    - exact (place_at bytes_src bytes_err _ 2 [] bytes_src _ P eq_refl eq_refl eq_refl).
    - exact (place_at bytes_src bytes_err _ 3 [] bytes_src _ P eq_refl eq_refl eq_refl).
  Qed.
End Bytes.

Section Quoted.
  Variables (d : char) (t : str).
  Hypothesis Hd : d = 34%N \/ d = 39%N.
  Hypothesis H : ~ In d t.
  Definition quoted_src : str := s "str" ++ d :: t.
  Definition quoted_err : perr := [([], EChar d); (d :: t, EContext (s "string")); (quoted_src, EContext (s "primitive value")); (quoted_src, EContext (s "primitive"))].
  Lemma quoted_prim : prim quoted_src = PFail quoted_err.
  Proof.
    unfold prim, context at 1, separated_pair. change (opt (ident true) quoted_src) with (POk quoted_src (@None str)). cbn [pbind].
    change (inline_whitespace quoted_src) with (POk quoted_src (@nil char)). cbn [pbind].
    unfold prim_value, context at 1, alt5, alt2, pmap.
    assert (X : exists e, unit_value quoted_src = PErr e) by (eexists; reflexivity). destruct X as [e0 ->].
    assert (X : exists e, boolean quoted_src = PErr e) by (eexists; reflexivity). destruct X as [e1 ->].
    assert (X : exists e, num quoted_src = PErr e) by (eexists; reflexivity). destruct X as [e2 ->].
    assert (S : pstring quoted_src = PFail [([], EChar d); (d :: t, EContext (s "string"))]).
    { unfold pstring. change (starts_with (s "str") quoted_src) with true. cbv iota. change (skipn 3 quoted_src) with (d :: t). cbn [hd].
      unfold context, parse_str, preceded. assert (Q : pchar d (d :: t) = POk t d) by (unfold pchar; now rewrite N.eqb_refl). rewrite Q. cbn [pbind].
      unfold cut, terminated, ptake_till, ptake_while.
      assert (T : take_while (fun c => negb (d =? c)%N) t = (t, [])) by (apply take_while_spec_nil, forallb_forall; intros c Hc; apply negb_true_iff, N.eqb_neq; intros <-; contradiction).
      rewrite T. reflexivity. }
    rewrite S. reflexivity.
  Qed.
  Theorem open_quoted : exists e, parse quoted_src = ParseErr e /\ e_len e = 4 /\
    forall i k p, nth_error [(EChar d, quoted_src); (EContext (s "string"), s "str"); (EContext (s "primitive value"), []); (EContext (s "primitive"), [])] i = Some (k, p) ->
      exists tr, e_get e i = Ret (Some tr) /\ describes quoted_src p k tr.
  Proof.
    assert (P : parse quoted_src = ParseErr (error_new quoted_src quoted_err)) by (apply open_root; [destruct Hd; subst d; reflexivity|reflexivity|destruct Hd; subst d; reflexivity|exact quoted_prim]).
    exists (error_new quoted_src quoted_err). split; [exact P|]. split; [reflexivity|]. intros i k p Hi.
    destruct i as [|[|[|[|i]]]]; cbn [nth_error] in Hi; [| | | |destruct i; discriminate Hi]; injection Hi as <- <-.
    - apply (place_at quoted_src quoted_err _ 0 quoted_src [] _ P eq_refl eq_refl). now rewrite app_nil_r.
    - exact (place_at quoted_src quoted_err _ 1 (s "str") (d :: t) _ P eq_refl eq_refl eq_refl).
    - exact (place_at quoted_src quoted_err _ 2 [] quoted_src _ P eq_refl eq_refl eq_refl).
    - exact (place_at quoted_src quoted_err _ 3 [] quoted_src _ P eq_refl eq_refl eq_refl).
  Qed.
End Quoted.
