(** The error for a field in the verbose layout whose value is no value. *)
From Verif Require Import Base BaseProps F64 Number BTree Value ValueSpec Nom Parse ParseErr ParseSpec ParseProps ParseErrProps ParseErrProps2 ParseErrProps3 ParseErrProps6 ParseErrProps7 Grammar GrammarProps.
Open Scope nat_scope.

Lemma word_concise n c0 w : is_name_char c0 = true -> forallb is_name_char w = true -> starts_with (s "true") (c0 :: w) = false -> starts_with (s "false") (c0 :: w) = false -> starts_with (s "str") (c0 :: w) = false ->
  (forall p q, c0 :: w = p ++ q -> num_from_str p = None) -> let src := c0 :: w in
  kserd_delimited (S n) false src = PErr [(src, ENom NkTag); (src, EContext (s "base 91 byte array")); (src, ENom NkAlt); (src, EContext (s "primitive value")); (src, EContext (s "primitive"))].
Proof.
  intros W0 W HT HF HS HN src. cbn [kserd_delimited]. unfold delimited_body, src. rewrite (w_delimited c0 w W0 W HT HF HS HN). cbn [pbind]. apply (w_prim c0 w W0 W HT HF HS HN).
Qed.

Section Field.
  Variables (n0 : char) (name w1 w2 : str) (v0 : char) (v : str).
  Hypotheses (N0 : is_name_char n0 = true) (NN : forallb is_name_char name = true) (B1 : blanks w1) (B2 : blanks w2) (V0 : is_name_char v0 = true).
  Let val : str := v0 :: v.
  Let src : str := n0 :: name ++ w1 ++ ch "=" :: w2 ++ val.
  Variable ve : perr.
  Hypothesis VE : forall n, kserd_delimited (S n) false val = PErr ve.
  Lemma f_space : is_wsp n0 = false /\ is_blank n0 = false.
  Proof. revert N0. unfold is_name_char, is_wsp, is_blank, is_alnum, is_alpha, is_digit, mem. cbn [existsb]. lia. Qed.
  Lemma f_neq (c : char) : is_name_char c = false -> (n0 =? c)%N = false.
  Proof. intros H. apply N.eqb_neq. intros <-. congruence. Qed.
  Lemma f_kvp n : kvp_field (kserd_delimited (S n) true) (kserd_delimited (S n) false) false src = PFail (ve ++ [(src, EContext (s "name-kserd key value pair"))]).
  Proof.
    unfold kvp_field, context, separated_pair, field_name, ptake_while.
    assert (T : take_while is_name_char src = (n0 :: name, w1 ++ ch "=" :: w2 ++ val)).
    { apply (take_while_spec is_name_char (n0 :: name)); [cbn [forallb]; now rewrite N0, NN|]. destruct w1 as [|c w]; [reflexivity|]. unfold blanks in B1. cbn [app forallb] in *. apply andb_true_iff in B1 as [B _]. now apply blank_name. }
    rewrite T. cbn [pbind]. rewrite blank_char by (auto; reflexivity). cbn [pbind].
    rewrite GrammarProps.skip_blanks; [|exact B2|exact (name_blank v0 V0)]. unfold cut. rewrite VE. reflexivity.
  Qed.
  Lemma f_item inl con nested i : kvp_field inl con false src = PFail i -> verbose_cntr_field inl con nested 0 src = PFail i.
  Proof.
    intros E. destruct f_space as [WS BL]. unfold verbose_cntr_field.
    assert (IW : inline_whitespace src = POk src []) by (unfold inline_whitespace, ptake_while, src; cbn [take_while]; now rewrite BL).
    assert (LE : ignore_ws line_ending src = PErr [(src, ENom NkCrLf)]).
    { unfold ignore_ws, opt. rewrite IW. cbn [pbind]. unfold src, line_ending. assert (A : n0 <> 10%N /\ n0 <> 13%N) by (split; intros ->; discriminate).
      destruct A as [A1 A2]. destruct n0 as [|p]; [reflexivity|]. do 4 (destruct p as [p|p|]; try reflexivity; try congruence). }
    assert (SK : skip_lines (S (length src)) src = POk src tt) by (cbn [skip_lines]; unfold opt; rewrite LE; reflexivity).
    rewrite SK. cbn [pbind expect_indents]. rewrite IW. cbn [pbind]. rewrite LE. unfold src at 1. cbn [is_ok orb].
    assert (X : forall c t, is_name_char c = false -> starts_with (c :: t) src = false) by (intros c t H; unfold src; cbn [starts_with]; rewrite N.eqb_sym, (f_neq c H); reflexivity).
    change (s ":") with [58%N]. change (s "[[") with [91%N; 91%N]. change (s "[") with [91%N]. rewrite !X by reflexivity. unfold cut. rewrite E. reflexivity.
  Qed.
  Lemma f_root : kserd_root src = PFail (ve ++ [(src, EContext (s "name-kserd key value pair"))]).
  Proof.
    destruct f_space as [WS BL]. unfold kserd_root, src. cbv zeta iota. fold src. unfold all_consuming, terminated. cbn [kserd_nested]. unfold pattern_match_verbose.
    assert (MW : multiline_whitespace src = POk src []) by (unfold multiline_whitespace, ptake_while, src; cbn [take_while]; now rewrite WS). rewrite MW. cbn [pbind].
    assert (AS : recognise_field_assign src = true).
    { rewrite assign_eq. apply (name_assigns (n0 :: name) w1 (w2 ++ val)); [|exact B1]. cbn [forallb]. rewrite name_char_eq, N0. cbn [andb]. apply forallb_forall. intros c Hc. rewrite name_char_eq. revert c Hc. now apply forallb_forall. }
    rewrite AS, orb_true_r. cbn [orb]. unfold cntr_verbose, many0. cbn [many0_loop]. unfold kserd_inline, kserd_concise.
    rewrite (f_item _ _ _ _ (f_kvp (length src))). reflexivity.
  Qed.
End Field.

Theorem field_no_value : forall name w1 w2 w, name <> [] -> forallb word_char name = true -> blanks w1 -> blanks w2 -> w <> [] -> forallb word_char w = true ->
  (forall p q, w = p ++ q -> p <> s "true" /\ p <> s "false" /\ p <> s "str" /\ num_from_str p = None) ->
  let before := name ++ w1 ++ s "=" ++ w2 in
  let src := before ++ w in
  exists e, parse src = ParseErr e /\ e_len e = 6 /\
    forall i k p, nth_error [(ENom NkTag, before); (EContext (s "base 91 byte array"), before); (ENom NkAlt, before); (EContext (s "primitive value"), before); (EContext (s "primitive"), before); (EContext (s "name-kserd key value pair"), [])] i = Some (k, p) ->
      exists tr, e_get e i = Ret (Some tr) /\ describes src p k tr.
Proof.
  intros [|n0 name] w1 w2 [|v0 v] NE NN B1 B2 WE WW H before src; [easy|easy|easy|]. rewrite word_chars_eq in NN, WW. cbn [forallb] in NN, WW. apply andb_true_iff in NN as [N0 NN]. apply andb_true_iff in WW as [V0 VV].
  assert (B : forall t, (forall p q, v0 :: v = p ++ q -> p <> t) -> starts_with t (v0 :: v) = false).
  { intros t Ht. destruct (starts_with t (v0 :: v)) eqn:E; [|reflexivity]. apply starts_with_spec in E as [r E]. now elim (Ht t r E). }
  set (val := v0 :: v) in *.
  set (ve := [(val, ENom NkTag); (val, EContext (s "base 91 byte array")); (val, ENom NkAlt); (val, EContext (s "primitive value")); (val, EContext (s "primitive"))]).
  assert (VE : forall n, kserd_delimited (S n) false val = PErr ve).
  { intros n. apply (word_concise n v0 v V0 VV); [apply B|apply B|apply B|]; intros p q E; now destruct (H p q E) as (? & ? & ? & ?). }
  set (pe := ve ++ [(src, EContext (s "name-kserd key value pair"))]).
  assert (E : src = n0 :: name ++ w1 ++ ch "=" :: w2 ++ val) by (unfold src, before; cbn [app]; rewrite <- !app_assoc; reflexivity).
  assert (P : parse src = ParseErr (error_new src pe)).
  { unfold parse. pose proof (f_root n0 name w1 w2 v0 v N0 NN B1 B2 V0 ve VE) as K. fold val in K. rewrite <- E in K. rewrite K. reflexivity. }
  exists (error_new src pe). split; [exact P|]. split; [reflexivity|]. intros i k p Hi.
  destruct i as [|[|[|[|[|[|i]]]]]]; cbn [nth_error] in Hi; [| | | | | |destruct i; discriminate Hi]; injection Hi as <- <-.
  1-5: match goal with |- exists tr, e_get _ ?j = _ /\ _ => exact (place_at src pe _ j before val _ P eq_refl eq_refl eq_refl) end.
  exact (place_at src pe _ 5 [] src _ P eq_refl eq_refl eq_refl).
Qed.
