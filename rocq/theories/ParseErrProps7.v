(** The error for a word which is no value. *)
From Verif Require Import Base BaseProps F64 Number BTree Value ValueSpec Nom Parse ParseErr ParseSpec ParseProps ParseErrProps ParseErrProps2 ParseErrProps3 ParseErrProps6.
Open Scope nat_scope.

Section Word.
  Variables (c0 : char) (w : str).
  Hypotheses (W0 : is_name_char c0 = true) (W : forallb is_name_char w = true).
  Let src : str := c0 :: w.
  Hypotheses (HT : starts_with (s "true") src = false) (HF : starts_with (s "false") src = false) (HS : starts_with (s "str") src = false).
  Hypothesis HN : forall p q, src = p ++ q -> num_from_str p = None.
  Let err : perr := [(src, ENom NkTag); (src, EContext (s "base 91 byte array")); (src, ENom NkAlt); (src, EContext (s "primitive value")); (src, EContext (s "primitive"))].
  Lemma w_names : forallb is_name_char src = true. Proof. unfold src. cbn [forallb]. now rewrite W0, W. Qed.
  Lemma w_char (c : char) : is_name_char c = false -> (c0 =? c)%N = false.
  Proof. intros H. apply N.eqb_neq. intros <-. congruence. Qed.
  Lemma w_tag (c : char) t : is_name_char c = false -> starts_with (c :: t) src = false.
  Proof. intros H. unfold src. cbn [starts_with]. rewrite N.eqb_sym, (w_char c H). reflexivity. Qed.
  Lemma w_tagged (c : char) t : is_name_char c = false -> tag (c :: t) src = PErr [(src, ENom NkTag)].
  Proof. intros H. unfold tag. now rewrite (w_tag c t H). Qed.
  Lemma w_pchar (c : char) : is_name_char c = false -> pchar c src = PErr [(src, EChar c)].
  Proof. intros H. unfold pchar, src. now rewrite (w_char c H). Qed.
  Lemma w_multi : multiline_whitespace src = POk src [].
  Proof. unfold multiline_whitespace, ptake_while, src. cbn [take_while]. assert (X : is_wsp c0 = false) by (revert W0; unfold is_name_char, is_wsp, is_alnum, is_alpha, is_digit, mem; cbn [existsb]; lia). now rewrite X. Qed.
  Lemma w_inline : inline_whitespace src = POk src [].
  Proof. unfold inline_whitespace, ptake_while, src. cbn [take_while]. now rewrite (name_blank c0 W0). Qed.
  Lemma w_assign : recognise_field_assign src = false.
  Proof.
    unfold recognise_field_assign, terminated, ptake_while.
    assert (X : take_while (fun c => is_alnum c || negb (mem c assign_stop)) src = (src, [])).
    { apply take_while_spec_nil. pose proof w_names as A. rewrite forallb_forall in *. intros c Hc. specialize (A c Hc). unfold is_name_char in A. destruct (is_alnum c); [reflexivity|]. cbn [orb] in *.
      apply orb_true_iff in A as [A|A]; apply N.eqb_eq in A; subst c; reflexivity. }
    rewrite X. reflexivity.
  Qed.
  Lemma w_verbose : pattern_match_verbose src = POk src false.
  Proof.
    unfold pattern_match_verbose. rewrite w_multi. cbn [pbind]. rewrite w_assign. change (s ":") with [58%N]. change (s "[[") with [91%N; 91%N]. rewrite !w_tag by reflexivity.
    unfold encased, preceded. change (s "[") with [91%N]. rewrite w_tagged by reflexivity. reflexivity.
  Qed.
  Lemma w_angle : opt (ident true) src = POk src None.
  Proof. unfold opt, ident, context, preceded. rewrite w_pchar by reflexivity. reflexivity. Qed.
  Lemma w_delimited : pattern_match_delimited src = POk src NpNone.
  Proof.
    unfold pattern_match_delimited. rewrite HT, HF. cbn [orb]. rewrite w_angle. cbn [pbind].
    destruct (starter c0) eqn:ST.
    - assert (X : opt (ident false) src = POk [] (Some src)).
      { unfold opt, ident, context, valid_name. destruct (start_ok c0 w ST) as (x & y & Hxy). fold src in Hxy. rewrite Hxy. cbn [pbind]. unfold context, cut, ptake_while1.
        rewrite (take_while_spec_nil is_name_char src w_names). reflexivity. }
      rewrite X. cbn [pbind]. reflexivity.
    - assert (X : opt (ident false) src = POk src None).
      { unfold opt, ident, context, valid_name. rewrite (start_no src) by exact ST. reflexivity. }
      rewrite X. cbn [pbind]. rewrite w_multi. cbn [pbind]. unfold src at 1 2 3. cbn [hd]. rewrite !w_char by reflexivity. reflexivity.
  Qed.
  Lemma w_prim : prim src = PErr err.
  Proof.
    unfold prim, context at 1, separated_pair. rewrite w_angle. cbn [pbind]. rewrite w_inline. cbn [pbind].
    unfold prim_value, context at 1, alt5, pmap.
    assert (X : exists e, unit_value src = PErr e) by (unfold unit_value, context, pmap, preceded; rewrite w_pchar by reflexivity; eexists; reflexivity). destruct X as [e0 ->].
    assert (X : exists e, boolean src = PErr e) by (unfold boolean, context, alt2, pmap, tag; rewrite HT, HF; eexists; reflexivity). destruct X as [e1 ->].
    assert (X : exists e, num src = PErr e).
    { unfold num, context. destruct (take_while is_num_char src) as [p q] eqn:T. assert (E : src = p ++ q) by (pose proof (take_while_app is_num_char src) as E; rewrite T in E; now cbn [fst snd] in E). rewrite (HN p q E). eexists. reflexivity. }
    destruct X as [e2 ->].
    assert (X : exists e, pstring src = PErr e) by (unfold pstring; rewrite HS; cbv iota; unfold context, parse_str, preceded; rewrite w_pchar by reflexivity; eexists; reflexivity). destruct X as [e3 ->].
    assert (X : barr src = PErr [(src, ENom NkTag); (src, EContext (s "base 91 byte array"))]).
    { unfold barr, context, preceded, tag. assert (Y : starts_with (s "b91'") src = false).
      { destruct (starts_with (s "b91'") src) eqn:Z; [|reflexivity]. apply starts_with_spec in Z as [r Z]. pose proof w_names as A. rewrite Z, forallb_app in A. discriminate A. }
      rewrite Y. reflexivity. }
    rewrite X. reflexivity.
  Qed.
  Lemma word_error : exists e, parse src = ParseErr e /\ e_len e = 5 /\
    forall i k, nth_error [ENom NkTag; EContext (s "base 91 byte array"); ENom NkAlt; EContext (s "primitive value"); EContext (s "primitive")] i = Some k ->
      exists tr, e_get e i = Ret (Some tr) /\ describes src [] k tr.
  Proof.
    assert (P : parse src = ParseErr (error_new src err)).
    { unfold parse. enough (K : kserd_root src = PErr err) by now rewrite K.
      unfold kserd_root, src. cbv zeta iota. fold src. unfold all_consuming, terminated. cbn [kserd_nested]. rewrite w_verbose. cbn [pbind].
      unfold ignore_ws, opt. rewrite w_inline. cbn [pbind].
      unfold kserd_concise. cbn [kserd_delimited]. unfold delimited_body. rewrite w_delimited. cbn [pbind]. rewrite w_prim. reflexivity. }
    exists (error_new src err). split; [exact P|]. split; [reflexivity|]. intros i k Hi.
    apply (place_at src err _ i [] src k P eq_refl); [|reflexivity].
    destruct i as [|[|[|[|[|i]]]]]; cbn [nth_error] in Hi; [| | | | |destruct i; discriminate Hi]; injection Hi as <-; reflexivity.
  Qed.
End Word.

Theorem no_value_word : forall w, w <> [] -> forallb word_char w = true ->
  (forall p q, w = p ++ q -> p <> s "true" /\ p <> s "false" /\ p <> s "str" /\ num_from_str p = None) ->
  exists e, parse w = ParseErr e /\ e_len e = 5 /\
    forall i k, nth_error [ENom NkTag; EContext (s "base 91 byte array"); ENom NkAlt; EContext (s "primitive value"); EContext (s "primitive")] i = Some k ->
      exists tr, e_get e i = Ret (Some tr) /\ describes w [] k tr.
Proof.
  intros [|c0 w] NE A H; [easy|]. rewrite word_chars_eq in A. cbn [forallb] in A. apply andb_true_iff in A as [A0 A].
  assert (B : forall t, (forall p q, c0 :: w = p ++ q -> p <> t) -> starts_with t (c0 :: w) = false).
  { intros t Ht. destruct (starts_with t (c0 :: w)) eqn:E; [|reflexivity]. apply starts_with_spec in E as [r E]. now elim (Ht t r E). }
  apply (word_error c0 w A0 A); [apply B|apply B|apply B|]; intros p q E; now destruct (H p q E) as (? & ? & ? & ?).
Qed.
