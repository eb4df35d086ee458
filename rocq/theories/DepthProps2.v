(** Verbose containers and the whole document. *)
From Verif Require Import Base BaseProps F64 Number BTree Value ValueSpec Nom Parse ParseErr ParseSpec ParseProps ParseDepth DepthSpec DepthProps.
Open Scope nat_scope.

Lemma starts_split p i : starts_with p i = true -> i = p ++ skipn (length p) i.
Proof.
  revert i. induction p as [|x p IH]; intros i; [reflexivity|]. destruct i as [|c i]; [discriminate|]. cbn [starts_with length skipn app].
  intros H. apply andb_true_iff in H as [H1 H2]. apply N.eqb_eq in H1 as ->. f_equal. now apply IH.
Qed.
Lemma header_opens p q i j a : (p = s "[" \/ p = s "[[") ->
  preceded (tag p) (terminated verbose_field_name_and_identity (ignore_ws (tag q))) i = POk j a -> S (opens j) <= opens i.
Proof.
  intros D E. unfold preceded in E. destruct (tag p i) as [l b|e|e| |] eqn:T; cbn [pbind] in E; try discriminate.
  assert (O : sp wfh l (terminated verbose_field_name_and_identity (ignore_ws (tag q)) l)).
  { eapply (okl_terminated (S (length l))); [apply okl_header|eapply okl_ignore_ws, okl_tag|lia]. }
  rewrite E in O. destruct O as [O _]. apply opens_suffix in O. unfold tag in T. destruct (starts_with p i) eqn:W; [|discriminate].
  injection T as <- _. rewrite (starts_split _ _ W), opens_app. destruct D as [-> | ->]; [change (opens (s "[")) with 1|change (opens (s "[[")) with 2]; lia.
Qed.

Section Verbose.
  Variables F n : nat.
  Variables inl con nested inl' con' nested' : parser kserd.
  Hypothesis Oi : okl (S F) wfk inl'.
  Hypothesis Oc : okl (S F) wfk con'.
  Hypothesis Ai : ag (S F) n inl inl'.
  Hypothesis Ac : ag (S F) n con con'.
  Hypothesis An : ag F (Nat.pred n) nested nested'.

  Lemma ag_verbose_field k : ag (S F) n (verbose_cntr_field inl con nested k) (verbose_cntr_field inl' con' nested' k).
  Proof.
    intros i Hi. unfold verbose_cntr_field.
    eapply rel_same; [apply (sp_skip_lines (S F)); lia|]. intros i1 _ _ L1.
    eapply rel_same; [apply (okl_expect_indents (S F)); lia|]. intros i2 _ _ L2.
    eapply rel_same; [apply (okl_inline_ws (S F)); lia|]. intros i3 _ _ L3.
    destruct (match i3 with [] => true | _ => false end || is_ok (ignore_ws line_ending i3)); [now left|].
    destruct (starts_with (s ":") i3); [now left|].
    destruct (starts_with (s "[[") i3).
    { destruct (context _ _ i3) as [i4 [fname id]|e|e| |] eqn:E4; cbn [pbind]; try now left.
      assert (E5 : preceded (tag (s "[[")) (terminated verbose_field_name_and_identity (ignore_ws (tag (s "]]")))) i3 = POk i4 (fname, id)).
      { unfold context, cut in E4. destruct (preceded _ _ i3); try discriminate. exact E4. }
      clear E4. pose proof (header_opens _ _ _ _ _ (or_intror eq_refl) E5) as B.
      assert (L4 : length i4 < length i3).
      { unfold preceded in E5. destruct (tag (s "[[") i3) as [j b|e|e| |] eqn:E; cbn [pbind] in E5; try discriminate E5.
        apply tag_lt in E; [|discriminate].
        assert (J : sp wfh j (terminated verbose_field_name_and_identity (ignore_ws (tag (s "]]"))) j)).
        { apply (okl_terminated (S F) wfh any); [apply okl_header|eauto with okl|lia]. }
        rewrite E5 in J. destruct J as [J _]. apply suffix_len in J. lia. }
      enough (R : rel n i3 (let? (i, _) := ignore_ws line_ending i4 in
          let? (i, key) := opt (terminated (ignore_ws (uncut inl)) (ignore_ws (pchar (ch ":")))) i in
          match key with
          | Some key => let? (i, v) := context (s "verbose map entry") (alt2 (ignore_ws con) (preceded (ignore_ws line_ending) nested)) i in POk i (CfMap id fname key v)
          | None => let? (i, v) := context (s "verbose sequence entry") nested i in POk i (CfSeq id fname v)
          end) (let? (i, _) := ignore_ws line_ending i4 in
          let? (i, key) := opt (terminated (ignore_ws (uncut inl')) (ignore_ws (pchar (ch ":")))) i in
          match key with
          | Some key => let? (i, v) := context (s "verbose map entry") (alt2 (ignore_ws con') (preceded (ignore_ws line_ending) nested')) i in POk i (CfMap id fname key v)
          | None => let? (i, v) := context (s "verbose sequence entry") nested' i in POk i (CfSeq id fname v)
          end)); [exact R|].
      assert (R : rel (Nat.pred n) i4 (let? (i, _) := ignore_ws line_ending i4 in
          let? (i, key) := opt (terminated (ignore_ws (uncut inl)) (ignore_ws (pchar (ch ":")))) i in
          match key with
          | Some key => let? (i, v) := context (s "verbose map entry") (alt2 (ignore_ws con) (preceded (ignore_ws line_ending) nested)) i in POk i (CfMap id fname key v)
          | None => let? (i, v) := context (s "verbose sequence entry") nested i in POk i (CfSeq id fname v)
          end) (let? (i, _) := ignore_ws line_ending i4 in
          let? (i, key) := opt (terminated (ignore_ws (uncut inl')) (ignore_ws (pchar (ch ":")))) i in
          match key with
          | Some key => let? (i, v) := context (s "verbose map entry") (alt2 (ignore_ws con') (preceded (ignore_ws line_ending) nested')) i in POk i (CfMap id fname key v)
          | None => let? (i, v) := context (s "verbose sequence entry") nested' i in POk i (CfSeq id fname v)
          end)).
      { eapply rel_same; [apply (okl_ignore_ws (S F)); [apply okl_line_ending|lia]|]. intros i5 _ _ L5.
        eapply rel_bind.
        - eapply rel_less; [apply Nat.le_pred_l|]. apply (ag_opt (S F) n); [|lia]. eapply ag_terminated; [eapply okl_ignore_ws, okl_uncut, Oi|].
          now apply ag_ignore_ws, ag_uncut.
        - apply (okl_opt (S F)); [|lia]. eapply okl_terminated; [apply okl_ignore_ws, okl_uncut, Oi|]. eapply okl_ignore_ws, okl_pchar.
        - intros i6 [key|] _ L6.
          + assert (M : ag F (Nat.pred n) (alt2 (ignore_ws con) (preceded (ignore_ws line_ending) nested)) (alt2 (ignore_ws con') (preceded (ignore_ws line_ending) nested'))).
            { apply ag_alt2; [|eapply ag_preceded; [eapply okl_ignore_ws, okl_line_ending|exact An]].
              intros j Lj. eapply rel_less; [apply Nat.le_pred_l|]. apply (ag_ignore_ws (S F)); [exact Ac|lia]. }
            destruct (ag_context _ _ (s "verbose map entry") _ _ M i6 ltac:(lia)) as [->|[-> ?]]; [now left|now right].
          + destruct (ag_context _ _ (s "verbose sequence entry") _ _ An i6 ltac:(lia)) as [->|[-> ?]]; [now left|now right]. }
      destruct R as [->|[-> R]]; [now left|right; split; [reflexivity|lia]]. }
    destruct (starts_with (s "[") i3).
    { destruct (preceded (tag (s "[")) _ i3) as [i4 [fname id]|e|e| |] eqn:E5; cbn [pbind]; try now left.
      pose proof (header_opens _ _ _ _ _ (or_introl eq_refl) E5) as B.
      assert (L4 : length i4 < length i3).
      { unfold preceded in E5. destruct (tag (s "[") i3) as [j b|e|e| |] eqn:E; cbn [pbind] in E5; try discriminate E5.
        apply tag_lt in E; [|discriminate].
        assert (J : sp wfh j (terminated verbose_field_name_and_identity (ignore_ws (tag (s "]"))) j)).
        { apply (okl_terminated (S F) wfh any); [apply okl_header|eauto with okl|lia]. }
        rewrite E5 in J. destruct J as [J _]. apply suffix_len in J. lia. }
      pose proof (okl_ignore_ws (S F) _ _ (okl_line_ending _) i4 ltac:(lia)) as S5.
      destruct (ignore_ws line_ending i4) as [i5 x|e|e| |]; cbn [pbind]; try now left. destruct S5 as [S5 _]. pose proof (suffix_len _ _ S5) as L5. apply opens_suffix in S5.
      destruct (ag_context _ _ (s "nested container") _ _ An i5 ltac:(lia)) as [->|[-> R]]; [now left|right; split; [reflexivity|lia]]. }
    assert (M : ag (S F) n (cut (kvp_field inl con false)) (cut (kvp_field inl' con' false))) by (now apply ag_cut, ag_kvp_field).
    destruct (M i3 ltac:(lia)) as [->|[-> ?]]; [now left|now right].
  Qed.
End Verbose.

Lemma ag_nested n : forall F D k, F <= D -> ag F (Nat.pred n) (nested_within n k) (kserd_nested F D k).
Proof.
  induction n as [|n IH]; intros F D k L i Li; [right; split; [reflexivity|apply Nat.le_0_l]|]. destruct F as [|F]; [lia|]. cbn [nested_within kserd_nested Nat.pred].
  assert (AD : forall b, ag (S F) n (kserd_delimited n b) (kserd_delimited D b)) by (intros b j Lj; apply (ag_delimited' n D b); lia).
  assert (OD : forall b, okl (S F) wfk (kserd_delimited D b)) by (intros b; eapply okl_mono; [|apply okl_delimited]; lia).
  unfold pattern_match_verbose. pose proof (okl_multi_ws (S F) i Li) as M.
  destruct (multiline_whitespace i) as [r w|e|e| |]; cbn [pbind]; try now left.
  destruct (_ || _).
  - unfold cntr_verbose. eapply rel_bind; [apply (ag_many0 (S F) n wfc); [| |exact Li]| |intros; now left].
    + apply okl_verbose_field; [apply OD|apply OD|]. apply okl_nested. lia.
    + apply ag_verbose_field; try apply OD; try apply AD. apply IH. lia.
    + apply (okl_many0 (S F) wfc); [|exact Li]. apply okl_verbose_field; [apply OD|apply OD|]. apply okl_nested. lia.
  - apply (ag_ignore_ws (S F)); [|exact Li]. apply AD.
Qed.

(** a limit on the recursion changes nothing, unless it is reached; and it is not reached if it is two more than the opening delimiters *)
Lemma within_rel n t : root_within n t = kserd_root t \/ (root_within n t = PFuel /\ n <= S (opens t)).
Proof.
  unfold root_within, kserd_root. destruct t as [|c t]; [now left|]. set (i := c :: t).
  assert (A : rel (Nat.pred n) i (terminated (nested_within n 0) multiline_whitespace i) (terminated (kserd_nested (S (length i)) (S (length i)) 0) multiline_whitespace i)).
  { apply (ag_terminated (S (length i)) _ wfk); [apply okl_nested; lia|apply ag_nested; lia|lia]. }
  unfold all_consuming. destruct A as [->|[-> A]]; [now left|right; split; [reflexivity|lia]].
Qed.
Lemma within_or_fuel n t : parse_within n t = parse t \/ parse_within n t = ParseFuel.
Proof. unfold parse_within, parse. destruct (within_rel n t) as [->|[-> _]]; [now left|now right]. Qed.
Lemma within_enough n t : S (opens t) < n -> parse_within n t = parse t.
Proof. intros L. unfold parse_within, parse. destruct (within_rel n t) as [->|[_ H]]; [reflexivity|lia]. Qed.
