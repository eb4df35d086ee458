(** What is written is not taken for another value: formatters and values. *)
From Verif Require Import ParseSpec PropertiesParse Base F64 Number NumberSpec BTree Value BTreeProps ValueSpec ValueProps ValueProps2 Nav NavSpec NavProps NavProps2 Nom Parse ParseErr Fmt Formatter FmtText FmtSpec FmtProps FmtProps2 FormatterProps FormatterProps2 FormatterProps3 FormatterProps4 Grammar RtSpec RtProps2 RtProps3 RtProps4 RtProps5 RtProps6 RtProps7 GrammarProps MisreadSpec MisreadProps5.
Open Scope nat_scope.

Lemma clear_strings k fm : clear (shown k fm) = true -> strings_ok k.
Proof.
  intros S. unfold clear in S. rewrite each_all in S. rewrite <- (shown_undeco k fm). unfold strings_ok.
  rewrite <- k_all_preorder. revert S. generalize (shown k fm). clear. intros d. induction d as [f id v IH] using dk_ind'. intros S. apply d_all_children in S as [S SC].
  cbn [undeco]. apply k_all_children. assert (C : Forall (fun c => k_all str_ok (undeco c) = true) (d_children v)) by (rewrite Forall_forall in *; auto). split.
  - destruct v; try reflexivity. unfold clear_node, clear_string in S. cbn [d_val] in S. apply andb_true_iff in S as [_ S]. apply str_ok_delimiter. destruct (delimiter t); [discriminate|discriminate].
  - destruct v; cbn [vchildren]; try constructor; cbn [d_children] in C.
    + now rewrite Forall_map.
    + rewrite Forall_map in C. now rewrite !Forall_map.
    + now rewrite Forall_map.
    + apply Forall_entries in C. apply Forall_entries. rewrite Forall_map. exact C.
Qed.
Theorem never_misread k fm t k' : reachable k fm -> (forall i, line_of fm i <> Some Verbose) -> clear (deco (fm_fmts fm) 0 k) = true ->
  fm_write fm [] = LRet t -> parse t = ParseOk k' -> k' = norm (deco (fm_fmts fm) 0 k).
Proof.
  intros R V T E P. change (deco (fm_fmts fm) 0 k) with (shown k fm) in *. pose proof (clear_strings k fm T) as S.
  pose proof (reachable_finv k fm R) as FI. rewrite (fm_write_text k fm [] FI S) in E. injection E as <-.
  replace (FmtText.cut (shown k fm) []) with (@nil char) in P by (unfold FmtText.cut; destruct (drops _); reflexivity). cbn [app] in P.
  apply text_read in P; [exact P|]. split; [unfold clear in T; now rewrite each_all in T|now apply shown_flat].
Qed.
Theorem refused_or_right k fm : reachable k fm -> (forall i, line_of fm i <> Some Verbose) -> clear (deco (fm_fmts fm) 0 k) = true ->
  exists t, fm_write fm [] = LRet t /\ ((exists e, parse t = ParseErr e) \/ parse t = ParseOk (norm (deco (fm_fmts fm) 0 k))).
Proof.
  intros R V T. destruct (write_returns k fm [] R (clear_strings k fm T)) as (t & E). exists t. split; [exact E|].
  destruct (C17_parse_total t) as [[k' P]|[e P]]; [right|left; now exists e]. rewrite P. f_equal. now apply (never_misread k fm t).
Qed.
Theorem never_unequal k fm t k' : reachable k fm -> (forall i, line_of fm i <> Some Verbose) -> k_sorted k = true ->
  clear (deco (fm_fmts fm) 0 k) = true -> each faithful_node (deco (fm_fmts fm) 0 k) = true ->
  fm_write fm [] = LRet t -> parse t = ParseOk k' -> k_eqb k' k = true.
Proof. intros R V K T F E P. rewrite (never_misread k fm t k' R V T E P). now apply norm_equal_k. Qed.

(** ** conditions on the value alone *)
Lemma clear_shown d : k_all clear_value (undeco d) = true -> d_all (fun x => negb (drops x)) d = true ->
  d_all clear_node d = true /\ (k_all whole_value (undeco d) = true -> d_all faithful_node d = true).
Proof.
  induction d as [f id v IH] using dk_ind'. intros S T. apply d_all_children in T as [T TC].
  change (undeco (DK f id v)) with (Kserd id (kval (undeco (DK f id v)))) in *. apply k_all_children in S as [S SC]. rewrite undeco_children, Forall_map in SC.
  assert (C : Forall (fun c => d_all clear_node c = true /\ (k_all whole_value (undeco c) = true -> d_all faithful_node c = true)) (d_children v)) by (rewrite Forall_forall in *; auto).
  rewrite !d_all_children. assert (C1 := C). apply Forall_and_inv in C as [CA CB].
  assert (ND : Forall (fun c => drops c = false) (d_children v)).
  { eapply Forall_impl; [|exact TC]. intros [f' id' v'] H. apply d_all_children in H as [H _]. now apply negb_true_iff in H. }
  clear IH SC TC C1. unfold clear_value in S. cbn [kid kval undeco] in S. apply andb_true_iff in S as [I S].
  assert (IP : opt_ok is_id_plain (if f_id f then id else None) = true) by (destruct (f_id f); [exact I|reflexivity]).
  assert (IQ : opt_ok is_id (if f_id f then id else None) = true) by (destruct (if f_id f then id else None); [now apply id_plain_id|reflexivity]).
  split; [split; [|assumption]|intros X; apply k_all_children in X as [X XC]; rewrite undeco_children, Forall_map in XC;
    split; [|rewrite Forall_forall in *; auto]]; unfold clear_node, faithful_node, shown_id, d_line; cbn [d_val d_id d_fmt].
  - destruct v as [|b|n|t|b|l|m|l|m]; rewrite ?IP, ?IQ; cbn [andb]; try reflexivity.
    + destruct id as [[|x i]|]; [reflexivity|exact I|reflexivity].
    + unfold clear_string in *. destruct (delimiter t); [|discriminate]. cbn [is_some orb] in S. rewrite S. apply orb_true_r.
    + exact S.
    + destruct (f_line f); try reflexivity. destruct l; [reflexivity|]. cbn [d_children first_shown] in *. inversion_clear ND as [|? ? H _]. now rewrite H.
    + change (forallb (fun e : str * kserd => match fst e with [] => false | n => forallb name_char n end) (map (fun e => (fst e, undeco (snd e))) m) = true) in S. now rewrite forallb_mapped in S.
    + destruct (f_line f); try reflexivity. destruct l; [reflexivity|]. cbn [d_children first_shown] in *. inversion_clear ND as [|? ? H _]. now rewrite H.
  - unfold whole_value in X. cbn [kid kval undeco] in X. destruct v as [|b|n|t|b|l|m|l|m]; try reflexivity.
    + exact X.
    + exact X.
    + destruct l; [|reflexivity]. unfold drops in T. destruct id; [|discriminate X]. now destruct (f_id f).
    + destruct m; [discriminate|reflexivity].
Qed.
Theorem as_str_never_misread k cfg t k' : (is_cntr k = false \/ width_limit cfg = None) -> k_all clear_value k = true ->
  (id_on_tuples cfg = true \/ forall x, In x (preorder k) -> match kval x with VTuple _ => kid x = None | _ => True end) ->
  k_sorted k = true -> k_all whole_value k = true ->
  as_str_with_config k cfg = LRet t -> parse t = ParseOk k' -> k_eqb k' k = true.
Proof.
  intros C S T K W E P. unfold as_str_with_config in E. destruct (new_returns k) as (fm & EN & R). rewrite EN in E. cbn [lbind] in E.
  destruct (config_returns k fm cfg R) as (fm' & E' & R'); [destruct C; [now right; left|now right; right]|]. rewrite E' in E. cbn [lbind] in E.
  pose proof (config_tuples k fm cfg fm' R E' T) as TS. unfold tuple_ids_shown in TS. rewrite each_all in TS.
  destruct (clear_shown (shown k fm')) as [A B]; [now rewrite shown_undeco|exact TS|]. rewrite shown_undeco in B.
  assert (V : no_verbose fm').
  { destruct C as [C|C]; [now apply (root_not_verbose k)|].
    intros i H. pose proof (reachable_invariant k fm' R') as (_ & L & _). destruct (config_flags k fm cfg fm' R E') as [N _].
    assert (Hi : i < nav_len (fm_nav fm)). { rewrite <- N, <- L. unfold line_of in H. apply nth_error_Some. destruct (nth_error _ i); [congruence|discriminate]. }
    rewrite (config_no_limit k fm cfg fm' R C E' i Hi) in H. discriminate. }
  apply (never_unequal k fm' t k' R' V K); auto.
Qed.
