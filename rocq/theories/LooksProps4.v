(** Whatever is accepted is written again as it was. *)
From Verif Require Import ParseSpec PropertiesParse Base BaseProps F64 Number NumberSpec BTree BTreeProps Value ValueSpec ValueProps ValueProps2 Nav NavSpec NavProps NavProps2 Nom Parse ParseErr Grammar Fmt Formatter FmtText FmtSpec FmtProps FmtProps2 FormatterProps FormatterProps2 FormatterProps3 FormatterProps4 RtSpec RtProps2 RtProps3 RtProps4 RtProps5 RtProps6 RtProps7 VSpec VRtProps2 VRtProps4 VRtProps5 TextSpec LooksSpec LooksProps LooksProps2 LooksProps3 MisreadSpec MisreadProps6 LegibleSpec MisreadSpec2 MisreadProps9 MisreadProps10 Encode EncodeSpec EncodeProps8.
From Verif Require LocalProps3.
Open Scope nat_scope.

Lemma whole_stable cfg d : d_all (as_flagged cfg) d = true -> d_all (fun x => negb (drops x)) d = true -> d_all faithful_node d = true -> k_typed (undeco d) = true -> k_all no_neg_zero (undeco d) = true ->
  d_all (stable_node cfg) d = true.
Proof.
  induction d as [f id v IH] using dk_ind'. intros FL TI F TY Z. apply d_all_children in FL as [FL FC]. apply d_all_children in TI as [T TC]. apply d_all_children in F as [F FF]. apply typed_kids in TY as [TY TYC].
  apply d_all_children. change (undeco (DK f id v)) with (Kserd id (kval (undeco (DK f id v)))) in Z. apply k_all_children in Z as [Z ZC]. rewrite undeco_children, Forall_map in ZC.
  split.
  2:{ rewrite Forall_forall in *. intros c Hc. apply IH; auto. }
  unfold stable_node. rewrite FL, T. cbn [andb d_val d_id] in *. unfold faithful_node in F. cbn [d_val d_id] in F. unfold no_neg_zero in Z. cbn [kval] in Z. unfold typed_node in TY. cbn [undeco kval] in TY.
  destruct v as [|b|n|t|b|l|m|l|m]; try reflexivity; try exact F.
  - cbn [undeco kval] in *. apply andb_true_iff. split; [exact TY|exact Z].
  - cbn [d_children] in FF. apply Forall_entries in FF. rewrite Forall_forall in FF. apply forallb_forall. intros e He. rewrite each_all. now apply (FF e He).
Qed.
Theorem accepted_looks k cfg t k' : told_apart (id_on_containers cfg) k = true -> k_all clear_value k = true -> k_all whole_value k = true ->
  k_sorted k = true -> k_typed k = true -> k_all no_neg_zero k = true -> tuple_ids_seen cfg k -> (forall x, In x (preorder k) -> no_title_ids cfg x) ->
  as_str_with_config k cfg = LRet t -> parse t = ParseOk k' -> looks cfg k' k.
Proof.
  intros C S W K TY Z T Q E P. unfold as_str_with_config in E. destruct (new_returns k) as (fm & EN & R). rewrite EN in E. cbn [lbind] in E.
  destruct (apply_config fm cfg) as [fm'| |] eqn:E'; try discriminate. cbn [lbind] in E.
  assert (R' : reachable k fm') by (exact (LocalProps3.reach_step k fm (OpConfig cfg) fm' R E')).
  pose proof (config_tuples k fm cfg fm' R E' T) as TA. pose proof TA as TS. unfold tuple_ids_shown in TS. rewrite each_all in TS.
  destruct (clear_shown (shown k fm')) as [A B]; [now rewrite shown_undeco|exact TS|]. rewrite shown_undeco in B. specialize (B W).
  assert (V : vclear true true (deco (fm_fmts fm') 0 k) = true) by (apply (told_apart_clear (id_on_containers cfg)); [exact R'|exact C|exact TA|exact (config_cntrs k fm cfg fm' R E')]).
  assert (CL : clear (deco (fm_fmts fm') 0 k) = true) by (unfold clear; rewrite each_all; exact A).
  rewrite (never_misread_titles k fm' t k' R' K CL V E P). change (deco (fm_fmts fm') 0 k) with (shown k fm') in *.
  pose proof (config_as_flagged k fm cfg fm' R E') as AF. rewrite <- (shown_undeco k fm') at 2. apply vnorm_looks. split; [split|].
  - apply whole_stable; rewrite ?shown_undeco; assumption.
  - now rewrite shown_undeco.
  - apply (title_ids cfg); [exact AF|]. now rewrite shown_undeco.
Qed.
Theorem accepted_twice k cfg t k' : told_apart (id_on_containers cfg) k = true -> k_all clear_value k = true -> k_all whole_value k = true ->
  k_sorted k = true -> k_typed k = true -> k_all no_neg_zero k = true -> tuple_ids_seen cfg k -> (forall x, In x (preorder k) -> no_title_ids cfg x) ->
  as_str_with_config k cfg = LRet t -> parse t = ParseOk k' ->
  as_str_with_config k' cfg = LRet t /\ forall w, as_str_with_config k' (with_width cfg w) = as_str_with_config k (with_width cfg w).
Proof.
  intros C S W K TY Z T Q E P. pose proof (accepted_looks k cfg t k' C S W K TY Z T Q E P) as L. split; [rewrite <- E; now apply looks_text|]. intros w. now apply looks_text, looks_width.
Qed.
