(** Values written without the names of their structs. *)
From Verif Require Import Base BaseProps F64 Number NumberSpec NumberProps3 BTree BTreeProps Value ValueSpec ValueProps ValueProps2 Nav NavSpec NavProps NavProps2 Nom Parse ParseErr Fmt Formatter FmtText FmtSpec FmtProps FmtProps2 FormatterProps FormatterProps2 FormatterProps3 FormatterProps4 RtSpec RtProps2 RtProps3 RtProps4 RtProps5 RtProps6 RtProps7 VSpec VRtProps2 VRtProps4 VRtProps5 TextSpec Encode NameSpec EncodeSpec EncodeProps EncodeProps2 EncodeProps3 EncodeProps8 EncodeProps9 StuckSpec StuckProps2.
Open Scope nat_scope.

Lemma tuple_kept f id l : drops (DK f id (VTuple l)) = false -> id_kept (DK f id (VTuple l)) = true.
Proof. unfold drops, id_kept. cbn [d_id d_fmt d_val]. destruct id; [|now rewrite orb_true_r]. destruct (f_id f); [reflexivity|discriminate]. Qed.
Lemma unnamed_kept d : k_all readable_node (undeco d) = true -> tuple_ids_shown d = true -> k_all no_neg_zero (undeco d) = true -> key_numbers (undeco d) = true -> d_all (kept_at false) d = true.
Proof.
  induction d as [f id v IH] using dk_ind'. intros R TI Z K.
  apply d_all_children. pose proof (keys_exact_kids f id v K) as KC. unfold tuple_ids_shown in TI. rewrite each_all in TI. apply d_all_children in TI as [TN TC].
  change (undeco (DK f id v)) with (Kserd id (kval (undeco (DK f id v)))) in R, Z. apply k_all_children in R as [R RC]. apply k_all_children in Z as [Z ZC]. rewrite undeco_children, Forall_map in RC, ZC.
  split.
  2:{ rewrite Forall_forall in *. intros c Hc. apply IH; auto. }
  unfold kept_at, kept_node. cbn [d_val d_id] in *. unfold readable_node in R. cbn [kid kval] in R. apply andb_true_iff in R as [_ R]. unfold no_neg_zero in Z. cbn [kval] in Z.
  destruct v as [|b|n|t|b|l|m|l|m]; try reflexivity.
  - exact R.
  - cbn [undeco kval] in *. apply andb_true_iff in R as [_ R]. unfold num_kept. destruct n as [| |[| |]]; try discriminate; try reflexivity. exact Z.
  - rewrite tuple_kept by (apply negb_true_iff; exact TN). destruct l; [exact R|reflexivity].
  - destruct m; [discriminate R|reflexivity].
  - unfold key_numbers in K. cbn [undeco] in K. apply k_all_children in K as [K _]. unfold keys_exact in K. cbn [kval] in K. rewrite forallb_mapped in K.
    cbn [d_children] in RC, TC. apply Forall_entries in RC, TC. rewrite Forall_forall in *. apply forallb_forall. intros e He. rewrite forallb_forall in K. specialize (K e He). cbn [fst] in K.
    destruct (RC e He) as [RE _], (TC e He) as [TE _]. apply readable_faithful; auto.
Qed.

Section Unnamed.
  Context (E : decls) (W : good_decls E) (NV : no_struct_variant E).
  Theorem text_unnamed ids t d k fm : has_type E t d = true -> f32s_kept d -> EncodeSpec.apart E t d -> enc E t d = inr k ->
    reachable k fm -> readable_tree k = true -> k_all no_neg_zero k = true -> vsimple ids k = true \/ no_verbose fm -> (ids = true -> cntr_ids_shown (deco (fm_fmts fm) 0 k) = true) ->
    tuple_ids_shown (deco (fm_fmts fm) 0 k) = true ->
    exists text k', fm_write fm [] = LRet text /\ parse text = ParseOk k' /\ dec E t k' = Some d.
  Proof.
    intros T G A H R RT Z V CI TI. destruct (enc_facts E W t d k T A H) as (C & S & TY & KN).
    assert (K : each (kept_at false) (deco (fm_fmts fm) 0 k) = true).
    { rewrite each_all. change (deco (fm_fmts fm) 0 k) with (shown k fm) in *. unfold readable_tree in RT. apply andb_true_iff in RT as [RT _]. apply unnamed_kept; rewrite ?shown_undeco; assumption. }
    destruct V as [V|V].
    - apply (any_text E W false t d k fm); auto. now apply (any_readable ids).
    - apply (flat_text E W false t d k fm); auto. change (deco (fm_fmts fm) 0 k) with (shown k fm) in *. apply readable_text_safe; [now rewrite shown_undeco|exact TI].
  Qed.
  Theorem as_str_unnamed t d k cfg : has_type E t d = true -> f32s_kept d -> EncodeSpec.apart E t d -> enc E t d = inr k ->
    readable_tree k = true -> k_all no_neg_zero k = true -> (vsimple (id_on_containers cfg) k = true /\ ~ stuck cfg k) \/ is_cntr k = false \/ width_limit cfg = None ->
    id_on_tuples cfg = true ->
    exists text k', as_str_with_config k cfg = LRet text /\ parse text = ParseOk k' /\ dec E t k' = Some d.
  Proof.
    intros T G A H RT Z V HT. unfold as_str_with_config. destruct (new_returns k) as (fm & E0 & R). rewrite E0. cbn [lbind].
    destruct (config_free k fm cfg E0) as (fm' & E' & R'); [destruct V as [[_ V]|[V|V]]; [exact V|apply solvable_free; now right; left|apply solvable_free; now right; right]|]. rewrite E'. cbn [lbind].
    apply (text_unnamed (id_on_containers cfg)) with (k := k); auto; [|intros HC; now apply (config_cntrs k fm cfg)|apply (config_tuples k fm cfg); auto].
    destruct V as [[V _]|[V|V]]; [now left|right; now apply (root_not_verbose k)|right].
    intros i HI. pose proof (reachable_invariant k fm' R') as (_ & L & _). destruct (config_flags k fm cfg fm' R E') as [N _].
    assert (Hi : i < nav_len (fm_nav fm)). { rewrite <- N, <- L. unfold line_of in HI. apply nth_error_Some. destruct (nth_error _ i); [congruence|discriminate]. }
    rewrite (config_no_limit k fm cfg fm' R V E' i Hi) in HI. discriminate.
  Qed.
End Unnamed.
