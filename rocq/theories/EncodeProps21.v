(** Values written without the names of their structs, when the text may be refused. *)
From Verif Require Import ParseSpec PropertiesParse Base BaseProps F64 Number NumberSpec NumberProps3 BTree BTreeProps Value ValueSpec ValueProps ValueProps2 Nav NavSpec NavProps NavProps2 Nom Parse ParseErr Fmt Formatter FmtText FmtSpec FmtProps FmtProps2 FormatterProps FormatterProps2 FormatterProps3 FormatterProps4 RtSpec RtProps2 RtProps3 RtProps4 RtProps5 RtProps6 RtProps7 VSpec VRtProps2 VRtProps4 VRtProps5 TextSpec Encode NameSpec EncodeSpec EncodeProps EncodeProps2 EncodeProps3 EncodeProps8 EncodeProps9 MisreadSpec MisreadProps6 LegibleSpec MisreadSpec2 MisreadProps9 MisreadProps10 StuckSpec StuckProps2 TextSpec2 NameProps2 EncodeProps20.
Open Scope nat_scope.

Lemma lasting_unnamed d : k_all clear_value (undeco d) = true -> k_all lasting_value (undeco d) = true -> tuple_ids_shown d = true -> key_numbers (undeco d) = true -> d_all (kept_at false) d = true.
Proof.
  induction d as [f id v IH] using dk_ind'. intros R Z TI K.
  apply d_all_children. pose proof (keys_exact_kids f id v K) as KC. unfold tuple_ids_shown in TI. rewrite each_all in TI. apply d_all_children in TI as [TN TC].
  change (undeco (DK f id v)) with (Kserd id (kval (undeco (DK f id v)))) in R, Z. apply k_all_children in R as [R RC]. apply k_all_children in Z as [Z ZC]. rewrite undeco_children, Forall_map in RC, ZC.
  split.
  2:{ rewrite Forall_forall in *. intros c Hc. apply IH; auto. }
  unfold kept_at, kept_node. cbn [d_val d_id] in *. unfold lasting_value in Z. cbn [kid kval] in Z.
  destruct v as [|b|n|t|b|l|m|l|m]; try reflexivity.
  - now destruct id.
  - exact Z.
  - rewrite tuple_kept by (apply negb_true_iff; exact TN). destruct l; [|reflexivity]. now destruct id.
  - destruct m; [discriminate Z|reflexivity].
  - unfold key_numbers in K. cbn [undeco] in K. apply k_all_children in K as [K _]. unfold keys_exact in K. cbn [kval] in K. rewrite forallb_mapped in K.
    cbn [d_children] in RC, TC, ZC. apply Forall_entries in RC, TC, ZC. rewrite Forall_forall in *. apply forallb_forall. intros e He. rewrite forallb_forall in K. specialize (K e He). cbn [fst] in K.
    destruct (RC e He) as [RE _], (TC e He) as [TE _], (ZC e He) as [ZE _]. rewrite each_all. apply (clear_shown (fst e) RE TE). now apply lasting_whole.
Qed.

Theorem as_str_unnamed_never_wrong E t d k cfg : good_decls E -> no_struct_variant E -> has_type E t d = true -> f32s_kept d -> EncodeSpec.apart E t d -> enc E t d = inr k ->
  told_apart (id_on_containers cfg) k = true -> k_all clear_value k = true -> k_all lasting_value k = true -> ~ stuck cfg k -> id_on_tuples cfg = true ->
  exists text, as_str_with_config k cfg = LRet text /\ ((exists e, parse text = ParseErr e) \/ exists k', parse text = ParseOk k' /\ dec E t k' = Some d).
Proof.
  intros W NV T G A H TA CV LV C HT. destruct (enc_facts E W t d k T A H) as (CO & S & TY & KN). unfold as_str_with_config. destruct (new_returns k) as (fm & E0 & R). rewrite E0. cbn [lbind].
  destruct (config_free k fm cfg E0 C) as (fm' & E' & R'). rewrite E'. cbn [lbind].
  pose proof (config_tuples k fm cfg fm' R E' (or_introl HT)) as TI. pose proof TI as TS. unfold tuple_ids_shown in TS. rewrite each_all in TS.
  assert (V : vclear true true (deco (fm_fmts fm') 0 k) = true) by (apply (told_apart_clear (id_on_containers cfg)); [exact R'|exact TA|exact TI|exact (config_cntrs k fm cfg fm' R E')]).
  change (deco (fm_fmts fm') 0 k) with (shown k fm') in *.
  assert (CL : clear (shown k fm') = true) by (unfold clear; rewrite each_all; apply clear_shown; [now rewrite shown_undeco|exact TS]).
  assert (K : d_all (kept_at false) (shown k fm') = true) by (apply lasting_unnamed; rewrite ?shown_undeco; assumption).
  destruct (refused_or_right_titles k fm' R' S CL V) as (text & WR & O). exists text. split; [exact WR|].
  destruct O as [O|O]; [now left|right]. eexists. split; [exact O|]. apply codes_dec; auto. apply (codes_like false E (fun _ => NV) d t k); [exact CO|].
  change (deco (fm_fmts fm') 0 k) with (shown k fm'). rewrite <- (shown_undeco k fm') at 1. apply vnorm_like. split; [exact K|]. rewrite shown_undeco. auto.
Qed.
