(** Encoding, formatting, parsing and decoding when the text may be refused. *)
From Verif Require Import ParseSpec PropertiesParse Base BaseProps F64 Number NumberSpec NumberProps3 BTree BTreeProps Value ValueSpec ValueProps ValueProps2 Nav NavSpec NavProps NavProps2 Nom Parse ParseErr Fmt Formatter FmtText FmtSpec FmtProps FmtProps2 FormatterProps FormatterProps2 FormatterProps3 FormatterProps4 RtSpec RtProps2 RtProps3 RtProps4 RtProps5 RtProps6 RtProps7 VSpec VRtProps2 VRtProps4 VRtProps5 TextSpec Encode NameSpec EncodeSpec EncodeProps EncodeProps2 EncodeProps3 EncodeProps8 EncodeProps9 MisreadSpec MisreadProps6 LegibleSpec MisreadSpec2 MisreadProps9 MisreadProps10 StuckSpec StuckProps2 TextSpec2.
From Verif Require LocalProps3.
Open Scope nat_scope.

Lemma lasting_whole k : k_all lasting_value k = true -> k_exact k = true -> k_all whole_value k = true.
Proof.
  induction k as [i v IH] using kserd_ind'. unfold k_exact in *. rewrite !k_all_children. intros [L LC] [X XC]. split; [|rewrite Forall_forall in *; auto].
  unfold lasting_value, num_node, whole_value in *. cbn [kid kval] in *. destruct v as [|b|n|t|b|[|x l]|[|e m]|l|m]; try reflexivity; try assumption; now destruct i.
Qed.
Lemma lasting_kept d : k_all clear_value (undeco d) = true -> k_all lasting_value (undeco d) = true -> data_ids_shown d = true -> key_numbers (undeco d) = true -> d_all kept_node d = true.
Proof.
  induction d as [f id v IH] using dk_ind'. intros R Z D K. pose proof (data_tuple_ids _ D) as TI. unfold data_ids_shown in D. rewrite each_all in D. apply d_all_children in D as [D DC].
  apply d_all_children. pose proof (keys_exact_kids f id v K) as KC. unfold tuple_ids_shown in TI. rewrite each_all in TI. apply d_all_children in TI as [_ TC].
  change (undeco (DK f id v)) with (Kserd id (kval (undeco (DK f id v)))) in R, Z. apply k_all_children in R as [R RC]. apply k_all_children in Z as [Z ZC]. rewrite undeco_children, Forall_map in RC, ZC.
  split.
  2:{ rewrite Forall_forall in *. intros c Hc. apply IH; auto. }
  unfold kept_node. cbn [d_val d_id] in *. unfold lasting_value in Z. cbn [kid kval] in Z.
  destruct v as [|b|n|t|b|l|m|l|m]; try reflexivity.
  - now destruct id.
  - exact Z.
  - rewrite D. destruct l; [|reflexivity]. now destruct id.
  - rewrite D. destruct m; [discriminate Z|reflexivity].
  - unfold key_numbers in K. cbn [undeco] in K. apply k_all_children in K as [K _]. unfold keys_exact in K. cbn [kval] in K. rewrite forallb_mapped in K.
    cbn [d_children] in RC, TC, ZC. apply Forall_entries in RC, TC, ZC. rewrite Forall_forall in *. apply forallb_forall. intros e He. rewrite forallb_forall in K. specialize (K e He). cbn [fst] in K.
    destruct (RC e He) as [RE _], (TC e He) as [TE _], (ZC e He) as [ZE _]. rewrite each_all. apply (clear_shown (fst e) RE TE). now apply lasting_whole.
Qed.

Section EndToEnd.
  Context (E : decls) (W : good_decls E).
  Theorem never_wrong t d k fm text k' : has_type E t d = true -> f32s_kept d -> EncodeSpec.apart E t d -> enc E t d = inr k ->
    reachable k fm -> clear (deco (fm_fmts fm) 0 k) = true -> vclear true true (deco (fm_fmts fm) 0 k) = true -> each kept_node (deco (fm_fmts fm) 0 k) = true ->
    fm_write fm [] = LRet text -> parse text = ParseOk k' -> dec E t k' = Some d.
  Proof.
    intros T G A H R CL V K WR P. destruct (enc_facts E W t d k T A H) as (C & S & TY & _). rewrite (never_misread_titles k fm text k' R S CL V WR P).
    apply codes_dec; auto. apply (codes_like true E ltac:(discriminate) d t k); [exact C|].
    change (deco (fm_fmts fm) 0 k) with (shown k fm) in *. rewrite <- (shown_undeco k fm) at 1. apply vnorm_like. split; [rewrite <- each_all; now apply kept_named|]. rewrite shown_undeco. auto.
  Qed.
  Theorem as_str_never_wrong t d k cfg : has_type E t d = true -> f32s_kept d -> EncodeSpec.apart E t d -> enc E t d = inr k ->
    told_apart true k = true -> k_all clear_value k = true -> k_all lasting_value k = true -> ~ stuck cfg k -> id_on_tuples cfg = true -> id_on_containers cfg = true ->
    exists text, as_str_with_config k cfg = LRet text /\ ((exists e, parse text = ParseErr e) \/ exists k', parse text = ParseOk k' /\ dec E t k' = Some d).
  Proof.
    intros T G A H TA CV LV C HT HC. destruct (enc_facts E W t d k T A H) as (_ & S & _ & KN). unfold as_str_with_config. destruct (new_returns k) as (fm & E0 & R). rewrite E0. cbn [lbind].
    destruct (config_free k fm cfg E0 C) as (fm' & E' & R'). rewrite E'. cbn [lbind].
    pose proof (config_data k fm cfg fm' R E' HT HC) as DI. pose proof (data_tuple_ids _ DI) as TI. pose proof TI as TS. unfold tuple_ids_shown in TS. rewrite each_all in TS.
    assert (V : vclear true true (deco (fm_fmts fm') 0 k) = true) by (apply (told_apart_clear true); [exact R'|exact TA|exact TI|intros _; now apply data_cntr_ids]).
    change (deco (fm_fmts fm') 0 k) with (shown k fm') in *.
    assert (CL : clear (shown k fm') = true) by (unfold clear; rewrite each_all; apply clear_shown; [now rewrite shown_undeco|exact TS]).
    assert (K : each kept_node (shown k fm') = true) by (rewrite each_all; apply lasting_kept; rewrite ?shown_undeco; assumption).
    destruct (refused_or_right_titles k fm' R' S CL V) as (text & WR & O). exists text. split; [exact WR|].
    destruct O as [O|O]; [now left|right]. eexists. split; [exact O|]. exact (never_wrong t d k fm' text _ T G A H R' CL V K WR O).
  Qed.
End EndToEnd.
