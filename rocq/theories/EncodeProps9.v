(** Encoding, formatting, parsing and decoding: end to end. *)
From Verif Require Import Base BaseProps F64 Number NumberSpec NumberProps3 BTree BTreeProps Value ValueSpec ValueProps ValueProps2 Nav NavSpec NavProps NavProps2 Nom Parse ParseErr Fmt Formatter FmtText FmtSpec FmtProps FmtProps2 FormatterProps FormatterProps2 FormatterProps3 FormatterProps4 RtSpec RtProps2 RtProps3 RtProps4 RtProps5 RtProps6 RtProps7 VSpec VRtProps2 VRtProps4 VRtProps5 TextSpec Encode NameSpec EncodeSpec EncodeProps EncodeProps2 EncodeProps3 EncodeProps8 StuckSpec StuckProps2.
Open Scope nat_scope.

Section EndToEnd.
  Context (E : decls) (W : good_decls E).
  Lemma enc_facts t d k : has_type E t d = true -> EncodeSpec.apart E t d -> enc E t d = inr k -> codes E t d k /\ k_sorted k = true /\ k_typed k = true /\ key_numbers k = true.
  Proof. intros T A H. destruct (enc_codes E W d t T A) as (k' & H' & C & S & [TY KN] & _). rewrite H in H'. injection H' as <-. auto. Qed.
  Theorem any_codes named t d k fm : (named = false -> no_struct_variant E) -> has_type E t d = true -> EncodeSpec.apart E t d -> enc E t d = inr k ->
    reachable k fm -> vsafe true 0 (deco (fm_fmts fm) 0 k) = true -> each (kept_at named) (deco (fm_fmts fm) 0 k) = true ->
    exists text k', fm_write fm [] = LRet text /\ parse text = ParseOk k' /\ codes E t d k'.
  Proof.
    intros NV T A H R V K. destruct (enc_facts t d k T A H) as (C & S & TY & _). destruct (any_parses k fm R S V) as (text & WR & P).
    exists text, (vnorm (deco (fm_fmts fm) 0 k)). repeat (split; [assumption|]). apply (codes_like named E NV d t k); [exact C|].
    change (deco (fm_fmts fm) 0 k) with (shown k fm) in *. rewrite <- (shown_undeco k fm) at 1. apply vnorm_like. split; [now rewrite <- each_all|]. rewrite shown_undeco. auto.
  Qed.
  Theorem flat_codes named t d k fm : (named = false -> no_struct_variant E) -> has_type E t d = true -> EncodeSpec.apart E t d -> enc E t d = inr k ->
    reachable k fm -> no_verbose fm -> text_safe (deco (fm_fmts fm) 0 k) = true -> each (kept_at named) (deco (fm_fmts fm) 0 k) = true ->
    exists text k', fm_write fm [] = LRet text /\ parse text = ParseOk k' /\ codes E t d k'.
  Proof.
    intros NV T A H R V F K. destruct (enc_facts t d k T A H) as (C & S & TY & _). destruct (layout_parses k fm R V F) as (text & WR & P).
    exists text, (norm (deco (fm_fmts fm) 0 k)). repeat (split; [assumption|]). apply (codes_like named E NV d t k); [exact C|].
    change (deco (fm_fmts fm) 0 k) with (shown k fm) in *. rewrite <- (shown_undeco k fm) at 1. apply norm_like. split; [now rewrite <- each_all|]. rewrite shown_undeco. auto.
  Qed.
  Lemma kept_named d : each kept_node d = true -> each (kept_at true) d = true.
  Proof.
    rewrite !each_all. induction d as [f id v IH] using dk_ind'. rewrite !d_all_children. intros [H C]. split; [|rewrite Forall_forall in *; auto].
    unfold kept_at. cbn [d_val]. destruct v; exact H.
  Qed.
  Theorem codes_layouts t d k fm : has_type E t d = true -> EncodeSpec.apart E t d -> enc E t d = inr k ->
    reachable k fm -> vsafe true 0 (deco (fm_fmts fm) 0 k) = true -> each kept_node (deco (fm_fmts fm) 0 k) = true ->
    exists text k', fm_write fm [] = LRet text /\ parse text = ParseOk k' /\ codes E t d k'.
  Proof. intros T A H R V K. apply (any_codes true t d k fm); auto; [discriminate|now apply kept_named]. Qed.
  Theorem codes_flat t d k fm : has_type E t d = true -> EncodeSpec.apart E t d -> enc E t d = inr k ->
    reachable k fm -> no_verbose fm -> text_safe (deco (fm_fmts fm) 0 k) = true -> each kept_node (deco (fm_fmts fm) 0 k) = true ->
    exists text k', fm_write fm [] = LRet text /\ parse text = ParseOk k' /\ codes E t d k'.
  Proof. intros T A H R V F K. apply (flat_codes true t d k fm); auto; [discriminate|now apply kept_named]. Qed.
  Theorem text_layouts t d k fm : has_type E t d = true -> f32s_kept d -> EncodeSpec.apart E t d -> enc E t d = inr k ->
    reachable k fm -> vsafe true 0 (deco (fm_fmts fm) 0 k) = true -> each kept_node (deco (fm_fmts fm) 0 k) = true ->
    exists text k', fm_write fm [] = LRet text /\ parse text = ParseOk k' /\ dec E t k' = Some d.
  Proof. intros T G A H R V K. destruct (codes_layouts t d k fm T A H R V K) as (text & k' & W' & P & C). exists text, k'. repeat (split; [assumption|]). now apply codes_dec. Qed.
  Theorem any_text named t d k fm : (named = false -> no_struct_variant E) -> has_type E t d = true -> f32s_kept d -> EncodeSpec.apart E t d -> enc E t d = inr k ->
    reachable k fm -> vsafe true 0 (deco (fm_fmts fm) 0 k) = true -> each (kept_at named) (deco (fm_fmts fm) 0 k) = true ->
    exists text k', fm_write fm [] = LRet text /\ parse text = ParseOk k' /\ dec E t k' = Some d.
  Proof. intros NV T G A H R V K. destruct (any_codes named t d k fm NV T A H R V K) as (text & k' & W' & P & C). exists text, k'. repeat (split; [assumption|]). now apply codes_dec. Qed.
  Theorem flat_text named t d k fm : (named = false -> no_struct_variant E) -> has_type E t d = true -> f32s_kept d -> EncodeSpec.apart E t d -> enc E t d = inr k ->
    reachable k fm -> no_verbose fm -> text_safe (deco (fm_fmts fm) 0 k) = true -> each (kept_at named) (deco (fm_fmts fm) 0 k) = true ->
    exists text k', fm_write fm [] = LRet text /\ parse text = ParseOk k' /\ dec E t k' = Some d.
  Proof. intros NV T G A H R V F K. destruct (flat_codes named t d k fm NV T A H R V F K) as (text & k' & W' & P & C). exists text, k'. repeat (split; [assumption|]). now apply codes_dec. Qed.
End EndToEnd.

(** ** a condition on the value alone *)
Lemma data_tuple_ids d : data_ids_shown d = true -> tuple_ids_shown d = true.
Proof.
  unfold data_ids_shown, tuple_ids_shown. rewrite !each_all. induction d as [f id v IH] using dk_ind'. rewrite !d_all_children. intros [H C]. split; [|rewrite Forall_forall in *; auto].
  unfold id_kept in H. cbn [d_val d_fmt d_id] in H. unfold drops. destruct id; [|reflexivity]. destruct v; try reflexivity. now rewrite orb_false_r in H; rewrite H.
Qed.
Lemma data_cntr_ids d : data_ids_shown d = true -> cntr_ids_shown d = true.
Proof.
  unfold data_ids_shown, cntr_ids_shown. rewrite !each_all. induction d as [f id v IH] using dk_ind'. rewrite !d_all_children. intros [H C]. split; [|rewrite Forall_forall in *; auto].
  cbn [d_val d_fmt d_id] in *. destruct v; try reflexivity. exact H.
Qed.
Lemma keys_exact_kids f id v : key_numbers (undeco (DK f id v)) = true -> Forall (fun c => key_numbers (undeco c) = true) (d_children v).
Proof.
  unfold key_numbers. intros H. change (undeco (DK f id v)) with (Kserd id (kval (undeco (DK f id v)))) in H. apply k_all_children in H as [_ H]. now rewrite undeco_children, Forall_map in H.
Qed.
Lemma readable_faithful d : k_all readable_node (undeco d) = true -> tuple_ids_shown d = true -> k_exact (undeco d) = true -> each faithful_node d = true.
Proof. intros R T X. unfold tuple_ids_shown in T. rewrite each_all in T |- *. destruct (simple_safe d R T) as [_ F]. auto. Qed.
Lemma readable_kept d : k_all readable_node (undeco d) = true -> data_ids_shown d = true -> k_all no_neg_zero (undeco d) = true -> key_numbers (undeco d) = true -> d_all kept_node d = true.
Proof.
  induction d as [f id v IH] using dk_ind'. intros R D Z K. pose proof (data_tuple_ids _ D) as TI. unfold data_ids_shown in D. rewrite each_all in D. apply d_all_children in D as [D DC].
  apply d_all_children. pose proof (keys_exact_kids f id v K) as KC. unfold tuple_ids_shown in TI. rewrite each_all in TI. apply d_all_children in TI as [_ TC].
  change (undeco (DK f id v)) with (Kserd id (kval (undeco (DK f id v)))) in R, Z. apply k_all_children in R as [R RC]. apply k_all_children in Z as [Z ZC]. rewrite undeco_children, Forall_map in RC, ZC.
  split.
  2:{ rewrite Forall_forall in *. intros c Hc. apply IH; auto. }
  unfold kept_node. cbn [d_val d_id] in *. unfold readable_node in R. cbn [kid kval] in R. apply andb_true_iff in R as [_ R]. unfold no_neg_zero in Z. cbn [kval] in Z.
  destruct v as [|b|n|t|b|l|m|l|m]; try reflexivity.
  - exact R.
  - cbn [undeco kval] in *. apply andb_true_iff in R as [_ R]. unfold num_kept. destruct n as [| |[| |]]; try discriminate; try reflexivity. exact Z.
  - rewrite D. destruct l; [exact R|reflexivity].
  - rewrite D. destruct m; [discriminate R|reflexivity].
  - unfold key_numbers in K. cbn [undeco] in K. apply k_all_children in K as [K _]. unfold keys_exact in K. cbn [kval] in K. rewrite forallb_mapped in K.
    cbn [d_children] in RC, TC. apply Forall_entries in RC, TC. rewrite Forall_forall in *. apply forallb_forall. intros e He. rewrite forallb_forall in K. specialize (K e He). cbn [fst] in K.
    destruct (RC e He) as [RE _], (TC e He) as [TE _]. apply readable_faithful; auto.
Qed.

(** ** configurations *)
Lemma config_data k fm cfg fm' : reachable k fm -> apply_config fm cfg = LRet fm' -> id_on_tuples cfg = true -> id_on_containers cfg = true ->
  data_ids_shown (deco (fm_fmts fm') 0 k) = true.
Proof.
  intros R E HT HC. destruct (config_flags k fm cfg fm' R E) as [N ID]. pose proof (reachable_finv k fm R) as [N' I'].
  pose proof (apply_config_finv k fm cfg fm' (conj N' I') E) as [N2 I2].
  unfold data_ids_shown. rewrite each_all. change (deco (fm_fmts fm') 0 k) with (D (fm_fmts fm') (0,(info_default,k))).
  set (p := fun x : dk => _). apply (D_items k (fm_fmts fm') (fun d => d_all p d = true)); [|apply root_ok]. intros it Ho F.
  assert (FL : f_id (d_fmt (D (fm_fmts fm') it)) = flag cfg (kval (snd (snd it)))).
  { destruct (get_fmts k (fm_fmts fm') it (proj1 I2) Ho) as [f Hf]. pose proof (ok_get k it Ho) as G.
    specialize (ID (nd it)). rewrite N' in ID. specialize (ID (nth_error_In _ _ G)). cbn [nd mk_full n_idx n_kserd] in ID. rewrite Hf in ID. cbn [option_map] in ID.
    rewrite D_unfold. cbn [d_fmt]. rewrite (nth_error_nth _ _ _ Hf). congruence. }
  pose proof (eq_refl (undeco (D (fm_fmts fm') it))) as U. unfold D at 1 in U. rewrite undeco_deco in U. rewrite U in FL. clear U.
  destruct (D (fm_fmts fm') it) as [f id v]. apply d_all_children. split; [|exact F]. rewrite flag_undeco in FL. cbn [d_fmt] in FL.
  unfold p, id_kept. cbn [d_val d_fmt]. destruct v; try reflexivity; cbn [flag] in FL; rewrite FL, ?HT, ?HC; reflexivity.
Qed.

Section Simple.
  Context (E : decls) (W : good_decls E).
  Theorem codes_simple t d k fm : has_type E t d = true -> EncodeSpec.apart E t d -> enc E t d = inr k ->
    reachable k fm -> readable_tree k = true -> k_all no_neg_zero k = true -> vsimple true k = true \/ no_verbose fm -> data_ids_shown (deco (fm_fmts fm) 0 k) = true ->
    exists text k', fm_write fm [] = LRet text /\ parse text = ParseOk k' /\ codes E t d k'.
  Proof.
    intros T A H R RT Z V D. destruct (enc_facts E W t d k T A H) as (C & S & TY & KN). pose proof (data_tuple_ids _ D) as TI.
    assert (K : each kept_node (deco (fm_fmts fm) 0 k) = true).
    { rewrite each_all. change (deco (fm_fmts fm) 0 k) with (shown k fm) in *. unfold readable_tree in RT. apply andb_true_iff in RT as [RT _]. apply readable_kept; rewrite ?shown_undeco; assumption. }
    destruct V as [V|V].
    - apply codes_layouts with (k := k); auto. apply (any_readable true); auto. intros _. now apply data_cntr_ids.
    - apply codes_flat with (k := k); auto. change (deco (fm_fmts fm) 0 k) with (shown k fm) in *. apply readable_text_safe; [now rewrite shown_undeco|exact TI].
  Qed.
  Theorem text_simple t d k fm : has_type E t d = true -> f32s_kept d -> EncodeSpec.apart E t d -> enc E t d = inr k ->
    reachable k fm -> readable_tree k = true -> k_all no_neg_zero k = true -> vsimple true k = true \/ no_verbose fm -> data_ids_shown (deco (fm_fmts fm) 0 k) = true ->
    exists text k', fm_write fm [] = LRet text /\ parse text = ParseOk k' /\ dec E t k' = Some d.
  Proof.
    intros T G A H R RT Z V D. destruct (codes_simple t d k fm T A H R RT Z V D) as (text & k' & W' & P & C). exists text, k'. repeat (split; [assumption|]). now apply codes_dec.
  Qed.
  Theorem codes_as_str t d k cfg : has_type E t d = true -> EncodeSpec.apart E t d -> enc E t d = inr k ->
    readable_tree k = true -> k_all no_neg_zero k = true -> (vsimple true k = true /\ ~ stuck cfg k) \/ is_cntr k = false \/ width_limit cfg = None ->
    id_on_tuples cfg = true -> id_on_containers cfg = true ->
    exists text k', as_str_with_config k cfg = LRet text /\ parse text = ParseOk k' /\ codes E t d k'.
  Proof.
    intros T A H RT Z V HT HC. unfold as_str_with_config. destruct (new_returns k) as (fm & E0 & R). rewrite E0. cbn [lbind].
    destruct (config_free k fm cfg E0) as (fm' & E' & R'); [destruct V as [[_ V]|[V|V]]; [exact V|apply solvable_free; now right; left|apply solvable_free; now right; right]|]. rewrite E'. cbn [lbind].
    apply codes_simple with (k := k); auto; [|now apply (config_data k fm cfg)].
    destruct V as [[V _]|[V|V]]; [now left|right; now apply (root_not_verbose k)|right].
    intros i HI. pose proof (reachable_invariant k fm' R') as (_ & L & _). destruct (config_flags k fm cfg fm' R E') as [N _].
    assert (Hi : i < nav_len (fm_nav fm)). { rewrite <- N, <- L. unfold line_of in HI. apply nth_error_Some. destruct (nth_error _ i); [congruence|discriminate]. }
    rewrite (config_no_limit k fm cfg fm' R V E' i Hi) in HI. discriminate.
  Qed.
  Theorem text_as_str t d k cfg : has_type E t d = true -> f32s_kept d -> EncodeSpec.apart E t d -> enc E t d = inr k ->
    readable_tree k = true -> k_all no_neg_zero k = true -> (vsimple true k = true /\ ~ stuck cfg k) \/ is_cntr k = false \/ width_limit cfg = None ->
    id_on_tuples cfg = true -> id_on_containers cfg = true ->
    exists text k', as_str_with_config k cfg = LRet text /\ parse text = ParseOk k' /\ dec E t k' = Some d.
  Proof.
    intros T G A H RT Z V HT HC. destruct (codes_as_str t d k cfg T A H RT Z V HT HC) as (text & k' & W' & P & C). exists text, k'. repeat (split; [assumption|]). now apply codes_dec.
  Qed.
End Simple.
