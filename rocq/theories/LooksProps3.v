(** Values which are read back look like those which were written. *)
From Verif Require Import Base BaseProps F64 F64Text Number NumberSpec NumberProps3 BTree BTreeProps Value Base91 ValueSpec ValueProps ValueProps2 Nav NavSpec NavProps NavProps2 Nom Parse ParseErr Grammar Fmt Formatter FmtText FmtSpec FmtProps FmtProps2 FormatterProps FormatterProps2 FormatterProps3 FormatterProps4 RtSpec RtProps2 RtProps3 RtProps4 RtProps5 RtProps6 RtProps7 VSpec VRtProps2 VRtProps4 VRtProps5 TextSpec Encode EncodeSpec EncodeProps8 EncodeProps9 LooksSpec LooksProps LooksProps2 StuckSpec StuckProps2.
Open Scope nat_scope.

(** ids are shown as configured *)
Definition as_flagged (cfg : config) (d : dk) : bool := Bool.eqb (f_id (d_fmt d)) (flag cfg (d_val d)).
(** and what is not shown leaves no trace *)
Definition stable_node (cfg : config) (d : dk) : bool :=
  as_flagged cfg d && negb (drops d) &&
  match d_val d with
  | VUnit => negb (is_some (d_id d))
  | VNum n => num_wf n && match n with Float (FFin sg m _) => negb (sg && (m =? 0)%Z) | _ => true end
  | VTuple [] => is_some (shown_id d)
  | VCntr [] => false
  | VMap m => forallb (fun e => each faithful_node (fst e)) m
  | _ => true
  end.
(** below titles the ids of sequences and maps are not written *)
Definition title_id (d : dk) : bool := negb (verbose_line d && match d_val d with VSeq _ | VMap _ => is_some (shown_id d) | _ => false end).

Lemma same_shown b (i : option str) : same_id b (if b then i else None) i.
Proof. now destruct b. Qed.
Definition steady (cfg : config) (d : dk) : Prop := d_all (stable_node cfg) d = true /\ k_sorted (undeco d) = true.
Lemma steady_kids cfg f id v : steady cfg (DK f id v) -> stable_node cfg (DK f id v) = true /\ sorted_node (undeco (DK f id v)) = true /\ Forall (steady cfg) (d_children v).
Proof.
  intros (A & B). apply d_all_children in A as [A AC]. apply sorted_kids in B as [B BC]. repeat (split; [assumption|]).
  unfold steady. rewrite Forall_forall in *. auto.
Qed.
Lemma norm_looks cfg d : steady cfg d -> looks cfg (norm d) (undeco d).
Proof.
  induction d as [f id v IH] using dk_ind'. intros F. apply steady_kids in F as (N & K & C).
  assert (G : Forall (fun c => looks cfg (norm c) (undeco c)) (d_children v)) by (rewrite Forall_forall in *; auto).
  unfold stable_node in N. apply andb_true_iff in N as [N NV]. apply andb_true_iff in N as [NF ND]. apply Bool.eqb_prop in NF. cbn [d_val d_id d_fmt] in *. unfold sorted_node in K. cbn [undeco kval] in K |- *.
  destruct v as [|b|n|t|b|l|m|l|m]; cbn [norm d_children flag] in *; rewrite ?NF.
  - destruct id; [discriminate|]. constructor.
  - constructor. apply same_shown.
  - apply andb_true_iff in NV as [W Z]. constructor; [apply same_shown|now apply reread_display].
  - constructor. apply same_shown.
  - constructor. apply same_shown.
  - assert (T : same_tuple_id (id_on_tuples cfg) (if id_on_tuples cfg then id else None) id).
    { unfold drops in ND. rewrite NF in ND. unfold same_tuple_id. destruct (id_on_tuples cfg); [reflexivity|]. destruct id; [discriminate|exact Logic.I]. }
    destruct l as [|x l].
    + unfold shown_id in NV. cbn [d_fmt d_id] in NV. rewrite NF in NV. destruct (if id_on_tuples cfg then id else None) eqn:E; [|discriminate]. constructor; [exact T|constructor].
    + set (q := x :: l) in *. change (match q with [] => _ | _ => _ end) with (Kserd (if id_on_tuples cfg then id else None) (VTuple (map norm q))). constructor; [exact T|]. now apply Forall2_maps.
  - destruct m as [|x m]; [discriminate|]. rewrite Forall_map in G. set (q := x :: m) in *.
    change (match q with [] => _ | _ => _ end) with (Kserd (if id_on_containers cfg then id else None) (VCntr (fields_of (map (fun e => (fst e, norm (snd e))) q)))).
    rewrite fields_sorted by (rewrite <- K; now apply (sorted_map str_cmp fst fst)). constructor; [apply same_shown|]. apply Forall2_maps. eapply Forall_impl; [|exact G]. auto.
  - constructor; [apply same_shown|]. now apply Forall2_maps.
  - apply Forall_entries in G, C. assert (KS : Forall (fun e => same (norm (fst e)) (undeco (fst e))) m).
    { apply keys_same; [exact NV|]. eapply Forall_impl; [|exact C]. intros a [(_ & H) _]. exact H. }
    rewrite (proj1 (entries_sorted norm m K KS)). constructor; [apply same_shown|]. apply Forall2_maps. exact G.
Qed.
Definition vsteady (cfg : config) (d : dk) : Prop := steady cfg d /\ d_all title_id d = true.
Lemma vsteady_kids cfg f id v : vsteady cfg (DK f id v) -> title_id (DK f id v) = true /\ Forall (vsteady cfg) (d_children v).
Proof.
  intros (A & B). apply steady_kids in A as (_ & _ & A). apply d_all_children in B as [B BC]. split; [exact B|]. unfold vsteady. rewrite Forall_forall in *. auto.
Qed.
Definition vlooks (cfg : config) (d : dk) : Prop := vsteady cfg d -> looks cfg (vnorm d) (undeco d).
Lemma field_looks cfg x : vlooks cfg x -> Forall (vlooks cfg) (d_children (d_val x)) -> vsteady cfg x -> looks cfg (vfield x) (undeco x).
Proof.
  intros R RC F. pose proof (norm_looks cfg x (proj1 F)) as NL. destruct x as [f id v]. pose proof F as F0. apply vsteady_kids in F0 as (T & C). cbn [d_val] in RC.
  pose proof F as [F1 _]. apply steady_kids in F1 as (N & K & _). unfold stable_node in N. apply andb_true_iff in N as [N NV]. apply andb_true_iff in N as [NF _]. apply Bool.eqb_prop in NF. cbn [d_fmt d_val] in *.
  unfold title_id, verbose_line, d_line in T. cbn [d_fmt d_val] in T. unfold shown_id in T. cbn [d_fmt d_id] in T.
  unfold vfield. destruct (f_line f) eqn:L; [exact NL..|]. unfold sorted_node in K. cbn [undeco kval] in K. destruct v as [| | | | | |m|l|m]; try exact NL.
  - now apply R.
  - cbn [undeco d_children flag] in *. constructor; [|apply Forall2_maps; unfold vlooks in RC; rewrite Forall_forall in *; auto].
    rewrite NF in T. unfold same_id. destruct (id_on_seqs cfg); [|exact Logic.I]. destruct id; [discriminate|reflexivity].
  - cbn [undeco d_children flag] in *. apply Forall_entries in RC, C. 
    assert (KS : Forall (fun e => same (norm (fst e)) (undeco (fst e))) m).
    { apply keys_same; [exact NV|]. eapply Forall_impl; [|exact C]. intros a [((_ & H) & _) _]. exact H. }
    rewrite (proj2 (entries_sorted vnorm m K KS)). constructor.
    + rewrite NF in T. unfold same_id. destruct (id_on_maps cfg); [|exact Logic.I]. destruct id; [discriminate|reflexivity].
    + apply Forall2_maps. unfold vlooks in RC. rewrite Forall_forall in *. intros e He. destruct (C e He) as [C1 C2], (RC e He). split; [apply norm_looks; apply C1|auto].
Qed.
Lemma all_looks cfg d : vlooks cfg d /\ Forall (vlooks cfg) (d_children (d_val d)).
Proof.
  induction d as [f id v IH] using dk_ind'. split; [|cbn [d_val]; eapply Forall_impl; [|exact IH]; intros a [H _]; exact H].
  intros F. destruct (verbose_cntr (DK f id v)) eqn:C; [|rewrite vnorm_plain by exact C; apply norm_looks, F].
  unfold verbose_cntr, verbose_line, d_line, cntr_node in C. cbn [d_fmt d_val] in C. apply andb_true_iff in C as [L C].
  destruct v as [| | | | | |m| |]; try discriminate. destruct (f_line f) eqn:EL; try discriminate. clear L C.
  rewrite vnorm_verbose by exact EL. pose proof F as [F1 _]. apply steady_kids in F1 as (N & K & _). apply vsteady_kids in F as [_ C].
  unfold stable_node in N. apply andb_true_iff in N as [N NV]. apply andb_true_iff in N as [NF _]. apply Bool.eqb_prop in NF. cbn [d_fmt d_val flag] in *. rewrite NF.
  unfold sorted_node in K. cbn [undeco kval d_children] in *. rewrite fields_sorted by (rewrite <- K; now apply (sorted_map str_cmp fst fst)). constructor; [apply same_shown|]. apply Forall2_maps.
  rewrite Forall_map in *. rewrite Forall_forall in *. intros e He. cbn [fst snd]. split; [reflexivity|]. destruct (IH e He) as [A B]. apply field_looks; auto.
Qed.
Lemma vnorm_looks cfg d : vsteady cfg d -> looks cfg (vnorm d) (undeco d).
Proof. apply all_looks. Qed.

(** ** configured trees *)
Lemma config_as_flagged k fm cfg fm' : reachable k fm -> apply_config fm cfg = LRet fm' -> d_all (as_flagged cfg) (shown k fm') = true.
Proof.
  intros R E. destruct (config_flags k fm cfg fm' R E) as [N ID]. pose proof (reachable_finv k fm R) as [N' I'].
  pose proof (apply_config_finv k fm cfg fm' (conj N' I') E) as [N2 I2].
  unfold shown. change (deco (fm_fmts fm') 0 k) with (D (fm_fmts fm') (0,(info_default,k))).
  apply (D_items k (fm_fmts fm') (fun d => d_all (as_flagged cfg) d = true)); [|apply root_ok]. intros it Ho F.
  assert (FL : f_id (d_fmt (D (fm_fmts fm') it)) = flag cfg (kval (snd (snd it)))).
  { destruct (get_fmts k (fm_fmts fm') it (proj1 I2) Ho) as [f Hf]. pose proof (ok_get k it Ho) as G.
    specialize (ID (nd it)). rewrite N' in ID. specialize (ID (nth_error_In _ _ G)). cbn [nd mk_full n_idx n_kserd] in ID. rewrite Hf in ID. cbn [option_map] in ID.
    rewrite D_unfold. cbn [d_fmt]. rewrite (nth_error_nth _ _ _ Hf). congruence. }
  pose proof (eq_refl (undeco (D (fm_fmts fm') it))) as U. unfold D at 1 in U. rewrite undeco_deco in U. rewrite U in FL. clear U.
  destruct (D (fm_fmts fm') it) as [f id v]. apply d_all_children. split; [|exact F]. rewrite flag_undeco in FL. cbn [d_fmt] in FL.
  unfold as_flagged. cbn [d_fmt d_val]. rewrite FL. now destruct (flag cfg v).
Qed.
Lemma stable_tree cfg d : d_all (as_flagged cfg) d = true -> tuple_ids_shown d = true -> k_all readable_node (undeco d) = true -> k_typed (undeco d) = true -> k_all no_neg_zero (undeco d) = true -> key_numbers (undeco d) = true ->
  d_all (stable_node cfg) d = true.
Proof.
  unfold tuple_ids_shown. rewrite (each_all (fun x => negb (drops x))). induction d as [f id v IH] using dk_ind'. intros FL TI R TY Z K. apply d_all_children in FL as [FL FC]. apply d_all_children in TI as [T TC]. apply typed_kids in TY as [TY TYC].
  apply d_all_children. pose proof (keys_exact_kids f id v K) as KC.
  change (undeco (DK f id v)) with (Kserd id (kval (undeco (DK f id v)))) in R, Z. apply k_all_children in R as [R RC]. apply k_all_children in Z as [Z ZC]. rewrite undeco_children, Forall_map in RC, ZC.
  split.
  2:{ rewrite Forall_forall in *. intros c Hc. apply IH; auto. }
  unfold stable_node. rewrite FL, T. cbn [andb d_val d_id] in *. unfold readable_node in R. cbn [kid kval] in R. apply andb_true_iff in R as [_ R]. unfold no_neg_zero in Z. cbn [kval] in Z. unfold typed_node in TY. cbn [undeco kval] in TY.
  destruct v as [|b|n|t|b|l|m|l|m]; try reflexivity.
  - exact R.
  - cbn [undeco kval] in *. apply andb_true_iff. split; [exact TY|exact Z].
  - destruct l; [|reflexivity]. cbn [undeco kval map] in R. unfold drops in T. unfold shown_id. cbn [d_fmt d_id]. destruct id; [|discriminate]. destruct (f_id f); [reflexivity|discriminate].
  - destruct m; [discriminate R|reflexivity].
  - unfold key_numbers in K. cbn [undeco] in K. apply k_all_children in K as [K _]. unfold keys_exact in K. cbn [kval] in K. rewrite forallb_mapped in K.
    cbn [d_children] in RC, TC. apply Forall_entries in RC, TC. rewrite Forall_forall in *. apply forallb_forall. intros e He. rewrite forallb_forall in K. specialize (K e He). cbn [fst] in K.
    destruct (RC e He) as [RE _], (TC e He) as [TE _]. apply readable_faithful; auto.
Qed.
Lemma k_all_In (P : kserd -> Prop) d : (forall x, In x (preorder (undeco d)) -> P x) -> P (undeco d) /\ Forall (fun c => forall x, In x (preorder (undeco c)) -> P x) (d_children (d_val d)).
Proof.
  intros H. destruct d as [f id v]. cbn [d_val]. assert (E : preorder (undeco (DK f id v)) = undeco (DK f id v) :: flat_map preorder (map undeco (d_children v))).
  { now rewrite preorder_unfold, undeco_children. }
  rewrite E in H. split; [apply H; now left|]. apply Forall_forall. intros c Hc x Hx. apply H. right. apply in_flat_map. exists (undeco c). split; [now apply in_map|exact Hx].
Qed.
Lemma title_ids cfg d : d_all (as_flagged cfg) d = true -> (forall x, In x (preorder (undeco d)) -> no_title_ids cfg x) -> d_all title_id d = true.
Proof.
  induction d as [f id v IH] using dk_ind'. intros FL H. apply d_all_children in FL as [FL FC]. apply k_all_In in H as [H HC]. cbn [d_val] in HC. apply d_all_children. split; [|rewrite Forall_forall in *; intros c Hc; apply IH; auto; exact (HC c Hc)].
  unfold as_flagged in FL. apply Bool.eqb_prop in FL. cbn [d_fmt d_val] in FL. unfold title_id, shown_id. cbn [d_val d_id d_fmt]. unfold no_title_ids in H. cbn [undeco kval kid] in H. rewrite FL.
  destruct v; cbn [flag]; rewrite ?andb_false_r; try reflexivity; destruct H as [-> | ->]; try (now rewrite andb_false_r); match goal with |- context [if ?b then None else None] => destruct b end; now rewrite andb_false_r.
Qed.

Lemma config_steady k fm cfg fm' : reachable k fm -> apply_config fm cfg = LRet fm' -> stable_value k -> tuple_ids_seen cfg k -> steady cfg (shown k fm').
Proof.
  intros R E (RT & S & TY & Z & KN) T. pose proof (config_tuples k fm cfg fm' R E T) as TS. pose proof (config_as_flagged k fm cfg fm' R E) as AF. unfold readable_tree in RT. apply andb_true_iff in RT as [RT _].
  split; [|now rewrite shown_undeco]. apply stable_tree; rewrite ?shown_undeco; assumption.
Qed.
Theorem as_str_looks k cfg : (is_cntr k = false \/ width_limit cfg = None) -> stable_value k -> tuple_ids_seen cfg k ->
  exists t k', as_str_with_config k cfg = LRet t /\ parse t = ParseOk k' /\ looks cfg k' k.
Proof.
  intros C S T. destruct (new_returns k) as (fm & E & R).
  destruct (config_returns k fm cfg R) as (fm' & E' & R'); [destruct C; [now right; left|now right; right]|].
  pose proof (config_steady k fm cfg fm' R E' S T) as ST. pose proof (config_tuples k fm cfg fm' R E' T) as TS. destruct (readable_text_safe (shown k fm')) as [A _]; [rewrite shown_undeco; apply S|exact TS|].
  assert (V : no_verbose fm').
  2:{ destruct (layout_parses k fm' R' V A) as (t & W & P). exists t, (norm (shown k fm')). assert (TX : as_str_with_config k cfg = LRet t) by (unfold as_str_with_config; rewrite E; cbn [lbind]; rewrite E'; exact W).
      split; [exact TX|]. split; [exact P|]. rewrite <- (shown_undeco k fm') at 2. now apply norm_looks. }
  destruct C as [C|C]; [now apply (root_not_verbose k)|].
  intros i H. pose proof (reachable_invariant k fm' R') as (_ & L & _). destruct (config_flags k fm cfg fm' R E') as [N _].
  assert (Hi : i < nav_len (fm_nav fm)). { rewrite <- N, <- L. unfold line_of in H. apply nth_error_Some. destruct (nth_error _ i); [congruence|discriminate]. }
  rewrite (config_no_limit k fm cfg fm' R C E' i Hi) in H. discriminate.
Qed.
Theorem as_str_any_looks k cfg : vsimple (id_on_containers cfg) k = true -> ~ stuck cfg k -> stable_value k -> tuple_ids_seen cfg k -> (forall x, In x (preorder k) -> no_title_ids cfg x) ->
  exists t k', as_str_with_config k cfg = LRet t /\ parse t = ParseOk k' /\ looks cfg k' k.
Proof.
  intros V C S T Q. destruct (new_returns k) as (fm & E & R). destruct (config_free k fm cfg E C) as (fm' & E' & R').
  pose proof (config_steady k fm cfg fm' R E' S T) as ST. pose proof (config_tuples k fm cfg fm' R E' T) as TS.
  destruct (any_readable (id_on_containers cfg) k fm' R') as [A _]; [apply S|apply S|exact V|exact TS|exact (config_cntrs k fm cfg fm' R E')|].
  destruct (any_parses k fm' R') as (t & W & P); [apply S|exact A|]. change (deco (fm_fmts fm') 0 k) with (shown k fm') in P. exists t, (vnorm (shown k fm')).
  assert (TX : as_str_with_config k cfg = LRet t) by (unfold as_str_with_config; rewrite E; cbn [lbind]; rewrite E'; exact W).
  split; [exact TX|]. split; [exact P|]. rewrite <- (shown_undeco k fm') at 2. apply vnorm_looks. split; [exact ST|].
  apply (title_ids cfg); [exact (config_as_flagged k fm cfg fm' R E')|]. now rewrite shown_undeco.
Qed.

(** ** the width limit has no part in how values look *)
Lemma looks_width cfg w a : forall b, looks cfg a b -> looks (with_width cfg w) a b.
Proof.
  assert (G : forall A (R R' : A -> A -> Prop) l, Forall (fun x => forall y, R x y -> R' x y) l -> forall l', Forall2 R l l' -> Forall2 R' l l').
  { intros A R R' l. induction 1 as [|x l H F IH]; intros l' F2; inversion F2; subst; constructor; auto. }
  induction a as [i v IH] using kserd_ind'. intros b L. inversion L; subst; cbn [vchildren] in IH; try (constructor; assumption).
  - apply l_tuple; [assumption|]. eapply G; eassumption.
  - apply l_cntr; [assumption|]. eapply G; [|eassumption]. apply Forall_map_snd in IH. eapply Forall_impl; [|exact IH].
    intros e He e' [E1 E2]. split; [exact E1|now apply He].
  - apply l_seq; [assumption|]. eapply G; eassumption.
  - apply l_map; [assumption|]. eapply G; [|eassumption]. apply Forall_entries in IH. eapply Forall_impl; [|exact IH].
    intros e [Ha Hb] e' [E1 E2]. split; [now apply Ha|now apply Hb].
Qed.
Theorem as_str_twice_wide k cfg : (is_cntr k = false \/ width_limit cfg = None) -> stable_value k -> tuple_ids_seen cfg k ->
  exists t k', as_str_with_config k cfg = LRet t /\ parse t = ParseOk k' /\
    forall w, as_str_with_config k' (with_width cfg w) = as_str_with_config k (with_width cfg w).
Proof.
  intros C S T. destruct (as_str_looks k cfg C S T) as (t & k' & A & B & L). exists t, k'. split; [exact A|]. split; [exact B|].
  intros w. now apply looks_text, looks_width.
Qed.
Theorem as_str_any_twice_wide k cfg : vsimple (id_on_containers cfg) k = true -> ~ stuck cfg k -> stable_value k -> tuple_ids_seen cfg k -> (forall x, In x (preorder k) -> no_title_ids cfg x) ->
  exists t k', as_str_with_config k cfg = LRet t /\ parse t = ParseOk k' /\
    forall w, as_str_with_config k' (with_width cfg w) = as_str_with_config k (with_width cfg w).
Proof.
  intros V C S T Q. destruct (as_str_any_looks k cfg V C S T Q) as (t & k' & A & B & L). exists t, k'. split; [exact A|]. split; [exact B|].
  intros w. now apply looks_text, looks_width.
Qed.
Theorem as_str_twice k cfg : (is_cntr k = false \/ width_limit cfg = None) -> stable_value k -> tuple_ids_seen cfg k ->
  exists t k', as_str_with_config k cfg = LRet t /\ parse t = ParseOk k' /\ as_str_with_config k' cfg = LRet t.
Proof.
  intros C S T. destruct (as_str_looks k cfg C S T) as (t & k' & A & B & L). exists t, k'. split; [exact A|]. split; [exact B|].
  rewrite <- A. now apply looks_text.
Qed.
Theorem as_str_any_twice k cfg : vsimple (id_on_containers cfg) k = true -> ~ stuck cfg k -> stable_value k -> tuple_ids_seen cfg k -> (forall x, In x (preorder k) -> no_title_ids cfg x) ->
  exists t k', as_str_with_config k cfg = LRet t /\ parse t = ParseOk k' /\ as_str_with_config k' cfg = LRet t.
Proof.
  intros V C S T Q. destruct (as_str_any_looks k cfg V C S T Q) as (t & k' & A & B & L). exists t, k'. split; [exact A|]. split; [exact B|].
  rewrite <- A. now apply looks_text.
Qed.
