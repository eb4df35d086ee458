(** Values for which every layout can be read back. *)
From Verif Require Import Base F64 Number NumberSpec BTree Value BaseProps BTreeProps ValueSpec ValueProps ValueProps2 Nom Parse ParseErr Grammar GrammarProps VGrammar VGrammarProps VAssemble VGrammarProps2 Nav NavSpec NavProps NavProps2 Fmt Formatter FmtText FmtSpec FmtProps FmtProps2 FormatterProps FormatterProps2 FormatterProps3 FormatterProps4 RtSpec RtProps2 RtProps3 RtProps4 RtProps5 RtProps6 RtProps7 VSpec VRtProps VRtProps2 VRtProps3 VRtProps4 StuckSpec StuckProps2.
Open Scope N_scope.

(** ** the layouts of reachable formatters *)
Definition repr_leb (a b : repr) : bool := Nat.leb (repr_n a) (repr_n b).
Definition lay_node (d : dk) : bool := repr_leb (d_line d) (kind_max (undeco d)) && forallb (fun c => repr_leb (d_line c) (d_line d)) (d_children (d_val d)).
Lemma shown_lay k fm : reachable k fm -> d_all lay_node (shown k fm) = true.
Proof.
  intros R. apply reachable_finv in R as [N I]. apply (D_items k (fm_fmts fm) (fun d => d_all lay_node d = true)); [|apply root_ok]. intros it Ho F.
  pose proof (node_kind k (fm_fmts fm) it I Ho) as KM.
  assert (C : Forall (fun c => repr_leb (d_line c) (d_line (D (fm_fmts fm) it)) = true) (d_children (d_val (D (fm_fmts fm) it)))).
  { apply Forall_forall. intros x Hx. apply D_kid in Hx as (c & Hc & ->). apply Nat.leb_le. exact (kid_line k _ it c I Ho Hc). }
  destruct (D (fm_fmts fm) it) as [f id v]. apply d_all_children. split; [|exact F]. unfold lay_node. apply andb_true_iff. split; [now apply Nat.leb_le|].
  apply forallb_forall. rewrite Forall_forall in C. exact C.
Qed.
Lemma lay_flat d : d_all lay_node d = true -> verbose_line d = false -> d_all flat_node d = true.
Proof.
  induction d as [f id v IH] using dk_ind'. intros L V. apply d_all_children in L as [L LC]. unfold lay_node in L. apply andb_true_iff in L as [K C]. rewrite forallb_forall in C. cbn [d_val] in C.
  apply d_all_children. split.
  - unfold flat_node, verbose_line, d_line in *. cbn [d_fmt d_val] in *. destruct (f_line f); [| |discriminate].
    + apply forallb_forall. intros c Hc. specialize (C c Hc). unfold d_line in *. now destruct (f_line (d_fmt c)).
    + unfold kind_max in K. cbn [undeco kval] in K. destruct v as [| | | | |[|]|[|]|[|]|[|]]; (reflexivity || discriminate).
  - rewrite Forall_forall in *. intros c Hc. apply IH; auto. specialize (C c Hc). unfold verbose_line, d_line in *. cbn [d_fmt] in *. destruct (f_line f), (f_line (d_fmt c)); (reflexivity || discriminate).
Qed.
Lemma calm_kids f id v : calm (undeco (DK f id v)) = true -> match v with VTuple _ => True | _ => Forall (fun c => calm (undeco c) = true) (d_children v) end.
Proof.
  cbn [undeco calm]. destruct v as [| | | | |l|m|l|m]; intros H; cbn [d_children]; try constructor; try discriminate.
  - rewrite forallb_mapped, forallb_forall in H. now apply Forall_forall.
  - rewrite forallb_mapped, forallb_forall in H. cbn [fst snd] in H. apply Forall_entries. apply Forall_forall. intros e He. specialize (H e He). now apply andb_true_iff in H.
Qed.
Lemma calm_flat d : d_all lay_node d = true -> calm (undeco d) = true -> d_all flat_node d = true.
Proof.
  induction d as [f id v IH] using dk_ind'. intros L C. destruct (verbose_line (DK f id v)) eqn:V; [|now apply lay_flat].
  apply calm_kids in C as CK. apply d_all_children in L as [L LC]. unfold lay_node in L. apply andb_true_iff in L as [K _].
  unfold verbose_line, d_line in *. cbn [d_fmt] in *. destruct (f_line f) eqn:EL; try discriminate.
  apply d_all_children. unfold kind_max in K. cbn [undeco kval] in K. unfold flat_node, d_line. cbn [d_fmt d_val]. rewrite EL.
  destruct v as [| | | | |[|]|[|]|[|]|[|]]; try discriminate; (split; [reflexivity|]); rewrite Forall_forall in *; auto.
Qed.

(** ** nothing bare *)
Definition unbare (d : dk) : Prop := k_all readable_node (undeco d) = true -> ends_bare d = false.
Lemma simple_kids f id v : k_all readable_node (undeco (DK f id v)) = true -> readable_node (undeco (DK f id v)) = true /\ Forall (fun c => k_all readable_node (undeco c) = true) (d_children v).
Proof.
  intros S. change (undeco (DK f id v)) with (Kserd id (kval (undeco (DK f id v)))) in *. apply k_all_children in S as [S SC]. split; [exact S|]. now rewrite undeco_children, Forall_map in SC.
Qed.
Lemma last_false {A} (f : A -> bool) l : Forall (fun x => f x = false) l -> last (map f l) false = false.
Proof. induction 1 as [|x [|y l] H _ IH]; [reflexivity|exact H|exact IH]. Qed.
Lemma field_unbare x : unbare x -> Forall unbare (d_children (d_val x)) -> k_all readable_node (undeco x) = true -> field_ends_bare x = false.
Proof.
  intros U UC S. destruct x as [f id v]. specialize (U S) as U1. apply simple_kids in S as [_ SC]. cbn [d_val] in UC. unfold unbare in UC. unfold field_ends_bare.
  destruct (f_line f); try exact U1. destruct v as [| | | | | |m|l|m]; try exact U1; cbn [d_children] in *.
  - apply last_false. rewrite Forall_forall in *. auto.
  - apply (last_false (fun p => ends_bare (snd p))). apply Forall_entries in UC, SC. rewrite Forall_forall in *. intros p Hp. apply UC; [exact Hp|]. now apply SC.
Qed.
Lemma all_unbare d : unbare d /\ Forall unbare (d_children (d_val d)).
Proof.
  induction d as [f id v IH] using dk_ind'. split; [|cbn [d_val]; eapply Forall_impl; [|exact IH]; intros a [H _]; exact H].
  intros S. pose proof S as S0. apply simple_kids in S as [SN SC]. destruct (verbose_cntr (DK f id v)) eqn:C; [|rewrite ends_plain by exact C; now apply simple_not_bare].
  unfold verbose_cntr, verbose_line, d_line, cntr_node in C. cbn [d_fmt d_val] in C. apply andb_true_iff in C as [L C].
  destruct v as [| | | | | |m| |]; try discriminate. destruct (f_line f) eqn:EL; try discriminate. rewrite ends_verbose by exact EL.
  apply (last_false (fun e => field_ends_bare (snd e))). cbn [d_children] in *. rewrite Forall_map in *. rewrite Forall_forall in *. intros e He. destruct (IH e He). apply field_unbare; auto.
Qed.

(** ** safe *)
Section Fit.
Context (ids : bool).
Definition fit (d : dk) : Prop := d_all lay_node d = true /\ k_all readable_node (undeco d) = true /\ d_all (fun x => negb (drops x)) d = true /\ (ids = true -> cntr_ids_shown d = true).
Lemma fit_kids f id v : fit (DK f id v) -> Forall fit (d_children v).
Proof.
  intros (L & S & T & I). apply d_all_children in L as [_ L]. apply simple_kids in S as [_ S]. apply d_all_children in T as [_ T].
  assert (J : Forall (fun c => ids = true -> cntr_ids_shown c = true) (d_children v)).
  { unfold cntr_ids_shown in *. rewrite each_all in I. destruct ids; [|apply Forall_forall; discriminate]. specialize (I eq_refl). apply d_all_children in I as [_ I]. eapply Forall_impl; [|exact I]. auto. }
  rewrite Forall_forall in *. intros c Hc. split; [|split; [|split]]; auto.
Qed.
Lemma fit_plain d : fit d -> d_all flat_node d = true -> plain_safe d = true.
Proof. intros (L & S & T & _) F. unfold plain_safe. destruct (simple_safe d S T) as [A _]. change (d_all safe_node d && d_all flat_node d = true). now rewrite A, F. Qed.
Lemma fit_drops d : fit d -> drops d = false.
Proof. intros (_ & _ & T & _). destruct d as [f id v]. apply d_all_children in T as [T _]. now apply negb_true_iff in T. Qed.
Lemma fit_ids f id m : fit (DK f id (VCntr m)) -> ids = true -> (if f_id f then id else None) = id.
Proof.
  intros (_ & _ & _ & I) H. specialize (I H). unfold cntr_ids_shown in I. rewrite each_all in I. apply d_all_children in I as [I _]. cbn [d_val d_fmt d_id] in I.
  destruct (f_id f); [reflexivity|]. destruct id; [discriminate|reflexivity].
Qed.
Lemma fit_kind d : fit d -> verbose_line d = true -> kind_max (undeco d) = Verbose.
Proof.
  intros (L & _) V. destruct d as [f id v]. apply d_all_children in L as [L _]. unfold lay_node in L. apply andb_true_iff in L as [L _]. unfold verbose_line in V. destruct (d_line (DK f id v)); try discriminate.
  now destruct (kind_max (undeco (DK f id v))).
Qed.
Definition cozy (d : dk) : Prop := forall top n outer, fit d -> verbose_cntr d = true -> (outer = true -> n = 0%nat) -> vshape ids top outer (undeco d) = true -> vsafe top n d = true.
Definition field_simple (outer : bool) (x : kserd) : bool :=
  match x with Kserd _ xv =>
    match xv with
    | VCntr _ => vshape ids false false x
    | VSeq l => forallb (fun y => vshape ids true false y && elem_simple ids y) l
    | VMap l =>
        (outer || match l with [] => true | _ => false end) &&
        forallb (fun p => key_simple (fst p) && (if match kval (snd p) with VCntr _ => true | _ => false end then vshape ids true false (snd p) else calm (snd p))) l
    | _ => true
    end
  end.
Lemma elem_cozy n y : cozy y -> fit y -> vshape ids true false (undeco y) = true -> elem_simple ids (undeco y) = true ->
  vsafe true (S n) y && keyless_first y && (verbose_cntr y || negb (verbose_line y)) && (negb (drops y) || Nat.ltb 0 n) = true.
Proof.
  intros C F V E. rewrite (fit_drops y F). cbn [negb orb]. rewrite andb_true_r.
  destruct (verbose_cntr y) eqn:VC.
  - rewrite (C true (Datatypes.S n) false F VC ltac:(discriminate) V). cbn [andb orb]. rewrite andb_true_r.
    destruct y as [f id v]. unfold verbose_cntr, cntr_node in VC. apply andb_true_iff in VC as [_ VC]. cbn [d_val] in VC. unfold keyless_first. cbn [d_val]. destruct v as [| | | | | |m| |]; try discriminate.
    destruct m as [|[name x] m]; [reflexivity|]. unfold elem_simple in E. cbn [undeco kid kval map fst] in E. apply orb_true_iff in E as [E|E]; [|rewrite E; now rewrite !orb_true_r].
    apply andb_true_iff in E as [EI E]. unfold shown_id. cbn [d_fmt d_id]. rewrite (fit_ids _ _ _ F EI), E. now rewrite !orb_true_r.
  - rewrite vsafe_plain by exact VC. assert (VL : verbose_line y = false).
    { destruct (verbose_line y) eqn:VL; [|reflexivity]. pose proof (fit_kind y F VL) as K. destruct y as [f id v]. unfold verbose_cntr, cntr_node in VC. rewrite VL in VC. cbn [d_val andb] in VC.
      unfold elem_simple, kempty in E. unfold kind_max in K. cbn [undeco kval] in *. destruct v as [| | | | |[|]|[|]|[|]|[|]]; discriminate. }
    rewrite fit_plain; [|exact F|apply lay_flat; [apply F|exact VL]]. rewrite VL. cbn [negb orb andb]. rewrite andb_true_r.
    destruct y as [f id v]. unfold elem_simple, kempty in E. cbn [undeco kval] in E. unfold safe_root, keyless_first. cbn [d_val]. rewrite VL. destruct v as [| | | | |[|]|[|[name x] m]|[|]|[|]]; (reflexivity || discriminate).
Qed.
Lemma field_cozy n outer e : cozy (snd e) -> Forall cozy (d_children (d_val (snd e))) -> fit (snd e) -> (outer = true -> n = 0%nat) -> name_ok (fst e) = true ->
  field_simple outer (undeco (snd e)) = true -> field_safe n e = true.
Proof.
  destruct e as [name x]. cbn [fst snd]. intros C CC F O N S. unfold field_safe. cbn [fst snd]. rewrite N. cbn [andb].
  destruct (verbose_line x) eqn:VL.
  2:{ assert (P : plain_safe x = true) by (apply fit_plain; [exact F|apply lay_flat; [apply F|exact VL]]). destruct x as [f id v]. unfold verbose_line, d_line in VL. cbn [d_fmt] in VL. destruct (f_line f); (exact P || discriminate). }
  pose proof (fit_kind x F VL) as K. destruct x as [f id v]. pose proof (fit_kids f id v F) as FK. unfold verbose_line, d_line in VL. cbn [d_fmt d_val] in *. destruct (f_line f) eqn:L; try discriminate.
  unfold kind_max in K. cbn [undeco kval field_simple] in *. destruct v as [| | | | |[|]|m|l|m]; try discriminate; cbn [map d_children] in *.
  - apply (C false (Datatypes.S n) false); [exact F| |discriminate|exact S]. unfold verbose_cntr, verbose_line, d_line. cbn [d_fmt]. now rewrite L.
  - rewrite !andb_true_iff. rewrite forallb_mapped, forallb_forall in S. split; [split|].
    + destruct l; [discriminate|reflexivity].
    + apply chain_all. rewrite Forall_forall in *. intros y Hy _. rewrite (proj1 (all_unbare y)); [reflexivity|apply (FK y Hy)].
    + apply forallb_forall. rewrite Forall_forall in *. intros y Hy. specialize (S y Hy). apply andb_true_iff in S as [S1 S2]. apply elem_cozy; auto.
  - apply andb_true_iff in S as [S1 S]. rewrite forallb_mapped, forallb_forall in S. apply Forall_entries in FK, CC. destruct m as [|p0 m]; [discriminate|]. cbn [map] in S1. rewrite orb_false_r in S1. specialize (O S1). subst n.
    cbn [Nat.eqb nonempty andb]. apply andb_true_iff. split.
    + apply chain_all. rewrite Forall_forall in *. intros p Hp _. rewrite (proj1 (all_unbare (snd p))); [reflexivity|apply (proj2 (FK p Hp))].
    + apply forallb_forall. rewrite Forall_forall in *. intros p Hp. destruct (FK p Hp) as [F1 F2]. destruct (CC p Hp) as [_ C2]. specialize (S p Hp). cbn [fst snd] in S. apply andb_true_iff in S as [SK SV].
      assert (KI : d_line (fst p) = Inline).
      { destruct F1 as (L1 & _). destruct (fst p) as [f1 id1 v1]. apply d_all_children in L1 as [L1 _]. unfold lay_node in L1. apply andb_true_iff in L1 as [L1 _]. unfold key_simple in SK. unfold kind_max in L1. cbn [undeco kval] in *.
        destruct (d_line (DK f1 id1 v1)); [reflexivity|..]; destruct v1 as [| | | | |[|]|[|]|[|]|[|]]; discriminate. }
      rewrite KI, (fit_drops _ F1), (fit_drops _ F2). rewrite fit_plain; [|exact F1|apply lay_flat; [apply F1|unfold verbose_line; now rewrite KI]]. change (repr_eqb Inline Inline) with true. cbn [negb andb]. rewrite andb_true_r.
      destruct (verbose_line (snd p)) eqn:VL2; [|apply fit_plain; [exact F2|apply lay_flat; [apply F2|exact VL2]]].
      destruct (verbose_cntr (snd p)) eqn:VC2.
      * apply (C2 true 1%nat false F2 VC2); [discriminate|]. destruct (snd p) as [f2 id2 v2]. unfold verbose_cntr, cntr_node in VC2. apply andb_true_iff in VC2 as [_ VC2]. cbn [d_val] in VC2. destruct v2; try discriminate. exact SV.
      * rewrite vsafe_plain by exact VC2. destruct (snd p) as [f2 id2 v2] eqn:EP. unfold verbose_cntr, cntr_node in VC2. rewrite VL2 in VC2. cbn [d_val andb] in VC2.
        rewrite fit_plain; [|exact F2|apply calm_flat; [apply F2|]].
        -- unfold safe_root, verbose_line, d_line in *. cbn [d_val d_fmt] in *. destruct (f_line f2); try discriminate. now destruct v2 as [| | | | | | |[|]|].
        -- destruct v2; try discriminate; exact SV.
Qed.
Lemma all_cozy d : cozy d /\ Forall cozy (d_children (d_val d)).
Proof.
  induction d as [f id v IH] using dk_ind'. split; [|cbn [d_val]; eapply Forall_impl; [|exact IH]; intros a [H _]; exact H].
  intros top n outer F C O V. unfold verbose_cntr, verbose_line, d_line, cntr_node in C. cbn [d_fmt d_val] in C. apply andb_true_iff in C as [L C].
  destruct v as [| | | | | |m| |]; try discriminate. destruct (f_line f) eqn:EL; try discriminate. clear L C.
  rewrite vsafe_verbose by exact EL. pose proof (fit_kids _ _ _ F) as FK. pose proof (fit_ids _ _ _ F) as FI. destruct F as (LA & SI & TI & _). apply simple_kids in SI as [SN _]. unfold readable_node in SN. apply andb_true_iff in SN as [SI SN].
  cbn [undeco kval kid d_children] in *. rewrite Forall_map in *. cbn [vshape] in V. apply andb_true_iff in V as [VF V]. rewrite forallb_mapped in V. rewrite forallb_forall in V.
  rewrite !andb_true_iff. split; [split; [split; [split|]|]|].
  - destruct (f_id f); [|reflexivity]. destruct id; [|reflexivity]. now apply id_plain_id.
  - destruct m; [discriminate|reflexivity].
  - apply orb_true_iff in VF as [VF|VF].
    { rewrite !andb_true_iff in VF. destruct VF as [[VI VT] VS]. rewrite (FI VI), VT, VS. reflexivity. }
    apply orb_true_iff. right. destruct m as [|[name x] m]; [discriminate|]. cbn [map fst snd first_simple seen_first] in *. destruct x as [xf xid xv]. cbn [undeco kval kid] in VF. unfold verbose_cntr, cntr_node. cbn [d_val].
    destruct xv; try (rewrite andb_false_r; reflexivity). apply andb_true_iff in VF as [V1 V2]. unfold shown_id. cbn [d_fmt d_id]. rewrite V2. destruct xid; [discriminate|]. destruct (f_id xf); now rewrite orb_true_r.
  - apply chain_all. rewrite Forall_forall in *. intros e He y. rewrite field_unbare; [reflexivity|apply all_unbare..|apply (FK e He)].
  - destruct m as [|e0 m0] eqn:EM; [discriminate|]. rewrite <- EM in *. assert (NS : forallb (fun e : str * kserd => match fst e with [] => false | n => forallb name_char n end) (map (fun e => (fst e, undeco (snd e))) m) = true) by (rewrite EM in *; exact SN).
    rewrite forallb_mapped, forallb_forall in NS. apply forallb_forall. rewrite Forall_forall in *. intros e He. destruct (IH e He) as [A B]. apply (field_cozy n outer); auto. { specialize (NS e He). cbn [fst snd] in NS. unfold name_ok. destruct (fst e); [discriminate|exact NS]. } exact (V e He).
Qed.
End Fit.

Theorem any_readable ids k fm : reachable k fm -> k_sorted k = true -> readable_tree k = true -> vsimple ids k = true -> tuple_ids_shown (deco (fm_fmts fm) 0 k) = true ->
  (ids = true -> cntr_ids_shown (deco (fm_fmts fm) 0 k) = true) ->
  vsafe true 0 (deco (fm_fmts fm) 0 k) = true /\ (k_exact k = true -> each faithful_node (deco (fm_fmts fm) 0 k) = true).
Proof.
  intros R K S V T CI. change (deco (fm_fmts fm) 0 k) with (shown k fm) in *. pose proof (shown_lay k fm R) as LA. unfold tuple_ids_shown in T. rewrite each_all in T. unfold readable_tree in S. apply andb_true_iff in S as [SA SR].
  assert (F : fit ids (shown k fm)) by (split; [exact LA|split; [now rewrite shown_undeco|split; [exact T|exact CI]]]).
  destruct (simple_safe (shown k fm)) as [A B]; [now rewrite shown_undeco|exact T|]. split; [|rewrite shown_undeco in B; exact B].
  destruct (verbose_cntr (shown k fm)) eqn:C; [apply (proj1 (all_cozy ids _) true 0%nat true F C); [reflexivity|now rewrite shown_undeco]|].
  rewrite vsafe_plain by exact C. destruct (readable_text_safe (shown k fm)) as [TS _]; [rewrite shown_undeco; unfold readable_tree; now rewrite SA, SR|unfold tuple_ids_shown; now rewrite each_all|].
  unfold text_safe in TS. apply andb_true_iff in TS as [_ TS]. rewrite TS, andb_true_r. apply (fit_plain ids); [exact F|]. apply lay_flat; [exact LA|].
  destruct (verbose_line (shown k fm)) eqn:VL; [|reflexivity]. exfalso. pose proof (reachable_finv k fm R) as [NV _]. pose proof (reachable_invariant k fm R) as (_ & _ & _ & _ & Z).
  unfold verbose_cntr in C. rewrite VL in C. cbn [andb] in C. apply Z.
  - rewrite <- (shown_undeco k fm). unfold is_cntr, cntr_node in *. destruct (shown k fm) as [f id v]. cbn [undeco kval d_val] in *. destruct v; (discriminate || reflexivity).
  - apply line_of_at. pose proof (reachable_finv k fm R) as [_ I]. assert (E : d_line (shown k fm) = Verbose) by (unfold verbose_line in VL; destruct (d_line (shown k fm)); (discriminate || reflexivity)).
    rewrite <- E. change (shown k fm) with (D (fm_fmts fm) (0%nat, (info_default, k))). apply (D_line k (fm_fmts fm) (0%nat, (info_default, k))); [apply I|apply root_ok].
Qed.
Theorem any_simple ids k fm : reachable k fm -> k_sorted k = true -> simple_tree k = true -> vsimple ids k = true -> tuple_ids_shown (deco (fm_fmts fm) 0 k) = true -> (ids = true -> cntr_ids_shown (deco (fm_fmts fm) 0 k) = true) ->
  vsafe true 0 (deco (fm_fmts fm) 0 k) = true /\ each faithful_node (deco (fm_fmts fm) 0 k) = true.
Proof. intros R K S V T CI. unfold simple_tree in S. apply andb_true_iff in S as [S X]. destruct (any_readable ids k fm R K S V T CI). auto. Qed.
Theorem simple_round_trip ids k fm : reachable k fm -> k_sorted k = true -> simple_tree k = true -> vsimple ids k = true -> tuple_ids_shown (deco (fm_fmts fm) 0 k) = true -> (ids = true -> cntr_ids_shown (deco (fm_fmts fm) 0 k) = true) ->
  exists t k', fm_write fm [] = LRet t /\ parse t = ParseOk k' /\ k_eqb k' k = true.
Proof. intros R K S V T CI. destruct (any_simple ids k fm R K S V T CI). now apply any_equal. Qed.
Lemma config_cntrs k fm cfg fm' : reachable k fm -> apply_config fm cfg = LRet fm' -> id_on_containers cfg = true ->
  cntr_ids_shown (deco (fm_fmts fm') 0 k) = true.
Proof.
  intros R E HC. destruct (config_flags k fm cfg fm' R E) as [N ID]. pose proof (reachable_finv k fm R) as [N' I'].
  pose proof (apply_config_finv k fm cfg fm' (conj N' I') E) as [N2 I2].
  unfold cntr_ids_shown. rewrite each_all. change (deco (fm_fmts fm') 0 k) with (D (fm_fmts fm') (0%nat,(info_default,k))).
  set (p := fun x : dk => _). apply (D_items k (fm_fmts fm') (fun d => d_all p d = true)); [|apply root_ok]. intros it Ho F.
  assert (FL : f_id (d_fmt (D (fm_fmts fm') it)) = flag cfg (kval (snd (snd it)))).
  { destruct (get_fmts k (fm_fmts fm') it (proj1 I2) Ho) as [f Hf]. pose proof (ok_get k it Ho) as G.
    specialize (ID (nd it)). rewrite N' in ID. specialize (ID (nth_error_In _ _ G)). cbn [nd mk_full n_idx n_kserd] in ID. rewrite Hf in ID. cbn [option_map] in ID.
    rewrite D_unfold. cbn [d_fmt]. rewrite (nth_error_nth _ _ _ Hf). congruence. }
  pose proof (eq_refl (undeco (D (fm_fmts fm') it))) as U. unfold D at 1 in U. rewrite undeco_deco in U. rewrite U in FL. clear U.
  destruct (D (fm_fmts fm') it) as [f id v]. apply d_all_children. split; [|exact F]. rewrite flag_undeco in FL. cbn [d_fmt] in FL.
  unfold p. cbn [d_val d_fmt]. destruct v; try reflexivity. cbn [flag] in FL. now rewrite FL, HC.
Qed.
Lemma as_str_any_same k cfg : simple_tree k = true -> vsimple (id_on_containers cfg) k = true -> k_sorted k = true -> ~ stuck cfg k ->
  (id_on_tuples cfg = true \/ forall x, In x (preorder k) -> match kval x with VTuple _ => kid x = None | _ => True end) ->
  exists t k', as_str_with_config k cfg = LRet t /\ parse t = ParseOk k' /\ same k' k.
Proof.
  intros S V K C T. unfold as_str_with_config. destruct (new_returns k) as (fm & E & R). rewrite E. cbn [lbind].
  destruct (config_free k fm cfg E C) as (fm' & E' & R'). rewrite E'. cbn [lbind].
  pose proof (config_tuples k fm cfg fm' R E' T) as TS. destruct (any_simple _ k fm' R' K S V TS (config_cntrs k fm cfg fm' R E')) as [A B].
  destruct (any_parses k fm' R' K A) as (t & W & P). exists t, (vnorm (shown k fm')). split; [exact W|]. split; [exact P|]. rewrite each_all in B.
  pose proof (vnorm_same (shown k fm') B) as N. rewrite shown_undeco in N. now apply N.
Qed.
Theorem as_str_any k cfg : simple_tree k = true -> vsimple (id_on_containers cfg) k = true -> k_sorted k = true -> ~ stuck cfg k ->
  (id_on_tuples cfg = true \/ forall x, In x (preorder k) -> match kval x with VTuple _ => kid x = None | _ => True end) ->
  exists t k', as_str_with_config k cfg = LRet t /\ parse t = ParseOk k' /\ k_eqb k' k = true.
Proof.
  intros S V K C T. destruct (as_str_any_same k cfg S V K C T) as (t & k' & E & P & A & B & Q). exists t, k'. split; [exact E|]. split; [exact P|]. now apply good_key_eqb.
Qed.
Theorem as_str_any_agree k cfg1 cfg2 : simple_tree k = true -> k_sorted k = true ->
  (forall cfg, cfg = cfg1 \/ cfg = cfg2 -> vsimple (id_on_containers cfg) k = true /\ ~ stuck cfg k /\
    (id_on_tuples cfg = true \/ forall x, In x (preorder k) -> match kval x with VTuple _ => kid x = None | _ => True end)) ->
  exists t1 t2 k1 k2, as_str_with_config k cfg1 = LRet t1 /\ as_str_with_config k cfg2 = LRet t2 /\
    parse t1 = ParseOk k1 /\ parse t2 = ParseOk k2 /\ k_eqb k1 k2 = true.
Proof.
  intros S K H. destruct (H cfg1 (or_introl eq_refl)) as (V1 & C1 & T1). destruct (H cfg2 (or_intror eq_refl)) as (V2 & C2 & T2).
  destruct (as_str_any_same k cfg1 S V1 K C1 T1) as (t1 & k1 & E1 & P1 & A1 & B1 & Q1). destruct (as_str_any_same k cfg2 S V2 K C2 T2) as (t2 & k2 & E2 & P2 & A2 & B2 & Q2).
  exists t1, t2, k1, k2. repeat (split; [assumption|]). apply good_key_eqb; try assumption. rewrite (law_eq _ _ good_key_lawful _ _ _ A1 B1 A2 Q1). rewrite k_cmp_anti, Q2. reflexivity.
Qed.
