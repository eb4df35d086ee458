(** What is written is not taken for another value: conditions on the value alone. *)
From Verif Require Import ParseSpec PropertiesParse Base F64 Number NumberSpec BTree Value BaseProps BTreeProps ValueSpec ValueProps ValueProps2 Nom Parse ParseErr ParseProps Grammar VGrammar GrammarProps VGrammarProps VAssemble VGrammarProps2 Format FormatProps Nav NavSpec NavProps NavProps2 Fmt Formatter FmtText FmtSpec FmtProps FmtProps2 FormatterProps FormatterProps2 FormatterProps3 FormatterProps4 VSpec VRtProps VRtProps2 VRtProps3 VRtProps4 VRtProps5 Syntax SyntaxProps SyntaxProps2 SyntaxProps3 SyntaxProps4 RtSpec RtProps2 RtProps3 RtProps4 RtProps5 RtProps6 RtProps7 MisreadSpec MisreadProps MisreadProps2 MisreadProps3 MisreadProps4 MisreadProps5 MisreadProps6 MisreadProps7 LegibleSpec MisreadSpec2 MisreadProps8 MisreadProps9.
From Verif Require LocalProps3.
Open Scope N_scope.

Theorem never_unequal_titles k fm t k' : reachable k fm -> k_sorted k = true -> clear (deco (fm_fmts fm) 0 k) = true -> vclear true true (deco (fm_fmts fm) 0 k) = true ->
  each faithful_node (deco (fm_fmts fm) 0 k) = true ->
  fm_write fm [] = LRet t -> parse t = ParseOk k' -> k_eqb k' k = true.
Proof.
  intros R K T V F E P. rewrite (never_misread_titles k fm t k' R K T V E P). change (deco (fm_fmts fm) 0 k) with (shown k fm) in *.
  rewrite <- (shown_undeco k fm) in K. rewrite each_all in F. destruct (vnorm_same (shown k fm) F K) as (A & B & Q). rewrite shown_undeco in *. now apply good_key_eqb.
Qed.
Theorem refused_or_right_titles k fm : reachable k fm -> k_sorted k = true -> clear (deco (fm_fmts fm) 0 k) = true -> vclear true true (deco (fm_fmts fm) 0 k) = true ->
  exists t, fm_write fm [] = LRet t /\ ((exists e, parse t = ParseErr e) \/ parse t = ParseOk (vnorm (deco (fm_fmts fm) 0 k))).
Proof.
  intros R K T V. destruct (write_returns k fm [] R (clear_strings k fm T)) as (t & E). exists t. split; [exact E|].
  destruct (C17_parse_total t) as [[k' P]|[e P]]; [right|left; now exists e]. rewrite P. f_equal. now apply (never_misread_titles k fm t).
Qed.

(** ** conditions on the value alone *)
Section Told.
Context (ids : bool).
Definition apt (d : dk) : Prop := d_all lay_node d = true /\ d_all (fun x => negb (drops x)) d = true /\ (ids = true -> cntr_ids_shown d = true).
Lemma apt_kids f id v : apt (DK f id v) -> Forall apt (d_children v).
Proof.
  intros (L & T & I). apply d_all_children in L as [_ L]. apply d_all_children in T as [_ T].
  assert (J : Forall (fun c => ids = true -> cntr_ids_shown c = true) (d_children v)).
  { unfold cntr_ids_shown in *. rewrite each_all in I. destruct ids; [|apply Forall_forall; discriminate]. specialize (I eq_refl). apply d_all_children in I as [_ I]. eapply Forall_impl; [|exact I]. auto. }
  rewrite Forall_forall in *. intros c Hc. split; [|split]; auto.
Qed.
Lemma apt_drops d : apt d -> drops d = false.
Proof. intros (_ & T & _). destruct d as [f id v]. apply d_all_children in T as [T _]. now apply negb_true_iff in T. Qed.
Lemma apt_ids f id m : apt (DK f id (VCntr m)) -> ids = true -> (if f_id f then id else None) = id.
Proof.
  intros (_ & _ & I) H. specialize (I H). unfold cntr_ids_shown in I. rewrite each_all in I. apply d_all_children in I as [I _]. cbn [d_val d_fmt d_id] in I.
  destruct (f_id f); [reflexivity|]. destruct id; [discriminate|reflexivity].
Qed.
Lemma apt_kind d : apt d -> verbose_line d = true -> kind_max (undeco d) = Verbose.
Proof.
  intros (L & _) V. destruct d as [f id v]. apply d_all_children in L as [L _]. unfold lay_node in L. apply andb_true_iff in L as [L _]. unfold verbose_line in V. destruct (d_line (DK f id v)); try discriminate.
  now destruct (kind_max (undeco (DK f id v))).
Qed.
Definition told (d : dk) : Prop := forall top outer, apt d -> verbose_cntr d = true -> tshape ids top outer (undeco d) = true -> vclear top outer d = true.
Definition field_told (outer : bool) (x : kserd) : bool :=
  match x with Kserd _ xv =>
    match xv with
    | VCntr _ => tshape ids false false x
    | VSeq l => forallb (fun y => tshape ids true false y && elem_simple ids y && elem_quiet y) l
    | VMap l =>
        (outer || match l with [] => true | _ => false end) &&
        forallb (fun p => key_simple (fst p) && key_quiet (fst p) && (if match kval (snd p) with VCntr _ => true | _ => false end then tshape ids true false (snd p) else kempty (snd p))) l
    | _ => true
    end
  end.
Lemma elem_told y : told y -> apt y -> tshape ids true false (undeco y) = true -> elem_simple ids (undeco y) = true -> elem_quiet (undeco y) = true ->
  negb (drops y) && (if verbose_cntr y then vclear true false y && keyless_first y else plain_elem y) = true.
Proof.
  intros C F V E Q. rewrite (apt_drops y F). cbn [negb andb]. destruct (verbose_cntr y) eqn:VC.
  - rewrite (C true false F VC V). cbn [andb].
    destruct y as [f id v]. unfold verbose_cntr, cntr_node in VC. apply andb_true_iff in VC as [_ VC]. cbn [d_val] in VC. unfold keyless_first. cbn [d_val]. destruct v as [| | | | | |m| |]; try discriminate.
    destruct m as [|[name x] m]; [reflexivity|]. unfold elem_simple in E. cbn [undeco kid kval map fst] in E. apply orb_true_iff in E as [E|E]; [|rewrite E; now rewrite !orb_true_r].
    apply andb_true_iff in E as [EI E]. unfold shown_id. cbn [d_fmt d_id]. rewrite (apt_ids _ _ _ F EI), E. now rewrite !orb_true_r.
  - assert (VL : verbose_line y = false).
    { destruct (verbose_line y) eqn:VL; [|reflexivity]. pose proof (apt_kind y F VL) as K. destruct y as [f id v]. unfold verbose_cntr, cntr_node in VC. rewrite VL in VC. cbn [d_val andb] in VC.
      unfold elem_simple, kempty in E. unfold kind_max in K. cbn [undeco kval] in *. destruct v as [| | | | |[|]|[|]|[|]|[|]]; discriminate. }
    unfold plain_elem. rewrite VL. cbn [negb andb]. destruct y as [f id v]. unfold elem_quiet in Q. cbn [undeco kval d_val sign] in *. destruct v; try discriminate; try reflexivity; destruct (if f_id f then id else None); (reflexivity || exact Q).
Qed.
Lemma entry_told p : told (snd p) -> apt (fst p) -> apt (snd p) -> key_simple (undeco (fst p)) = true -> key_quiet (undeco (fst p)) = true ->
  (if match kval (undeco (snd p)) with VCntr _ => true | _ => false end then tshape ids true false (undeco (snd p)) else kempty (undeco (snd p))) = true -> entry_clear p = true.
Proof.
  intros C F1 F2 SK QK SV. unfold entry_clear. rewrite (apt_drops _ F1).
  assert (KI : d_line (fst p) = Inline).
  { destruct F1 as (L1 & _). destruct (fst p) as [f1 id1 v1]. apply d_all_children in L1 as [L1 _]. unfold lay_node in L1. apply andb_true_iff in L1 as [L1 _]. unfold key_simple in SK. unfold kind_max in L1. cbn [undeco kval] in *.
    destruct (d_line (DK f1 id1 v1)); [reflexivity|..]; destruct v1 as [| | | | |[|]|[|]|[|]|[|]]; discriminate. }
  rewrite KI. change (repr_eqb Inline Inline) with true. cbn [negb]. rewrite !andb_true_r. apply andb_true_iff. split.
  - rewrite each_all. destruct (fst p) as [f1 id1 v1]. apply d_all_children. unfold key_simple, key_quiet, legible_node in *. cbn [undeco kval d_val] in *. rewrite KI.
    destruct v1 as [| |n| | |[|]|[|]|[|]|[|]]; try discriminate; (split; [(exact QK || reflexivity)|constructor]).
  - destruct (verbose_line (snd p)) eqn:VL; [|reflexivity]. pose proof (apt_kind _ F2 VL) as K.
    assert (VC : verbose_cntr (snd p) = true).
    { unfold verbose_cntr. rewrite VL. destruct (snd p) as [f2 id2 v2]. unfold kempty, kind_max, cntr_node in *. cbn [undeco kval d_val] in *. destruct v2 as [| | | | |[|]|[|]|[|]|[|]]; (discriminate || reflexivity). }
    rewrite VC. cbn [andb]. apply C; [exact F2|exact VC|]. unfold verbose_cntr, cntr_node in VC. rewrite VL in VC. destruct (snd p) as [f2 id2 v2]. cbn [undeco kval d_val andb] in *. destruct v2; (discriminate || exact SV).
Qed.
Lemma field_told_clear outer e : told (snd e) -> Forall told (d_children (d_val (snd e))) -> apt (snd e) -> field_told outer (undeco (snd e)) = true -> field_clear outer e = true.
Proof.
  destruct e as [name x]. cbn [fst snd]. intros C CC F S. unfold field_clear. cbn [fst snd].
  destruct (verbose_line x) eqn:VL; [|destruct x as [f id v]; unfold verbose_line, d_line in VL; cbn [d_fmt] in VL; destruct (f_line f); (reflexivity || discriminate)].
  pose proof (apt_kind x F VL) as K. destruct x as [f id v]. pose proof (apt_kids f id v F) as FK. pose proof VL as VL'. unfold verbose_line, d_line in VL. cbn [d_fmt d_val] in *. destruct (f_line f) eqn:L; try discriminate.
  unfold kind_max in K. cbn [undeco kval field_told] in *. destruct v as [| | | | |[|]|m|l|m]; try discriminate; cbn [map d_children] in *.
  - apply (C false false); [exact F| |exact S]. unfold verbose_cntr. now rewrite VL'.
  - rewrite forallb_mapped, forallb_forall in S. apply andb_true_iff. split; [destruct l; [discriminate|reflexivity]|].
    apply forallb_forall. rewrite Forall_forall in *. intros y Hy. specialize (S y Hy). rewrite !andb_true_iff in S. destruct S as [[S1 S2] S3]. apply elem_told; auto.
  - apply andb_true_iff in S as [S1 S]. rewrite forallb_mapped, forallb_forall in S. apply Forall_entries in FK, CC. destruct m as [|p0 m]; [discriminate|]. cbn [map] in S1. rewrite orb_false_r in S1. subst outer. cbn [andb nonempty].
    apply forallb_forall. rewrite Forall_forall in *. intros p Hp. destruct (FK p Hp) as [F1 F2]. destruct (CC p Hp) as [_ C2]. specialize (S p Hp). cbn [fst snd] in S. rewrite !andb_true_iff in S. destruct S as [[SK SQ] SV]. apply entry_told; auto.
Qed.
Lemma all_told d : told d /\ Forall told (d_children (d_val d)).
Proof.
  induction d as [f id v IH] using dk_ind'. split; [|cbn [d_val]; eapply Forall_impl; [|exact IH]; intros a [H _]; exact H].
  intros top outer F C V. pose proof C as C0. unfold verbose_cntr, verbose_line, d_line, cntr_node in C. cbn [d_fmt d_val] in C. apply andb_true_iff in C as [L C].
  destruct v as [| | | | | |m| |]; try discriminate. destruct (f_line f) eqn:EL; try discriminate. clear L C.
  rewrite vclear_verbose by exact EL. pose proof (apt_kids _ _ _ F) as FK. pose proof (apt_ids _ _ _ F) as FI. assert (KM : kind_max (undeco (DK f id (VCntr m))) = Verbose) by (apply apt_kind; [exact F|]; now apply andb_true_iff in C0 as [C0 _]).
  unfold kind_max in KM. cbn [undeco kval kid d_children] in *. rewrite Forall_map in *. cbn [tshape] in V. apply andb_true_iff in V as [VF V]. rewrite forallb_mapped in V. rewrite forallb_forall in V.
  assert (NE : nonempty m = true) by (destruct m; [discriminate|reflexivity]).
  rewrite !andb_true_iff. split; [split; [exact NE|]|].
  - apply orb_true_iff in VF as [VF|VF].
    { rewrite !andb_true_iff in VF. destruct VF as [[VI VT] VS]. rewrite (FI VI), VT, VS. reflexivity. }
    apply orb_true_iff. right. destruct m as [|[name x] m]; [discriminate|]. cbn [map fst snd first_simple seen_first] in *. destruct x as [xf xid xv]. cbn [undeco kval kid] in VF. unfold verbose_cntr, cntr_node. cbn [d_val].
    destruct xv; try (rewrite andb_false_r; reflexivity). apply andb_true_iff in VF as [V1 V2]. unfold shown_id. cbn [d_fmt d_id]. rewrite V2. destruct xid; [discriminate|]. destruct (f_id xf); now rewrite orb_true_r.
  - apply forallb_forall. rewrite Forall_forall in *. intros e He. destruct (IH e He) as [A B]. apply field_told_clear; auto. exact (V e He).
Qed.
End Told.

Theorem told_apart_clear ids k fm : reachable k fm -> told_apart ids k = true -> tuple_ids_shown (deco (fm_fmts fm) 0 k) = true ->
  (ids = true -> cntr_ids_shown (deco (fm_fmts fm) 0 k) = true) -> vclear true true (deco (fm_fmts fm) 0 k) = true.
Proof.
  intros R V T CI. change (deco (fm_fmts fm) 0 k) with (shown k fm) in *. pose proof (shown_lay k fm R) as LA. unfold tuple_ids_shown in T. rewrite each_all in T.
  assert (F : apt ids (shown k fm)) by (split; [exact LA|split; [exact T|exact CI]]).
  destruct (verbose_cntr (shown k fm)) eqn:C; [apply (proj1 (all_told ids _) true true F C); now rewrite shown_undeco|].
  assert (G : d_all flat_node (shown k fm) = true).
  { apply lay_flat; [exact LA|]. destruct (verbose_line (shown k fm)) eqn:VL; [|reflexivity]. exfalso. pose proof (reachable_finv k fm R) as [NV _]. pose proof (reachable_invariant k fm R) as (_ & _ & _ & _ & Z).
    unfold verbose_cntr in C. rewrite VL in C. cbn [andb] in C. apply Z.
    - rewrite <- (shown_undeco k fm). unfold is_cntr, cntr_node in *. destruct (shown k fm) as [f id v]. cbn [undeco kval d_val] in *. destruct v; (discriminate || reflexivity).
    - apply line_of_at. pose proof (reachable_finv k fm R) as [_ I]. assert (E : d_line (shown k fm) = Verbose) by (unfold verbose_line in VL; destruct (d_line (shown k fm)); (discriminate || reflexivity)).
      rewrite <- E. change (shown k fm) with (D (fm_fmts fm) (0%nat, (info_default, k))). apply (D_line k (fm_fmts fm) (0%nat, (info_default, k))); [apply I|apply root_ok]. }
  destruct (shown k fm) as [f id v]. unfold verbose_cntr, verbose_line, cntr_node, d_line in C. cbn [d_fmt d_val] in C. cbn [vclear]. rewrite each_all. destruct (f_line f), v; (exact G || discriminate).
Qed.
Theorem as_str_never_misread_any k cfg t k' : told_apart (id_on_containers cfg) k = true -> k_all clear_value k = true ->
  (id_on_tuples cfg = true \/ forall x, In x (preorder k) -> match kval x with VTuple _ => kid x = None | _ => True end) ->
  k_sorted k = true -> k_all whole_value k = true ->
  as_str_with_config k cfg = LRet t -> parse t = ParseOk k' -> k_eqb k' k = true.
Proof.
  intros C S T K W E P. unfold as_str_with_config in E. destruct (new_returns k) as (fm & EN & R). rewrite EN in E. cbn [lbind] in E.
  destruct (apply_config fm cfg) as [fm'| |] eqn:E'; try discriminate. cbn [lbind] in E.
  assert (R' : reachable k fm') by (exact (LocalProps3.reach_step k fm (OpConfig cfg) fm' R E')).
  pose proof (config_tuples k fm cfg fm' R E' T) as TS. pose proof TS as TA. unfold tuple_ids_shown in TS. rewrite each_all in TS.
  destruct (clear_shown (shown k fm')) as [A B]; [now rewrite shown_undeco|exact TS|]. rewrite shown_undeco in B.
  apply (never_unequal_titles k fm' t k' R'); auto.
  apply (told_apart_clear (id_on_containers cfg)); [exact R'|exact C|exact TA|]. exact (config_cntrs k fm cfg fm' R E').
Qed.
