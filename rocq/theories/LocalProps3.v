(** A change of one leaf: the layout and the text. *)
From Verif Require Import Base BaseProps F64 Number BTree Value ValueProps Base91 Nav NavSpec NavProps NavProps2 Fmt FmtText FmtProps FmtProps2 FmtSpec Formatter FormatterProps FormatterProps2 FormatterProps3 FormatterProps4 Mutate MutateSpec LayoutSpec SizeProps2 LocalSpec LocalProps LocalProps2.
Open Scope nat_scope.

Lemma lfold_snoc {A B} (f : B -> A -> lres B) l a : forall b, lfold f (l ++ [a]) b = (dl c <- lfold f l b ; f c a).
Proof. induction l as [|x l IH]; intros b; cbn [app lfold lbind]; [now destruct (f b a)|]. destruct (f b x); cbn [lbind]; auto. Qed.
Lemma reach_step k fm o fm' : reachable k fm -> apply_op fm o = LRet fm' -> reachable k fm'.
Proof.
  intros [ops R] A. exists (ops ++ [o]). unfold run in *. destruct (fm_new k) as [f0| |]; cbn [lbind] in *; try discriminate. rewrite lfold_snoc, R. exact A.
Qed.

Section Edit.
  Variables x y : kserd.
  Hypothesis LX : leaf x = true.
  Hypothesis LY : leaf y = true.

  Definition ed (k k' : kserd) : Prop := k = k' \/ exists p, edited x y p k k'.
  Lemma leaf_size k : leaf k = true -> ksize k = 1.
  Proof. destruct k as [id v]. unfold leaf. cbn [kval]. destruct v; intros H; try discriminate; reflexivity. Qed.
  Lemma edited_size p k k' : edited x y p k k' -> ksize k = ksize k'.
  Proof.
    induction 1 as [|i p k k' c c' O E IH]; [now rewrite !leaf_size|].
    destruct O; cbn [ksize]; rewrite !map_app; cbn [map fst snd]; rewrite !list_sum_app'; rewrite !list_sum_cons; rewrite IH; reflexivity.
  Qed.
  Lemma ed_size k k' : ed k k' -> ksize k = ksize k'.
  Proof. intros [->|[p E]]; [reflexivity|exact (edited_size p k k' E)]. Qed.
  Lemma ed_head k k' : ed k k' -> alike_head k k'.
  Proof.
    intros [->|[p E]].
    - unfold alike_head. destruct (kval k'); auto.
    - destruct E as [|i p k k' c c' O E].
      + unfold leaf in *. unfold alike_head. destruct (kval x); try discriminate; destruct (kval y); try discriminate; exact Logic.I.
      + destruct O; unfold alike_head; cbn [kval]; auto. rewrite !map_app. reflexivity.
  Qed.
  Definition edi (e e' : ninfo * kserd) : Prop := fst e = fst e' /\ ksize (snd e) = ksize (snd e') /\ forall info base, Forall2 (simn ed) (pre info base (snd e)) (pre info base (snd e')).
  Lemma simn_refl n : simn ed n n.
  Proof. constructor; try reflexivity. now left. Qed.
  Lemma pre_refl l : Forall2 (simn ed) l l.
  Proof. induction l; constructor; auto using simn_refl. Qed.
  Lemma edi_refl e : edi e e.
  Proof. repeat split. intros. apply pre_refl. Qed.
  Lemma pre_list_rel l m : Forall2 edi l m -> forall off, Forall2 (simn ed) (pre_list off l) (pre_list off m).
  Proof.
    induction 1 as [|e e' l m (E1 & E2 & E3) _ IH]; intros off; cbn [pre_list]; [constructor|]. rewrite E1, E2. apply Forall2_app; [apply E3|apply IH].
  Qed.
  Definition ek (c c' : kserd) : Prop := ksize c = ksize c' /\ forall info base, Forall2 (simn ed) (pre info base c) (pre info base c').
  Lemma ek_refl c : ek c c.
  Proof. split; [reflexivity|]. intros. apply pre_refl. Qed.
  Lemma vinfos_rel p l m : Forall2 ek l m -> forall i, Forall2 edi (vinfos p i l) (vinfos p i m).
  Proof. induction 1 as [|a b l m H _ IH]; intros i; cbn [vinfos]; constructor; [|apply IH]. destruct H as [H1 H2]. now repeat split. Qed.
  Lemma minfos_rel p (l m : list (kserd * kserd)) : Forall2 (fun e e' => ek (fst e) (fst e') /\ ek (snd e) (snd e')) l m -> forall i, Forall2 edi (minfos p i l) (minfos p i m).
  Proof. induction 1 as [|a b l m [[H1 H2] [H3 H4]] _ IH]; intros i; cbn [minfos]; [constructor|]. constructor; [now repeat split|]. constructor; [now repeat split|]. apply IH. Qed.
  Lemma Forall2_mid {A} (R : A -> A -> Prop) l1 c c' l2 : (forall a, R a a) -> R c c' -> Forall2 R (l1 ++ c :: l2) (l1 ++ c' :: l2).
  Proof. intros RR H. assert (F : forall l, Forall2 R l l) by (induction l; constructor; auto). apply Forall2_app; [apply F|]. constructor; [exact H|apply F]. Qed.
  Lemma pre_rel p k k' : edited x y p k k' -> ek k k'.
  Proof.
    intros E. split; [exact (edited_size p k k' E)|]. induction E as [|i p k k' c c' O E IH]; intros info base.
    - rewrite !pre_unfold. assert (NX : kid_infos base (kval x) = []) by (unfold leaf in LX; destruct (kval x); try discriminate; reflexivity).
      assert (NY : kid_infos base (kval y) = []) by (unfold leaf in LY; destruct (kval y); try discriminate; reflexivity). rewrite NX, NY. cbn [pre_list]. constructor; [|constructor].
      constructor; try reflexivity. right. exists []. constructor.
    - rewrite !pre_unfold. constructor.
      { constructor; try reflexivity. right. exists (i :: p). econstructor; eauto. }
      assert (EK : ek c c') by (split; [exact (edited_size p c c' E)|exact IH]). apply pre_list_rel.
      destruct O; cbn [kval kid_infos].
      + apply vinfos_rel, Forall2_mid; auto using ek_refl.
      + apply vinfos_rel, Forall2_mid; auto using ek_refl.
      + rewrite !map_app. cbn [map snd]. apply vinfos_rel, Forall2_mid; auto using ek_refl.
      + apply minfos_rel, Forall2_mid; [|split; auto using ek_refl]. intros a. split; apply ek_refl.
  Qed.
  Lemma children_rel l m sel i : (sel = n_value_idx \/ sel = n_key_idx) -> Forall2 (simn ed) l m -> children_of l sel i = children_of m sel i.
  Proof.
    intros S F. unfold children_of. f_equal. f_equal. induction F as [|a b l m H _ IH]; [reflexivity|]. cbn [filter]. rewrite (s_parent _ _ _ H). destruct (opt_eqb (n_parent b) (Some i)); [|exact IH].
    cbn [flat_map]. rewrite IH. f_equal. rewrite (s_idx _ _ _ H). destruct S as [->| ->]; [now rewrite (s_value _ _ _ H)|now rewrite (s_key _ _ _ H)].
  Qed.
  Lemma edited_corr p k k' : edited x y p k k' -> corr ed k k'.
  Proof.
    intros E. pose proof (proj2 (pre_rel p k k' E) info_default 0) as F. unfold corr, full.
    assert (G : forall l m, Forall2 (simn ed) l m -> Forall2 (simn ed) (map (link_node (pre info_default 0 k)) l) (map (link_node (pre info_default 0 k')) m)).
    { induction 1 as [|a b l m H _ IH]; cbn [map]; constructor; [|exact IH]. unfold link_node. constructor; cbn; try apply H.
      - rewrite (s_values _ _ _ H), (s_idx _ _ _ H). f_equal. apply children_rel; auto.
      - rewrite (s_keys _ _ _ H), (s_idx _ _ _ H). f_equal. apply children_rel; auto. }
    now apply G.
  Qed.

  (** ** widths *)
  Lemma room_width cfg k : leaf k = true -> iw cfg k = room cfg k /\ cw cfg k = room cfg k.
  Proof.
    destruct k as [id v]. unfold leaf, room. cbn [kval kid iw cw concise_width inline_width ident_len].
    destruct v as [|b|n|t|b| | | |]; intros H; try discriminate; unfold concise_width, inline_width, ident_len; cbn [kval kid].
    - destruct id as [[|c i]|]; cbn [length Nat.ltb Nat.leb]; lia.
    - lia.
    - lia.
    - assert (EL : list_sum (map escape_len t) = list_sum (map (fun c => 1 + escape_extra c) t)).
      { f_equal. apply map_ext_in. intros c Hc. rewrite forallb_forall in H. apply plain_escape, H, Hc. }
      rewrite EL. lia.
    - change (length FIELDS_SEPARATOR) with 2. destruct (length b); lia.
  Qed.
  Lemma edited_width cfg p k k' : room cfg x = room cfg y -> edited x y p k k' -> iw cfg k = iw cfg k' /\ cw cfg k = cw cfg k'.
  Proof.
    intros R. induction 1 as [|i p k k' c c' O E [I1 I2]].
    - destruct (room_width cfg x LX) as [-> ->], (room_width cfg y LY) as [-> ->]. now split.
    - assert (IW : inline_width k cfg = inline_width k' cfg) by (destruct O; unfold inline_width, ident_len; cbn [kval kid]; rewrite ?app_length, ?map_app; reflexivity).
      assert (CW : concise_width k cfg = concise_width k' cfg) by (destruct O; reflexivity).
      destruct O; cbn [iw cw]; rewrite IW, CW, !map_app; cbn [map fst snd]; rewrite I1, I2; now split.
  Qed.
  Lemma ed_width cfg k k' : room cfg x = room cfg y -> ed k k' -> iw cfg k = iw cfg k' /\ cw cfg k = cw cfg k'.
  Proof. intros R [->|[p E]]; [now split|exact (edited_width cfg p k k' R E)]. Qed.

  (** ** the same calls give the same layout *)
  Variable p : list nat.
  Variables k k' : kserd.
  Hypothesis E : edited x y p k k'.
  Let C : corr ed k k' := edited_corr p k k' E.
  Lemma config_none cfg fmts fm : reachable k (mkFmtr (full k) fmts) -> reachable k' (mkFmtr (full k') fmts) -> width_limit cfg = None ->
    apply_config (mkFmtr (full k) fmts) cfg = LRet fm -> exists fm', apply_config (mkFmtr (full k') fmts) cfg = LRet fm' /\ fm_fmts fm' = fm_fmts fm.
  Proof.
    intros R R' W A. assert (SV : solvable k' cfg) by (unfold solvable; auto).
    destruct (config_returns k' _ cfg R' SV) as (fm' & A' & RR'). exists fm'. split; [exact A'|].
    pose proof (config_no_limit k _ cfg fm R W A) as L. pose proof (config_no_limit k' _ cfg fm' R' W A') as L'. cbn [fm_nav] in *.
    destruct (config_flags k _ cfg fm R A) as [N ID]. destruct (config_flags k' _ cfg fm' R' A') as [N' ID']. cbn [fm_nav] in *.
    pose proof (apply_config_finv k _ cfg fm (reachable_finv k _ R) A) as [_ [LN _]]. pose proof (reachable_finv k' fm' RR') as [_ [LN' _]].
    assert (SL : length (full k) = length (full k')) by exact (Forall2_len _ _ _ C).
    apply nth_error_ext_list. intros j. destruct (Nat.lt_ge_cases j (length (full k))) as [J|J].
    - specialize (L j J). specialize (L' j ltac:(unfold nav_len; lia)). unfold line_of in L, L'.
      pose proof (orel_nth _ _ _ C j) as O. destruct (nth_error (full k) j) as [n|] eqn:G; [|apply nth_error_None in G; lia]. destruct (nth_error (full k') j) as [n'|] eqn:G'; [|contradiction]. cbn in O.
      specialize (ID n (nth_error_In _ _ G)). specialize (ID' n' (nth_error_In _ _ G')).
      assert (X : n_idx n = j) by (destruct (at_exists k j n G) as (info & kk & _ & ->); reflexivity). rewrite <- (s_idx _ _ _ O), X in ID'. rewrite X in ID.
      assert (FL : flag cfg (kval (n_kserd n)) = flag cfg (kval (n_kserd n'))).
      { pose proof (ed_head _ _ (s_kserd _ _ _ O)) as H. unfold alike_head in H. destruct (kval (n_kserd n)), (kval (n_kserd n')); try contradiction; reflexivity. }
      rewrite FL in ID. destruct (nth_error (fm_fmts fm) j) as [[g1 g2]|]; [|discriminate]. destruct (nth_error (fm_fmts fm') j) as [[h1 h2]|]; [|discriminate]. cbn in *. congruence.
    - rewrite (proj2 (nth_error_None _ _)) by lia. now rewrite (proj2 (nth_error_None _ _)) by lia.
  Qed.
  Lemma same_ops ops : forall fmts fm, reachable k (mkFmtr (full k) fmts) -> reachable k' (mkFmtr (full k') fmts) ->
    (forall cfg, In (OpConfig cfg) ops -> width_limit cfg <> None -> room cfg x = room cfg y) ->
    lfold apply_op ops (mkFmtr (full k) fmts) = LRet fm -> exists fm', lfold apply_op ops (mkFmtr (full k') fmts) = LRet fm' /\ fm_fmts fm' = fm_fmts fm.
  Proof.
    induction ops as [|o ops IH]; intros fmts fm R R' H A; cbn [lfold] in *; [injection A as <-; eexists; split; reflexivity|].
    destruct (apply_op (mkFmtr (full k) fmts) o) as [f1| |] eqn:A1; cbn [lbind] in A; try discriminate.
    assert (N1 : f1 = mkFmtr (full k) (fm_fmts f1)) by (pose proof (apply_op_finv k _ o f1 (reachable_finv k _ R) A1) as [N _]; destruct f1; cbn in N; now subst).
    assert (S1 : exists f1', apply_op (mkFmtr (full k') fmts) o = LRet f1' /\ fm_fmts f1' = fm_fmts f1).
    { destruct o as [r i|i w|cfg]; cbn [apply_op] in *.
      - unfold fm_request in *. cbn [fm_nav fm_fmts] in *. rewrite <- (sim_request ed ed_head _ _ C). destruct (request_repr (full k) fmts i r) as [[f0 res]| |]; cbn [lbind fst] in *; try discriminate. injection A1 as <-. eexists. split; reflexivity.
      - injection A1 as <-. eexists. split; [reflexivity|]. unfold fm_id. cbn [fm_nav fm_fmts]. now destruct (i <? length fmts).
      - destruct (width_limit cfg) as [lim|] eqn:WL; [|exact (config_none cfg fmts f1 R R' WL A1)].
        assert (RM : room cfg x = room cfg y) by (apply H; [now left|congruence]).
        pose proof (corr_config ed ed_head k k' C cfg fmts (fun a b => ed_width cfg a b RM)) as CC. rewrite A1 in CC. unfold ffmts in CC. cbn [lbind] in CC.
        destruct (apply_config (mkFmtr (full k') fmts) cfg) as [f1'| |]; cbn [lbind] in CC; try discriminate. injection CC as CC. eexists. split; [reflexivity|]. now symmetry. }
    destruct S1 as (f1' & A1' & F1).
    assert (N1' : f1' = mkFmtr (full k') (fm_fmts f1')) by (pose proof (apply_op_finv k' _ o f1' (reachable_finv k' _ R') A1') as [N _]; destruct f1'; cbn in N; now subst).
    assert (RR : reachable k f1) by exact (reach_step k _ o f1 R A1). assert (RR' : reachable k' f1') by exact (reach_step k' _ o f1' R' A1').
    rewrite A1'. cbn [lbind]. rewrite N1', F1. rewrite N1 in A, RR. rewrite N1', F1 in RR'. apply (IH _ fm RR RR'); [|exact A]. intros cfg Hc. apply H. now right.
  Qed.
  Theorem same_run ops fm : (forall cfg, In (OpConfig cfg) ops -> width_limit cfg <> None -> room cfg x = room cfg y) ->
    run k ops = LRet fm -> exists fm', run k' ops = LRet fm' /\ fm_fmts fm' = fm_fmts fm.
  Proof.
    intros H A. unfold run in *. destruct (fm_new_spec k) as (f0 & E0 & _ & _). destruct (fm_new_spec k') as (f0' & E0' & _ & _).
    pose proof (corr_new ed ed_head k k' C) as CN. unfold ffmts in CN. rewrite E0, E0' in CN. cbn [lbind fm_fmts] in CN. injection CN as <-. rewrite E0 in A. rewrite E0'. cbn [lbind] in *.
    apply (same_ops ops f0 fm); auto; (exists []; unfold run; rewrite ?E0, ?E0'; reflexivity).
  Qed.
End Edit.

(** ** the text *)
Lemma deco_leaf fmts i k : leaf k = true -> deco fmts i k = DK (nth i fmts (mkFmt true Inline)) (kid k) (dval (kval k)).
Proof. destruct k as [id v]. unfold leaf. cbn [kval]. destruct v; intros H; try discriminate; reflexivity. Qed.
Lemma leaf_text f id v top col : leaf (Kserd id v) = true -> text top (DK f id (dval v)) col = prim_text f id (dval v).
Proof. unfold leaf. cbn [kval]. destruct v; intros H; try discriminate; reflexivity. Qed.
Lemma deco_tuple fmts i id l : deco fmts i (Kserd id (VTuple l)) = DK (nth i fmts (mkFmt true Inline)) id (VTuple (decol fmts (S i) l)).
Proof. cbn [deco]. do 2 f_equal. generalize (S i). induction l as [|a l IH]; intros j; [reflexivity|]. cbn [decol]. now rewrite IH. Qed.
Lemma deco_seq fmts i id l : deco fmts i (Kserd id (VSeq l)) = DK (nth i fmts (mkFmt true Inline)) id (VSeq (decol fmts (S i) l)).
Proof. cbn [deco]. do 2 f_equal. generalize (S i). induction l as [|a l IH]; intros j; [reflexivity|]. cbn [decol]. now rewrite IH. Qed.
Lemma deco_cntr fmts i id l : deco fmts i (Kserd id (VCntr l)) = DK (nth i fmts (mkFmt true Inline)) id (VCntr (decon fmts (S i) l)).
Proof. cbn [deco]. do 2 f_equal. generalize (S i). induction l as [|a l IH]; intros j; [reflexivity|]. cbn [decon]. now rewrite IH. Qed.
Lemma deco_map fmts i id l : deco fmts i (Kserd id (VMap l)) = DK (nth i fmts (mkFmt true Inline)) id (VMap (decom fmts (S i) l)).
Proof. cbn [deco]. do 2 f_equal. generalize (S i). induction l as [|a l IH]; intros j; [reflexivity|]. cbn [decom]. now rewrite IH. Qed.
Lemma edited_text x y p k k' fmts : leaf x = true -> leaf y = true -> edited x y p k k' -> forall i,
  exists f, both (prim_text f (kid x) (dval (kval x))) (prim_text f (kid y) (dval (kval y))) (deco fmts i k) (deco fmts i k').
Proof.
  intros LX LY. induction 1 as [|n p k k' c c' O E IH]; intros i.
  - exists (nth i fmts (mkFmt true Inline)). rewrite !deco_leaf by assumption. split.
    + split.
      * split; [reflexivity|]. unfold kindn. cbn [d_val]. destruct x as [ix vx], y as [iy vy]. unfold leaf in *. cbn [kval] in *. destruct vx; try discriminate; destruct vy; try discriminate; split; try reflexivity; intros HH; now destruct HH.
      * intros top col. exists [], []. split; [cbn; lia|]. rewrite !app_nil_r. cbn [app]. destruct x as [ix vx], y as [iy vy]. cbn [kid kval]. now rewrite !leaf_text.
    + unfold parts_loc. cbn [d_val]. destruct (kval x); exact Logic.I.
  - pose proof (edited_size x y LX LY p c c' E) as SZ. destruct O as [id l1 l2 c c'|id l1 l2 c c'|id l1 l2 name c c'|id l1 l2 key c c'].
    + rewrite !deco_tuple, !decol_app. cbn [decol]. rewrite <- SZ. destruct (IH (S i + ksizes l1)) as [f [T _]]. exists f. now apply in_tuple.
    + rewrite !deco_seq, !decol_app. cbn [decol]. rewrite <- SZ. destruct (IH (S i + ksizes l1)) as [f [T _]]. exists f. now apply in_seq.
    + rewrite !deco_cntr, !decon_app. cbn [decon fst snd]. rewrite <- SZ. destruct (IH (S i + ksizes (map snd l1))) as [f T]. exists f. now apply in_cntr.
    + rewrite !deco_map, !decom_app. cbn [decom fst snd]. rewrite <- SZ. destruct (IH (S i + ksizes (map fst l1) + ksizes (map snd l1) + ksize key)) as [f [T _]]. exists f. now apply LocalProps.in_map.
Qed.
Lemma strings_written k fm t : reachable k fm -> fm_write fm [] = LRet t -> strings_ok k.
Proof.
  intros R E. destruct (Forall_dec (fun x => str_ok x = true) (fun x => Bool.bool_dec (str_ok x) true) (preorder k)) as [Y|NY]; [exact Y|]. rewrite (FmtPanic.write_panics k fm [] R NY) in E. discriminate.
Qed.
Lemma edited_In x y p k k' : edited x y p k k' -> In x (preorder k).
Proof.
  induction 1 as [|i p k k' c c' O E IH]; [rewrite preorder_unfold; now left|]. rewrite preorder_unfold. right. apply in_flat_map. exists c. split; [|exact IH].
  destruct O; cbn [kval vchildren]; rewrite ?map_app; try (apply in_or_app; right; now left). unfold entry_list. rewrite flat_map_app. apply in_or_app. right. cbn. auto.
Qed.
Lemma edited_others x y p k k' : edited x y p k k' -> forall z, In z (preorder k') -> In z (preorder y) \/ (exists z', In z' (preorder k) /\ (forall t, kval z = VStr t -> kval z' = VStr t)).
Proof.
  induction 1 as [|i p k k' c c' O E IH]; intros z Hz; [now left|]. rewrite preorder_unfold in Hz. destruct Hz as [<-|Hz].
  - right. exists k. split; [rewrite preorder_unfold; now left|]. intros t. destruct O; discriminate.
  - apply in_flat_map in Hz as (d & Hd & Hz).
    assert (Z : In d (vchildren (kval k)) \/ d = c').
    { destruct O; cbn [kval vchildren] in *; rewrite ?map_app in *; cbn [map snd] in *.
      - apply in_app_or in Hd as [Hd|[Hd|Hd]]; auto; left; apply in_or_app; [now left|right; now right].
      - apply in_app_or in Hd as [Hd|[Hd|Hd]]; auto; left; apply in_or_app; [now left|right; now right].
      - apply in_app_or in Hd as [Hd|[Hd|Hd]]; auto; left; apply in_or_app; [now left|right; now right].
      - unfold entry_list in *. rewrite flat_map_app in *. cbn [flat_map app fst snd] in *. apply in_app_or in Hd as [Hd|[Hd|[Hd|Hd]]]; auto; left; apply in_or_app; [now left|right; now left|right; right; now right]. }
    destruct Z as [Z| ->].
    + right. exists z. split; [|auto]. rewrite preorder_unfold. right. apply in_flat_map. eauto.
    + destruct (IH z Hz) as [G|(z' & G1 & G2)]; [now left|]. right. exists z'. split; [|exact G2]. rewrite preorder_unfold. right. apply in_flat_map. exists c. split; [|exact G1].
      destruct O; cbn [kval vchildren]; rewrite ?map_app; try (apply in_or_app; right; now left). unfold entry_list. rewrite flat_map_app. apply in_or_app. right. cbn. auto.
Qed.
Lemma edited_strings x y p k k' : leaf y = true -> edited x y p k k' -> strings_ok k -> str_ok y = true -> strings_ok k'.
Proof.
  intros LY E S Y. unfold strings_ok in *. rewrite Forall_forall in *. intros z Hz. destruct (edited_others x y p k k' E z Hz) as [G|(z' & G1 & G2)].
  - rewrite preorder_unfold in G. destruct G as [<-|G]; [exact Y|]. unfold leaf in LY. destruct (kval y); try discriminate; destruct G.
  - specialize (S z' G1). unfold str_ok in *. destruct (kval z) eqn:K; try reflexivity. now rewrite (G2 _ eq_refl) in S.
Qed.
Lemma prim_text_flag f g id v : f_id f = f_id g -> prim_text f id v = prim_text g id v.
Proof. intros H. unfold prim_text, prim_id. now rewrite H. Qed.
Lemma leaf_own f k : leaf k = true -> str_ok k = true -> own_text (f_id f) k (prim_text f (kid k) (dval (kval k))).
Proof.
  intros L S. destruct (fm_new_spec k) as (f0 & E0 & _ & _). set (fm := fst (fm_id (mkFmtr (full k) f0) 0 (f_id f))).
  assert (R : run k [OpId 0 (f_id f)] = LRet fm) by (unfold run; rewrite E0; reflexivity). exists fm. split; [exact R|].
  assert (RC : reachable k fm) by (eexists; exact R). assert (R0 : reachable k (mkFmtr (full k) f0)) by (exists []; unfold run; rewrite E0; reflexivity).
  assert (SO : strings_ok k). { unfold strings_ok. rewrite preorder_unfold. constructor; [exact S|]. unfold leaf in L. destruct (kval k); try discriminate; constructor. }
  assert (FL : f_id (nth 0 (fm_fmts fm) (mkFmt true Inline)) = f_id f).
  { pose proof (id_spec k _ 0 (f_id f) R0) as I. unfold fm. destruct (fm_id (mkFmtr (full k) f0) 0 (f_id f)) as [fm1 res] eqn:EI. cbn [fst].
    destruct I as (_ & _ & I1 & _ & I2). cbn [fm_nav] in I1. assert (RN : res = None) by (apply I1; unfold nav_len; rewrite full_length; pose proof (ksize_pos k); lia).
    specialize (I2 RN 0). cbn [Nat.eqb] in I2. destruct (nth_error (fm_fmts fm1) 0) as [g|] eqn:G; [|discriminate]. rewrite (nth_error_nth _ _ _ G). cbn in I2. congruence. }
  rewrite (fm_write_text k fm [] (reachable_finv k fm RC) SO). f_equal. unfold shown, D. cbn [fst snd]. rewrite deco_leaf by exact L.
  replace (FmtText.cut _ []) with (@nil char) by (unfold FmtText.cut; destruct (drops _); reflexivity). cbn [app]. clearbody fm. clear R RC R0 SO. destruct k as [id v]. cbn [kid kval]. rewrite leaf_text by exact L.
  now apply prim_text_flag.
Qed.
Theorem local_change x y p k k' fm fm' t : edited x y p k k' -> leaf x = true -> leaf y = true -> str_ok y = true ->
  reachable k fm -> reachable k' fm' -> fm_fmts fm' = fm_fmts fm -> fm_write fm [] = LRet t ->
  exists ids tx ty before after, own_text ids x tx /\ own_text ids y ty /\
    t = before ++ tx ++ after /\ fm_write fm' [] = LRet (before ++ ty ++ after).
Proof.
  intros E LX LY SY R R' F W. pose proof (strings_written k fm t R W) as S. pose proof (edited_strings x y p k k' LY E S SY) as S'.
  assert (SX : str_ok x = true) by (unfold strings_ok in S; rewrite Forall_forall in S; apply S; exact (edited_In x y p k k' E)).
  destruct (edited_text x y p k k' (fm_fmts fm) LX LY E 0) as (f & [_ T] & _). destruct (T true 0) as (pre & post & _ & T1 & T2).
  exists (f_id f), (prim_text f (kid x) (dval (kval x))), (prim_text f (kid y) (dval (kval y))), pre, post.
  split; [now apply leaf_own|]. split; [now apply leaf_own|].
  rewrite (fm_write_text k fm [] (reachable_finv k fm R) S) in W. injection W as <-. rewrite (fm_write_text k' fm' [] (reachable_finv k' fm' R') S').
  assert (C0 : forall d, FmtText.cut d [] = @nil char) by (intros d; unfold FmtText.cut; destruct (drops d); reflexivity). rewrite !C0. cbn [app]. unfold shown, D. cbn [fst snd]. rewrite F. split; [exact T1|]. now rewrite T2.
Qed.
Theorem local_history x y p k k' ops fm t : edited x y p k k' -> leaf x = true -> leaf y = true -> str_ok y = true ->
  (forall cfg, In (OpConfig cfg) ops -> width_limit cfg <> None -> room cfg x = room cfg y) ->
  run k ops = LRet fm -> fm_write fm [] = LRet t ->
  exists fm' ids tx ty before after, run k' ops = LRet fm' /\ own_text ids x tx /\ own_text ids y ty /\
    t = before ++ tx ++ after /\ fm_write fm' [] = LRet (before ++ ty ++ after).
Proof.
  intros E LX LY SY H R W. destruct (same_run x y LX LY p k k' E ops fm H R) as (fm' & R' & F). exists fm'.
  destruct (local_change x y p k k' fm fm' t E LX LY SY (ex_intro _ ops R) (ex_intro _ ops R') F W) as (ids & tx & ty & a & b & H1 & H2 & H3 & H4).
  exists ids, tx, ty, a, b. auto.
Qed.

(** ** lines *)
Lemma last_break (t : str) : exists a b, t = a ++ b /\ no_break b /\ (a = [] \/ exists a', a = a' ++ [10%N]).
Proof.
  induction t as [|c t (a & b & -> & B & A)] using rev_ind; [exists [], []; split; [reflexivity|split; [intros []|now left]]|].
  destruct (N.eq_dec c 10) as [->|N]; [exists ((a ++ b) ++ [10%N]), []; rewrite app_nil_r; split; [reflexivity|split; [intros []|right; eauto]]|].
  exists a, (b ++ [c]). rewrite app_assoc. split; [reflexivity|]. split; [|exact A]. intros H. apply in_app_or in H as [H|[H|[]]]; [now apply B|congruence].
Qed.
Lemma first_break (t : str) : exists a b, t = a ++ b /\ no_break a /\ (b = [] \/ exists b', b = 10%N :: b').
Proof.
  induction t as [|c t (a & b & -> & A & B)]; [exists [], []; split; [reflexivity|split; [intros []|now left]]|].
  destruct (N.eq_dec c 10) as [->|N]; [exists [], (10%N :: a ++ b); split; [reflexivity|split; [intros []|right; eauto]]|].
  exists (c :: a), b. split; [reflexivity|]. split; [|exact B]. intros [H|H]; [congruence|now apply A].
Qed.
Lemma one_line_of pre x y post : no_break x -> no_break y -> exists above lx ly below, whole_lines above below /\ no_break lx /\ no_break ly /\
  pre ++ x ++ post = above ++ lx ++ below /\ pre ++ y ++ post = above ++ ly ++ below.
Proof.
  intros X Y. destruct (last_break pre) as (a & b & -> & B & A). destruct (first_break post) as (c & d & -> & C & D).
  exists a, (b ++ x ++ c), (b ++ y ++ c), d. split; [now split|]. unfold no_break in *.
  split; [intros H; repeat (apply in_app_or in H as [H|H]); tauto|]. split; [intros H; repeat (apply in_app_or in H as [H|H]); tauto|]. now rewrite <- !app_assoc.
Qed.
Theorem one_line x y p k k' ops fm t : edited x y p k k' -> leaf x = true -> leaf y = true -> str_ok y = true ->
  (forall cfg, In (OpConfig cfg) ops -> width_limit cfg <> None -> room cfg x = room cfg y) ->
  run k ops = LRet fm -> fm_write fm [] = LRet t -> (forall ids u, own_text ids x u \/ own_text ids y u -> no_break u) ->
  exists fm' above lx ly below, run k' ops = LRet fm' /\ whole_lines above below /\ no_break lx /\ no_break ly /\
    t = above ++ lx ++ below /\ fm_write fm' [] = LRet (above ++ ly ++ below).
Proof.
  intros E LX LY SY H R W NB. destruct (local_history x y p k k' ops fm t E LX LY SY H R W) as (fm' & ids & tx & ty & a & b & R' & TX & TY & -> & W').
  destruct (one_line_of a tx ty b (NB ids tx (or_introl TX)) (NB ids ty (or_intror TY))) as (ab & lx & ly & be & H1 & H2 & H3 & H4 & H5).
  exists fm', ab, lx, ly, be. rewrite W', H5. split; [exact R'|]. split; [exact H1|]. split; [exact H2|]. split; [exact H3|]. split; [exact H4|reflexivity].
Qed.
Theorem local_text x y p k k' cfg t : edited x y p k k' -> leaf x = true -> leaf y = true -> str_ok y = true ->
  width_limit cfg = None \/ room cfg x = room cfg y -> as_str_with_config k cfg = LRet t ->
  exists ids tx ty before after, own_text ids x tx /\ own_text ids y ty /\
    t = before ++ tx ++ after /\ as_str_with_config k' cfg = LRet (before ++ ty ++ after).
Proof.
  intros E LX LY SY H A. unfold as_str_with_config in A. destruct (fm_new k) as [fm0| |] eqn:E0; try discriminate. cbn [lbind] in A.
  destruct (apply_config fm0 cfg) as [fm| |] eqn:E1; try discriminate. cbn [lbind] in A.
  assert (R : run k [OpConfig cfg] = LRet fm) by (unfold run; rewrite E0; cbn [lbind lfold apply_op]; now rewrite E1).
  destruct (local_history x y p k k' [OpConfig cfg] fm t E LX LY SY) as (fm' & ids & tx & ty & a & b & R' & H1 & H2 & H3 & H4); auto.
  { intros c [Hc|[]] W. injection Hc as ->. destruct H; congruence. }
  exists ids, tx, ty, a, b. do 3 (split; [assumption|]). unfold as_str_with_config. unfold run in R'. destruct (fm_new k') as [f0'| |]; cbn [lbind lfold apply_op] in R'; try discriminate.
  cbn [lbind]. destruct (apply_config f0' cfg) as [f1'| |]; cbn [lbind] in R'; try discriminate. injection R' as ->. exact H4.
Qed.
