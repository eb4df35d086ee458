(** [apply_config] on a new formatter panics exactly when a key is stuck: the two directions. *)
From Verif Require Import Base BaseProps F64 Number BTree Value ValueProps Nav NavSpec NavProps NavProps2 NavProps3 Fmt FmtSpec FmtText FmtProps FmtProps2 Formatter FormatterProps FormatterProps2 FormatterProps3 FormatterProps4 LayoutSpec LayoutProps LayoutProps2 LayoutProps3 LayoutProps4 LayoutProps5 FmtPanic StuckSpec StuckProps.
From Coq Require Import Lia.
Open Scope nat_scope.

Lemma top_verbose k : top_max k = Verbose <-> is_cntr k = true /\ kind_max k = Verbose.
Proof. unfold top_max, seq_or_map, is_cntr, kind_max. destruct (kval k) as [| | | | |[|]|[|]|[|]|[|]]; cbn; split; intros H; try discriminate; try (destruct H; discriminate); auto. Qed.
Lemma asked_map cfg b p m x : kval p = VMap m -> asked cfg b p x = wants cfg b x.
Proof. intros E. unfold asked. rewrite E. destruct (wants cfg b x), (kval x); reflexivity. Qed.
Lemma kserd_eta k v : kval k = v -> k = Kserd (kid k) v.
Proof. destruct k. cbn. now intros ->. Qed.

Section Back.
  Context (k : kserd) (cfg : config) (fm fm' : formatter).
  Hypothesis E : fm_new k = LRet fm.
  Hypothesis E' : apply_config fm cfg = LRet fm'.
  Notation fmts := (fm_fmts fm').
  Notation inw := (map (fun n => iw cfg (n_kserd n)) (full k)).

  Lemma nth_kid pit v x : values_of (snd (snd pit)) = v -> forall i, nth_error v i = Some x -> exists c, nth_error (vkids pit) i = Some c /\ snd (snd c) = x.
  Proof.
    intros EV i H. rewrite <- EV, <- vkids_kserds, nth_error_map in H. destruct (nth_error (vkids pit) i) as [c|]; [|discriminate]. injection H as H. eauto.
  Qed.
  Lemma vkid_pos pit i c : nth_error (vkids pit) i = Some c -> In c (kids_of pit) /\ is_key (nd c) = false /\ idx_in_parent (nd c) = i.
  Proof.
    intros H. assert (K : In c (kids_of pit)) by (apply kids_value_or_key; left; eapply nth_error_In; exact H). split; [exact K|]. pose proof (vkids_pos pit i c H) as P.
    destruct (kids_role pit c K) as [(j & A & B)|(j & A & B)]; [|unfold item in *; congruence]. unfold is_key, idx_in_parent. cbn [nd mk_full n_key_idx n_value_idx]. rewrite B, P. auto.
  Qed.
  Lemma section_item b x : section_at cfg k b x -> exists it, ok_item k it /\ snd (snd it) = x /\ line_at fmts (fst it) Verbose /\ agg k cfg fmts it b.
  Proof.
    destruct (fresh_inv k cfg fm fm' E E') as (_ & _ & I & N).
    induction 1 as [C KM W|b p x col b' _ (pit & O & EP & HV & A) EN KM AV].
    - exists (croot k). split; [apply root_ok|]. split; [reflexivity|]. split; [|apply agg_root]. pose proof (root_line k cfg fm fm' E E') as R. rewrite wanted_wants, W in R. cbn [croot fst].
      rewrite (proj2 (top_verbose k) (conj C KM)) in R. exact R.
    - assert (STEP : forall c x v, In c (kids_of pit) -> snd (snd c) = x -> concise_column (node_val (full k) (nd pit)) (nd c) fmts inw = LRet (4 + v) ->
          kind_max x = Verbose -> asked cfg (b + v) p x = Verbose -> line_at fmts (fst c) Verbose).
      { intros c y v K EC CC KM' AV'. destruct (kid_line k cfg fm fm' E E' pit c O K) as (o & rp & Eo & HP & HL). rewrite (line_at_fun _ _ _ _ HP HV) in HL.
        rewrite (offset_kid k cfg fmts I pit c b O K HV A), CC in Eo. cbn [lbind] in Eo. injection Eo as Eo. assert (EO : o = b + v) by lia. rewrite EP, EC, KM', EO, AV' in HL. exact HL. }
      inversion EN as [id l y Hx|id m name y Hx|id m key y Hx]; subst p y col b'.
      + (* item of a list *)
        apply In_nth_error in Hx as (i & Hi). assert (VL : kval (snd (snd pit)) = VSeq l) by now rewrite <- H.
        destruct (nth_kid pit l x) with (i := i) as (c & Nc & EC); [unfold values_of; now rewrite VL|exact Hi|]. destruct (vkid_pos pit i c Nc) as (K & _ & _).
        assert (LV : line_at fmts (fst c) Verbose). { apply (STEP c x 0 K EC); [rewrite (item_val k pit O), VL; reflexivity|exact KM|]. rewrite Nat.add_0_r. exact AV. }
        exists c. split; [exact (kid_ok k pit c O K)|]. split; [exact EC|]. split; [exact LV|]. rewrite <- (Nat.add_0_r b). apply (agg_kid k cfg fmts pit c b 0 O K HV A). rewrite (item_val k pit O), VL. reflexivity.
      + apply In_nth_error in Hx as (i & Hi). assert (VL : kval (snd (snd pit)) = VCntr m) by now rewrite <- H.
        destruct (nth_kid pit (map snd m) x) with (i := i) as (c & Nc & EC); [unfold values_of; now rewrite VL|rewrite nth_error_map, Hi; reflexivity|]. destruct (vkid_pos pit i c Nc) as (K & KC & IC).
        assert (CC : concise_column (node_val (full k) (nd pit)) (nd c) fmts inw = LRet (4 + (length name + 3))).
        { rewrite (item_val k pit O), VL. cbn [concise_column]. unfold cntr_field_offset. rewrite IC.
          assert (EM : nth_error (map fst m) i = Some name) by (rewrite nth_error_map, Hi; reflexivity).
          rewrite nth_error_map, (nth_combine _ _ _ _ _ EM Nc). cbn [option_map lunwrap lbind fst]. change (length FIELDS_ASSIGNER) with 2. change INDENT with 4. f_equal. lia. }
        assert (LV : line_at fmts (fst c) Verbose). { apply (STEP c x _ K EC CC KM). replace (b + (length name + 3)) with (b + length name + 3) by lia. exact AV. }
        exists c. split; [exact (kid_ok k pit c O K)|]. split; [exact EC|]. split; [exact LV|]. apply (agg_kid k cfg fmts pit c b _ O K HV A).
        rewrite (item_val k pit O), VL, (item_val k c (kid_ok k pit c O K)), EC. unfold is_cntr. destruct (kval x); reflexivity.
      + apply In_nth_error in Hx as (i & Hi). assert (VL : kval (snd (snd pit)) = VMap m) by now rewrite <- H.
        destruct (nth_kid pit (map snd m) x) with (i := i) as (c & Nc & EC); [unfold values_of; now rewrite VL|rewrite nth_error_map, Hi; reflexivity|]. destruct (vkid_pos pit i c Nc) as (K & KC & IC).
        destruct (kid_value k cfg fmts pit m c O VL K KC) as (d & [_ Nd] & Kd & KD & _ & CC).
        assert (ED : snd (snd d) = key).
        { pose proof (kkids_kserds pit) as EK. unfold keys_of in EK. rewrite VL in EK. apply (f_equal (fun l => nth_error l i)) in EK. rewrite !nth_error_map, Hi in EK. rewrite IC in Nd. rewrite Nd in EK. cbn in EK. congruence. }
        destruct (kid_line k cfg fm fm' E E' pit d O Kd) as (o & rp & Eo & HP & HL). rewrite (line_at_fun _ _ _ _ HP HV) in HL.
        destruct (kid_key k cfg fmts pit m d O VL Kd KD) as [_ CD]. rewrite (offset_kid k cfg fmts I pit d b O Kd HV A), CD in Eo. cbn [lbind] in Eo. injection Eo as Eo. assert (EO : o = b) by lia. rewrite EO in HL.
        rewrite (asked_map _ _ _ m) in HL by exact VL. rewrite ED in HL, CC. unfold repr_least in HL.
        assert (NV : ~ line_at fmts (fst d) Verbose).
        { intros HX. assert (CH : child fm' (nd pit) (nd d)) by (now apply (item_child k)). apply (keys_not_verbose k cfg fm fm' E E' _ _ CH KD). now apply line_of_at. }
        set (r := repr_min (wants cfg b key) (repr_min (kind_max key) Verbose)) in *. pose proof (CC r HL) as CR.
        assert (ER : repr_min (wants cfg b key) (kind_max key) = r) by (unfold r; destruct (wants cfg b key), (kind_max key); reflexivity).
        assert (CX : concise_column (node_val (full k) (nd pit)) (nd c) fmts inw = LRet (4 + (key_end cfg b key + 2))).
        { rewrite CR. unfold key_end. rewrite ER. clearbody r. destruct r; [f_equal; lia|reflexivity|contradiction]. }
        assert (LV : line_at fmts (fst c) Verbose). { apply (STEP c x _ K EC CX KM). replace (b + (key_end cfg b key + 2)) with (b + key_end cfg b key + 2) by lia. exact AV. }
        exists c. split; [exact (kid_ok k pit c O K)|]. split; [exact EC|]. split; [exact LV|]. apply (agg_kid k cfg fmts pit c b _ O K HV A).
        rewrite (item_val k pit O), VL. cbn [verbose_column]. now rewrite KC.
  Qed.
  Lemma not_stuck : ~ stuck cfg k.
  Proof.
    intros (b & id & m & key & v & S & HI & KM & W). destruct (section_item _ _ S) as (pit & O & EP & HV & A). destruct (fresh_inv k cfg fm fm' E E') as (_ & _ & I & N).
    assert (VL : kval (snd (snd pit)) = VMap m) by now rewrite EP. pose proof (kkids_kserds pit) as EK. unfold keys_of in EK. rewrite VL in EK.
    apply (in_map fst) in HI. cbn [fst] in HI. rewrite <- EK in HI. apply in_map_iff in HI as (d & ED & HD).
    pose proof (kkids_keys pit d HD) as KD. pose proof (kkids_in pit d HD) as Kd.
    destruct (kid_line k cfg fm fm' E E' pit d O Kd) as (o & rp & Eo & HP & HL). rewrite (line_at_fun _ _ _ _ HP HV) in HL.
    destruct (kid_key k cfg fmts pit m d O VL Kd KD) as [_ CD]. rewrite (offset_kid k cfg fmts I pit d b O Kd HV A), CD in Eo. cbn [lbind] in Eo. injection Eo as Eo. assert (EO : o = b) by lia. rewrite EO in HL.
    rewrite (asked_map _ _ _ m) in HL by exact VL. rewrite ED, W, KM in HL.
    assert (CH : child fm' (nd pit) (nd d)) by (now apply (item_child k)). apply (keys_not_verbose k cfg fm fm' E E' _ _ CH KD). now apply line_of_at.
  Qed.
End Back.

Section Loop.
  Context (k : kserd) (cfg : config) (f1 : list fmt).
  Hypothesis I1 : inv k f1.
  Notation inw := (map (fun n => iw cfg (n_kserd n)) (full k)).
  Notation con := (map (fun n => cw cfg (n_kserd n)) (full k)).

  Lemma node_cases A c B g : blist k = A ++ c :: B -> stage k cfg f1 A g ->
    (exists g', apply_node (full k) cfg inw con g (fst c) = LRet g') \/
    (apply_node (full k) cfg inw con g (fst c) = LPanic /\ exists pit d, ok_item k pit /\ In c (kids_of pit) /\ keysib pit c d /\ line_at g (fst d) Verbose).
  Proof.
    intros E (Ig & _). destruct (blist_good k A c B E) as (pit & O & K & _ & _). pose proof (kid_ok k pit c O K) as Oc.
    unfold apply_node. rewrite (ok_get k c Oc). cbn [lunwrap lbind]. destruct (offset_cases k cfg g Ig pit c O K) as [[o ->]|[-> (d & KS & HV)]]; cbn [lbind]; [left|right; split; [reflexivity|eauto 6]].
    rewrite min_line_ok by exact Oc. cbn [lbind]. rewrite (kid_parent k pit c O K). cbn [lunwrap lbind]. match goal with |- context [request_repr _ _ _ ?r] => set (rr := r) end.
    destruct (request_inv k g (fst c) rr Ig) as (g' & res & E' & _). rewrite E'. cbn [lbind fst]. eauto.
  Qed.
  Lemma loop_cases B : forall A g, blist k = A ++ B -> stage k cfg f1 A g ->
    (exists g', lfold (apply_node (full k) cfg inw con) (map fst B) g = LRet g') \/
    (lfold (apply_node (full k) cfg inw con) (map fst B) g = LPanic /\ exists A' c B' g0 pit d, blist k = A' ++ c :: B' /\ stage k cfg f1 A' g0 /\
       ok_item k pit /\ In c (kids_of pit) /\ keysib pit c d /\ line_at g0 (fst d) Verbose).
  Proof.
    induction B as [|c B IH]; intros A g E ST; cbn [map lfold]; [left; eauto|].
    destruct (node_cases A c B g E ST) as [[g1 E1]|[E1 (pit & d & H)]]; rewrite E1; cbn [lbind].
    - apply (IH (A ++ [c])); [rewrite <- app_assoc; exact E|]. eapply node_stage; eauto.
    - right. split; [reflexivity|]. exists A, c, B, g, pit, d. tauto.
  Qed.
End Loop.

Section Forward.
  Context (k : kserd) (cfg : config) (fm : formatter) (f1 : list fmt).
  Hypothesis E : fm_new k = LRet fm.
  Hypothesis I1 : inv k f1.
  Hypothesis F1 : forall r, line_at f1 0 r -> r = repr_min (wanted cfg k) (top_max k).
  Hypothesis F2 : wanted cfg k = Verbose -> forall i a, line_at (fm_fmts fm) i a -> line_at f1 i a.
  Context (A B : list item) (g : list fmt).
  Hypothesis EB : blist k = A ++ B.
  Hypothesis ST : stage k cfg f1 A g.
  Notation inw := (map (fun n => iw cfg (n_kserd n)) (full k)).

  Lemma verbose_section m : forall it, fst it < m -> ok_item k it -> In (fst it) (0 :: map fst A) -> line_at g (fst it) Verbose ->
    stuck cfg k \/ (exists b, section_at cfg k b (snd (snd it)) /\ agg k cfg g it b) /\ line_at (fm_fmts fm) (fst it) Verbose /\ is_key (nd it) = false /\ wanted cfg k = Verbose.
  Proof.
    pose proof ST as (Ig & Z & _ & D). pose proof (prefix_closed k A B EB) as CL.
    induction m as [|m IH]; intros it Hm O HA HV; [lia|]. destruct (i_parent (fst (snd it))) as [p|] eqn:Ep.
    2:{ right. assert (FZ : fst it = 0). { apply (parent_none_iff k (nd it)); [now apply ok_in|]. unfold node_parent. cbn [nd mk_full n_parent]. now rewrite Ep. }
        pose proof (ok_unique k it (croot k) O (root_ok k) FZ) as EN. assert (EK : snd (snd it) = k) by (apply (f_equal n_kserd) in EN; exact EN).
        assert (R : Verbose = repr_min (wanted cfg k) (top_max k)). { apply F1. rewrite FZ in HV. destruct HV as (h & Hh & Eh). exists h. now rewrite <- Z. }
        assert (W : wanted cfg k = Verbose /\ top_max k = Verbose) by (destruct (wanted cfg k), (top_max k); try discriminate R; auto). destruct W as [W T].
        split; [|split; [|split; [rewrite EN; reflexivity|exact W]]].
        - exists 0. rewrite EK. split; [apply s_root; [apply top_verbose, T..|now rewrite <- wanted_wants]|]. unfold agg. rewrite EN. intros fuel off HF. apply agg_root. cbn. lia.
        - rewrite FZ. destruct (new_lines k fm E) as (_ & _ & _ & TL). rewrite T in TL. exact TL. }
    destruct (parent_kid k it p O Ep) as (pit & Op & Epi & c & K & Ec). assert (Fc : fst c = fst it) by (apply (f_equal n_idx) in Ec; exact Ec).
    assert (EC : snd (snd c) = snd (snd it)) by (apply (f_equal n_kserd) in Ec; exact Ec).
    pose proof (kid_pos k pit c Op K) as KP. rewrite <- Fc in HA, HV. destruct HA as [HA|HA]; [lia|].
    destruct (CL pit c Op K (or_intror HA)) as [PA PK].
    assert (PV : line_at g (fst pit) Verbose).
    { destruct (inv_line k g (fst pit) Ig (item_lt k pit Op)) as [b0 HB]. pose proof (inv_kid_le k g pit c _ _ Ig Op K HV HB) as LE. unfold repr_le in LE. destruct b0; cbn in LE; try lia. exact HB. }
    destruct (IH pit ltac:(lia) Op PA PV) as [S|((b & SP & AG) & PF & _ & W)]; [now left|].
    (* the forms of the kids of pit *)
    assert (FORM : forall x o, In x (kids_of pit) -> In (fst x) (map fst A) -> calculate_offset (full k) (nd x) g inw = LRet o ->
              line_at g (fst x) (repr_min (asked cfg o (snd (snd pit)) (snd (snd x))) (kind_max (snd (snd x))))).
    { intros x o Kx Ax Eo. destruct (D pit x Op Kx Ax) as (o' & rp & Eo' & HP & HL). rewrite Eo in Eo'. injection Eo' as <-. rewrite (line_at_fun _ _ _ _ HP PV) in HL.
      pose proof (new_kids k fm E pit x Verbose Op Kx PF) as NK. specialize (HL _ (F2 W _ _ NK)). rewrite ask_asked in HL. revert HL. generalize (asked cfg o (snd (snd pit)) (snd (snd x))). intros r HL.
      unfold choose, own_max, repr_lt in HL. destruct (is_key (nd x)), (kind_max (snd (snd x))), r; cbn in *; exact HL. }
    assert (DO : exists o, calculate_offset (full k) (nd c) g inw = LRet o) by (destruct (D pit c Op K HA) as (o & _ & Eo & _); eauto). destruct DO as [o Eo].
    pose proof (FORM c o K HA Eo) as FC. pose proof (line_at_fun _ _ _ _ FC HV) as FV.
    assert (AV : asked cfg o (snd (snd pit)) (snd (snd c)) = Verbose /\ kind_max (snd (snd c)) = Verbose) by (destruct (asked cfg o _ _), (kind_max (snd (snd c))); try discriminate FV; auto).
    destruct AV as [AV KM]. rewrite (offset_kid k cfg g Ig pit c b Op K PV AG) in Eo.
    assert (PKM : kind_max (snd (snd pit)) = Verbose).
    { destruct Ig as (_ & KI & _). pose proof (KI _ _ _ (ok_get k pit Op) PV) as LE. cbn [nd mk_full n_kserd] in LE. unfold repr_le in LE. destruct (kind_max (snd (snd pit))); cbn in LE; try lia. reflexivity. }
    assert (FIN : is_key (nd c) = false -> (exists col b', entry_of cfg b (snd (snd pit)) (snd (snd c)) col b' /\ col = o /\ agg k cfg g c b') ->
      stuck cfg k \/ (exists b, section_at cfg k b (snd (snd it)) /\ agg k cfg g it b) /\ line_at (fm_fmts fm) (fst it) Verbose /\ is_key (nd it) = false /\ wanted cfg k = Verbose).
    { intros KC (col & b' & EN & -> & AC). right. split; [|split; [|split; [now rewrite <- Ec|exact W]]].
      - exists b'. split; [rewrite <- EC; eapply s_entry; eauto|]. unfold agg. rewrite <- Ec, <- Fc. exact AC.
      - rewrite <- Fc. pose proof (new_kids k fm E pit c Verbose Op K PF) as NK. unfold own_max in NK. rewrite KC, KM in NK. exact NK. }
    pose proof (kserd_eta (snd (snd pit)) _ eq_refl) as ETA.
    destruct (kval (snd (snd pit))) as [| | | | |l|mm|l|mm] eqn:VL; try (unfold kind_max in PKM; rewrite VL in PKM; try destruct l; discriminate PKM).
    - (* field *)
      destruct (kid_field k cfg g pit mm c Op VL K) as (name & HI & CC). rewrite CC in Eo. cbn [lbind] in Eo. injection Eo as Eo.
      destruct (kid_cases pit c K) as [[KC _]|[KC Nc]].
      2:{ pose proof (kkids_kserds pit) as EK. unfold keys_of in EK. rewrite VL in EK. destruct (kkids pit); [|discriminate]. destruct (idx_in_parent (nd c)); discriminate. }
      apply FIN; [exact KC|]. exists (b + length name + 3), (b + if is_cntr (snd (snd c)) then 4 else 0). split; [rewrite ETA; now apply e_field|]. split; [lia|].
      apply (agg_kid k cfg g pit c b _ Op K PV AG). rewrite (item_val k pit Op), VL, (item_val k c (kid_ok k pit c Op K)). unfold is_cntr. destruct (kval (snd (snd c))); reflexivity.
    - (* item *)
      destruct (kid_cases pit c K) as [[KC _]|[KC Nc]].
      2:{ pose proof (kkids_kserds pit) as EK. unfold keys_of in EK. rewrite VL in EK. destruct (kkids pit); [|discriminate]. destruct (idx_in_parent (nd c)); discriminate. }
      rewrite (item_val k pit Op), VL in Eo. cbn [concise_column lbind] in Eo. change INDENT with 4 in Eo. injection Eo as Eo.
      apply FIN; [exact KC|]. exists b, b. split; [rewrite ETA; apply e_item; exact (kid_item pit l c VL K)|]. split; [lia|].
      rewrite <- (Nat.add_0_r b). apply (agg_kid k cfg g pit c b 0 Op K PV AG). rewrite (item_val k pit Op), VL. reflexivity.
    - (* map *)
      destruct (is_key (nd c)) eqn:KC.
      + left. destruct (kid_key k cfg g pit mm c Op VL K KC) as [(v & HI) CC]. rewrite CC in Eo. cbn [lbind] in Eo. injection Eo as Eo. assert (EO : o = b) by lia.
        exists b, (kid (snd (snd pit))), mm, (snd (snd c)), v. rewrite <- ETA. split; [exact SP|]. split; [exact HI|]. split; [exact KM|]. rewrite EO, (asked_map _ _ _ mm _ VL) in AV. exact AV.
      + destruct (kid_value k cfg g pit mm c Op VL K KC) as (d & KS & Kd & KD & HI & CC).
        destruct (PK d KS) as [DZ|DA]; [pose proof (kid_pos k pit d Op Kd); lia|].
        destruct (kid_key k cfg g pit mm d Op VL Kd KD) as [_ CD].
        assert (Ed : calculate_offset (full k) (nd d) g inw = LRet b) by (rewrite (offset_kid k cfg g Ig pit d b Op Kd PV AG), CD; cbn [lbind]; f_equal; lia).
        pose proof (FORM d b Kd DA Ed) as FD. rewrite (asked_map _ _ _ mm _ VL) in FD. rewrite (CC _ FD) in Eo.
        apply FIN; [reflexivity|]. exists (b + key_end cfg b (snd (snd d)) + 2), (b + 4). split; [rewrite ETA; now apply e_value|]. split.
        * unfold key_end. destruct (repr_min (wants cfg b (snd (snd d))) (kind_max (snd (snd d)))); cbn [lbind] in Eo; [injection Eo as Eo; lia..|discriminate].
        * apply (agg_kid k cfg g pit c b _ Op K PV AG). rewrite (item_val k pit Op), VL. cbn [verbose_column]. now rewrite KC.
  Qed.
  Lemma verbose_key_stuck pit c d B' : B = c :: B' -> ok_item k pit -> In c (kids_of pit) -> keysib pit c d -> line_at g (fst d) Verbose -> stuck cfg k.
  Proof.
    intros EB' O K KS HV. pose proof EB as EB2. rewrite EB' in EB2. destruct (place_split k A c B' EB2 pit c O K eq_refl) as [_ PK]. specialize (PK d KS). destruct KS as [_ Nd].
    assert (HD : In d (kkids pit)) by (eapply nth_error_In; exact Nd). pose proof (kkids_in pit d HD) as Kd.
    destruct (verbose_section (S (fst d)) d ltac:(lia) (kid_ok k pit d O Kd) PK HV) as [S|(_ & _ & X & _)]; [exact S|]. rewrite (kkids_keys pit d HD) in X. discriminate.
  Qed.
End Forward.

Lemma config_cases k cfg fm : fm_new k = LRet fm ->
  (exists fm', apply_config fm cfg = LRet fm') \/ (apply_config fm cfg = LPanic /\ stuck cfg k).
Proof.
  intros E. destruct (fm_new_finv k) as (x & E0 & [N I]). rewrite E in E0. injection E0 as <-. destruct fm as [nv f]. cbn [fm_nav fm_fmts] in *. subst nv.
  unfold apply_config. cbn [fm_nav fm_fmts]. destruct (apply_ids_ok k cfg f (proj1 I)) as (f0 & EI & _ & M0 & _). rewrite EI. cbn [lbind].
  rewrite root_nav. cbn [lunwrap lbind]. rewrite inline_widths_ok. cbn [lbind]. rewrite concise_widths_ok. cbn [lbind].
  pose proof (min_line_ok k cfg (croot k) (width_limit cfg) (root_ok k)) as ML. cbn [croot fst snd] in ML. fold (wanted cfg k) in ML. rewrite ML. cbn [lbind].
  destruct (blist_spec k) as (ds & Ed & Eds & _). unfold croot in Ed. rewrite Ed. cbn [lbind].
  pose proof (inv_lines k f f0 M0 I) as I0.
  assert (SL : forall i r, line_at f i r -> line_at f0 i r) by (intros i r; apply same_lines; now rewrite M0).
  destruct (request_inv k f0 0 (wanted cfg k) I0) as (f1 & res & E1 & I1 & _). cbn [fst]. rewrite E1. cbn [lbind fst].
  assert (EM : map n_idx ds = map fst (blist k)) by (rewrite Eds, map_map; reflexivity). rewrite EM.
  destruct (get_fmts k f0 _ (proj1 I0) (root_ok k)) as [h Hh]. cbn [fst] in Hh.
  destruct (request_cases k f0 _ (wanted cfg k) h (proj1 I0) (root_ok k) Hh) as (f1' & res' & E1' & L1' & C1). cbn [fst snd] in E1', C1. rewrite E1 in E1'. injection E1' as <- <-.
  destruct (new_lines k _ E) as (_ & _ & _ & TL). cbn [fm_fmts] in TL. pose proof (line_at_fun _ _ _ _ (SL _ _ TL) (ex_intro _ h (conj Hh eq_refl))) as TH.
  assert (F1 : forall r, line_at f1 0 r -> r = repr_min (wanted cfg k) (top_max k)).
  { intros r HR. assert (PN : parent_line (full k) f0 (nd (0, (info_default, k))) = None) by reflexivity.
    destruct res as [e|].
    - destruct C1 as (-> & _ & C1). rewrite (line_at_fun _ _ _ _ HR (ex_intro _ h (conj Hh eq_refl))), <- TH. destruct e; cbn [refused] in C1; try rewrite PN in C1; try (destruct C1; fail); try (destruct C1 as [C1 _]; discriminate C1).
      + destruct C1 as (-> & -> & C1). cbn [snd] in C1. clear - C1. revert C1. unfold top_max, kind_max, seq_or_map in *. destruct (kval k) as [| | | | |[|]|[|]|[|]|[|]], (wanted cfg k); cbn; intros C1; try reflexivity; lia.
      + destruct C1 as (_ & -> & C1). cbn [snd] in C1. unfold top_max. destruct (seq_or_map k), (kind_max k); reflexivity.
    - destruct C1 as [[C1 ->]|(_ & (K1 & _ & K3) & NN)].
      + rewrite (line_at_fun _ _ _ _ HR (ex_intro _ h (conj Hh eq_refl))), TH, C1. destruct (f_line h); reflexivity.
      + destruct (line_at_upd f0 f1 (0, (info_default, k)) _ NN _ _ HR) as (h' & _ & ->). rewrite upd_line. cbn [fst Nat.eqb snd] in *. unfold top_max.
        clear - K1 K3. unfold kind_max, repr_le, seq_or_map in *. destruct (kval k) as [| | | | |[|]|[|]|[|]|[|]], (wanted cfg k); cbn in *; try reflexivity; try lia; discriminate (K3 eq_refl eq_refl). }
  assert (F2 : wanted cfg k = Verbose -> forall i a, line_at f i a -> line_at f1 i a).
  { intros W i a HA. apply SL in HA. destruct res as [e|]; [destruct C1 as (-> & _); exact HA|]. destruct C1 as [[_ ->]|(_ & _ & NN)]; [exact HA|].
    destruct HA as (x & Hx & <-). rewrite W in NN. exists (upd 0 (ksize k) Verbose i x). split; [now rewrite NN, Hx|]. rewrite upd_line.
    destruct (i =? 0) eqn:Z; [|destruct (_ && _); [destruct (f_line x); reflexivity|reflexivity]].
    apply Nat.eqb_eq in Z. subst i. rewrite Hh in Hx. injection Hx as <-. rewrite <- TH.
    pose proof (F1 Verbose) as Y. rewrite W in Y. destruct (top_max k); try reflexivity; exfalso; assert (X : line_at f1 0 Verbose) by (exists (upd 0 (ksize k) Verbose 0 h); split; [now rewrite NN, Hh|rewrite upd_line; reflexivity]); specialize (Y X); discriminate Y. }
  destruct (loop_cases k cfg f1 I1 (blist k) [] f1 eq_refl (stage_nil k cfg f1 I1)) as [[g' EL]|[EL (A & c & B & g0 & pit & d & EB & ST & O & K & KS & HV)]]; rewrite EL; cbn [lbind]; [left; eauto|right].
  split; [reflexivity|]. exact (verbose_key_stuck k cfg _ f1 E F1 F2 A (c :: B) g0 EB ST pit c d B eq_refl O K KS HV).
Qed.
Theorem config_panics k cfg fm : fm_new k = LRet fm -> (apply_config fm cfg = LPanic <-> stuck cfg k).
Proof.
  intros E. destruct (config_cases k cfg fm E) as [[fm' E']|[E' S]]; rewrite E'; split; auto; [discriminate|]. intros S. now destruct (not_stuck k cfg fm fm' E E').
Qed.
Theorem as_str_panics k cfg : as_str_with_config k cfg = LPanic <-> stuck cfg k \/ ~ strings_ok k.
Proof.
  unfold as_str_with_config. destruct (fm_new_finv k) as (fm & E & F). rewrite E. cbn [lbind].
  assert (R : reachable k fm) by (exists []; unfold run; now rewrite E).
  destruct (config_cases k cfg fm E) as [[fm' E']|[E' S]]; rewrite E'; cbn [lbind]; [|tauto].
  assert (R' : reachable k fm').
  { exists [OpConfig cfg]. unfold run. rewrite E. cbn [lbind lfold apply_op]. now rewrite E'. }
  rewrite (write_panics_exactly k fm' [] R'). split; [auto|]. intros [S|S]; [now destruct (not_stuck k cfg fm fm' E E')|exact S].
Qed.

(** ** with no key stuck [apply_config] on a new formatter returns *)
Lemma config_free k fm cfg : fm_new k = LRet fm -> ~ stuck cfg k -> exists fm', apply_config fm cfg = LRet fm' /\ reachable k fm'.
Proof.
  intros E S. destruct (config_cases k cfg fm E) as [[fm' E']|[_ B]]; [|tauto]. exists fm'. split; [exact E'|].
  exists [OpConfig cfg]. unfold run. rewrite E. cbn [lbind lfold apply_op]. now rewrite E'.
Qed.
Lemma solvable_free k cfg : solvable k cfg -> ~ stuck cfg k.
Proof.
  intros S B. destruct (fm_new_finv k) as (fm & E & F). assert (R : reachable k fm) by (exists []; unfold run; now rewrite E).
  destruct (config_returns k fm cfg R S) as (fm' & E' & _). apply config_panics with (cfg := cfg) in E. apply E in B. congruence.
Qed.
Lemma returned_free k cfg t : as_str_with_config k cfg = LRet t -> ~ stuck cfg k.
Proof. intros E B. assert (P : as_str_with_config k cfg = LPanic) by (apply as_str_panics; now left). congruence. Qed.
Lemma as_str_free k cfg : strings_ok k -> ~ stuck cfg k -> exists t, as_str_with_config k cfg = LRet t.
Proof.
  intros S B. destruct (fm_new_finv k) as (fm & E & F). destruct (config_free k fm cfg E B) as (fm' & E' & R').
  destruct (write_returns k fm' [] R' S) as [t Et]. exists t. unfold as_str_with_config. rewrite E. cbn [lbind]. now rewrite E'.
Qed.
