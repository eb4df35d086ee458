(** Proofs about the solver: columns, and the layout theorems. *)
From Verif Require Import Base BaseProps F64 Number BTree Value ValueProps Nav NavSpec NavProps NavProps2 NavProps3 Fmt FmtSpec FmtText FmtProps FmtProps2 Formatter FormatterProps FormatterProps2 FormatterProps3 FormatterProps4 LayoutSpec LayoutProps LayoutProps2 LayoutProps3 LayoutProps4.
Open Scope nat_scope.

(** a child as items *)
Lemma child_items k fm p n : fm_nav fm = full k -> child fm p n -> exists pit c, ok_item k pit /\ In c (kids_of pit) /\ nd pit = p /\ nd c = n.
Proof.
  intros N [Hn Hp]. rewrite N in *. destruct (item_exists k n Hn) as (it & O & ->). unfold node_parent in Hp. cbn [nd mk_full n_parent] in Hp.
  destruct (i_parent (fst (snd it))) as [q|] eqn:Eq; [|discriminate]. cbn [opt_bind] in Hp. destruct (parent_kid k it q O Eq) as (pit & Op & Epi & c & Kc & Ec).
  rewrite <- Epi, (ok_get k pit Op) in Hp. injection Hp as <-. exists pit, c. auto.
Qed.
Lemma child_idx k fm p n : fm_nav fm = full k -> child fm p n -> n_idx p < n_idx n.
Proof. intros N C. destruct (child_items k fm p n N C) as (pit & c & O & K & <- & <-). exact (kid_pos k pit c O K). Qed.
Lemma item_child k fm pit c : fm_nav fm = full k -> ok_item k pit -> In c (kids_of pit) -> child fm (nd pit) (nd c).
Proof.
  intros N O K. split; rewrite N; [apply ok_in; now apply (kid_ok k pit)|]. unfold node_parent. cbn [nd mk_full n_parent]. rewrite (kids_parent _ _ K). cbn [opt_bind]. now apply ok_get.
Qed.

Section Columns.
  Context (k : kserd) (cfg : config) (fm : formatter).
  Hypothesis N : fm_nav fm = full k.
  Hypothesis I : inv k (fm_fmts fm).
  Notation inw := (map (fun n => iw cfg (n_kserd n)) (full k)).
  Notation fmts := (fm_fmts fm).

  Lemma within_column pit c x : ok_item k pit -> In c (kids_of pit) -> within cfg fm (nd pit) (nd c) x ->
    (forall q, child fm (nd pit) q -> is_key q = true -> line_of fm (n_idx q) <> Some Verbose) ->
    concise_column (node_val (full k) (nd pit)) (nd c) fmts inw = LRet x.
  Proof.
    intros O K W KV. rewrite item_val by exact O. inversion W as [l H|l H|m name y H Hn|m H Hk|m q w H Hk Cq Kq Iq Kw]; subst x; cbn [nd mk_full n_kserd] in H; rewrite H; cbn [concise_column].
    - reflexivity.
    - reflexivity.
    - destruct (kid_cases pit c K) as [[NK Nc]|[NK Nc]].
      + unfold cntr_field_offset.
        assert (EM : nth_error (map fst m) (idx_in_parent (nd c)) = Some name) by (rewrite nth_error_map, Hn; reflexivity).
        rewrite nth_error_map, (nth_combine _ _ _ _ _ EM Nc). cbn [option_map lunwrap lbind fst]. change (length FIELDS_ASSIGNER) with 2. change INDENT with 4. f_equal. lia.
      + pose proof (kkids_kserds pit) as EK. unfold keys_of in EK. rewrite H in EK. destruct (kkids pit); [|discriminate]. destruct (idx_in_parent (nd c)); discriminate.
    - unfold map_entry_offset. rewrite Hk. reflexivity.
    - unfold map_entry_offset. rewrite Hk. destruct (kid_cases pit c K) as [[NK Nc]|[NK Nc]]; [|congruence].
      destruct (child_items k fm _ _ N Cq) as (pit2 & d & O2 & Kd & E2 & <-).
      assert (F2 : fst pit2 = fst pit) by (apply (f_equal n_idx) in E2; exact E2).
      assert (KK : kids_of pit2 = kids_of pit) by (apply (f_equal n_kserd) in E2; cbn in E2; unfold kids_of; now rewrite F2, E2).
      rewrite KK in Kd. destruct (kid_cases pit d Kd) as [[ND Nd]|[ND Nd]]; [congruence|]. rewrite Iq in Nd.
      rewrite nth_error_map, (nth_combine _ _ _ _ _ Nd Nc). cbn [option_map lunwrap lbind fst].
      pose proof (kid_ok k pit d O Kd) as Od. destruct (get_fmts k fmts d (proj1 I) Od) as [f Hf]. change (n_idx (nd d)) with (fst d) in *. rewrite Hf. cbn [lunwrap lbind].
      unfold key_width, line_of in Kw. change (n_idx (nd d)) with (fst d) in Kw. rewrite Hf in Kw. cbn [option_map] in Kw.
      specialize (KV _ Cq Kq). unfold line_of in KV. change (n_idx (nd d)) with (fst d) in KV. rewrite Hf in KV. cbn [option_map] in KV.
      destruct (f_line f); [| |congruence]; cbn [lbind].
      + rewrite inw_get by exact Od. cbn [lunwrap lbind]. rewrite Kw, <- iw_est. cbn [nd mk_full n_kserd]. change (length KEYS_ASSIGNER) with 1. change INDENT with 4. f_equal. lia.
      + rewrite Kw. reflexivity.
  Qed.
  Lemma concise_keys pit : ok_item k pit -> line_at fmts (fst pit) Concise -> forall q, child fm (nd pit) q -> is_key q = true -> line_of fm (n_idx q) <> Some Verbose.
  Proof.
    intros O HL q Cq _ HV. destruct (child_items k fm _ _ N Cq) as (pit2 & d & O2 & Kd & E2 & <-). apply line_of_at in HV. change (n_idx (nd d)) with (fst d) in HV.
    assert (F2 : fst pit2 = fst pit) by (apply (f_equal n_idx) in E2; exact E2). rewrite <- F2 in HL.
    pose proof (inv_kid_le k fmts pit2 d _ _ I O2 Kd HV HL) as LE. unfold repr_le in LE. cbn in LE. lia.
  Qed.
  Lemma block_offset n c : block cfg fm n c -> forall it, ok_item k it -> nd it = n -> forall fuel off, fst it <= fuel ->
    offset_loop fuel (full k) fmts inw (nd it) off = LRet (off + c, nd (croot k)).
  Proof.
    induction 1 as [n Hn Z|p n c x C LP B IH W|p n c C CP CN LN B IH|p n c l C CP CN LN B IH]; intros it O EN fuel off HF.
    - assert (FZ : fst it = 0) by (rewrite <- EN in Z; exact Z). rewrite (ok_unique k it (croot k) O (root_ok k) FZ).
      assert (P : node_parent (full k) (nd (croot k)) = None) by reflexivity. rewrite Nat.add_0_r. destruct fuel; cbn [offset_loop]; rewrite P; reflexivity.
    - destruct (child_items k fm p n N C) as (pit & d & Op & Kd & <- & Ed). pose proof (kid_pos k pit d Op Kd) as KP.
      assert (Fd : fst d = fst it) by (rewrite <- EN in Ed; apply (f_equal n_idx) in Ed; exact Ed).
      destruct fuel as [|fuel]; [lia|]. cbn [offset_loop]. rewrite EN, <- Ed. destruct (item_child k fm pit d N Op Kd) as [_ P]. rewrite N in P. rewrite P.
      apply line_of_at in LP as (f & Hf & Ef). change (n_idx (nd pit)) with (fst pit) in *. rewrite Hf. cbn [lunwrap lbind]. rewrite Ef. rewrite <- Ed in W.
      rewrite (within_column pit d x Op Kd W) by (apply concise_keys; [exact Op|now exists f]). cbn [lbind].
      rewrite (IH pit Op eq_refl fuel (off + x)) by lia. do 2 f_equal. lia.
    - destruct (child_items k fm p n N C) as (pit & d & Op & Kd & <- & Ed). pose proof (kid_pos k pit d Op Kd) as KP.
      assert (Fd : fst d = fst it) by (rewrite <- EN in Ed; apply (f_equal n_idx) in Ed; exact Ed).
      destruct fuel as [|fuel]; [lia|]. cbn [offset_loop]. rewrite EN, <- Ed. destruct (item_child k fm pit d N Op Kd) as [_ P]. rewrite N in P. rewrite P.
      apply line_of_at in LN. rewrite <- Ed in LN. change (n_idx (nd d)) with (fst d) in LN. change (n_idx (nd pit)) with (fst pit) in *.
      destruct (get_fmts k fmts pit (proj1 I) Op) as [f Hf]. rewrite Hf. cbn [lunwrap lbind].
      assert (EL : f_line f = Verbose). { pose proof (inv_kid_le k fmts pit d _ _ I Op Kd LN (ex_intro _ f (conj Hf eq_refl))) as LE. unfold repr_le in LE. destruct (f_line f); cbn in LE; try lia. reflexivity. }
      rewrite EL. pose proof (kid_ok k pit d Op Kd) as Od. rewrite (item_val k pit Op), (item_val k d Od). unfold is_cntr in CP, CN. rewrite <- Ed in CN. cbn [nd mk_full n_kserd] in CP, CN.
      destruct (kval (snd (snd pit))); try discriminate CP. destruct (kval (snd (snd d))); try discriminate CN. cbn [verbose_column lbind].
      rewrite (IH pit Op eq_refl fuel (off + INDENT)) by lia. change INDENT with 4. do 2 f_equal. lia.
    - destruct (child_items k fm p n N C) as (pit & d & Op & Kd & <- & Ed). pose proof (kid_pos k pit d Op Kd) as KP.
      assert (Fd : fst d = fst it) by (rewrite <- EN in Ed; apply (f_equal n_idx) in Ed; exact Ed).
      destruct fuel as [|fuel]; [lia|]. cbn [offset_loop]. rewrite EN, <- Ed. destruct (item_child k fm pit d N Op Kd) as [_ P]. rewrite N in P. rewrite P.
      apply line_of_at in LN. rewrite <- Ed in LN. change (n_idx (nd d)) with (fst d) in LN. change (n_idx (nd pit)) with (fst pit) in *.
      destruct (get_fmts k fmts pit (proj1 I) Op) as [f Hf]. rewrite Hf. cbn [lunwrap lbind].
      assert (EL : f_line f = Verbose). { pose proof (inv_kid_le k fmts pit d _ _ I Op Kd LN (ex_intro _ f (conj Hf eq_refl))) as LE. unfold repr_le in LE. destruct (f_line f); cbn in LE; try lia. reflexivity. }
      rewrite EL. pose proof (kid_ok k pit d Op Kd) as Od. rewrite (item_val k pit Op), (item_val k d Od). unfold is_cntr in CP. rewrite <- Ed in CN. cbn [nd mk_full n_kserd] in CP, CN.
      destruct (kval (snd (snd pit))); try discriminate CP. rewrite CN. cbn [verbose_column lbind].
      rewrite (IH pit Op eq_refl fuel (off + 0)) by lia. do 2 f_equal. lia.
  Qed.
  (** a concise node with a column: everything around it is concise *)
  Lemma block_top n c : block cfg fm n c -> line_of fm (n_idx n) = Some Concise -> line_of fm 0 = Some Concise.
  Proof.
    induction 1 as [n Hn Z|p n c x C LP B IH W|p n c C CP CN LN B IH|p n c l C CP CN LN B IH]; intros L; [now rewrite <- Z|now apply IH|congruence|congruence].
  Qed.
  (** the offset of an entry *)
  Definition entry_col (rp : repr) (c x : nat) : nat := match rp with Verbose => c + x - 4 | _ => c + x end.
  Lemma entry_offset pit d c x rp : ok_item k pit -> In d (kids_of pit) -> block cfg fm (nd pit) c -> within cfg fm (nd pit) (nd d) x ->
    (forall q, child fm (nd pit) q -> is_key q = true -> line_of fm (n_idx q) <> Some Verbose) ->
    line_at fmts (fst pit) rp -> rp <> Inline ->
    calculate_offset (full k) (nd d) fmts inw = LRet (entry_col rp c x).
  Proof.
    intros O K B W KV (f & Hf & Ef) NI. unfold calculate_offset. destruct (item_child k fm pit d N O K) as [_ P]. rewrite N in P. rewrite P.
    change (n_idx (nd pit)) with (fst pit). rewrite Hf. cbn [lunwrap lbind]. rewrite Ef.
    assert (X : match rp with Inline => LRet 0 | _ => concise_column (node_val (full k) (nd pit)) (nd d) fmts inw end = LRet x).
    { rewrite (within_column pit d x O K W KV). destruct rp; [congruence|reflexivity..]. }
    rewrite X. cbn [lbind]. rewrite (block_offset _ _ B pit O eq_refl).
    2:{ unfold nav_len. pose proof (item_lt k pit O). lia. }
    cbn [lbind fst snd]. change (n_idx (nd (croot k))) with 0.
    destruct (get_fmts k fmts _ (proj1 I) (root_ok k)) as [g Hg]. cbn [fst] in Hg. rewrite Hg. cbn [lunwrap lbind]. f_equal. unfold entry_col.
    destruct rp; [congruence| |].
    - assert (L0 : line_of fm 0 = Some Concise) by (apply (block_top _ _ B); apply line_of_at; now exists f).
      unfold line_of in L0. rewrite Hg in L0. injection L0 as ->. cbn. lia.
    - pose proof (top_le k fmts I (fst pit) (f_line g) Verbose (ex_intro _ g (conj Hg eq_refl)) (ex_intro _ f (conj Hf Ef))) as LE.
      assert (f_line g = Verbose) as -> by (unfold repr_le in LE; destruct (f_line g); cbn in LE; try lia; reflexivity). cbn [repr_eqb repr_n Nat.eqb]. change INDENT with 4. lia.
  Qed.
End Columns.

(** ** the theorems *)
Theorem new_forms k fm : fm_new k = LRet fm ->
  line_of fm 0 = Some (if seq_or_map k then repr_min (kind_max k) Concise else kind_max k) /\
  forall p n rp, child fm p n -> line_of fm (n_idx p) = Some rp ->
    line_of fm (n_idx n) = Some (repr_least (kind_max (n_kserd n)) (if is_key n then Concise else Verbose) rp).
Proof.
  intros E. destruct (fm_new_finv k) as (f0 & E0 & [N I]). rewrite E in E0. injection E0 as <-. split.
  - apply line_of_at. destruct (new_lines k fm E) as (_ & _ & _ & T). exact T.
  - intros p n rp C HP. destruct (child_items k fm p n N C) as (pit & c & O & K & <- & <-). apply line_of_at in HP. apply line_of_at.
    pose proof (new_kids k fm E pit c rp O K HP) as H. change (n_idx (nd c)) with (fst c). change (n_kserd (nd c)) with (snd (snd c)). unfold own_max, repr_least in *.
    destruct (is_key (nd c)); [destruct (kind_max (snd (snd c))), rp; exact H|]. destruct (kind_max (snd (snd c))), rp; exact H.
Qed.

Section Applied.
  Context (k : kserd) (cfg : config) (fm fm' : formatter).
  Hypothesis E : fm_new k = LRet fm.
  Hypothesis E' : apply_config fm cfg = LRet fm'.

  Theorem root_form : line_of fm' 0 = Some (repr_least (wants cfg 0 k) (kind_max k) (if seq_or_map k then Concise else Verbose)).
  Proof.
    apply line_of_at. pose proof (root_line k cfg fm fm' E E') as H. rewrite wanted_wants in H. unfold top_max, repr_least in *.
    destruct (seq_or_map k); [exact H|]. destruct (wants cfg 0 k), (kind_max k); exact H.
  Qed.
  Lemma keys_not_verbose p q : child fm' p q -> is_key q = true -> line_of fm' (n_idx q) <> Some Verbose.
  Proof.
    intros C K HV. destruct (fresh_inv k cfg fm fm' E E') as (_ & _ & I & N). destruct (child_items k fm' p q N C) as (pit & d & O & Kd & <- & <-).
    apply line_of_at in HV. refine (returned_fit k cfg _ I _ d (kid_ok k pit d O Kd) K HV). intros pit' c' O' K'. destruct (kid_line k cfg fm fm' E E' pit' c' O' K') as (o & _ & Eo & _). eauto.
  Qed.
  Theorem entry_form p n rp c x : child fm' p n -> line_of fm' (n_idx p) = Some rp -> rp <> Inline -> block cfg fm' p c -> within cfg fm' p n x ->
    line_of fm' (n_idx n) = Some (repr_least (asked cfg (match rp with Verbose => c + x - 4 | _ => c + x end) (n_kserd p) (n_kserd n)) (kind_max (n_kserd n)) rp).
  Proof.
    intros C HP NI B W. destruct (fresh_inv k cfg fm fm' E E') as (_ & _ & I & N). destruct (child_items k fm' p n N C) as (pit & d & O & K & <- & <-).
    apply line_of_at in HP. apply line_of_at. destruct (kid_line k cfg fm fm' E E' pit d O K) as (o & rp' & Eo & HP' & HL).
    rewrite (line_at_fun _ _ _ _ HP' HP) in HL. rewrite (entry_offset k cfg fm' N I pit d c x rp O K B W (fun q => keys_not_verbose _ q) HP NI) in Eo. injection Eo as <-. exact HL.
  Qed.
  (** whatever the column is *)
  Theorem some_form p n rp : child fm' p n -> line_of fm' (n_idx p) = Some rp ->
    exists col, line_of fm' (n_idx n) = Some (repr_least (asked cfg col (n_kserd p) (n_kserd n)) (kind_max (n_kserd n)) rp).
  Proof.
    intros C HP. destruct (fresh_inv k cfg fm fm' E E') as (_ & _ & I & N). destruct (child_items k fm' p n N C) as (pit & d & O & K & <- & <-).
    apply line_of_at in HP. destruct (kid_line k cfg fm fm' E E' pit d O K) as (o & rp' & Eo & HP' & HL). exists o. apply line_of_at. rewrite (line_at_fun _ _ _ _ HP' HP) in HL. exact HL.
  Qed.
  Theorem seq_containers p n : child fm' p n -> is_cntr (n_kserd n) = true -> (exists l, kval (n_kserd p) = VSeq l) -> line_of fm' (n_idx p) = Some Verbose ->
    line_of fm' (n_idx n) <> Some Concise.
  Proof.
    intros C CN [l SQ] HP. destruct (some_form p n Verbose C HP) as [col ->]. unfold repr_least, asked, is_cntr, kind_max in *. rewrite SQ.
    destruct (kval (n_kserd n)) as [| | | | | |m| |]; try discriminate CN. destruct m; destruct (wants cfg col (n_kserd n)); discriminate.
  Qed.
  Theorem zero_limit : width_limit cfg = Some 0 -> forall i, line_of fm' i = line_of fm i.
  Proof.
    intros Z. destruct (fresh_inv k cfg fm fm' E E') as (I & Nf & I' & N). destruct (new_forms k fm E) as [R0 RK].
    assert (W : forall c x, wants cfg c x = Verbose).
    { intros c x. unfold wants. rewrite Z, <- cw_est. pose proof (cw_some cfg x). replace (0 <? c + cw cfg x) with true by (symmetry; apply Nat.ltb_lt; lia). reflexivity. }
    assert (G : forall m it, fst it < m -> ok_item k it -> line_of fm' (fst it) = line_of fm (fst it)).
    { induction m as [|m IH]; intros it Hm O; [lia|]. destruct (i_parent (fst (snd it))) as [q|] eqn:Ep.
      - destruct (parent_kid k it q O Ep) as (pit & Op & Epi & c & Kc & Ec). assert (Fc : fst c = fst it) by (apply (f_equal n_idx) in Ec; exact Ec).
        pose proof (kid_pos k pit c Op Kc) as KP. pose proof (item_child k fm' pit c N Op Kc) as C'. pose proof (item_child k fm pit c Nf Op Kc) as C.
        pose proof (IH pit ltac:(lia) Op) as EP. destruct (inv_line k (fm_fmts fm) (fst pit) I (item_lt k pit Op)) as [rp HP]. apply line_of_at in HP. rewrite HP in EP.
        destruct (some_form _ _ rp C' EP) as [col F]. pose proof (RK _ _ rp C HP) as F0. change (n_idx (nd c)) with (fst c) in *. rewrite Fc in *. rewrite F, F0.
        unfold asked. rewrite W. cbn [nd mk_full n_kserd] in *. unfold repr_least. f_equal.
        assert (KEY : is_key (nd c) = true -> kind_max (snd (snd c)) <> Verbose \/ rp <> Verbose).
        { intros IK. destruct rp; [right; discriminate..|]. left. intros KM. apply (keys_not_verbose _ _ C' IK). change (n_idx (nd c)) with (fst c). rewrite Fc, F.
          unfold asked. rewrite W. cbn [nd mk_full n_kserd]. now rewrite KM. }
        destruct (is_key (nd c)); destruct (kind_max (snd (snd c))), rp; cbn; try reflexivity. exfalso. destruct (KEY eq_refl); congruence.
      - assert (FZ : fst it = 0). { apply (parent_none_iff k (nd it)); [now apply ok_in|]. unfold node_parent. cbn [nd mk_full n_parent]. now rewrite Ep. }
        rewrite FZ, root_form, R0, W. unfold repr_least. destruct (seq_or_map k), (kind_max k); reflexivity. }
    intros i. destruct (nth_error (full k) i) as [n|] eqn:En.
    - destruct (get_item k i n En) as (it & O & _ & <-). apply (G (Datatypes.S (fst it)) it); [lia|exact O].
    - apply nth_error_None in En. unfold line_of. destruct I as (L & _), I' as (L' & _). rewrite !(proj2 (nth_error_None _ _)) by lia. reflexivity.
  Qed.
End Applied.
Lemma too_long_check k cfg lim i r t1 t2 : width_limit cfg = Some lim ->
  (dl fm <- fm_new k ; dl fm1 <- apply_config fm cfg ; fm_write fm1 []) = LRet t1 ->
  (dl fm <- fm_new k ; dl fm1 <- apply_config fm cfg ; dl x <- fm_request r fm1 i ; dl t <- fm_write (fst x) [] ; LRet (snd x, t)) = LRet (None, t2) ->
  existsb (fun w => lim <? w) (line_lengths 0 t1) = true -> forallb (fun w => w <=? lim) (line_lengths 0 t2) = true -> too_long k cfg lim i r.
Proof.
  intros L W1 W2 X Y. split; [exact L|]. destruct (fm_new k) as [fm| |]; [|discriminate..]. cbn [lbind] in *. destruct (apply_config fm cfg) as [fm1| |] eqn:E1; [|discriminate..]. cbn [lbind] in *.
  destruct (fm_request r fm1 i) as [[fm2 e]| |] eqn:E2; [|discriminate..]. cbn [lbind fst snd] in *. destruct (fm_write fm2 []) as [t| |] eqn:E3; [|discriminate..]. cbn [lbind] in *.
  injection W2 as -> ->. exists fm, fm1, fm2, t1, t2. split; [reflexivity|]. split; [exact E1|]. split; [exact W1|]. split; [|split; [exact E2|split; [exact E3|]]].
  - apply existsb_exists in X as (w & I & L'). apply Exists_exists. exists w. split; [exact I|]. now apply Nat.ltb_lt.
  - apply Forall_forall. intros w I. apply Nat.leb_le. exact (proj1 (forallb_forall _ _) Y w I).
Qed.
