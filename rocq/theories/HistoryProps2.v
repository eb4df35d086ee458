(** Proofs about histories of a Formatter: apply_config. *)
From Verif Require Import Base BaseProps F64 Number BTree Value ValueProps Nav NavSpec NavProps NavProps2 NavProps3 Fmt FmtSpec FmtText FmtProps FmtProps2 Formatter FormatterProps FormatterProps2 FormatterProps3 FormatterProps4 LayoutSpec LayoutProps LayoutProps2 LayoutProps3 LayoutProps4 LayoutProps5 HistorySpec HistoryProps.
From Coq Require Import Permutation.
Open Scope nat_scope.

Lemma request_kept root g it r : inv root g -> ok_item root it -> (answer it (parent_line (full root) g (nd it)) r = None -> line_at g (fst it) r) ->
  exists e, request_repr (full root) g (fst it) r = LRet (g, e).
Proof.
  intros I O H. destruct (request_fun root g it r I O) as (g' & E & S & N). rewrite E. eexists. do 2 f_equal.
  destruct (answer it (parent_line (full root) g (nd it)) r) as [e|]; [now apply S|]. specialize (N eq_refl). destruct (H eq_refl) as (f & Hf & <-).
  apply fmts_ext. intros j. rewrite N. destruct (nth_error g j) as [fj|] eqn:Hj; [|reflexivity]. cbn [option_map]. f_equal. eapply kept_line; eauto.
Qed.
Lemma fmts_parts (a b : list fmt) : map f_line a = map f_line b -> map f_id a = map f_id b -> a = b.
Proof.
  revert b. induction a as [|[i l] a IH]; intros [|[i' l'] b] H1 H2; try discriminate; [reflexivity|]. cbn in H1, H2. injection H1 as -> H1. injection H2 as -> H2. now rewrite (IH b).
Qed.
Lemma apply_ids_fun root cfg g g' : length g = length (full root) -> map f_line g = map f_line g' -> apply_ids (full root) cfg g = apply_ids (full root) cfg g'.
Proof.
  intros L M. assert (L' : length g' = length (full root)) by (rewrite <- L; apply (f_equal (@length _)) in M; now rewrite !map_length in M).
  destruct (apply_ids_ok root cfg g L) as (a & Ea & La & Ma & Ia). destruct (apply_ids_ok root cfg g' L') as (b & Eb & Lb & Mb & Ib). rewrite Ea, Eb. f_equal.
  apply fmts_parts; [congruence|]. assert (X : forall j, option_map f_id (nth_error a j) = option_map f_id (nth_error b j)).
  { intros j. destruct (nth_error a j) as [x|] eqn:Ex.
    - destruct (nth_error b j) as [y|] eqn:Ey; [|apply nth_error_None in Ey; assert (j < length a) by (apply nth_error_Some; congruence); lia].
      destruct (Ia j x Ex) as (n & Hn & Hx). destruct (Ib j y Ey) as (n' & Hn' & Hy). rewrite Hn in Hn'. injection Hn' as <-. cbn. now rewrite Hx, Hy.
    - destruct (nth_error b j) eqn:Ey; [|reflexivity]. apply nth_error_None in Ex. assert (j < length b) by (apply nth_error_Some; congruence). lia. }
  clear - X. revert b X. induction a as [|x a IH]; intros [|y b] X; [reflexivity|specialize (X 0); discriminate|specialize (X 0); discriminate|].
  pose proof (X 0) as X0. cbn in X0. injection X0 as X0. cbn [map]. rewrite X0. f_equal. apply IH. intros j. exact (X (S j)).
Qed.
(** what was set of the ids does not matter *)
Lemma config_lines root cfg g g' : length g = length (full root) -> map f_line g = map f_line g' ->
  apply_config (mkFmtr (full root) g) cfg = apply_config (mkFmtr (full root) g') cfg.
Proof. intros L M. unfold apply_config. cbn [fm_nav fm_fmts]. now rewrite (apply_ids_fun root cfg g g' L M). Qed.

Theorem config_again k fm cfg fm' : reachable k fm -> apply_config fm cfg = LRet fm' -> apply_config fm' cfg = LRet fm'.
Proof.
  intros R E. pose proof (config_flags k fm cfg fm' R E) as [NV FL]. pose proof (reachable_finv k fm R) as [N I]. destruct fm as [nv f0]. cbn [fm_nav fm_fmts] in N, I, NV. rewrite N in NV. subst nv.
  destruct (config_decided k cfg f0 fm' I E) as (f2 & -> & I2 & RT & D). clear NV. cbn [fm_fmts] in FL.
  unfold apply_config. cbn [fm_nav fm_fmts].
  assert (EI : apply_ids (full k) cfg f2 = LRet f2).
  { destruct (apply_ids_ok k cfg f2 (proj1 I2)) as (b & Eb & Lb & Mb & Ib). rewrite Eb. f_equal. apply fmts_ext. intros j.
    assert (ML : option_map f_line (nth_error b j) = option_map f_line (nth_error f2 j)) by (rewrite <- !nth_error_map; now rewrite Mb).
    destruct (nth_error b j) as [x|] eqn:Ex; [|destruct (nth_error f2 j); [discriminate|reflexivity]]. destruct (nth_error f2 j) as [y|] eqn:Ey; [|discriminate]. injection ML as ML.
    destruct (Ib j x Ex) as (n & Hn & Hx). destruct (get_item k j n Hn) as (it & Oi & <- & Fi). specialize (FL (nd it) (ok_in k it Oi)). change (n_idx (nd it)) with (fst it) in FL. rewrite Fi, Ey in FL. cbn in FL. injection FL as FL.
    destruct x as [xi xl], y as [yi yl]. cbn [f_id f_line] in *. subst xl. f_equal. rewrite FL, Hx. rewrite (item_val k it Oi). destruct (kval (snd (snd it))); reflexivity. }
  rewrite EI. cbn [lbind]. rewrite root_nav. cbn [lunwrap lbind]. rewrite inline_widths_ok. cbn [lbind]. rewrite concise_widths_ok. cbn [lbind].
  change 0 with (fst (croot k)) at 1. rewrite min_line_ok by apply root_ok. cbn [lbind snd croot]. fold (wanted cfg k).
  destruct (blist_spec k) as (ds & Ed & Eds & _). unfold croot in Ed. rewrite Ed. cbn [lbind].
  assert (RQ : exists e, request_repr (full k) f2 0 (wanted cfg k) = LRet (f2, e)).
  { apply (request_kept k f2 (croot k) (wanted cfg k) I2 (root_ok k)). intros A. unfold answer in A. cbn [croot fst snd] in A.
    destruct (inv_line k f0 0 I ltac:(pose proof (item_lt k (croot k) (root_ok k)); cbn in *; lia)) as [a HA]. specialize (RT a HA). cbn [fst croot].
    change (0 =? 0) with true in A. cbn [andb] in A. destruct (repr_eqb (wanted cfg k) Verbose && seq_or_map k); [discriminate|]. destruct (repr_lt (kind_max k) (wanted cfg k)); [discriminate|]. exact RT. }
  destruct RQ as [e ->]. cbn [lbind fst].
  assert (EM : map n_idx ds = map fst (blist k)) by (rewrite Eds, map_map; reflexivity). rewrite EM.
  assert (LP : forall A B, blist k = A ++ B -> lfold (apply_node (full k) cfg (map (fun n => iw cfg (n_kserd n)) (full k)) (map (fun n => cw cfg (n_kserd n)) (full k))) (map fst B) f2 = LRet f2).
  { intros A B. revert A. induction B as [|c B IH]; intros A EB; [reflexivity|]. cbn [map lfold].
    destruct (blist_good k A c B EB) as (pit & O & K & _ & _). pose proof (kid_ok k pit c O K) as Oc. destruct (D pit c O K) as (o & rp & Eo & HP & HL).
    assert (AN : apply_node (full k) cfg (map (fun n => iw cfg (n_kserd n)) (full k)) (map (fun n => cw cfg (n_kserd n)) (full k)) f2 (fst c) = LRet f2).
    { unfold apply_node. rewrite (ok_get k c Oc). cbn [lunwrap lbind]. rewrite Eo. cbn [lbind]. rewrite min_line_ok by exact Oc. cbn [lbind].
      assert (P : node_parent (full k) (nd c) = Some (nd pit)).
      { unfold node_parent. cbn [nd mk_full n_parent]. rewrite (kids_parent _ _ K). cbn [opt_bind]. now apply ok_get. }
      rewrite P. cbn [lunwrap lbind]. match goal with |- context [request_repr _ _ _ ?r] => set (rr := r) end.
      assert (Er : rr = ask cfg o (snd (snd pit)) (snd (snd c))).
      { unfold rr, ask. rewrite (item_val k c Oc), (item_val k pit O).
        replace (match option_map (fun x => x - o) (width_limit cfg) with None => Inline | Some lim => _ end) with
          (match width_limit cfg with None => Inline | Some lim => if lim - o <? cw cfg (snd (snd c)) then Verbose else if lim - o <? iw cfg (snd (snd c)) then Concise else Inline end) by (destruct (width_limit cfg); reflexivity).
        destruct (match width_limit cfg with None => _ | Some _ => _ end); try reflexivity; destruct (kval (snd (snd c))); try reflexivity; destruct (kval (snd (snd pit))); reflexivity. }
      clearbody rr. destruct (request_kept k f2 c rr I2 Oc) as [e' ->]; [|reflexivity]. intros AN.
      destruct (inv_line k f0 (fst c) I (item_lt k c Oc)) as [a HA]. specialize (HL a HA). rewrite <- Er in HL. unfold choose in HL.
      destruct (parent_line_at k f2 c (fst pit) Oc (proj1 I2) (kids_parent _ _ K)) as (rp' & HP' & PL). rewrite (line_at_fun _ _ _ _ HP' HP) in PL.
      unfold answer in AN. rewrite PL in AN. destruct (_ && _ && _); [discriminate|]. destruct (repr_lt (kind_max (snd (snd c))) rr); [discriminate|].
      assert (X : repr_lt rp rr = false) by (destruct rp; [destruct (repr_lt Inline rr); [discriminate|reflexivity]|destruct (repr_lt Concise rr); [discriminate|reflexivity]|destruct rr; reflexivity]).
      rewrite X in HL. exact HL. }
    rewrite AN. cbn [lbind]. apply (IH (A ++ [c])). now rewrite <- app_assoc. }
  now rewrite (LP [] (blist k) eq_refl).
Qed.

(** ** forms after any history *)
Section Applied.
  Context (k : kserd) (cfg : config) (fm fm' : formatter).
  Hypothesis R : reachable k fm.
  Hypothesis E' : apply_config fm cfg = LRet fm'.

  Lemma applied_fmts : exists f0 f2, fm = mkFmtr (full k) f0 /\ fm' = mkFmtr (full k) f2 /\ inv k f0 /\ inv k f2.
  Proof.
    pose proof (reachable_finv k fm R) as [N I]. destruct fm as [nv f0]. cbn [fm_nav fm_fmts] in N, I. subst nv.
    destruct (config_decided k cfg f0 fm' I E') as (f2 & Ef & I2 & _). eauto 10.
  Qed.
  Theorem root_becomes was : line_of fm 0 = Some was ->
    line_of fm' 0 = Some (becomes (wants cfg 0 k) (kind_max k) (if seq_or_map k then Concise else Verbose) was).
  Proof.
    intros W. apply line_of_at in W. apply line_of_at. pose proof (reachable_finv k fm R) as [N I]. destruct fm as [nv f0]. cbn [fm_nav fm_fmts] in N, I, W. subst nv.
    destruct (config_decided k cfg f0 fm' I E') as (f2 & -> & I2 & RT & _). cbn [fm_fmts]. specialize (RT was W). rewrite wanted_wants in RT.
    assert (KW : repr_le was (if seq_or_map k then Concise else Verbose)).
    { destruct I as (_ & _ & _ & RI). destruct (seq_or_map k) eqn:SM; [|destruct was; unfold repr_le; cbn; lia]. destruct was; unfold repr_le; cbn; try lia. exfalso. exact (RI SM W). }
    unfold becomes. replace (repr_min was (if seq_or_map k then Concise else Verbose)) with was by (symmetry; now apply repr_min_le). clear - RT.
    unfold repr_lt, repr_eqb in RT. destruct (wants cfg 0 k), (kind_max k), (seq_or_map k); cbn in *; exact RT.
  Qed.
  Theorem some_becomes p n rp was : child fm' p n -> line_of fm' (n_idx p) = Some rp -> line_of fm (n_idx n) = Some was ->
    exists col, line_of fm' (n_idx n) = Some (becomes (asked cfg col (n_kserd p) (n_kserd n)) (kind_max (n_kserd n)) rp was).
  Proof.
    intros C HP W. destruct applied_fmts as (f0 & f2 & Ef & Ef' & I & I2). subst fm fm'. destruct (child_items k (mkFmtr (full k) f2) p n eq_refl C) as (pit & d & O & K & <- & <-).
    destruct (config_decided k cfg f0 _ I E') as (f2' & Eq & _ & _ & D). injection Eq as <-.
    apply line_of_at in HP, W. destruct (D pit d O K) as (o & rp' & Eo & HP' & HL). exists o. apply line_of_at. cbn [fm_fmts] in *. change (n_idx (nd d)) with (fst d) in *. change (n_idx (nd pit)) with (fst pit) in *.
    specialize (HL _ W). rewrite (line_at_fun _ _ _ _ HP' HP) in HL. rewrite ask_asked in HL. cbn [nd mk_full n_kserd]. unfold choose, repr_lt in HL. unfold becomes.
    destruct (asked cfg o (snd (snd pit)) (snd (snd d))), (kind_max (snd (snd d))), rp; cbn in *; exact HL.
  Qed.
  Theorem entry_becomes p n rp c x was : child fm' p n -> line_of fm' (n_idx p) = Some rp -> rp <> Inline -> block cfg fm' p c -> within cfg fm' p n x -> line_of fm (n_idx n) = Some was ->
    line_of fm' (n_idx n) = Some (becomes (asked cfg (match rp with Verbose => c + x - 4 | _ => c + x end) (n_kserd p) (n_kserd n)) (kind_max (n_kserd n)) rp was).
  Proof.
    intros C HP NI B WI W. destruct applied_fmts as (f0 & f2 & Ef & Ef' & I & I2).
    assert (KV : forall q, child fm' p q -> is_key q = true -> line_of fm' (n_idx q) <> Some Verbose).
    { intros q Cq Kq HV. assert (NV : fm_nav fm' = full k) by now rewrite Ef'. destruct (child_items k fm' p q NV Cq) as (pit & d & O & Kd & <- & <-). apply line_of_at in HV. rewrite Ef' in HV. cbn [fm_fmts] in HV.
      refine (returned_fit k cfg f2 I2 _ d (kid_ok k pit d O Kd) Kq HV). intros pit' c' O' K'. pose proof E' as X. rewrite Ef in X. destruct (config_decided k cfg f0 _ I X) as (f2' & Eq & _ & _ & D).
      rewrite Ef' in Eq. injection Eq as <-. destruct (D pit' c' O' K') as (o & _ & Eo & _). eauto. }
    subst fm fm'. destruct (child_items k (mkFmtr (full k) f2) p n eq_refl C) as (pit & d & O & K & <- & <-).
    destruct (config_decided k cfg f0 _ I E') as (f2' & Eq & _ & _ & D). injection Eq as <-.
    apply line_of_at in HP, W. destruct (D pit d O K) as (o & rp' & Eo & HP' & HL). apply line_of_at. cbn [fm_fmts] in *. change (n_idx (nd d)) with (fst d) in *. change (n_idx (nd pit)) with (fst pit) in *.
    specialize (HL _ W). rewrite (line_at_fun _ _ _ _ HP' HP) in HL. rewrite ask_asked in HL.
    pose proof (entry_offset k cfg (mkFmtr (full k) f2) eq_refl I2 pit d c x rp O K B WI KV HP NI) as EO. cbn [fm_fmts] in EO. rewrite EO in Eo. injection Eo as <-. unfold entry_col in HL. cbn [nd mk_full n_kserd]. unfold choose, repr_lt in HL. unfold becomes.
    destruct (asked cfg _ (snd (snd pit)) (snd (snd d))), (kind_max (snd (snd d))), rp; cbn in *; exact HL.
  Qed.
End Applied.

(** ** requests and ids, for formatters *)
Lemma get_ok k n i : nav_get (full k) i = Some n -> exists it, ok_item k it /\ nd it = n /\ fst it = i /\ tree_size n = ksize (snd (snd it)).
Proof. intros H. destruct (get_item k i n H) as (it & O & <- & F). exists it. repeat split; auto. unfold tree_size. cbn. apply preorder_length. Qed.
Theorem commute k fm i j r q : reachable k fm -> unrelated (fm_nav fm) i j ->
  exists fm1 fm2 fm3 e1 e2, fm_request r fm i = LRet (fm1, e1) /\ fm_request q fm1 j = LRet (fm3, e2) /\
    fm_request q fm j = LRet (fm2, e2) /\ fm_request r fm2 i = LRet (fm3, e1).
Proof.
  intros R (n & m & Hn & Hm & D). pose proof (reachable_finv k fm R) as [N I]. destruct fm as [nv g]. cbn [fm_nav fm_fmts] in *. subst nv.
  destruct (get_ok k n i Hn) as (a & Oa & <- & <- & Ta). destruct (get_ok k m j Hm) as (b & Ob & <- & <- & Tb). rewrite Ta, Tb in D.
  destruct (requests_commute k g a b r q I Oa Ob D) as (g1 & g2 & h & e1 & e2 & E1 & E2 & E3 & E4).
  exists (mkFmtr (full k) g1), (mkFmtr (full k) g2), (mkFmtr (full k) h), e1, e2. unfold fm_request. cbn [fm_nav fm_fmts]. now rewrite E1, E2, E3, E4.
Qed.
Theorem smaller_last k fm i r q : reachable k fm -> repr_le q r ->
  exists fm1 e1, fm_request r fm i = LRet (fm1, e1) /\ fm_request q fm1 i = fm_request q fm i.
Proof.
  intros R LE. pose proof (reachable_finv k fm R) as [N I]. destruct fm as [nv g]. cbn [fm_nav fm_fmts] in *. subst nv. unfold fm_request. cbn [fm_nav fm_fmts].
  destruct (nav_get (full k) i) as [n|] eqn:Hn.
  - destruct (get_ok k n i Hn) as (a & Oa & <- & <- & _). destruct (requests_last k g a r q I Oa LE) as (g1 & e1 & E1 & E2). rewrite E1. cbn [lbind fst snd]. do 2 eexists. split; [reflexivity|]. cbn [fm_nav fm_fmts]. now rewrite E2.
  - unfold request_repr. rewrite Hn. cbn [lbind fst snd]. do 2 eexists. split; [reflexivity|]. cbn [fm_nav fm_fmts]. now rewrite Hn.
Qed.

Definition put (w : bool) (f : fmt) : fmt := mkFmt w (f_line f).
Lemma update_lines g i w : map f_line (update g i (put w)) = map f_line g.
Proof. revert i. induction g as [|f g IH]; intros [|i]; cbn [update map]; try reflexivity. now rewrite IH. Qed.
Lemma update_length {A} (g : list A) i f : length (update g i f) = length g.
Proof. revert i. induction g as [|x g IH]; intros [|i]; cbn [update length]; try reflexivity. now rewrite IH. Qed.
Lemma update_update g i j w v : update (update g i (set_line w)) j (put v) = update (update g j (put v)) i (set_line w).
Proof. revert i j. induction g as [|f g IH]; intros [|i] [|j]; cbn [update]; try reflexivity. now rewrite IH. Qed.
Lemma update_line_at (g : list fmt) i j v : option_map f_line (nth_error (update g j (put v)) i) = option_map f_line (nth_error g i).
Proof. now rewrite <- !nth_error_map, update_lines. Qed.
Lemma request_put nv g i r j v : request_repr nv (update g j (put v)) i r =
  match request_repr nv g i r with LRet (a, e) => LRet (update a j (put v), e) | LPanic => LPanic | LFuel => LFuel end.
Proof.
  unfold request_repr. destruct (nav_get nv i) as [n|]; [|reflexivity]. pose proof (update_line_at g i j v) as X.
  destruct (nth_error g i) as [f|], (nth_error (update g j (put v)) i) as [f'|]; try discriminate X; cbn [lunwrap lbind]; [|reflexivity].
  injection X as X. rewrite X. destruct (repr_eqb r (f_line f)); [reflexivity|]. destruct (_ && _ && _); [reflexivity|].
  assert (C : line_repr_constraints nv (update g j (put v)) n = line_repr_constraints nv g n).
  { unfold line_repr_constraints. f_equal. destruct (node_parent nv n) as [p|]; [|reflexivity]. cbn [opt_bind]. now apply update_line_at. }
  rewrite C. destruct (line_repr_constraints nv g n) as [mx pl]. destruct (validate_request_repr mx pl r) as [[r'|e]| |]; cbn [lbind]; try reflexivity.
  destruct (descendants_depth nv n) as [ds| |]; cbn [lbind]; try reflexivity. rewrite <- update_update. generalize (update g i (set_line r')) as x. clear. intros x.
  revert x. induction ds as [|d ds IH]; intros x; cbn [lfold lbind]; [reflexivity|].
  pose proof (update_line_at x (n_idx d) j v) as X. destruct (nth_error x (n_idx d)) as [f|], (nth_error (update x j (put v)) (n_idx d)) as [f'|]; try discriminate X; cbn [lunwrap lbind]; [|reflexivity]. injection X as X. rewrite X.
  destruct (repr_lt r' (f_line f)); [rewrite <- update_update|]; apply IH.
Qed.
Lemma fm_id_put fm j v : fst (fm_id fm j v) = mkFmtr (fm_nav fm) (update (fm_fmts fm) j (put v)).
Proof.
  unfold fm_id. destruct (Nat.ltb_spec j (length (fm_fmts fm))) as [L|L]; cbn [fst]; [reflexivity|]. destruct fm as [nv g]. cbn [fm_nav fm_fmts] in *. f_equal.
  revert j L. induction g as [|f g IH]; intros [|j] L; cbn [update length] in *; try reflexivity; [lia|]. f_equal. apply IH. lia.
Qed.
Theorem ids_apart k fm i r j v : reachable k fm -> exists fm1 e, fm_request r fm i = LRet (fm1, e) /\
  fm_request r (fst (fm_id fm j v)) i = LRet (fst (fm_id fm1 j v), e).
Proof.
  intros R. pose proof (reachable_finv k fm R) as [N I]. destruct (request_keeps k (fm_fmts fm) i r (proj1 I)) as (g' & e & E & _).
  unfold fm_request. rewrite N, E. cbn [lbind fst snd]. do 2 eexists. split; [reflexivity|]. rewrite !fm_id_put. cbn [fm_nav fm_fmts]. rewrite N, request_put, E. reflexivity.
Qed.
Theorem ids_forgotten k fm cfg j v : reachable k fm -> apply_config (fst (fm_id fm j v)) cfg = apply_config fm cfg.
Proof.
  intros R. pose proof (reachable_finv k fm R) as [N I]. rewrite fm_id_put. destruct fm as [nv g]. cbn [fm_nav fm_fmts] in *. subst nv. symmetry. apply config_lines; [exact (proj1 I)|]. now rewrite update_lines.
Qed.
Theorem ids_commute fm i j v w : i <> j -> fst (fm_id (fst (fm_id fm i v)) j w) = fst (fm_id (fst (fm_id fm j w)) i v).
Proof.
  intros NE. rewrite !fm_id_put. cbn [fm_nav fm_fmts]. f_equal. generalize (fm_fmts fm). intros g. revert i j NE. induction g as [|f g IH]; intros [|i] [|j] NE; cbn [update]; try reflexivity; [lia|]. f_equal. apply IH. lia.
Qed.
Theorem ids_last fm i v w : fst (fm_id (fst (fm_id fm i v)) i w) = fst (fm_id fm i w).
Proof.
  rewrite !fm_id_put. cbn [fm_nav fm_fmts]. f_equal. generalize (fm_fmts fm). intros g. revert i. induction g as [|f g IH]; intros [|i]; cbn [update]; try reflexivity. f_equal. apply IH.
Qed.
