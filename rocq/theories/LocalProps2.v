(** Formatters of trees which differ in leaves of the same width choose the same
    layout. *)
From Verif Require Import Base BaseProps F64 Number BTree Value ValueProps Base91 Nav NavSpec NavProps NavProps2 Fmt FmtSpec Formatter FormatterProps2.
Open Scope nat_scope.

(** ** related results *)
Definition orel {A B} (R : A -> B -> Prop) (x : option A) (y : option B) : Prop :=
  match x, y with Some a, Some b => R a b | None, None => True | _, _ => False end.
Definition lrel {A B} (R : A -> B -> Prop) (x : lres A) (y : lres B) : Prop :=
  match x, y with LRet a, LRet b => R a b | LPanic, LPanic | LFuel, LFuel => True | _, _ => False end.
Lemma lrel_bind {A B C D} (R : A -> B -> Prop) (S : C -> D -> Prop) x y f g :
  lrel R x y -> (forall a b, R a b -> lrel S (f a) (g b)) -> lrel S (lbind x f) (lbind y g).
Proof. destruct x, y; cbn; intros H F; try contradiction; auto. Qed.
Lemma lrel_unwrap {A B} (R : A -> B -> Prop) x y : orel R x y -> lrel R (lunwrap x) (lunwrap y).
Proof. destruct x, y; cbn; auto. Qed.
Lemma lrel_fold {A B C D} (R : A -> B -> Prop) (S : C -> D -> Prop) f g :
  (forall a b x y, S a b -> R x y -> lrel S (f a x) (g b y)) -> forall l m, Forall2 R l m -> forall a b, S a b -> lrel S (lfold f l a) (lfold g m b).
Proof.
  intros F l m. induction 1 as [|x y l m H _ IH]; intros a b Hs; cbn [lfold]; [exact Hs|]. apply (lrel_bind S); [now apply F|]. intros. now apply IH.
Qed.
Lemma lrel_eq {A} (x y : lres A) : lrel eq x y -> x = y.
Proof. destruct x, y; cbn; intros H; try contradiction; congruence. Qed.
Lemma lrel_refl {A} (x : lres A) : lrel eq x x.
Proof. now destruct x. Qed.
Lemma Forall2_refl_eq {A} (l : list A) : Forall2 eq l l.
Proof. induction l; constructor; auto. Qed.

Lemma orel_nth {A B} (R : A -> B -> Prop) l m : Forall2 R l m -> forall i, orel R (nth_error l i) (nth_error m i).
Proof. induction 1 as [|x y l m H _ IH]; intros [|i]; [exact Logic.I|exact Logic.I|exact H|apply IH]. Qed.
Lemma Forall2_len {A B} (R : A -> B -> Prop) l m : Forall2 R l m -> length l = length m.
Proof. induction 1; cbn; congruence. Qed.
Lemma Forall2_map_eq {A B C} (R : A -> B -> Prop) (f : A -> C) (g : B -> C) l m : (forall x y, R x y -> f x = g y) -> Forall2 R l m -> map f l = map g m.
Proof. intros H. induction 1 as [|x y l m HR _ IH]; [reflexivity|]. cbn [map]. now rewrite IH, (H x y HR). Qed.

Section Sim.
  (** how trees are compared *)
  Variable same : kserd -> kserd -> Prop.
  Definition alike_head (k k' : kserd) : Prop :=
    match kval k, kval k' with
    | VTuple _, VTuple _ | VSeq _, VSeq _ | VMap _, VMap _ => True
    | VCntr m, VCntr m' => map fst m = map fst m'
    | VTuple _, _ | VSeq _, _ | VMap _, _ | VCntr _, _ => False
    | _, VTuple _ | _, VSeq _ | _, VMap _ | _, VCntr _ => False
    | _, _ => True
    end.
  Hypothesis same_head : forall k k', same k k' -> alike_head k k'.

  Record simn (n n' : node) : Prop := {
    s_kserd : same (n_kserd n) (n_kserd n');
    s_idx : n_idx n = n_idx n';
    s_parent : n_parent n = n_parent n';
    s_value : n_value_idx n = n_value_idx n';
    s_key : n_key_idx n = n_key_idx n';
    s_values : n_value_children n = n_value_children n';
    s_keys : n_key_children n = n_key_children n' }.
  Variables nv nv' : nav.
  Hypothesis simv : Forall2 simn nv nv'.

  Lemma sim_get i : orel simn (nav_get nv i) (nav_get nv' i).
  Proof. now apply orel_nth. Qed.
  Lemma sim_len : length nv = length nv'.
  Proof. exact (Forall2_len _ _ _ simv). Qed.
  Lemma sim_parent n n' : simn n n' -> orel simn (node_parent nv n) (node_parent nv' n').
  Proof. intros S. unfold node_parent. rewrite (s_parent _ _ S). destruct (n_parent n'); cbn [opt_bind]; [apply sim_get|exact Logic.I]. Qed.
  Lemma sim_is_key n n' : simn n n' -> is_key n = is_key n'.
  Proof. intros S. unfold is_key. now rewrite (s_key _ _ S). Qed.
  Lemma sim_in_parent n n' : simn n n' -> idx_in_parent n = idx_in_parent n'.
  Proof. intros S. unfold idx_in_parent. now rewrite (s_key _ _ S), (s_value _ _ S). Qed.
  Lemma sim_seq l : Forall2 simn (seq_iter nv l) (seq_iter nv' l).
  Proof. induction l as [|i l IH]; cbn [seq_iter]; [constructor|]. pose proof (sim_get i) as G. destruct (nav_get nv i), (nav_get nv' i); cbn in G; try contradiction; constructor; auto. Qed.
  Definition simf (e e' : str * node) : Prop := fst e = fst e' /\ simn (snd e) (snd e').
  Definition sime (e e' : node * node) : Prop := simn (fst e) (fst e') /\ simn (snd e) (snd e').
  Lemma sim_named names : forall l, Forall2 simf (named_iter nv names l) (named_iter nv' names l).
  Proof.
    induction names as [|a names IH]; intros [|i l]; cbn [named_iter]; try constructor. pose proof (sim_get i) as G. destruct (nav_get nv i), (nav_get nv' i); cbn in G; try contradiction; constructor; auto. now split.
  Qed.
  Lemma sim_keyed ks : forall l, Forall2 sime (keyed_iter nv ks l) (keyed_iter nv' ks l).
  Proof.
    induction ks as [|a ks IH]; intros [|i l]; cbn [keyed_iter]; try constructor. pose proof (sim_get i) as G. pose proof (sim_get a) as G'.
    destruct (nav_get nv a), (nav_get nv' a); cbn in G'; try contradiction; try constructor. destruct (nav_get nv i), (nav_get nv' i); cbn in G; try contradiction; constructor; auto. now split.
  Qed.
  Definition simval (v v' : node_value) : Prop :=
    match v, v' with
    | NPrimitive, NPrimitive => True
    | NTuple l, NTuple l' | NSeq l, NSeq l' => Forall2 simn l l'
    | NCntr l, NCntr l' => Forall2 simf l l'
    | NMap l, NMap l' => Forall2 sime l l'
    | _, _ => False
    end.
  Lemma sim_val n n' : simn n n' -> simval (node_val nv n) (node_val nv' n').
  Proof.
    intros S. pose proof (same_head _ _ (s_kserd _ _ S)) as H. unfold alike_head in H. unfold node_val. rewrite (s_values _ _ S), (s_keys _ _ S).
    destruct (kval (n_kserd n)) as [| | | | |l|m|l|m], (kval (n_kserd n')) as [| | | | |l'|m'|l'|m']; try contradiction; try exact Logic.I.
    - apply sim_seq.
    - rewrite H. apply sim_named.
    - apply sim_seq.
    - apply sim_keyed.
  Qed.
  Lemma sim_max v v' : simval v v' -> max_line_repr v = max_line_repr v'.
  Proof. destruct v as [|l|l|l|l], v' as [|l'|l'|l'|l']; cbn [simval]; intros H; try contradiction; try reflexivity; destruct H; reflexivity. Qed.
  Lemma sim_flag cfg v v' : simval v v' -> id_flag cfg v = id_flag cfg v'.
  Proof. destruct v, v'; cbn [simval]; intros H; try contradiction; reflexivity. Qed.
  Lemma sim_depth_loop fuel : forall todo acc acc', Forall2 simn acc acc' -> lrel (Forall2 simn) (depth_loop fuel nv todo acc) (depth_loop fuel nv' todo acc').
  Proof.
    induction fuel as [|fuel IH]; intros [|i todo] acc acc' A; cbn [depth_loop]; try exact A; try exact Logic.I. pose proof (sim_get i) as G.
    destruct (nav_get nv i) as [n|], (nav_get nv' i) as [n'|]; cbn in G; try contradiction; [|exact Logic.I].
    assert (P : depth_pushes n = depth_pushes n') by (unfold depth_pushes; now rewrite (s_values _ _ G), (s_keys _ _ G)). rewrite P. apply IH. apply Forall2_app; [exact A|constructor; [exact G|constructor]].
  Qed.
  Lemma sim_depth n n' : simn n n' -> lrel (Forall2 simn) (descendants_depth nv n) (descendants_depth nv' n').
  Proof.
    intros G. unfold descendants_depth. assert (P : depth_pushes n = depth_pushes n') by (unfold depth_pushes; now rewrite (s_values _ _ G), (s_keys _ _ G)).
    rewrite P, sim_len. apply sim_depth_loop. constructor.
  Qed.
  Lemma sim_breadth_loop fuel : forall todo acc acc', Forall2 simn acc acc' -> lrel (Forall2 simn) (breadth_loop fuel nv todo acc) (breadth_loop fuel nv' todo acc').
  Proof.
    induction fuel as [|fuel IH]; intros [|i todo] acc acc' A; cbn [breadth_loop]; try exact A; try exact Logic.I. pose proof (sim_get i) as G.
    destruct (nav_get nv i) as [n|], (nav_get nv' i) as [n'|]; cbn in G; try contradiction; [|exact Logic.I].
    assert (P : breadth_children n = breadth_children n') by (unfold breadth_children; now rewrite (s_values _ _ G), (s_keys _ _ G)). rewrite P. apply IH. apply Forall2_app; [exact A|constructor; [exact G|constructor]].
  Qed.
  Lemma sim_breadth n n' : simn n n' -> lrel (Forall2 simn) (descendants_breadth nv n) (descendants_breadth nv' n').
  Proof.
    intros G. unfold descendants_breadth. assert (P : breadth_children n = breadth_children n') by (unfold breadth_children; now rewrite (s_values _ _ G), (s_keys _ _ G)).
    rewrite P, sim_len. apply sim_breadth_loop. constructor.
  Qed.
  Lemma sim_idx l l' : Forall2 simn l l' -> map n_idx l = map n_idx l'.
  Proof. induction 1 as [|x y l l' S _ IH]; [reflexivity|]. cbn [map]. now rewrite IH, (s_idx _ _ S). Qed.

  Lemma sim_request fmts i r : request_repr nv fmts i r = request_repr nv' fmts i r.
  Proof.
    unfold request_repr. pose proof (sim_get i) as G. destruct (nav_get nv i) as [n|], (nav_get nv' i) as [n'|]; cbn in G; try contradiction; [|reflexivity].
    pose proof (sim_val n n' G) as V. apply lrel_eq. apply (lrel_bind eq); [apply lrel_refl|]. intros a b <-.
    destruct (repr_eqb r (f_line a)); [apply lrel_refl|].
    assert (M : match node_val nv n with NSeq _ | NMap _ => true | _ => false end = match node_val nv' n' with NSeq _ | NMap _ => true | _ => false end) by (destruct (node_val nv n), (node_val nv' n'); cbn in V; try contradiction; reflexivity).
    rewrite M. destruct (_ && _ && _); [apply lrel_refl|].
    assert (C : line_repr_constraints nv fmts n = line_repr_constraints nv' fmts n').
    { unfold line_repr_constraints. rewrite (sim_max _ _ V). f_equal. f_equal. pose proof (sim_parent n n' G) as P. destruct (node_parent nv n), (node_parent nv' n'); cbn in P; try contradiction; [|reflexivity]. cbn [opt_bind]. now rewrite (s_idx _ _ P). }
    rewrite C. destruct (line_repr_constraints nv' fmts n') as [mx pa]. apply (lrel_bind eq); [apply lrel_refl|]. intros v ? <-. destruct v as [r0|e]; [|apply lrel_refl].
    apply (lrel_bind (Forall2 simn)); [now apply sim_depth|]. intros ds ds' D. apply (lrel_bind eq); [|intros ? ? <-; apply lrel_refl].
    apply (lrel_fold simn eq); [|exact D|reflexivity]. intros f ? d d' <- S. rewrite (s_idx _ _ S). apply lrel_refl.
  Qed.
  Lemma sim_initial n n' : simn n n' -> initial_fmt nv n = initial_fmt nv' n'.
  Proof. intros S. unfold initial_fmt. now rewrite (sim_max _ _ (sim_val _ _ S)), (sim_is_key _ _ S). Qed.
  Lemma sim_knock fmts i : knock_on nv fmts i = knock_on nv' fmts i.
  Proof.
    unfold knock_on. pose proof (sim_get i) as G.
    assert (P : orel simn (opt_bind (nav_get nv i) (node_parent nv)) (opt_bind (nav_get nv' i) (node_parent nv'))).
    { destruct (nav_get nv i) as [n|], (nav_get nv' i) as [n'|]; cbn in G; try contradiction; [|exact Logic.I]. cbn [opt_bind]. now apply sim_parent. }
    destruct (opt_bind (nav_get nv i) (node_parent nv)) as [p|], (opt_bind (nav_get nv' i) (node_parent nv')) as [p'|]; cbn in P; try contradiction; [|reflexivity].
    rewrite (s_idx _ _ P). apply lrel_eq. apply (lrel_bind eq); [apply lrel_refl|]. intros a ? <-. apply (lrel_bind eq); [apply lrel_refl|]. intros b ? <-. destruct (repr_lt _ _); [|apply lrel_refl].
    rewrite sim_request. apply lrel_refl.
  Qed.
  Lemma sim_root : orel simn (nav_root nv) (nav_root nv').
  Proof. pose proof (sim_get 0) as G. unfold nav_root, nav_get in *. destruct nv, nv'; exact G. Qed.
  Lemma sim_fold_knock l fmts : lfold (knock_on nv) l fmts = lfold (knock_on nv') l fmts.
  Proof. apply lrel_eq. apply (lrel_fold eq eq); [|apply Forall2_refl_eq|reflexivity]. intros a ? x ? <- <-. rewrite sim_knock. apply lrel_refl. Qed.

  (** the solver *)
  Variable cfg : config.
  Hypothesis same_width : forall k k', same k k' -> iw cfg k = iw cfg k' /\ cw cfg k = cw cfg k'.
  Lemma sim_ids fmts : apply_ids nv cfg fmts = apply_ids nv' cfg fmts.
  Proof.
    unfold apply_ids, nav_len. rewrite sim_len. apply lrel_eq. apply (lrel_fold eq eq); [|apply Forall2_refl_eq|reflexivity]. intros a ? i ? <- <-.
    apply (lrel_bind simn); [apply lrel_unwrap, sim_get|]. intros n n' S. rewrite (sim_flag cfg _ _ (sim_val _ _ S)). apply lrel_refl.
  Qed.
  Lemma sim_entry_offset m m' c c' fmts inw : Forall2 sime m m' -> simn c c' -> map_entry_offset m c fmts inw = map_entry_offset m' c' fmts inw.
  Proof.
    intros M S. unfold map_entry_offset. rewrite (sim_is_key _ _ S), (sim_in_parent _ _ S). destruct (is_key c'); [reflexivity|]. apply lrel_eq.
    apply (lrel_bind sime). { now apply lrel_unwrap, orel_nth. }
    intros e e' [E _]. rewrite (s_idx _ _ E). apply lrel_refl.
  Qed.
  Lemma sim_field_offset m m' i : Forall2 simf m m' -> cntr_field_offset m i = cntr_field_offset m' i.
  Proof.
    intros M. unfold cntr_field_offset. apply lrel_eq. apply (lrel_bind simf). { now apply lrel_unwrap, orel_nth. }
    intros e e' [E _]. rewrite E. apply lrel_refl.
  Qed.
  Lemma sim_concise v v' c c' fmts inw : simval v v' -> simn c c' -> concise_column v c fmts inw = concise_column v' c' fmts inw.
  Proof.
    intros V S. destruct v, v'; cbn [simval] in V; try contradiction; try reflexivity; cbn [concise_column].
    - now rewrite (sim_in_parent _ _ S), (sim_field_offset _ _ _ V).
    - now rewrite (sim_entry_offset _ _ c c' _ _ V S).
  Qed.
  Lemma sim_verbose v v' c c' w w' : simval v v' -> simn c c' -> simval w w' -> verbose_column v c w = verbose_column v' c' w'.
  Proof.
    intros V S W. destruct v, v'; cbn [simval] in V; try contradiction; try reflexivity; cbn [verbose_column].
    - destruct w, w'; cbn [simval] in W; try contradiction; reflexivity.
    - now rewrite (sim_is_key _ _ S).
  Qed.
  Definition simo (x y : nat * node) : Prop := fst x = fst y /\ simn (snd x) (snd y).
  Lemma sim_offset_loop fmts inw fuel : forall c c' off, simn c c' -> lrel simo (offset_loop fuel nv fmts inw c off) (offset_loop fuel nv' fmts inw c' off).
  Proof.
    induction fuel as [|fuel IH]; intros c c' off S; cbn [offset_loop]; pose proof (sim_parent c c' S) as P; destruct (node_parent nv c) as [p|], (node_parent nv' c') as [p'|]; cbn in P; try contradiction; try (now split).
    rewrite (s_idx _ _ P). apply (lrel_bind eq); [apply lrel_refl|]. intros pf ? <-. apply (lrel_bind eq); [|intros a ? <-; now apply IH].
    rewrite (sim_concise _ _ c c' fmts inw (sim_val _ _ P) S), (sim_verbose _ _ c c' _ _ (sim_val _ _ P) S (sim_val _ _ S)). apply lrel_refl.
  Qed.
  Lemma sim_offset n n' fmts inw : simn n n' -> calculate_offset nv n fmts inw = calculate_offset nv' n' fmts inw.
  Proof.
    intros S. unfold calculate_offset. pose proof (sim_parent n n' S) as P. destruct (node_parent nv n) as [p|], (node_parent nv' n') as [p'|]; cbn in P; try contradiction; [|reflexivity].
    rewrite (s_idx _ _ P). apply lrel_eq. apply (lrel_bind eq); [apply lrel_refl|]. intros pf ? <-.
    rewrite (sim_concise _ _ n n' fmts inw (sim_val _ _ P) S). apply (lrel_bind eq); [apply lrel_refl|]. intros off ? <-. unfold nav_len. rewrite sim_len.
    apply (lrel_bind simo); [now apply sim_offset_loop|]. intros r r' [R1 R2]. rewrite (s_idx _ _ R2), R1. apply lrel_refl.
  Qed.
  Lemma sim_apply_node inw con fmts c : apply_node nv cfg inw con fmts c = apply_node nv' cfg inw con fmts c.
  Proof.
    unfold apply_node. apply lrel_eq. apply (lrel_bind simn); [apply lrel_unwrap, sim_get|]. intros n n' S. rewrite (sim_offset _ _ fmts inw S).
    apply (lrel_bind eq); [apply lrel_refl|]. intros off ? <-. apply (lrel_bind eq); [apply lrel_refl|]. intros r ? <-.
    apply (lrel_bind simn); [apply lrel_unwrap; now apply sim_parent|]. intros p p' SP.
    assert (E : match r, node_val nv n, node_val nv p with Concise, NCntr _, NSeq _ => Verbose | _, _, _ => r end = match r, node_val nv' n', node_val nv' p' with Concise, NCntr _, NSeq _ => Verbose | _, _, _ => r end).
    { pose proof (sim_val _ _ S) as V. pose proof (sim_val _ _ SP) as W. destruct r; try reflexivity. destruct (node_val nv n), (node_val nv' n'); cbn in V; try contradiction; try reflexivity.
      destruct (node_val nv p), (node_val nv' p'); cbn in W; try contradiction; reflexivity. }
    rewrite E, sim_request. apply lrel_refl.
  Qed.
  Lemma sim_iw : map (fun n => iw cfg (n_kserd n)) nv = map (fun n => iw cfg (n_kserd n)) nv'.
  Proof. apply (Forall2_map_eq simn); [|exact simv]. intros x y H. apply same_width, H. Qed.
  Lemma sim_cw : map (fun n => cw cfg (n_kserd n)) nv = map (fun n => cw cfg (n_kserd n)) nv'.
  Proof. apply (Forall2_map_eq simn); [|exact simv]. intros x y H. apply same_width, H. Qed.
End Sim.

(** two trees whose nodes correspond *)
Definition corr (same : kserd -> kserd -> Prop) (k k' : kserd) : Prop := Forall2 (simn same) (full k) (full k').
Definition ffmts (x : lres formatter) : lres (list fmt) := dl fm <- x ; LRet (fm_fmts fm).
Section Trees.
  Variable same : kserd -> kserd -> Prop.
  Hypothesis same_head : forall k k', same k k' -> alike_head k k'.
  Variables k k' : kserd.
  Hypothesis C : corr same k k'.
  Lemma corr_new : ffmts (fm_new k) = ffmts (fm_new k').
  Proof.
    unfold ffmts, fm_new. rewrite !nav_new_full. cbn [lbind]. unfold nav_nodes.
    assert (F : map (initial_fmt (full k)) (full k) = map (initial_fmt (full k')) (full k')).
    { assert (G : forall l m, Forall2 (simn same) l m -> map (initial_fmt (full k)) l = map (initial_fmt (full k')) m) by (induction 1 as [|x y l m H _ IH]; [reflexivity|]; cbn [map]; rewrite IH; f_equal; now apply (sim_initial same same_head _ _ C)). now apply G. }
    rewrite F, (sim_idx same _ _ C). pose proof (sim_root same _ _ C) as R. destruct (nav_root (full k)) as [r|], (nav_root (full k')) as [r'|]; cbn in R; try contradiction; [|reflexivity]. cbn [lunwrap lbind].
    pose proof (sim_val same same_head _ _ C _ _ R) as V. rewrite (sim_request same same_head _ _ C).
    assert (E : match node_val (full k) r with NSeq _ | NMap _ => dl x <- request_repr (full k') (map (initial_fmt (full k')) (full k')) 0 Concise ; LRet (fst x) | _ => LRet (map (initial_fmt (full k')) (full k')) end =
                match node_val (full k') r' with NSeq _ | NMap _ => dl x <- request_repr (full k') (map (initial_fmt (full k')) (full k')) 0 Concise ; LRet (fst x) | _ => LRet (map (initial_fmt (full k')) (full k')) end).
    { destruct (node_val (full k) r), (node_val (full k') r'); cbn in V; try contradiction; reflexivity. }
    rewrite E. destruct (match node_val (full k') r' with NSeq _ | NMap _ => _ | _ => _ end) as [f0| |]; cbn [lbind]; try reflexivity. rewrite (sim_fold_knock same same_head _ _ C).
    now destruct (lfold (knock_on (full k')) _ f0).
  Qed.
  Lemma corr_config cfg fmts : (forall a b, same a b -> iw cfg a = iw cfg b /\ cw cfg a = cw cfg b) ->
    ffmts (apply_config (mkFmtr (full k) fmts) cfg) = ffmts (apply_config (mkFmtr (full k') fmts) cfg).
  Proof.
    intros W. unfold ffmts, apply_config. cbn [fm_nav fm_fmts]. rewrite (sim_ids same same_head _ _ C). destruct (apply_ids (full k') cfg fmts) as [f0| |]; cbn [lbind]; try reflexivity.
    pose proof (sim_root same _ _ C) as R. destruct (nav_root (full k)) as [r|], (nav_root (full k')) as [r'|]; cbn in R; try contradiction; [|reflexivity]. cbn [lunwrap lbind].
    rewrite !inline_widths_ok. cbn [lbind]. rewrite !concise_widths_ok. cbn [lbind]. rewrite (sim_iw same _ _ C cfg W), (sim_cw same _ _ C cfg W).
    destruct (min_line_repr 0 _ _ _) as [rr| |]; cbn [lbind]; try reflexivity.
    pose proof (sim_breadth same _ _ C _ _ R) as B. destruct (descendants_breadth (full k) r) as [ds| |], (descendants_breadth (full k') r') as [ds'| |]; cbn in B; try contradiction; try reflexivity. cbn [lbind].
    rewrite (sim_request same same_head _ _ C), (sim_idx same _ _ B). destruct (request_repr (full k') f0 0 rr) as [[f1 res]| |]; cbn [lbind fst]; try reflexivity.
    assert (E : forall l f, lfold (apply_node (full k) cfg (map (fun n => iw cfg (n_kserd n)) (full k')) (map (fun n => cw cfg (n_kserd n)) (full k'))) l f = lfold (apply_node (full k') cfg (map (fun n => iw cfg (n_kserd n)) (full k')) (map (fun n => cw cfg (n_kserd n)) (full k'))) l f).
    { induction l as [|c l IH]; intros f; [reflexivity|]. cbn [lfold]. rewrite (sim_apply_node same same_head _ _ C). destruct (apply_node _ _ _ _ _ _); cbn [lbind]; auto. }
    rewrite E. now destruct (lfold _ _ f1).
  Qed.
End Trees.
