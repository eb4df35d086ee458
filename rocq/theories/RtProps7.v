(** The round trip theorems for formatters without verbose parts, for
    [as_str_with_config] and for values. *)
From Verif Require Import Base F64 Number NumberSpec BTree Value BTreeProps ValueSpec ValueProps ValueProps2 Nav NavSpec NavProps NavProps2 Nom Parse ParseErr Fmt Formatter FmtText FmtSpec FmtProps FmtProps2 FormatterProps FormatterProps2 FormatterProps3 FormatterProps4 Grammar RtSpec RtProps2 RtProps3 RtProps4 RtProps5 RtProps6 GrammarProps.
Open Scope nat_scope.

Definition no_verbose (fm : formatter) : Prop := forall i, line_of fm i <> Some Verbose.

Theorem layout_parses k fm : reachable k fm -> no_verbose fm -> text_safe (deco (fm_fmts fm) 0 k) = true ->
  exists t, fm_write fm [] = LRet t /\ parse t = ParseOk (norm (deco (fm_fmts fm) 0 k)).
Proof.
  intros R V T. change (deco (fm_fmts fm) 0 k) with (shown k fm) in *. pose proof (safe_strings k fm T) as S.
  destruct (write_returns k fm [] R S) as (t & E). exists t. split; [exact E|]. now apply (write_parses k fm t R S).
Qed.
Lemma norm_equal_k k fm : each faithful_node (deco (fm_fmts fm) 0 k) = true -> k_sorted k = true -> k_eqb (norm (deco (fm_fmts fm) 0 k)) k = true.
Proof. intros F K. pose proof (norm_equal (shown k fm)) as H. rewrite shown_undeco in H. rewrite each_all in F. now apply H. Qed.
Theorem layout_equal k fm : reachable k fm -> no_verbose fm -> k_sorted k = true ->
  text_safe (deco (fm_fmts fm) 0 k) = true -> each faithful_node (deco (fm_fmts fm) 0 k) = true ->
  exists t k', fm_write fm [] = LRet t /\ parse t = ParseOk k' /\ k_eqb k' k = true.
Proof. intros R V K T F. destruct (layout_parses k fm R V T) as (t & E & P). exists t, (norm (deco (fm_fmts fm) 0 k)). auto using norm_equal_k. Qed.
Theorem layout_literal k fm : reachable k fm -> no_verbose fm -> k_sorted k = true ->
  text_safe (deco (fm_fmts fm) 0 k) = true -> each faithful_node (deco (fm_fmts fm) 0 k) = true -> each literal_node (deco (fm_fmts fm) 0 k) = true ->
  exists t, fm_write fm [] = LRet t /\ parse t = ParseOk k.
Proof.
  intros R V K T F L. destruct (layout_parses k fm R V T) as (t & E & P). exists t. split; [exact E|]. rewrite P. f_equal.
  pose proof (norm_literal (shown k fm)) as H. rewrite shown_undeco in H. rewrite each_all in F, L. now apply H.
Qed.
Theorem layout_simple k fm : reachable k fm -> no_verbose fm -> k_sorted k = true -> simple_tree k = true ->
  tuple_ids_shown (deco (fm_fmts fm) 0 k) = true ->
  exists t k', fm_write fm [] = LRet t /\ parse t = ParseOk k' /\ k_eqb k' k = true.
Proof.
  intros R V K S T. destruct (simple_text_safe (shown k fm)) as [A B]; [now rewrite shown_undeco|exact T|]. now apply layout_equal.
Qed.

(** ** a formatter of a value which is not a container is never verbose *)
Lemma root_not_verbose k fm : reachable k fm -> is_cntr k = false -> no_verbose fm.
Proof.
  intros R C. pose proof (reachable_invariant k fm R) as (N & L & _ & P & Z). pose proof (reachable_finv k fm R) as [N' _]. 
  intros i. induction i as [i IH] using lt_wf_ind. intros E.
  assert (Hi : i < length (full k)).
  { unfold line_of in E. destruct (nth_error (fm_fmts fm) i) eqn:Ei; [|discriminate]. assert (nth_error (fm_fmts fm) i <> None) as Q by congruence. apply nth_error_Some in Q.
    unfold nav_len in L. rewrite N' in L. lia. }
  destruct (nth_error (full k) i) as [n|] eqn:En; [|apply nth_error_None in En; lia].
  assert (In n (fm_nav fm)) as HI by (rewrite N'; now apply (nth_error_In _ i)).
  assert (n_idx n = i) as Ix by now apply (nth_idx k).
  destruct (node_parent (fm_nav fm) n) as [p|] eqn:Ep.
  - assert (n_idx p < i) as LT.
    { rewrite N' in Ep. unfold node_parent in Ep. destruct (n_parent n) as [q|] eqn:Eq; [|discriminate]. cbn [opt_bind] in Ep.
      pose proof (parent_before k i n q En Eq). unfold nav_get in Ep. rewrite (nth_idx k q p Ep). lia. }
    destruct (line_of fm (n_idx p)) as [r|] eqn:Er.
    + specialize (P n p Verbose r HI Ep). rewrite Ix in P. specialize (P E Er). destruct r; unfold repr_le in P; cbn in P; try lia. exact (IH _ LT Er).
    + unfold line_of in Er. destruct (nth_error (fm_fmts fm) (n_idx p)) eqn:Q; [discriminate|]. apply nth_error_None in Q. unfold nav_len in L. rewrite N' in L. lia.
  - rewrite N' in Ep, HI. apply (parent_none_iff k n HI) in Ep. rewrite Ix in Ep. subst i. rewrite Ep in E. now apply Z.
Qed.

(** ** id flags set by a configuration *)
Lemma config_tuples k fm cfg fm' : reachable k fm -> apply_config fm cfg = LRet fm' ->
  (id_on_tuples cfg = true \/ forall x, In x (preorder k) -> match kval x with VTuple _ => kid x = None | _ => True end) ->
  tuple_ids_shown (deco (fm_fmts fm') 0 k) = true.
Proof.
  intros R E H. destruct (config_flags k fm cfg fm' R E) as [N ID]. pose proof (reachable_finv k fm R) as [N' I'].
  pose proof (apply_config_finv k fm cfg fm' (conj N' I') E) as [N2 I2].
  unfold tuple_ids_shown. rewrite each_all. change (deco (fm_fmts fm') 0 k) with (D (fm_fmts fm') (0,(info_default,k))).
  apply (D_items k (fm_fmts fm') (fun d => d_all (fun x => negb (drops x)) d = true)); [|apply root_ok]. intros it Ho F.
  pose proof (item_preorder k it Ho) as Pr.
  assert (FL : f_id (d_fmt (D (fm_fmts fm') it)) = flag cfg (kval (snd (snd it)))).
  { destruct (get_fmts k (fm_fmts fm') it (proj1 I2) Ho) as [f Hf]. pose proof (ok_get k it Ho) as G.
    specialize (ID (nd it)). rewrite N' in ID. specialize (ID (nth_error_In _ _ G)). cbn [nd mk_full n_idx n_kserd] in ID. rewrite Hf in ID. cbn [option_map] in ID.
    rewrite D_unfold. cbn [d_fmt]. rewrite (nth_error_nth _ _ _ Hf). congruence. }
  pose proof (eq_refl (undeco (D (fm_fmts fm') it))) as U. unfold D at 1 in U. rewrite undeco_deco in U. rewrite U in FL, Pr. clear U.
  destruct (D (fm_fmts fm') it) as [f id v]. apply d_all_children. split; [|exact F]. rewrite flag_undeco in FL. cbn [d_fmt] in FL.
  unfold drops. destruct id; [|reflexivity]. destruct v; try reflexivity. cbn [flag] in FL. destruct H as [H|H]; [now rewrite FL, H|].
  specialize (H _ Pr). cbn [undeco kval kid] in H. discriminate.
Qed.
Theorem as_str_same k cfg : (is_cntr k = false \/ width_limit cfg = None) -> simple_tree k = true -> k_sorted k = true ->
  (id_on_tuples cfg = true \/ forall x, In x (preorder k) -> match kval x with VTuple _ => kid x = None | _ => True end) ->
  exists t k', as_str_with_config k cfg = LRet t /\ parse t = ParseOk k' /\ same k' k.
Proof.
  intros C S K T. unfold as_str_with_config. destruct (new_returns k) as (fm & E & R). rewrite E. cbn [lbind].
  destruct (config_returns k fm cfg R) as (fm' & E' & R'); [destruct C; [now right; left|now right; right]|]. rewrite E'. cbn [lbind].
  pose proof (config_tuples k fm cfg fm' R E' T) as TS. destruct (simple_text_safe (shown k fm')) as [A B]; [now rewrite shown_undeco|exact TS|].
  assert (V : no_verbose fm').
  2:{ destruct (layout_parses k fm' R' V A) as (t & W & P). exists t, (norm (shown k fm')). split; [exact W|]. split; [exact P|].
      pose proof (norm_same (shown k fm') B) as N. rewrite shown_undeco in N. now apply N. }
  destruct C as [C|C]; [now apply (root_not_verbose k)|].
  intros i H. pose proof (reachable_invariant k fm' R') as (_ & L & _). destruct (config_flags k fm cfg fm' R E') as [N _].
  assert (Hi : i < nav_len (fm_nav fm)). { rewrite <- N, <- L. unfold line_of in H. apply nth_error_Some. destruct (nth_error _ i); [congruence|discriminate]. }
  rewrite (config_no_limit k fm cfg fm' R C E' i Hi) in H. discriminate.
Qed.

Theorem as_str_simple k cfg : (is_cntr k = false \/ width_limit cfg = None) -> simple_tree k = true -> k_sorted k = true ->
  (id_on_tuples cfg = true \/ forall x, In x (preorder k) -> match kval x with VTuple _ => kid x = None | _ => True end) ->
  exists t k', as_str_with_config k cfg = LRet t /\ parse t = ParseOk k' /\ k_eqb k' k = true.
Proof.
  intros C S K T. destruct (as_str_same k cfg C S K T) as (t & k' & E & P & A & B & Q). exists t, k'. split; [exact E|]. split; [exact P|]. now apply good_key_eqb.
Qed.

(** ** two layouts of the same value are read as equal values *)
Theorem layouts_agree k fm1 fm2 : k_sorted k = true ->
  (reachable k fm1 /\ no_verbose fm1 /\ text_safe (deco (fm_fmts fm1) 0 k) = true /\ each faithful_node (deco (fm_fmts fm1) 0 k) = true) ->
  (reachable k fm2 /\ no_verbose fm2 /\ text_safe (deco (fm_fmts fm2) 0 k) = true /\ each faithful_node (deco (fm_fmts fm2) 0 k) = true) ->
  exists t1 t2 k1 k2, fm_write fm1 [] = LRet t1 /\ fm_write fm2 [] = LRet t2 /\ parse t1 = ParseOk k1 /\ parse t2 = ParseOk k2 /\ k_eqb k1 k2 = true.
Proof.
  intros K (R1 & V1 & T1 & F1) (R2 & V2 & T2 & F2). destruct (layout_parses k fm1 R1 V1 T1) as (t1 & E1 & P1). destruct (layout_parses k fm2 R2 V2 T2) as (t2 & E2 & P2).
  exists t1, t2, (norm (shown k fm1)), (norm (shown k fm2)). repeat (split; [assumption|]). rewrite each_all in F1, F2.
  destruct (norm_same (shown k fm1) F1) as (A1 & B1 & C1); [now rewrite shown_undeco|]. destruct (norm_same (shown k fm2) F2) as (A2 & B2 & C2); [now rewrite shown_undeco|].
  rewrite shown_undeco in *. apply good_key_eqb; try assumption. rewrite (law_eq _ _ good_key_lawful _ _ _ A1 B1 A2 C1). rewrite k_cmp_anti, C2. reflexivity.
Qed.
Theorem inline_parses k fm : reachable k fm -> (forall i, i < nav_len (fm_nav fm) -> line_of fm i = Some Inline) -> text_safe (deco (fm_fmts fm) 0 k) = true ->
  exists t, fm_write fm [] = LRet t /\ parse t = ParseOk (norm (deco (fm_fmts fm) 0 k)).
Proof.
  intros R A. apply layout_parses; [exact R|]. intros i H. pose proof (reachable_invariant k fm R) as (_ & L & _).
  rewrite A in H; [discriminate|]. rewrite <- L. unfold line_of in H. apply nth_error_Some. destruct (nth_error _ i); [congruence|discriminate].
Qed.
Theorem layout_document k fm : reachable k fm -> (forall i, line_of fm i <> Some Verbose) -> text_safe (deco (fm_fmts fm) 0 k) = true ->
  exists t, fm_write fm [] = LRet t /\ document t (norm (deco (fm_fmts fm) 0 k)).
Proof.
  intros R V T. change (deco (fm_fmts fm) 0 k) with (shown k fm) in *. pose proof (safe_strings k fm T) as S.
  pose proof (reachable_finv k fm R) as FI. rewrite (fm_write_text k fm [] FI S).
  replace (FmtText.cut (shown k fm) []) with (@nil char) by (unfold FmtText.cut; destruct (drops _); reflexivity). cbn [app].
  eexists. split; [reflexivity|]. apply text_document; [exact T|now apply shown_flat].
Qed.
Theorem document_parses t k : document t k -> parse t = ParseOk k.
Proof. intros H. unfold parse. now rewrite (document_ok t k H). Qed.
Lemma document_unique t k k' : document t k -> document t k' -> k = k'.
Proof. intros A B. apply document_parses in A. apply document_parses in B. congruence. Qed.
Theorem as_str_agree k cfg1 cfg2 : simple_tree k = true -> k_sorted k = true ->
  (forall cfg, cfg = cfg1 \/ cfg = cfg2 -> (is_cntr k = false \/ width_limit cfg = None) /\
    (id_on_tuples cfg = true \/ forall x, In x (preorder k) -> match kval x with VTuple _ => kid x = None | _ => True end)) ->
  exists t1 t2 k1 k2, as_str_with_config k cfg1 = LRet t1 /\ as_str_with_config k cfg2 = LRet t2 /\
    parse t1 = ParseOk k1 /\ parse t2 = ParseOk k2 /\ k_eqb k1 k2 = true.
Proof.
  intros S K H. destruct (H cfg1 (or_introl eq_refl)) as [C1 T1]. destruct (H cfg2 (or_intror eq_refl)) as [C2 T2].
  destruct (as_str_same k cfg1 C1 S K T1) as (t1 & k1 & E1 & P1 & A1 & B1 & Q1). destruct (as_str_same k cfg2 C2 S K T2) as (t2 & k2 & E2 & P2 & A2 & B2 & Q2).
  exists t1, t2, k1, k2. repeat (split; [assumption|]). apply good_key_eqb; try assumption. rewrite (law_eq _ _ good_key_lawful _ _ _ A1 B1 A2 Q1). rewrite k_cmp_anti, Q2. reflexivity.
Qed.
