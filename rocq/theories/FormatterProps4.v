(** From formatters to the text they write. *)
From Verif Require Import Base F64 Number BTree Value BaseProps BTreeProps ValueSpec ValueProps Base91 Nav NavSpec NavProps NavProps2 NavProps3 Fmt Formatter FmtText FmtSpec FmtProps FmtProps2 FormatterProps FormatterProps2 FormatterProps3.
Open Scope nat_scope.

(** ** every node of the decorated tree is the node of an item *)
Lemma D_items root fmts (Q : dk -> Prop) :
  (forall it, ok_item root it -> Forall Q (d_children (d_val (D fmts it))) -> Q (D fmts it)) ->
  forall it, ok_item root it -> Q (D fmts it).
Proof.
  intros H it. remember (ksize (snd (snd it))) as n eqn:En. revert it En. induction n as [n IH] using lt_wf_ind. intros it -> Ho. apply H; [exact Ho|].
  assert (K : forall c, In c (kids_of it) -> Q (D fmts c)).
  { intros c Hc. apply (IH (ksize (snd (snd c)))); [|reflexivity|now apply (kid_ok root it)]. now apply (kid_size it). }
  rewrite D_children. destruct (kval (snd (snd it))) eqn:E;
    try (apply Forall_map, Forall_forall; intros c Hc; apply K; apply kids_value_or_key; now left).
  unfold entry_list. apply Forall_flat_map. apply Forall_forall. intros e He.
  apply Forall_cons; [|apply Forall_cons; [|apply Forall_nil]].
  - destruct e as [a b]. apply in_combine_l in He. apply in_map_iff in He as (c & <- & Hc). apply K, kids_value_or_key. now right.
  - destruct e as [a b]. apply in_combine_r in He. apply in_map_iff in He as (c & <- & Hc). apply K, kids_value_or_key. now left.
Qed.

(** the tree a formatter writes *)
Definition shown (k : kserd) (fm : formatter) : dk := D (fm_fmts fm) (0, (info_default, k)).
Lemma shown_undeco k fm : undeco (shown k fm) = k.
Proof. apply undeco_deco. Qed.
Lemma D_line root fmts it : length fmts = length (full root) -> ok_item root it -> line_at fmts (fst it) (d_line (D fmts it)).
Proof.
  intros L Ho. destruct (get_fmts root fmts it L Ho) as [f Hf]. exists f. split; [exact Hf|]. rewrite D_unfold. unfold d_line. cbn [d_fmt]. now rewrite (nth_error_nth _ _ _ Hf).
Qed.
Lemma item_preorder root it : ok_item root it -> In (snd (snd it)) (preorder root).
Proof. intros Ho. rewrite <- full_kserds. apply (in_map n_kserd _ (nd it)). now apply ok_in. Qed.

Lemma str_ok_delimiter t id : str_ok (Kserd id (VStr t)) = true <-> delimiter t <> None.
Proof.
  unfold str_ok, delimiter, delimiters. cbn [kval]. rewrite existsb_exists. split.
  - intros (d & Hd & H) E. apply (find_none _ _ E) in Hd. congruence.
  - destruct (find _ _) as [d|] eqn:E; [|congruence]. intros _. apply find_some in E as [E1 E2]. eauto.
Qed.
Lemma shown_writable k fmts it : inv k fmts -> strings_ok k -> ok_item k it -> writable (D fmts it) = true.
Proof.
  intros I S Ho. unfold writable. revert it Ho. apply (D_items k fmts (fun d => d_all writable_node d = true)). intros it Ho F. destruct (D fmts it) as [f id v] eqn:E.
  apply d_all_children. split; [|exact F]. pose proof (D_line k fmts it (proj1 I) Ho) as DL. rewrite E in DL.
  unfold strings_ok in S. rewrite Forall_forall in S. specialize (S _ (item_preorder k it Ho)).
  pose proof (f_equal undeco E) as U. unfold D in U. rewrite undeco_deco in U. unfold writable_node. cbn [d_val]. destruct v; try reflexivity.
  - rewrite U in S. cbn [undeco] in S. apply str_ok_delimiter in S. destruct (delimiter _); [reflexivity|congruence].
  - pose proof (ok_get k it Ho) as G. destruct I as (L & K & _). pose proof (K _ _ _ G DL) as KM. cbn [nd mk_full n_kserd] in KM. rewrite U in KM.
    unfold repr_le, kind_max in KM. cbn [undeco kval] in KM. destruct (d_line (DK f id (VTuple l))); try reflexivity. destruct l; cbn in KM; lia.
Qed.
Lemma fm_write_text k fm buf : finv k fm -> strings_ok k ->
  fm_write fm buf = LRet (cut (shown k fm) buf ++ text true (shown k fm) 0).
Proof.
  intros [N I] S. unfold fm_write. rewrite N, root_nav. cbn [lunwrap lbind]. apply write_text.
  - apply I.
  - apply root_ok.
  - cbn [snd]. rewrite full_length. lia.
  - apply (shown_writable k); [exact I|exact S|apply root_ok].
Qed.

(** ** when apply_config returns *)
Lemma root_not_verbose_fit k fmts : is_cntr k = false -> inv k fmts -> keys_fit k fmts.
Proof.
  intros C I it Ho Hk Hl. destruct (line_at_ex fmts 0) as [r Hr]. { rewrite (proj1 I), full_length. pose proof (ksize_pos k). lia. }
  assert (NV : r <> Verbose) by (intros ->; apply (proj2 (proj2 (proj2 (proj2 (finv_repr_invariant k (mkFmtr (full k) fmts) (conj eq_refl I))))) C); now apply line_of_at).
  destruct (Nat.eq_dec (fst it) 0) as [Z|NZ]; [rewrite Z in Hl; apply NV; exact (line_at_fun _ _ _ _ Hr Hl)|].
  pose proof (isz_le k it Ho) as B. pose proof (ksize_pos (snd (snd it))). rewrite full_length in B.
  pose proof (descendants_le k fmts _ I (root_ok k) (S (fst it)) (fst it) Verbose r ltac:(lia)) as H1. cbn [fst snd] in H1.
  specialize (H1 ltac:(lia) Hr Hl). unfold repr_le in H1. destruct r; cbn in H1; try lia. congruence.
Qed.
Lemma key_nodes_small k : key_nodes_ok (fun key => negb (repr_eqb (kind_max key) Verbose)) k -> keys_small k.
Proof.
  intros H it Ho Hk. destruct (i_parent (fst (snd it))) as [p|] eqn:Ep.
  - destruct (parent_kid k it p Ho Ep) as (pit & Hpo & Epi & jt & Hin & En). change (snd (snd it)) with (n_kserd (nd it)). rewrite <- En in Hk |- *. cbn [nd mk_full n_kserd]. clear En. apply kids_value_or_key in Hin as [Hin|Hin].
    + unfold vkids in Hin. apply filter_In in Hin as [Hin Hv]. exfalso. destruct (kids_role _ _ Hin) as [(j & R1 & R2)|(j & R1 & R2)].
      * unfold is_key in Hk. cbn [nd mk_full n_key_idx] in Hk. rewrite R2 in Hk. discriminate.
      * unfold has in Hv. now rewrite R1 in Hv.
    + pose proof (H _ (item_preorder k pit Hpo)) as F. rewrite Forall_forall in F. specialize (F (snd (snd jt))).
      rewrite <- kkids_kserds in F. specialize (F (in_map (fun x => snd (snd x)) _ _ Hin)). apply negb_true_iff in F. now apply repr_eqb_neq in F.
  - assert (Z : node_parent (full k) (nd it) = None) by (unfold node_parent; cbn [nd mk_full n_parent]; now rewrite Ep).
    apply (parent_none_iff k (nd it)) in Z; [|now apply ok_in]. rewrite (ok_unique k it _ Ho (root_ok k) Z) in Hk. discriminate Hk.
Qed.
Lemma solvable_fit k cfg : solvable k cfg -> (forall f, inv k f -> keys_fit k f) \/ wanted cfg k = Inline.
Proof.
  intros [H|[H|H]].
  - left. intros f. apply keys_small_fit. now apply key_nodes_small.
  - left. intros f. now apply root_not_verbose_fit.
  - right. unfold wanted. now rewrite H.
Qed.

Theorem config_returns k fm cfg : reachable k fm -> solvable k cfg -> exists fm', apply_config fm cfg = LRet fm' /\ reachable k fm'.
Proof.
  intros R S. pose proof (reachable_finv k fm R) as [N I]. destruct fm as [nv fmts]. cbn [fm_nav fm_fmts] in N, I. subst nv.
  destruct (apply_config_ok k cfg fmts I (solvable_fit k cfg S)) as (f' & E & _). exists (mkFmtr (full k) f'). split; [exact E|].
  destruct R as [ops R]. exists (ops ++ [OpConfig cfg]). unfold run in *. destruct (fm_new k) as [f0| |]; cbn [lbind] in *; try discriminate.
  assert (LA : forall a b (x : formatter), lfold apply_op (a ++ b) x = dl y <- lfold apply_op a x ; lfold apply_op b y).
  { induction a as [|o a IH]; intros b x; cbn [app lfold]; [reflexivity|]. destruct (apply_op x o); cbn [lbind]; auto. }
  rewrite LA, R. cbn [lbind lfold apply_op]. rewrite E. reflexivity.
Qed.
Theorem new_returns k : exists fm, fm_new k = LRet fm /\ reachable k fm.
Proof. destruct (fm_new_finv k) as (fm & E & _). exists fm. split; [exact E|]. exists []. unfold run. now rewrite E. Qed.
Theorem write_returns k fm buf : reachable k fm -> strings_ok k -> exists t, fm_write fm buf = LRet t.
Proof. intros R S. rewrite (fm_write_text k fm buf (reachable_finv k fm R) S). eauto. Qed.
Theorem as_str_returns k cfg : strings_ok k -> solvable k cfg -> exists t, as_str_with_config k cfg = LRet t.
Proof.
  intros S V. unfold as_str_with_config. destruct (new_returns k) as (fm & E & R). rewrite E. cbn [lbind].
  destruct (config_returns k fm cfg R V) as (fm' & E' & R'). rewrite E'. cbn [lbind]. now apply (write_returns k).
Qed.

(** ** C27 *)
Lemma shown_drops k fm : finv k fm -> drops (shown k fm) = hidden_tuple k fm.
Proof.
  intros [N I]. unfold shown. destruct (get_fmts k (fm_fmts fm) _ (proj1 I) (root_ok k)) as [f Hf]. cbn [fst] in Hf.
  rewrite D_unfold. cbn [fst snd]. rewrite (nth_error_nth _ _ _ Hf). unfold hidden_tuple, drops. rewrite Hf.
  destruct (kid k), (kval k); reflexivity.
Qed.
Theorem write_appends k fm : reachable k fm -> strings_ok k ->
  exists t, forall buf, fm_write fm buf = LRet ((if hidden_tuple k fm then removelast buf else buf) ++ t).
Proof.
  intros R S. apply reachable_finv in R. exists (text true (shown k fm) 0). intros buf. rewrite (fm_write_text k fm buf R S).
  unfold cut, pop. now rewrite (shown_drops k fm R).
Qed.

(** ** C24 *)
Definition bytes_node (k : kserd) : Prop := match kval k with VBarr b => Forall (fun x => x < 256)%N b | _ => True end.
Lemma d_children_v (v : value dk) (Q : dk -> Prop) : Forall Q (d_children v) ->
  match v with
  | VTuple l | VSeq l => fold_right (fun x P => Q x /\ P) True l
  | VCntr m => fold_right (fun e P => Q (snd e) /\ P) True m
  | VMap m => fold_right (fun e P => (Q (fst e) /\ Q (snd e)) /\ P) True m
  | _ => True
  end.
Proof.
  destruct v; cbn [d_children]; trivial; intros H.
  - now apply fold_right_forall.
  - apply (fold_right_forall (fun e => Q (snd e))). rewrite Forall_map in H. exact H.
  - now apply fold_right_forall.
  - apply (fold_right_forall (fun e => Q (fst e) /\ Q (snd e))). now apply Forall_entries in H.
Qed.
Lemma shown_inline_chars (ok : char -> Prop) k fmts it : inv k fmts -> all_inline fmts -> k_typed k = true ->
  (forall x t c, In x (preorder k) -> In t (texts_of x) -> In c t -> ok c) ->
  ok_item k it -> inline_chars ok (D fmts it).
Proof.
  intros I A T H Ho. revert it Ho. apply (D_items k fmts (inline_chars ok)). intros it Ho F.
  pose proof (D_line k fmts it (proj1 I) Ho) as DL. apply A in DL. pose proof (item_preorder k it Ho) as P.
  pose proof (eq_refl (undeco (D fmts it))) as U. unfold D at 1 in U. rewrite undeco_deco in U.
  unfold k_typed in T. rewrite k_all_preorder, Forall_forall in T. specialize (T _ P). specialize (fun t c => H _ t c P).
  rewrite U in T, H. clear U P. destruct (D fmts it) as [f id v]. cbn [d_val] in F. apply d_children_v in F.
  cbn [inline_chars]. split; [exact DL|]. split; [|exact F]. split.
  - cbn [d_id]. intros i ->. apply Forall_forall. intros c Hc. apply (H i c); [|exact Hc]. unfold texts_of. cbn [undeco kid]. now left.
  - cbn [d_val]. unfold texts_of in H. cbn [undeco kid kval] in H. unfold typed_node in T. cbn [undeco kval] in T. destruct v as [|b|n|t|b|l|m|l|m]; trivial.
    + apply Forall_forall. intros c Hc. apply (H t c); [|exact Hc]. apply in_or_app. right. now left.
    + apply Forall_forall. intros c Hc. rewrite forallb_forall in T. apply T in Hc. now apply N.ltb_lt.
    + apply Forall_forall. intros e He. apply Forall_forall. intros c Hc. apply (H (fst e) c); [|exact Hc]. apply in_or_app. right.
      rewrite map_map. cbn [fst]. now apply in_map.
Qed.
Theorem inline_single_line k fm t : reachable k fm -> k_typed k = true -> strings_ok k ->
  (forall i, i < nav_len (fm_nav fm) -> line_of fm i = Some Inline) ->
  (forall x u, In x (preorder k) -> In u (texts_of x) -> ~ In 10%N u) ->
  fm_write fm [] = LRet t -> ~ In 10%N t.
Proof.
  intros R T S A H E Hin. apply reachable_finv in R. rewrite (fm_write_text k fm [] R S) in E. injection E as <-.
  replace (cut (shown k fm) []) with (@nil char) in Hin by (unfold cut; destruct (drops _); reflexivity). cbn [app] in Hin.
  destruct R as [N I]. assert (AI : all_inline (fm_fmts fm)).
  { intros j r Hl. apply line_of_at in Hl. rewrite A in Hl; [congruence|]. rewrite N. unfold nav_len. rewrite <- (proj1 I). apply line_of_at in Hl as (g & Hg & _). apply nth_error_Some. congruence. }
  pose proof (shown_inline_chars (fun c => c <> 10%N) k (fm_fmts fm) (0, (info_default, k)) I AI T) as IC.
  specialize (IC ltac:(intros x u c H1 H2 H3 ->; exact (H x u H1 H2 H3)) (root_ok k)).
  assert (O : okt (fun c => c <> 10%N) (text true (shown k fm) 0)).
  { apply inline_text_chars; [| | | |exact IC].
    - intros c Hc ->. revert Hc. apply mem_not_In. reflexivity.
    - intros c Hc ->. discriminate Hc.
    - intros c Hc ->. revert Hc. apply mem_not_In. reflexivity.
    - intros c Hc ->. revert Hc. apply mem_not_In. reflexivity. }
  unfold okt in O. rewrite Forall_forall in O. exact (O _ Hin eq_refl).
Qed.

(** ** C28, C39 *)
Lemma id_flag_val root cfg it : ok_item root it -> id_flag cfg (node_val (full root) (nd it)) = flag cfg (kval (snd (snd it))).
Proof. intros Ho. rewrite item_val by exact Ho. destruct (kval (snd (snd it))); reflexivity. Qed.
Lemma flag_undeco cfg f id v : flag cfg (kval (undeco (DK f id v))) = flag cfg v.
Proof. destruct v; reflexivity. Qed.
Lemma fresh_config k fm cfg fm' : fm_new k = LRet fm -> apply_config fm cfg = LRet fm' -> wanted cfg k = Inline ->
  finv k fm' /\ all_inline (fm_fmts fm') /\
  forall it, ok_item k it -> f_id (d_fmt (D (fm_fmts fm') it)) = flag cfg (kval (snd (snd it))).
Proof.
  intros E E' W. destruct (fm_new_finv k) as (f0 & E0 & H0). rewrite E in E0. injection E0 as <-. pose proof (apply_config_finv k fm cfg fm' H0 E') as F.
  split; [exact F|]. destruct H0 as [N I]. destruct fm as [nv fmts]. cbn [fm_nav fm_fmts] in N, I. subst nv.
  destruct (apply_config_ok k cfg fmts I (or_intror W)) as (f2 & E2 & I2 & A2 & ID). rewrite E' in E2. injection E2 as ->. cbn [fm_fmts].
  split; [exact (A2 W)|]. intros it Ho. destruct (get_fmts k f2 it (proj1 I2) Ho) as [f Hf]. destruct (ID _ _ Hf) as (n & Hn & Ef).
  rewrite (ok_get k it Ho) in Hn. injection Hn as <-. rewrite D_unfold. cbn [d_fmt]. rewrite (nth_error_nth _ _ _ Hf), Ef. now apply id_flag_val.
Qed.
Lemma fresh_plain k fm cfg fm' : fm_new k = LRet fm -> apply_config fm cfg = LRet fm' -> wanted cfg k = Inline ->
  Forall (fun x => plain_node cfg x = true) (preorder k) ->
  d_plain cfg (shown k fm').
Proof.
  intros E E' W P. destruct (fresh_config k fm cfg fm' E E' W) as ([N I] & A & ID). unfold shown.
  apply (D_items k (fm_fmts fm') (d_plain cfg)); [|apply root_ok]. intros it Ho F.
  pose proof (D_line k (fm_fmts fm') it (proj1 I) Ho) as DL. apply A in DL. pose proof (item_preorder k it Ho) as Pr.
  rewrite Forall_forall in P. specialize (P _ Pr). specialize (ID it Ho).
  pose proof (eq_refl (undeco (D (fm_fmts fm') it))) as U. unfold D at 1 in U. rewrite undeco_deco in U. rewrite U in P, ID. clear U.
  destruct (D (fm_fmts fm') it) as [f id v]. cbn [d_val] in F. apply d_children_v in F. cbn [d_plain]. split; [|split; [exact P|exact F]].
  unfold as_config. rewrite DL. cbn [repr_eqb repr_n Nat.eqb andb d_val]. rewrite ID, flag_undeco. apply Bool.eqb_true_iff. reflexivity.
Qed.

Theorem width_formula k cfg t : width_limit cfg = None -> Forall (fun x => plain_node cfg x = true) (preorder k) ->
  as_str_with_config k cfg = LRet t ->
  exists nv ws w, nav_new k = LRet nv /\ inline_widths nv cfg = LRet ws /\ nth_error ws 0 = Some w /\
    length t + total (overestimate cfg) k = w + total underestimate k.
Proof.
  intros W P E. exists (full k), (map (fun n => iw cfg (n_kserd n)) (full k)), (iw cfg k). split; [apply nav_new_full|]. split; [apply inline_widths_ok|].
  split. { rewrite nth_error_map. pose proof (root_get k) as G. unfold nav_get in G. rewrite G. reflexivity. }
  unfold as_str_with_config in E. destruct (fm_new k) as [fm| |] eqn:E0; cbn [lbind] in E; try discriminate.
  destruct (apply_config fm cfg) as [fm'| |] eqn:E1; cbn [lbind] in E; try discriminate.
  assert (WI : wanted cfg k = Inline) by (unfold wanted; now rewrite W).
  pose proof (fresh_plain k fm cfg fm' E0 E1 WI P) as DP. destruct (fresh_config k fm cfg fm' E0 E1 WI) as (F & _).
  assert (S : strings_ok k).
  { unfold strings_ok. eapply Forall_impl; [|exact P]. intros [id v] Hp. unfold str_ok. cbn [kval]. destruct v; try reflexivity. unfold plain_node in Hp. cbn [kval kid] in Hp.
    apply andb_true_iff in Hp as [_ Hp]. apply andb_true_iff in Hp as [Hp _]. exact Hp. }
  rewrite (fm_write_text k fm' [] F S) in E. injection E as <-. pose proof (plain_length cfg _ DP true 0) as L. rewrite shown_undeco in L.
  replace (cut (shown k fm') []) with (@nil char) by (unfold cut; destruct (drops _); reflexivity). exact L.
Qed.

Theorem config_flags k fm cfg fm' : reachable k fm -> apply_config fm cfg = LRet fm' ->
  fm_nav fm' = fm_nav fm /\
  forall n, In n (fm_nav fm) -> option_map f_id (nth_error (fm_fmts fm') (n_idx n)) = Some (flag cfg (kval (n_kserd n))).
Proof.
  intros R E. pose proof (reachable_finv k fm R) as [N I]. destruct fm as [nv fmts]. cbn [fm_nav fm_fmts] in N, I |- *. subst nv.
  unfold apply_config in E. cbn [fm_nav fm_fmts] in E.
  destruct (apply_ids_ok k cfg fmts (proj1 I)) as (f0 & E0 & L0 & M0 & ID0). rewrite E0 in E. cbn [lbind] in E.
  rewrite root_nav in E. cbn [lunwrap lbind] in E. rewrite inline_widths_ok in E. cbn [lbind] in E. rewrite concise_widths_ok in E. cbn [lbind] in E.
  destruct (min_line_repr _ _ _ _) as [r| |]; cbn [lbind] in E; try discriminate.
  destruct (descendants_breadth _ _) as [ds| |]; cbn [lbind] in E; try discriminate.
  destruct (request_repr (full k) f0 0 r) as [[f1 res]| |] eqn:E1; cbn [lbind fst] in E; try discriminate.
  destruct (lfold _ _ f1) as [f2| |] eqn:E2; cbn [lbind] in E; try discriminate. injection E as <-. cbn [fm_nav fm_fmts]. split; [reflexivity|].
  assert (L1 : length f0 = length (full k)) by (rewrite L0; apply I).
  pose proof (ids_request k f0 0 r f1 res L1 E1) as M1.
  assert (M2 : forall l fa fb, length fa = length (full k) -> lfold (apply_node (full k) cfg (map (fun n => iw cfg (n_kserd n)) (full k)) (map (fun n => cw cfg (n_kserd n)) (full k))) l fa = LRet fb -> map f_id fb = map f_id fa).
  { clear. induction l as [|c l IH]; intros fa fb L E; cbn [lfold] in E; [now injection E as ->|].
    destruct (apply_node _ _ _ _ fa c) as [fc| |] eqn:Ec; cbn [lbind] in E; try discriminate.
    assert (Mc : map f_id fc = map f_id fa).
    { unfold apply_node in Ec. destruct (nav_get _ _) as [n|]; cbn [lunwrap lbind] in Ec; try discriminate.
      destruct (calculate_offset _ _ _ _) as [o| |]; cbn [lbind] in Ec; try discriminate.
      destruct (min_line_repr _ _ _ _) as [r| |]; cbn [lbind] in Ec; try discriminate.
      destruct (node_parent _ _) as [p|]; cbn [lunwrap lbind] in Ec; try discriminate.
      destruct (request_repr _ _ _ _) as [[fd res]| |] eqn:Er; cbn [lbind fst] in Ec; try discriminate. injection Ec as <-. eapply ids_request; eauto. }
    rewrite (IH fc fb); [exact Mc| |exact E]. apply (f_equal (@length _)) in Mc. rewrite !map_length in Mc. lia. }
  assert (L2 : length f1 = length (full k)) by (apply (f_equal (@length _)) in M1; rewrite !map_length in M1; lia).
  specialize (M2 _ _ _ L2 E2). rewrite M1 in M2. intros n Hn. destruct (item_exists k n Hn) as (it & Ho & ->). cbn [nd mk_full n_idx n_kserd].
  apply (f_equal (fun l => nth_error l (fst it))) in M2. rewrite !nth_error_map in M2. rewrite M2.
  destruct (get_fmts k f0 it L1 Ho) as [f Hf]. rewrite Hf. cbn [option_map]. destruct (ID0 _ _ Hf) as (n' & Hn' & ->). rewrite (ok_get k it Ho) in Hn'. injection Hn' as <-.
  now rewrite id_flag_val.
Qed.
Theorem config_inline k fm cfg fm' : reachable k fm -> apply_config fm cfg = LRet fm' -> wanted cfg k = Inline ->
  forall i, i < nav_len (fm_nav fm) -> line_of fm' i = Some Inline.
Proof.
  intros R E W i Hi. pose proof (reachable_finv k fm R) as [N I]. destruct fm as [nv fmts]. cbn [fm_nav fm_fmts] in N, I, Hi. subst nv.
  destruct (apply_config_ok k cfg fmts I (or_intror W)) as (f2 & E2 & I2 & A2 & _). rewrite E in E2. injection E2 as ->.
  specialize (A2 W). destruct (line_at_ex f2 i) as [r Hr]; [rewrite (proj1 I2); exact Hi|]. rewrite (A2 _ _ Hr) in Hr. apply line_of_at. exact Hr.
Qed.
Theorem config_fits k cfg lim nv ws cs : width_limit cfg = Some lim ->
  nav_new k = LRet nv -> inline_widths nv cfg = LRet ws -> concise_widths nv cfg ws = LRet cs ->
  (forall w, nth_error ws 0 = Some w -> w <= lim) -> (forall w, nth_error cs 0 = Some w -> w <= lim) ->
  forall fm, reachable k fm -> apply_config fm cfg = apply_config fm (no_limit cfg).
Proof.
  intros WL Env Ews Ecs Hw Hc fm R. rewrite nav_new_full in Env. injection Env as <-. rewrite inline_widths_ok in Ews. injection Ews as <-.
  rewrite concise_widths_ok in Ecs. injection Ecs as <-. rewrite nth_error_map in Hw, Hc. pose proof (root_get k) as G. unfold nav_get in G. rewrite G in Hw, Hc. cbn [option_map nd mk_full n_kserd snd] in Hw, Hc.
  specialize (Hw _ eq_refl). specialize (Hc _ eq_refl).
  assert (W : wanted cfg k = Inline).
  { unfold wanted. rewrite WL. replace (lim <? cw cfg k) with false by (symmetry; apply Nat.ltb_ge; lia). now replace (lim <? iw cfg k) with false by (symmetry; apply Nat.ltb_ge; lia). }
  assert (W0 : wanted (no_limit cfg) k = Inline) by reflexivity.
  pose proof (reachable_finv k fm R) as [N I]. destruct fm as [nv fmts]. cbn [fm_nav fm_fmts] in N, I. subst nv.
  destruct (apply_config_ok k cfg fmts I (or_intror W)) as (f2 & E2 & I2 & A2 & ID2). destruct (apply_config_ok k (no_limit cfg) fmts I (or_intror W0)) as (f3 & E3 & I3 & A3 & ID3).
  rewrite E2, E3. do 2 f_equal. apply nth_error_ext_list. intros j. specialize (A2 W). specialize (A3 W0).
  pose proof (proj1 I2) as L2. pose proof (proj1 I3) as L3.
  destruct (nth_error f2 j) as [g|] eqn:E; destruct (nth_error f3 j) as [h|] eqn:Eh.
  - f_equal. destruct (ID2 _ _ E) as (n & Hn & I2n). destruct (ID3 _ _ Eh) as (n' & Hn' & I3n). rewrite Hn in Hn'. injection Hn' as <-.
    assert (f_line g = Inline) by (apply (A2 j); now exists g). assert (f_line h = Inline) by (apply (A3 j); now exists h).
    destruct g as [g1 g2], h as [h1 h2]. cbn [f_id f_line] in *. subst. reflexivity.
  - apply nth_error_None in Eh. assert (j < length f2) by (apply nth_error_Some; congruence). lia.
  - apply nth_error_None in E. assert (j < length f3) by (apply nth_error_Some; congruence). lia.
  - reflexivity.
Qed.
Theorem request_returns k fm r i : reachable k fm -> exists x, fm_request r fm i = LRet x.
Proof. intros R. destruct (fm_request_ok k fm r i (reachable_finv k fm R)) as (fm' & res & E & _). eauto. Qed.
Theorem config_no_limit k fm cfg fm' : reachable k fm -> width_limit cfg = None -> apply_config fm cfg = LRet fm' ->
  forall i, i < nav_len (fm_nav fm) -> line_of fm' i = Some Inline.
Proof. intros R W E. apply (config_inline k fm cfg fm' R E). unfold wanted. now rewrite W. Qed.
Lemma total_zero g k : Forall (fun x => g x = 0) (preorder k) -> total g k = 0.
Proof. unfold total. induction 1 as [|x l H HF IH]; [reflexivity|]. cbn [map]. rewrite list_sum_cons. lia. Qed.
Theorem width_exact k cfg t : width_limit cfg = None ->
  Forall (fun x => plain_node cfg x = true /\ overestimate cfg x = 0 /\ underestimate x = 0) (preorder k) ->
  as_str_with_config k cfg = LRet t ->
  exists nv ws, nav_new k = LRet nv /\ inline_widths nv cfg = LRet ws /\ nth_error ws 0 = Some (length t).
Proof.
  intros W F E. destruct (width_formula k cfg t W) as (nv & ws & w & E1 & E2 & E3 & L); [eapply Forall_impl; [|exact F]; intros x Hx; apply Hx|exact E|].
  exists nv, ws. split; [exact E1|]. split; [exact E2|]. rewrite E3. f_equal.
  rewrite (total_zero (overestimate cfg)), (total_zero underestimate) in L; [lia| |]; (eapply Forall_impl; [|exact F]; intros x Hx; apply Hx).
Qed.
Theorem width_nodes k cfg nv ws n : nav_new k = LRet nv -> inline_widths nv cfg = LRet ws -> In n nv ->
  exists nv' ws', nav_new (n_kserd n) = LRet nv' /\ inline_widths nv' cfg = LRet ws' /\
    nth_error ws (n_idx n) = nth_error ws' 0 /\ nth_error ws' 0 <> None.
Proof.
  intros E1 E2 Hn. rewrite nav_new_full in E1. injection E1 as <-. rewrite inline_widths_ok in E2. injection E2 as <-.
  exists (full (n_kserd n)), (map (fun x => iw cfg (n_kserd x)) (full (n_kserd n))). split; [apply nav_new_full|]. split; [apply inline_widths_ok|].
  rewrite !nth_error_map. destruct (item_exists k n Hn) as (it & Ho & ->). pose proof (ok_get k it Ho) as G. unfold nav_get in G. cbn [nd mk_full n_idx]. rewrite G.
  pose proof (root_get (n_kserd (nd it))) as G0. unfold nav_get in G0. cbn [nd mk_full n_kserd] in G0 |- *. rewrite G0. cbn. split; [reflexivity|discriminate].
Qed.
(** checks, for examples *)
Lemma plain_check cfg l : forallb (plain_node cfg) l = true -> Forall (fun x => plain_node cfg x = true) l.
Proof. intros H. rewrite forallb_forall in H. now apply Forall_forall. Qed.
Lemma plain_exact_check cfg l : forallb (fun x => plain_node cfg x && (overestimate cfg x =? 0) && (underestimate x =? 0)) l = true ->
  Forall (fun x => plain_node cfg x = true /\ overestimate cfg x = 0 /\ underestimate x = 0) l.
Proof.
  intros H. rewrite forallb_forall in H. apply Forall_forall. intros x Hx. apply H in Hx. apply andb_true_iff in Hx as [Hx U]. apply andb_true_iff in Hx as [P O].
  apply Nat.eqb_eq in O, U. auto.
Qed.
