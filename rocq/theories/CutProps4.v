(** Documents which break off between the fields of the outermost container. *)
From Verif Require Import ParseSpec PropertiesParse Base F64 Number NumberSpec BTree Value BaseProps BTreeProps ValueSpec ValueProps ValueProps2 Nom Parse ParseErr ParseProps Grammar VGrammar GrammarProps VGrammarProps VAssemble VGrammarProps2 Format FormatProps Nav NavSpec NavProps NavProps2 Fmt Formatter FmtText FmtSpec FmtProps FmtProps2 FormatterProps FormatterProps2 FormatterProps3 FormatterProps4 VSpec VRtProps VRtProps2 VRtProps3 VRtProps4 VRtProps5 Syntax SyntaxProps SyntaxProps2 SyntaxProps3 SyntaxProps4 RtSpec RtProps2 RtProps3 RtProps4 RtProps5 RtProps6 RtProps7 MisreadSpec MisreadProps MisreadProps2 MisreadProps3 MisreadProps4 MisreadProps5 MisreadProps6 MisreadProps7 LegibleSpec MisreadSpec2 MisreadProps8 MisreadProps9 LegibleSpec2 LegibleProps5 LegibleProps6 LegibleProps7.
Open Scope N_scope.

Lemma sorted_firstn {K V} (cmp : K -> K -> comparison) (m : list (K * V)) j : strictly_sorted cmp m = true -> strictly_sorted cmp (firstn j m) = true.
Proof.
  revert j. induction m as [|e m IH]; intros [|j] H; try reflexivity. cbn [firstn strictly_sorted] in *. apply andb_true_iff in H as [H1 H2]. rewrite (IH j H2), andb_true_r.
  rewrite forallb_forall in *. intros x Hx. apply H1. rewrite <- (firstn_skipn j m). apply in_or_app. now left.
Qed.
Lemma sorted_keys {K V W} (cmp : K -> K -> comparison) (f g : V -> W) (m : list (K * V)) : strictly_sorted cmp (map (fun e => (fst e, f (snd e))) m) = strictly_sorted cmp (map (fun e => (fst e, g (snd e))) m).
Proof. induction m as [|e m IH]; [reflexivity|]. cbn [map strictly_sorted fst]. rewrite IH. f_equal. now rewrite !forallb_mapped. Qed.
Lemma forallb_firstn {A} (p : A -> bool) l j : forallb p l = true -> forallb p (firstn j l) = true.
Proof. intros H. rewrite <- (firstn_skipn j l), forallb_app in H. now apply andb_true_iff in H as [H _]. Qed.
Lemma chain_firstn {A} (r : A -> A -> bool) l j : chain r l = true -> chain r (firstn j l) = true.
Proof.
  revert j. induction l as [|x l IH]; intros [|j] H; try reflexivity. destruct l as [|y l]; [now destruct j|]. cbn [chain] in H. apply andb_true_iff in H as [H1 H2].
  specialize (IH j H2). destruct j as [|j]; [reflexivity|]. cbn [firstn chain] in *. now rewrite H1, IH.
Qed.
Lemma Forall_firstn' {A} (P : A -> Prop) l j : Forall P l -> Forall P (firstn j l).
Proof. intros H. rewrite <- (firstn_skipn j l) in H. now apply Forall_app in H as [H _]. Qed.

Section Short.
Context (f : fmt) (id : option str) (m : list (str * dk)) (j : nat).
Hypothesis EL : f_line f = Verbose.
Hypothesis J : (0 < j)%nat.
Let d := DK f id (VCntr m).
Let d' := DK f id (VCntr (firstn j m)).
Lemma short_cntr : verbose_cntr d = true /\ verbose_cntr d' = true.
Proof. unfold verbose_cntr, verbose_line, d_line. cbn. now rewrite EL. Qed.
Lemma short_vclear : vclear true true d = true -> vclear true true d' = true.
Proof.
  unfold d, d'. rewrite !vclear_verbose by exact EL. rewrite !andb_true_iff, !orb_true_iff. intros [[H1 H2] H3]. destruct m as [|e l]; [discriminate|]. destruct j as [|i]; [lia|].
  split; [split; [reflexivity|]|exact (forallb_firstn _ (e :: l) (Datatypes.S i) H3)]. destruct H2 as [H2|H2]; [now left|right]. destruct e. exact H2.
Qed.
Lemma short_tlegible : tlegible d = true -> tlegible d' = true.
Proof. unfold d, d'. rewrite !tlegible_verbose by exact EL. rewrite !andb_true_iff. intros [H1 H2]. split; [now apply chain_firstn|now apply forallb_firstn]. Qed.
Lemma short_vtidy : m <> [] -> vtidy d -> vtidy d'.
Proof.
  intros NE T. pose proof (vtidy_kids d T) as TK. destruct T as (T1 & T2 & T3). unfold d, d' in *. apply all_here in T1, T2. apply sorted_kids in T3 as [T3 _]. cbn [d_val d_children] in TK. rewrite Forall_map in TK. apply (Forall_firstn' _ _ j) in TK.
  split; [|split].
  - apply d_all_children. split.
    + unfold clear_node, shown_id in *. cbn [d_val d_id d_fmt] in *. rewrite andb_true_iff in *. split; [apply T1|now apply forallb_firstn].
    + apply Forall_map. eapply Forall_impl; [|exact TK]. intros e H. apply H.
  - apply d_all_children. split.
    + unfold lay_node in *. cbn [d_val d_children] in *. rewrite andb_true_iff in *. destruct T2 as [_ T2]. unfold d_line in *. cbn [d_fmt] in *. rewrite EL. split; [destruct m; [congruence|destruct j; [lia|reflexivity]]|].
      rewrite EL in T2. rewrite forallb_mapped in *. now apply forallb_firstn.
    + apply Forall_map. eapply Forall_impl; [|exact TK]. intros e H. apply H.
  - change (undeco (DK f id (VCntr (firstn j m)))) with (Kserd id (VCntr (map (fun e : str * dk => (fst e, undeco (snd e))) (firstn j m)))). unfold k_sorted. apply k_all_children. split.
    + unfold sorted_node in *. cbn [undeco kval] in *. rewrite <- firstn_map. now apply sorted_firstn.
    + cbn [vchildren kval]. rewrite !map_map. apply Forall_map. eapply Forall_impl; [|exact TK]. intros e H. apply H.
Qed.
Lemma short_vnorm : k_sorted (undeco d) = true -> vnorm d' = Kserd (kid (vnorm d)) (VCntr (firstn j (match kval (vnorm d) with VCntr l => l | _ => [] end))).
Proof.
  intros T. unfold d, d' in *. apply sorted_kids in T as [T _]. rewrite !vnorm_verbose by exact EL. cbn [kid kval]. unfold sorted_node in T. cbn [undeco kval] in T.
  rewrite (sorted_keys str_cmp undeco vfield) in T. rewrite (fields_sorted _ T). rewrite <- firstn_map, fields_sorted; [reflexivity|now apply sorted_firstn].
Qed.
Lemma short_text : vclear true true d = true -> vtidy d -> exists t2, text true d 0 = text true d' 0 ++ t2.
Proof.
  intros VL T. pose proof (vtidy_kids d T) as TK. destruct T as (T1 & _ & T3). unfold d, d' in *. apply all_here in T1. apply sorted_kids in T3 as [T3 _]. apply sorted_names in T3. cbn [d_val d_children] in TK. rewrite Forall_map in TK.
  rewrite vclear_verbose in VL by exact EL. rewrite !andb_true_iff in VL. destruct VL as [_ VL]. rewrite !text_verbose by exact EL. set (a := match f_id f && true, id with true, Some i => _ | _, _ => _ end).
  assert (FW : Forall (fun e : str * dk => name_ok (fst e) = true /\ has_pieces (snd e) /\ Forall has_pieces (d_children (d_val (snd e))) /\ vtidy (snd e)) m).
  { unfold clear_node in T1. cbn [d_val] in T1. apply andb_true_iff in T1 as [_ T1]. rewrite forallb_forall in T1. rewrite Forall_forall in *. intros e He. specialize (T1 e He). destruct (all_pieces (snd e)) as [A B].
    split; [|split; [|split]]; [destruct e as [[|c nm] y]; [discriminate T1|exact T1]|exact A|exact B|now apply TK]. }
  assert (X : forall l acc, NoDup (map fst l) -> incl l m -> exists t2, fold_left (fstep 0) l acc = acc ++ t2).
  { intros l acc ND IN. destruct (fields_pieces true 0 l (fun _ => eq_refl) ND) as (ps & EP & _); [|rewrite forallb_forall in *; intros x Hx; apply VL; now apply IN|].
    - rewrite Forall_forall in *. intros x Hx. apply FW. now apply IN.
    - exists (concat (map (render 0) ps)). apply EP. }
  assert (Y : fold_left (fstep 0) m a = fold_left (fstep 0) (skipn j m) (fold_left (fstep 0) (firstn j m) a)) by (rewrite <- fold_left_app, firstn_skipn; reflexivity).
  rewrite Y. apply X.
  - rewrite <- (firstn_skipn j m), map_app in T3. clear -T3. induction (map fst (firstn j m)) as [|x l IH]; [exact T3|]. cbn [app] in T3. inversion T3; auto.
  - intros x Hx. rewrite <- (firstn_skipn j m). apply in_or_app. now right.
Qed.
End Short.

Theorem document_short d id l : verbose_cntr d = true -> vclear true true d = true -> vtidy d -> parse (text true d 0) = ParseOk (Kserd id (VCntr l)) -> forall j, (0 < j)%nat ->
  exists t1 t2, text true d 0 = t1 ++ t2 /\ parse t1 = ParseOk (Kserd id (VCntr (firstn j l))).
Proof.
  intros VC VL T P j J. pose proof (titles_decided d VC VL T) as D. destruct (tlegible d) eqn:TL; [|destruct D as [e D]; congruence]. rewrite P in D. injection D as D.
  destruct d as [f i v]. unfold verbose_cntr, verbose_line, d_line, cntr_node in VC. cbn [d_fmt d_val] in VC. apply andb_true_iff in VC as [EL C]. destruct v as [| | | | | |m| |]; try discriminate. destruct (f_line f) eqn:E; try discriminate. clear EL C.
  assert (NE : m <> []) by (rewrite vclear_verbose in VL by exact E; intros ->; discriminate).
  destruct (short_text f i m j E VL T) as [t2 ET]. exists (text true (DK f i (VCntr (firstn j m))) 0), t2. split; [exact ET|].
  pose proof (titles_decided (DK f i (VCntr (firstn j m))) (proj2 (short_cntr f i m j E)) (short_vclear f i m j E J VL) (short_vtidy f i m j E J NE T)) as Q.
  rewrite (short_tlegible f i m j E TL) in Q. rewrite Q, (short_vnorm f i m j E (proj2 (proj2 T))), <- D. reflexivity.
Qed.
Theorem written_short k fm t id l : reachable k fm -> k_sorted k = true -> clear (deco (fm_fmts fm) 0 k) = true -> vclear true true (deco (fm_fmts fm) 0 k) = true -> line_of fm 0 = Some Verbose ->
  fm_write fm [] = LRet t -> parse t = ParseOk (Kserd id (VCntr l)) -> forall j, (0 < j)%nat -> exists t1 t2, t = t1 ++ t2 /\ parse t1 = ParseOk (Kserd id (VCntr (firstn j l))).
Proof.
  intros R KS T VL LV E P j J. change (deco (fm_fmts fm) 0 k) with (shown k fm) in *. pose proof (clear_strings k fm T) as S.
  pose proof (reachable_finv k fm R) as FI. rewrite (fm_write_text k fm [] FI S) in E. injection E as <-.
  replace (FmtText.cut (shown k fm) []) with (@nil char) in * by (unfold FmtText.cut; destruct (drops _); reflexivity). cbn [app] in *.
  pose proof (shown_lay k fm R) as LY. unfold clear in T. rewrite each_all in T. rewrite <- (shown_undeco k fm) in KS.
  apply document_short; auto; [|now split].
  pose proof (reachable_invariant k fm R) as (_ & _ & _ & _ & Z). unfold verbose_cntr. apply andb_true_iff. split.
  - destruct FI as [_ I]. assert (DL : line_at (fm_fmts fm) 0 (d_line (shown k fm))) by (change (shown k fm) with (D (fm_fmts fm) (0%nat, (info_default, k))); apply (D_line k (fm_fmts fm) (0%nat, (info_default, k))); [apply I|apply root_ok]).
    apply line_of_at in DL. rewrite LV in DL. injection DL as DL. unfold verbose_line. now rewrite <- DL.
  - destruct (cntr_node (shown k fm)) eqn:CN; [reflexivity|]. exfalso. apply (Z); [|exact LV]. rewrite <- (shown_undeco k fm). unfold is_cntr, cntr_node in *. destruct (shown k fm) as [f i v]. cbn [undeco kval d_val] in *. destruct v; (discriminate || reflexivity).
Qed.
