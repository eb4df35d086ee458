(** What is read back from a verbose text equals what was written; whole
    formatters. *)
From Verif Require Import Base F64 Number NumberSpec BTree Value BaseProps BTreeProps ValueSpec ValueProps ValueProps2 Nom Parse ParseErr Grammar GrammarProps VGrammar VGrammarProps VAssemble VGrammarProps2 Nav NavSpec NavProps NavProps2 Fmt Formatter FmtText FmtSpec FmtProps FmtProps2 FormatterProps FormatterProps2 FormatterProps3 FormatterProps4 RtSpec RtProps2 RtProps3 RtProps4 RtProps5 RtProps6 RtProps7 VSpec VRtProps VRtProps2 VRtProps3.
Open Scope N_scope.

(** ** nodes *)
Lemma seq_same (g : dk -> kserd) l i j : Forall (fun c => same (g c) (undeco c)) l -> same (Kserd i (VSeq (map g l))) (Kserd j (VSeq (map undeco l))).
Proof.
  intros G. split; [|split].
  - apply good_node; [reflexivity|]. cbn [vchildren]. rewrite Forall_map. eapply Forall_impl; [|exact G]. now intros a (H & _).
  - apply good_node; [reflexivity|]. cbn [vchildren]. rewrite Forall_map. eapply Forall_impl; [|exact G]. now intros a (_ & H & _).
  - rewrite k_cmp_same by reflexivity. apply list_same. eapply Forall_impl; [|exact G]. now intros a (_ & _ & H).
Qed.
Lemma cntr_same (g : dk -> kserd) (m : list (str * dk)) i j : m <> [] -> strictly_sorted str_cmp (map (fun e : str * dk => (fst e, undeco (snd e))) m) = true ->
  Forall (fun e => same (g (snd e)) (undeco (snd e))) m ->
  same (Kserd i (VCntr (fields_of (map (fun e => (fst e, g (snd e))) m)))) (Kserd j (VCntr (map (fun e => (fst e, undeco (snd e))) m))).
Proof.
  intros NE K G. rewrite fields_sorted by (rewrite <- K; now apply (sorted_map str_cmp fst fst)). split; [|split].
  - apply good_node; [destruct m; [congruence|reflexivity]|]. cbn [vchildren]. rewrite !Forall_map. eapply Forall_impl; [|exact G]. now intros a (H & _).
  - apply good_node; [destruct m; [congruence|reflexivity]|]. cbn [vchildren]. rewrite !Forall_map. eapply Forall_impl; [|exact G]. now intros a (_ & H & _).
  - rewrite k_cmp_same by reflexivity. apply (list_same _ (fun e => (fst e, g (snd e)))). eapply Forall_impl; [|exact G]. intros a (_ & _ & H). cbn [fst snd]. now rewrite str_cmp_refl.
Qed.
Lemma inserts_sorted {V} (m : list (kserd * V)) : Forall (fun e => good_key (fst e)) m -> strictly_sorted k_cmp m = true -> bt_inserts k_cmp m = m.
Proof.
  intros G H. rewrite (strictly_sorted_spec _ _ good_key_lawful) in H by exact G. apply (bt_inserts_sorted good_key k_cmp good_key_lawful); assumption.
Qed.
Lemma map_same (g h : dk -> kserd) (m : list (dk * dk)) i j : strictly_sorted k_cmp (map (fun e => (undeco (fst e), undeco (snd e))) m) = true ->
  Forall (fun e => same (g (fst e)) (undeco (fst e)) /\ same (h (snd e)) (undeco (snd e))) m ->
  same (Kserd i (VMap (bt_inserts k_cmp (map (fun e => (g (fst e), h (snd e))) m)))) (Kserd j (VMap (map (fun e => (undeco (fst e), undeco (snd e))) m))).
Proof.
  intros K G. rewrite inserts_sorted.
  2:{ rewrite Forall_map. eapply Forall_impl; [|exact G]. now intros a [(H & _) _]. }
  2:{ rewrite <- K. apply sorted_map. intros a b Ha Hb. rewrite Forall_forall in G. apply same_cmps; now apply G. }
  split; [|split].
  - apply good_node; [reflexivity|]. cbn [vchildren]. apply Forall_entries. rewrite Forall_map. eapply Forall_impl; [|exact G]. now intros a [(H & _) (H' & _)].
  - apply good_node; [reflexivity|]. cbn [vchildren]. apply Forall_entries. rewrite Forall_map. eapply Forall_impl; [|exact G]. now intros a [(_ & H & _) (_ & H' & _)].
  - rewrite k_cmp_same by reflexivity. apply (list_same _ (fun e => (g (fst e), h (snd e)))). eapply Forall_impl; [|exact G]. intros a [(_ & _ & H) (_ & _ & H')]. cbn [fst snd]. now rewrite H.
Qed.

(** ** trees *)
Lemma sorted_kids f id v : k_sorted (undeco (DK f id v)) = true -> sorted_node (undeco (DK f id v)) = true /\ Forall (fun c => k_sorted (undeco c) = true) (d_children v).
Proof.
  intros K. change (undeco (DK f id v)) with (Kserd id (kval (undeco (DK f id v)))) in *. unfold k_sorted in K. apply k_all_children in K as [K KC]. split; [exact K|].
  now rewrite undeco_children, Forall_map in KC.
Qed.
Definition reads (d : dk) : Prop := d_all faithful_node d = true -> k_sorted (undeco d) = true -> same (vnorm d) (undeco d).
Lemma field_reads x : reads x -> Forall reads (d_children (d_val x)) -> d_all faithful_node x = true -> k_sorted (undeco x) = true -> same (vfield x) (undeco x).
Proof.
  intros R RC S K. destruct x as [f id v]. pose proof S as S0. apply d_all_children in S0 as [_ SC]. pose proof K as K0. apply sorted_kids in K0 as [KN KC]. cbn [d_val] in RC.
  unfold vfield. destruct (f_line f) eqn:L; [now apply norm_same..|]. destruct v as [| | | | | |m|l|m]; try now apply norm_same.
  - now apply R.
  - cbn [undeco]. apply seq_same. cbn [d_children] in *. unfold reads in RC. rewrite Forall_forall in *. auto.
  - cbn [undeco]. unfold sorted_node in KN. cbn [undeco kval] in KN. cbn [d_children] in *. apply Forall_entries in RC, SC, KC. apply map_same; [exact KN|].
    unfold reads in RC. rewrite Forall_forall in *. intros e He. destruct (SC e He), (KC e He), (RC e He). split; [now apply norm_same|auto].
Qed.
Lemma all_reads d : reads d /\ Forall reads (d_children (d_val d)).
Proof.
  induction d as [f id v IH] using dk_ind'. split; [|cbn [d_val]; eapply Forall_impl; [|exact IH]; intros a [H _]; exact H].
  intros S K. destruct (verbose_cntr (DK f id v)) eqn:C; [|rewrite vnorm_plain by exact C; now apply norm_same].
  unfold verbose_cntr, verbose_line, d_line, cntr_node in C. cbn [d_fmt d_val] in C. apply andb_true_iff in C as [L C].
  destruct v as [| | | | | |m| |]; try discriminate. destruct (f_line f) eqn:EL; try discriminate. clear L C.
  rewrite vnorm_verbose by exact EL. apply d_all_children in S as [SN SC]. apply sorted_kids in K as [KN KC]. unfold sorted_node in KN. cbn [undeco kval] in KN. cbn [undeco d_children] in *.
  apply cntr_same; [destruct m; discriminate|exact KN|]. rewrite Forall_map in *. rewrite Forall_forall in *. intros e He. destruct (IH e He) as [A B]. apply field_reads; auto.
Qed.
Lemma vnorm_same d : d_all faithful_node d = true -> k_sorted (undeco d) = true -> same (vnorm d) (undeco d).
Proof. apply all_reads. Qed.

(** ** the very same *)
Definition exactly (d : dk) : Prop := d_all faithful_node d = true -> d_all vliteral_node d = true -> k_sorted (undeco d) = true -> vnorm d = undeco d.
Lemma literal_literal d : d_all vliteral_node d = true -> d_all literal_node d = true.
Proof.
  induction d as [f id v IH] using dk_ind'. rewrite !d_all_children. intros [H C]. unfold vliteral_node in H. apply andb_true_iff in H as [H _]. split; [exact H|].
  rewrite Forall_forall in *. auto.
Qed.
Lemma literal_id f id v : literal_node (DK f id v) = true -> (if f_id f then id else None) = id.
Proof. unfold literal_node. cbn [d_fmt d_id]. intros H. apply andb_true_iff in H as [H _]. destruct (f_id f); [reflexivity|]. destruct id; [discriminate|reflexivity]. Qed.
Lemma field_exactly x : exactly x -> Forall exactly (d_children (d_val x)) -> d_all faithful_node x = true -> d_all vliteral_node x = true -> k_sorted (undeco x) = true -> vfield x = undeco x.
Proof.
  intros R RC S V K. assert (N : norm x = undeco x) by (apply norm_literal; auto using literal_literal). assert (SM : same (vfield x) (undeco x)) by (apply field_reads; [apply all_reads..|exact S|exact K]).
  destruct x as [f id v]. pose proof S as S0. apply d_all_children in S0 as [_ SC]. pose proof K as K0. apply sorted_kids in K0 as [KN KC]. cbn [d_val] in RC.
  pose proof V as V0. apply d_all_children in V0 as [VN VC]. unfold vliteral_node in VN. apply andb_true_iff in VN as [_ VN]. unfold verbose_line, d_line in VN. cbn [d_fmt d_val d_id] in VN.
  unfold vfield in *. destruct (f_line f) eqn:L; [exact N..|]. destruct v as [| | | | | |m|l|m]; try exact N.
  - now apply R.
  - destruct id; [discriminate|]. cbn [undeco]. do 2 f_equal. apply map_ext_Forall. cbn [d_children] in *. unfold exactly in RC. rewrite Forall_forall in *. auto.
  - destruct id; [discriminate|]. cbn [undeco]. unfold sorted_node in KN. cbn [undeco kval] in KN. cbn [d_children] in *. apply Forall_entries in RC, SC, KC, VC.
    rewrite (@map_ext_Forall _ _ (fun p => (norm (fst p), vnorm (snd p))) (fun p => (undeco (fst p), undeco (snd p))) m).
    + do 2 f_equal. apply inserts_sorted; [|exact KN]. destruct SM as (_ & [G1 G2] & _). cbn [undeco] in *. apply k_all_children in G1 as [_ G1]. apply k_all_children in G2 as [_ G2]. cbn [vchildren] in *.
      apply Forall_entries in G1, G2. rewrite Forall_forall in *. intros e He. split; [now apply G1|now apply G2].
    + unfold exactly in RC. rewrite Forall_forall in *. intros e He. destruct (SC e He), (KC e He), (RC e He), (VC e He). rewrite norm_literal by auto using literal_literal. f_equal. auto.
Qed.
Lemma all_exactly d : exactly d /\ Forall exactly (d_children (d_val d)).
Proof.
  induction d as [f id v IH] using dk_ind'. split; [|cbn [d_val]; eapply Forall_impl; [|exact IH]; intros a [H _]; exact H].
  intros S V K. destruct (verbose_cntr (DK f id v)) eqn:C; [|rewrite vnorm_plain by exact C; apply norm_literal; auto using literal_literal].
  unfold verbose_cntr, verbose_line, d_line, cntr_node in C. cbn [d_fmt d_val] in C. apply andb_true_iff in C as [L C].
  destruct v as [| | | | | |m| |]; try discriminate. destruct (f_line f) eqn:EL; try discriminate. clear L C.
  rewrite vnorm_verbose by exact EL. apply d_all_children in S as [SN SC]. apply d_all_children in V as [VN VC]. apply sorted_kids in K as [KN KC]. unfold sorted_node in KN. cbn [undeco kval] in KN. cbn [undeco d_children] in *.
  unfold vliteral_node in VN. apply andb_true_iff in VN as [VN _]. rewrite (literal_id _ _ _ VN). rewrite Forall_map in *.
  rewrite (@map_ext_Forall _ _ (fun e => (fst e, vfield (snd e))) (fun e => (fst e, undeco (snd e))) m); [now rewrite fields_sorted|].
  rewrite Forall_forall in *. intros e He. destruct (IH e He) as [A B]. f_equal. apply field_exactly; auto.
Qed.

(** ** formatters *)
Lemma safe_str_ok f id t : safe_node (DK f id (VStr t)) = true -> str_ok (Kserd id (VStr t)) = true.
Proof. unfold safe_node, safe_string. cbn [d_val]. intros S. apply andb_true_iff in S as [_ S]. apply str_ok_delimiter. destruct (delimiter t); discriminate. Qed.
Lemma plain_strings d : d_all safe_node d = true -> k_all str_ok (undeco d) = true.
Proof.
  induction d as [f id v IH] using dk_ind'. intros S. apply d_all_children in S as [S SC].
  change (undeco (DK f id v)) with (Kserd id (kval (undeco (DK f id v)))). apply k_all_children. rewrite undeco_children, Forall_map. split; [|rewrite Forall_forall in *; auto].
  destruct v; try reflexivity. now apply (safe_str_ok f).
Qed.
Definition stringy (d : dk) : Prop := forall top n, vsafe top n d = true -> k_all str_ok (undeco d) = true.
Lemma plain_safe_strings d : plain_safe d = true -> k_all str_ok (undeco d) = true.
Proof. unfold plain_safe. intros H. apply andb_true_iff in H as [H _]. apply plain_strings. now rewrite <- each_all. Qed.
Lemma field_strings n e : stringy (snd e) -> Forall stringy (d_children (d_val (snd e))) -> field_safe n e = true -> k_all str_ok (undeco (snd e)) = true.
Proof.
  destruct e as [name [f id v]]. unfold field_safe. cbn [fst snd d_val]. intros R RC H. apply andb_true_iff in H as [_ H].
  destruct (f_line f) eqn:L; [now apply plain_safe_strings..|]. destruct v as [| | | | | |m|l|m]; try now apply plain_safe_strings.
  - eapply R. exact H.
  - rewrite !andb_true_iff in H. destruct H as [_ H]. cbn [undeco d_children] in *. apply k_all_children. split; [reflexivity|]. cbn [vchildren]. rewrite Forall_map.
    rewrite forallb_forall in H. rewrite Forall_forall in *. intros y Hy. specialize (H y Hy). rewrite !andb_true_iff in H. eapply (RC y Hy). apply H.
  - rewrite !andb_true_iff in H. destruct H as [_ H]. cbn [undeco d_children] in *. apply k_all_children. split; [reflexivity|]. cbn [vchildren]. apply Forall_entries. apply Forall_entries in RC. rewrite Forall_map.
    rewrite forallb_forall in H. rewrite Forall_forall in *. intros p Hp. specialize (H p Hp). rewrite !andb_true_iff in H. destruct H as [[[HA _] _] HB]. cbn [fst snd]. split; [now apply plain_safe_strings|].
    destruct (verbose_line (snd p)); [|now apply plain_safe_strings]. apply andb_true_iff in HB as [HB _]. eapply (RC p Hp). exact HB.
Qed.
Lemma all_strings d : stringy d /\ Forall stringy (d_children (d_val d)).
Proof.
  induction d as [f id v IH] using dk_ind'. split; [|cbn [d_val]; eapply Forall_impl; [|exact IH]; intros a [H _]; exact H].
  intros top n S. destruct (verbose_cntr (DK f id v)) eqn:C; [|rewrite vsafe_plain in S by exact C; apply andb_true_iff in S as [S _]; now apply plain_safe_strings].
  unfold verbose_cntr, verbose_line, d_line, cntr_node in C. cbn [d_fmt d_val] in C. apply andb_true_iff in C as [L C].
  destruct v as [| | | | | |m| |]; try discriminate. destruct (f_line f) eqn:EL; try discriminate. clear L C.
  rewrite vsafe_verbose in S by exact EL. rewrite !andb_true_iff in S. destruct S as [_ S]. cbn [undeco d_children] in *. apply k_all_children. split; [reflexivity|]. cbn [vchildren]. rewrite Forall_map in IH. rewrite !Forall_map.
  rewrite forallb_forall in S. rewrite Forall_forall in *. intros e He. destruct (IH e He) as [A B]. cbn [snd]. apply (field_strings n e A B). now apply S.
Qed.
Lemma vsafe_strings k fm : vsafe true 0 (shown k fm) = true -> strings_ok k.
Proof. intros S. unfold strings_ok. rewrite <- k_all_preorder. rewrite <- (shown_undeco k fm). eapply (proj1 (all_strings _)). exact S. Qed.

Lemma any_document k fm : reachable k fm -> k_sorted k = true -> vsafe true 0 (shown k fm) = true ->
  exists t, fm_write fm [] = LRet t /\ (if verbose_cntr (shown k fm) then vdocument t (vnorm (shown k fm)) else document t (vnorm (shown k fm))).
Proof.
  intros R K S. pose proof (vsafe_strings k fm S) as ST. pose proof (reachable_finv k fm R) as FI. rewrite (fm_write_text k fm [] FI ST).
  replace (FmtText.cut (shown k fm) []) with (@nil char) by (unfold FmtText.cut; destruct (drops _); reflexivity). cbn [app].
  eexists. split; [reflexivity|]. destruct (verbose_cntr (shown k fm)) eqn:C.
  - apply verbose_document; [exact S|exact C|now rewrite shown_undeco].
  - rewrite vnorm_plain by exact C. rewrite vsafe_plain in S by exact C. apply andb_true_iff in S as [S SR]. unfold plain_safe in S. apply andb_true_iff in S as [S1 S2].
    apply text_document; [unfold text_safe; now rewrite S1, SR|now rewrite <- each_all].
Qed.
Theorem any_parses k fm : reachable k fm -> k_sorted k = true -> vsafe true 0 (deco (fm_fmts fm) 0 k) = true ->
  exists t, fm_write fm [] = LRet t /\ parse t = ParseOk (vnorm (deco (fm_fmts fm) 0 k)).
Proof.
  intros R K S. destruct (any_document k fm R K S) as (t & E & D). exists t. split; [exact E|]. change (deco (fm_fmts fm) 0 k) with (shown k fm).
  destruct (verbose_cntr (shown k fm)); [now apply vdocument_parses|now apply document_parses].
Qed.
Theorem any_equal k fm : reachable k fm -> k_sorted k = true -> vsafe true 0 (deco (fm_fmts fm) 0 k) = true -> each faithful_node (deco (fm_fmts fm) 0 k) = true ->
  exists t k', fm_write fm [] = LRet t /\ parse t = ParseOk k' /\ k_eqb k' k = true.
Proof.
  intros R K S F. destruct (any_parses k fm R K S) as (t & E & P). exists t, (vnorm (shown k fm)). split; [exact E|]. split; [exact P|]. rewrite each_all in F.
  destruct (vnorm_same (shown k fm) F) as (A & B & Q); [now rewrite shown_undeco|]. rewrite shown_undeco in *. now apply good_key_eqb.
Qed.
Theorem any_literal k fm : reachable k fm -> k_sorted k = true -> vsafe true 0 (deco (fm_fmts fm) 0 k) = true -> each faithful_node (deco (fm_fmts fm) 0 k) = true ->
  each vliteral_node (deco (fm_fmts fm) 0 k) = true -> exists t, fm_write fm [] = LRet t /\ parse t = ParseOk k.
Proof.
  intros R K S F V. destruct (any_parses k fm R K S) as (t & E & P). exists t. split; [exact E|]. rewrite P. f_equal. rewrite each_all in F, V.
  change (deco (fm_fmts fm) 0 k) with (shown k fm) in *. rewrite (proj1 (all_exactly (shown k fm)) F V); [apply shown_undeco|now rewrite shown_undeco].
Qed.
Theorem any_agree k fm1 fm2 : k_sorted k = true ->
  (reachable k fm1 /\ vsafe true 0 (deco (fm_fmts fm1) 0 k) = true /\ each faithful_node (deco (fm_fmts fm1) 0 k) = true) ->
  (reachable k fm2 /\ vsafe true 0 (deco (fm_fmts fm2) 0 k) = true /\ each faithful_node (deco (fm_fmts fm2) 0 k) = true) ->
  exists t1 t2 k1 k2, fm_write fm1 [] = LRet t1 /\ fm_write fm2 [] = LRet t2 /\ parse t1 = ParseOk k1 /\ parse t2 = ParseOk k2 /\ k_eqb k1 k2 = true.
Proof.
  intros K (R1 & T1 & F1) (R2 & T2 & F2). destruct (any_parses k fm1 R1 K T1) as (t1 & E1 & P1). destruct (any_parses k fm2 R2 K T2) as (t2 & E2 & P2).
  exists t1, t2, (vnorm (shown k fm1)), (vnorm (shown k fm2)). repeat (split; [assumption|]). rewrite each_all in F1, F2.
  destruct (vnorm_same (shown k fm1) F1) as (A1 & B1 & C1); [now rewrite shown_undeco|]. destruct (vnorm_same (shown k fm2) F2) as (A2 & B2 & C2); [now rewrite shown_undeco|].
  rewrite shown_undeco in *. apply good_key_eqb; try assumption. rewrite (law_eq _ _ good_key_lawful _ _ _ A1 B1 A2 C1). rewrite k_cmp_anti, C2. reflexivity.
Qed.
