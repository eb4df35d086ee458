(** Documents with a line for each field, one after another. *)
From Verif Require Import ParseSpec PropertiesParse Base F64 Number NumberSpec BTree Value BaseProps BTreeProps ValueSpec ValueProps ValueProps2 Nom Parse ParseErr ParseProps Grammar VGrammar GrammarProps VGrammarProps VAssemble VGrammarProps2 Format FormatProps Nav NavSpec NavProps NavProps2 Fmt Formatter FmtText FmtSpec FmtProps FmtProps2 FormatterProps FormatterProps2 FormatterProps3 FormatterProps4 VSpec VRtProps VRtProps2 VRtProps3 VRtProps4 VRtProps5 Syntax SyntaxProps SyntaxProps2 SyntaxProps3 SyntaxProps4 RtSpec RtProps2 RtProps3 RtProps4 RtProps5 RtProps6 RtProps7 MisreadSpec MisreadProps MisreadProps2 MisreadProps3 MisreadProps4 MisreadProps5 MisreadProps6 MisreadProps7 LegibleSpec MisreadSpec2 MisreadProps8 MisreadProps9 LegibleSpec2 LegibleProps5 LegibleProps6 LegibleProps7 CutProps4 AppendSpec.
Open Scope N_scope.

Definition field_good (e : str * dk) : Prop := name_ok (fst e) = true /\ vtidy (snd e).
(** as [titles_decided], when the fields of the outermost container are in any order *)
Theorem root_decided f id m : f_line f = Verbose -> Forall field_good m -> NoDup (map fst m) -> opt_ok is_id_plain (if f_id f then id else None) = true ->
  vclear true true (DK f id (VCntr m)) = true ->
  if tlegible (DK f id (VCntr m)) then parse (text true (DK f id (VCntr m)) 0) = ParseOk (vnorm (DK f id (VCntr m))) else exists e, parse (text true (DK f id (VCntr m)) 0) = ParseErr e.
Proof.
  intros EL F ND TI VL. rewrite vclear_verbose in VL by exact EL. rewrite !andb_true_iff in VL. destruct VL as [[NE FO] FC].
  assert (FL : Forall (fun e : str * dk => name_ok (fst e) = true /\ has_lp (snd e) /\ Forall has_lp (d_children (d_val (snd e))) /\ vtidy (snd e)) m).
  { eapply Forall_impl; [|exact F]. intros e [A B]. destruct (all_lp (snd e)). auto. }
  assert (FP : Forall (fun e : str * dk => name_ok (fst e) = true /\ has_pieces (snd e) /\ Forall has_pieces (d_children (d_val (snd e))) /\ vtidy (snd e)) m).
  { eapply Forall_impl; [|exact F]. intros e [A B]. destruct (all_pieces (snd e)). auto. }
  destruct (fields_pieces true O m (fun _ => eq_refl) ND FP FC) as (_ps & EP' & _ & _ & _ & SP & _).
  destruct (fields_lpieces true O m (fun _ => eq_refl) ND FL FC) as (qs & EP & GQ & NQ & GA & _ & PQ). change (4 * 0)%nat with 0%nat in *.
  assert (X : exists ps, text true (DK f id (VCntr m)) 0 = rtext 0 ps /\ Forall (good_piece 0) ps /\ container (map itemp ps) = vnorm (DK f id (VCntr m)) /\ (pleg ps false <-> tlegible (DK f id (VCntr m)) = true) /\ verbose_first (rtext 0 ps) = true).
  { rewrite (vnorm_verbose f id m EL), (text_verbose true f id m 0 EL), (tlegible_verbose f id m EL). destruct (if f_id f then id else None) as [i|] eqn:SI.
    - destruct (f_id f) eqn:FI; [|discriminate]. subst id. cbn [opt_ok andb] in *. rewrite EP. exists ((([], s ":" ++ i ++ nl, It_id i), (true, false)) :: qs). unfold rtext. cbn [map concat fst snd]. change (render 0 ([], s ":" ++ i ++ nl, It_id i)) with (sp 0 ++ s ":" ++ i ++ nl). split; [reflexivity|]. split; [|split; [|split]].
      + constructor; [|exact GQ]. split; [split; [constructor|]|]; cbn [fst snd].
        * split; [split; reflexivity|]. intros t r i' rest _ HA E. rewrite <- !app_assoc in E.
          destruct (item_marked _ _ _ _ _ _ HA (id_plain_id _ TI) E) as [-> ->]. split; [reflexivity|]. exists nl. split; [exact bl_nl|reflexivity].
        * intros rest _. split; [split; [reflexivity|discriminate]|]. intros _ _. exists (s ":" ++ i), nl. unfold bodyp, itemp. cbn [fst snd]. split; [now rewrite <- app_assoc|]. split; [exact bl_nl|].
          apply (A_id 0 [] i (nl ++ rest)); [reflexivity|now apply id_plain_id|reflexivity].
      + apply (container_id i _ _ NQ GA).
      + cbn [pleg]. rewrite PQ. unfold legp, barep. cbn [fst snd]. intuition discriminate.
      + rewrite <- !app_assoc. exact (first_at [] (sp 0) (s ":" ++ _) BL_none (sp_blanks _) eq_refl).
    - assert (Y : match f_id f && true return str with true => match id return str with Some i => sp 0 ++ s ":" ++ i ++ nl | None => [] end | false => [] end = []) by (destruct (f_id f), id; (reflexivity || discriminate)).
      rewrite EP, Y. cbn [app]. exists qs. split; [reflexivity|]. split; [exact GQ|]. split; [apply (container_plain _ _ NQ GA)|]. split; [rewrite PQ; intuition discriminate|].
      cbn [andb orb is_some] in FO. specialize (SP FO []). rewrite app_nil_r in SP. specialize (EP []). specialize (EP' []). cbn [app] in *. rewrite <- EP, EP'. exact SP. }
  destruct X as (ps & -> & GP & CT & PI & VF). rewrite <- CT. destruct (tlegible (DK f id (VCntr m))) eqn:TL.
  - destruct (items_fwd O ps GP [] [] BL_none (or_introl BL_none)) as (t & W & E & BW & HI); [now apply PI|]. cbn [app] in E. rewrite app_nil_r in HI.
    apply parse_iff. rewrite E, <- (app_nil_r W). apply Syntax_items; [now rewrite app_nil_r|exact BW|reflexivity|]. now rewrite app_nil_r, <- E.
  - destruct (C17_parse_total (rtext 0 ps)) as [[k P]|[e P]]; [|now exists e]. exfalso. apply parse_iff in P. remember (rtext 0 ps) as X eqn:EX. destruct P as [w1 t w2 k W1 HV W2 NV|t l w1 w2 HI W1 W2 _]; [congruence|].
    assert (Y : pleg ps (Grammar.opens [])) by (apply (items_back O ps GP [] t (w1 ++ w2) l [] BL_none (or_introl BL_none) HI (rest_closes _ _ _ W1 W2)); now rewrite app_nil_r).
    apply PI in Y. discriminate.
Qed.
Lemma chain_app {A} (r : A -> A -> bool) l x y l' : chain r ((l ++ [x]) ++ y :: l') = chain r (l ++ [x]) && r x y && chain r (y :: l').
Proof.
  induction l as [|a l IH]; [cbn [app chain]; reflexivity|]. destruct l as [|b l]; [cbn [app chain]; now rewrite andb_true_r, <- !andb_assoc|].
  change (chain r (((a :: b :: l) ++ [x]) ++ y :: l')) with (r a b && chain r (((b :: l) ++ [x]) ++ y :: l')). rewrite IH. change (chain r ((a :: b :: l) ++ [x])) with (r a b && chain r ((b :: l) ++ [x])). now rewrite !andb_assoc.
Qed.
Lemma good_fields f id m : vtidy (DK f id (VCntr m)) -> Forall field_good m /\ opt_ok is_id_plain (if f_id f then id else None) = true /\ strictly_sorted str_cmp (map (fun e : str * dk => (fst e, undeco (snd e))) m) = true.
Proof.
  intros T. pose proof (vtidy_kids _ T) as TK. destruct T as (T1 & _ & T3). apply all_here in T1. apply sorted_kids in T3 as [T3 _]. cbn [d_val d_children] in TK. rewrite Forall_map in TK.
  unfold clear_node, shown_id in T1. cbn [d_val d_id d_fmt] in T1. apply andb_true_iff in T1 as [T0 T1]. split; [|split; [exact T0|exact T3]].
  rewrite forallb_forall in T1. rewrite Forall_forall in *. intros e He. specialize (T1 e He). split; [destruct e as [[|c nm] y]; [discriminate T1|exact T1]|now apply TK].
Qed.
Lemma first_opens f id m : f_line f = Verbose -> (if f_id f then id else None) = None -> vclear true true (DK f id (VCntr m)) = true -> vtidy (DK f id (VCntr m)) ->
  Grammar.opens (text true (DK f id (VCntr m)) 0) = match m with e :: _ => titled (snd e) | [] => false end /\ forall acc, fold_left (fstep 0) m acc = acc ++ text true (DK f id (VCntr m)) 0.
Proof.
  intros EL SI VL T. destruct (good_fields f id m T) as (F & _ & SO). apply sorted_names in SO. rewrite vclear_verbose in VL by exact EL. rewrite !andb_true_iff in VL. destruct VL as [_ FC].
  assert (FL : Forall (fun e : str * dk => name_ok (fst e) = true /\ has_lp (snd e) /\ Forall has_lp (d_children (d_val (snd e))) /\ vtidy (snd e)) m).
  { eapply Forall_impl; [|exact F]. intros e [A B]. destruct (all_lp (snd e)). auto. }
  destruct (fields_lpieces true O m (fun _ => eq_refl) SO FL FC) as (qs & EP & GQ & _ & _ & OQ & _). change (4 * 0)%nat with 0%nat in *.
  rewrite (text_verbose true f id m 0 EL). assert (Y : match f_id f && true return str with true => match id return str with Some i => sp 0 ++ s ":" ++ i ++ nl | None => [] end | false => [] end = []) by (destruct (f_id f), id; (reflexivity || discriminate)). rewrite Y. split.
  - rewrite EP. cbn [app]. pose proof (opens_rtext 0 qs [] GQ) as O. rewrite app_nil_r in O. rewrite O, OQ. reflexivity.
  - intros acc. rewrite !EP. reflexivity.
Qed.
Theorem documents_append d1 d2 id l1 l2 : verbose_cntr d1 = true -> vclear true true d1 = true -> vtidy d1 -> verbose_cntr d2 = true -> vclear true true d2 = true -> vtidy d2 ->
  parse (text true d1 0) = ParseOk (Kserd id (VCntr l1)) -> parse (text true d2 0) = ParseOk (Kserd None (VCntr l2)) -> NoDup (map fst (l1 ++ l2)) ->
  if ends_bare d1 && Grammar.opens (text true d2 0) then exists e, parse (text true d1 0 ++ text true d2 0) = ParseErr e
  else parse (text true d1 0 ++ text true d2 0) = ParseOk (Kserd id (VCntr (fields_of (l1 ++ l2)))).
Proof.
  intros VC1 VL1 T1 VC2 VL2 T2 P1 P2 ND. pose proof (titles_decided d1 VC1 VL1 T1) as D1. destruct (tlegible d1) eqn:TL1; [|destruct D1 as [e D1]; congruence]. rewrite P1 in D1. injection D1 as D1.
  pose proof (titles_decided d2 VC2 VL2 T2) as D2. destruct (tlegible d2) eqn:TL2; [|destruct D2 as [e D2]; congruence]. rewrite P2 in D2. injection D2 as D2. clear P1 P2.
  assert (K : forall d, verbose_cntr d = true -> exists f i m, d = DK f i (VCntr m) /\ f_line f = Verbose).
  { intros [f i v] VC. unfold verbose_cntr, verbose_line, d_line, cntr_node in VC. cbn [d_fmt d_val] in VC. apply andb_true_iff in VC as [EL C]. destruct v as [| | | | | |m| |]; try discriminate. destruct (f_line f) eqn:E; try discriminate. eauto. }
  destruct (K d1 VC1) as (f1 & i1 & m1 & -> & E1). destruct (K d2 VC2) as (f2 & i2 & m2 & -> & E2). clear K VC1 VC2.
  destruct (good_fields _ _ _ T1) as (F1 & O1 & S1). destruct (good_fields _ _ _ T2) as (F2 & O2 & S2).
  rewrite vnorm_verbose in D1, D2 by assumption. rewrite (sorted_keys str_cmp undeco vfield) in S1, S2. rewrite (fields_sorted _ S1) in D1. rewrite (fields_sorted _ S2) in D2. injection D1 as I1 L1. injection D2 as I2 L2.
  destruct (first_opens f2 i2 m2 E2 (eq_sym I2) VL2 T2) as [OP FO]. set (t2 := text true (DK f2 i2 (VCntr m2)) 0) in *.
  assert (ET : text true (DK f1 i1 (VCntr m1)) 0 ++ t2 = text true (DK f1 i1 (VCntr (m1 ++ m2))) 0) by (rewrite !(text_verbose true f1 i1) by exact E1; rewrite fold_left_app; symmetry; apply FO). rewrite ET, OP.
  assert (EN : map fst (m1 ++ m2) = map fst (l1 ++ l2)) by (rewrite L1, L2, !map_app, !map_map; reflexivity).
  rewrite vclear_verbose in VL1, VL2 by assumption. rewrite !andb_true_iff in VL1, VL2. destruct VL1 as [[N1 H1] C1], VL2 as [[N2 H2] C2].
  assert (VL : vclear true true (DK f1 i1 (VCntr (m1 ++ m2))) = true).
  { rewrite vclear_verbose by exact E1. rewrite forallb_app, C1, C2, !andb_true_r. destruct m1 as [|e m1]; [discriminate|]. cbn [app nonempty andb]. destruct e. exact H1. }
  pose proof (root_decided f1 i1 (m1 ++ m2) E1 ltac:(now apply Forall_app) ltac:(now rewrite EN) O1 VL) as D.
  rewrite vnorm_verbose in D by exact E1. rewrite map_app, <- I1, <- L1, <- L2 in D.
  rewrite tlegible_verbose in TL1, TL2, D by assumption. rewrite (ends_verbose f1 i1 m1 E1). apply andb_true_iff in TL1 as [A1 B1], TL2 as [A2 B2].
  destruct m2 as [|e2 m2]; [discriminate|]. destruct (exists_last (l := m1) ltac:(intros ->; discriminate)) as (m0 & e1 & ->).
  rewrite chain_app, A1, A2, forallb_app, B1, B2 in D. rewrite map_app. cbn [map]. rewrite last_last. cbn [andb] in D. rewrite !andb_true_r in D. destruct (field_ends_bare (snd e1) && titled (snd e2)); exact D.
Qed.

Lemma document_text k fm t : line_document k fm t -> t = text true (shown k fm) 0 /\ verbose_cntr (shown k fm) = true /\ vclear true true (shown k fm) = true /\ vtidy (shown k fm).
Proof.
  intros (R & KS & T & VL & LV & E). change (deco (fm_fmts fm) 0 k) with (shown k fm) in *. pose proof (clear_strings k fm T) as S.
  pose proof (reachable_finv k fm R) as FI. rewrite (fm_write_text k fm [] FI S) in E. injection E as <-.
  replace (FmtText.cut (shown k fm) []) with (@nil char) by (unfold FmtText.cut; destruct (drops _); reflexivity). split; [reflexivity|].
  pose proof (shown_lay k fm R) as LY. unfold clear in T. rewrite each_all in T. rewrite <- (shown_undeco k fm) in KS.
  split; [|split; [exact VL|now split]].
  pose proof (reachable_invariant k fm R) as (_ & _ & _ & _ & Z). unfold verbose_cntr. apply andb_true_iff. split.
  - destruct FI as [_ I]. assert (DL : line_at (fm_fmts fm) 0 (d_line (shown k fm))) by (change (shown k fm) with (D (fm_fmts fm) (0%nat, (info_default, k))); apply (D_line k (fm_fmts fm) (0%nat, (info_default, k))); [apply I|apply root_ok]).
    apply line_of_at in DL. rewrite LV in DL. injection DL as DL. unfold verbose_line. now rewrite <- DL.
  - destruct (cntr_node (shown k fm)) eqn:CN; [reflexivity|]. exfalso. apply (Z); [|exact LV]. rewrite <- (shown_undeco k fm). unfold is_cntr, cntr_node in *. destruct (shown k fm) as [f i v]. cbn [undeco kval d_val] in *. destruct v; (discriminate || reflexivity).
Qed.
Theorem written_append k1 fm1 t1 id l1 k2 fm2 t2 l2 : line_document k1 fm1 t1 -> line_document k2 fm2 t2 ->
  parse t1 = ParseOk (Kserd id (VCntr l1)) -> parse t2 = ParseOk (Kserd None (VCntr l2)) -> NoDup (map fst (l1 ++ l2)) ->
  if ends_bare (deco (fm_fmts fm1) 0 k1) && Grammar.opens t2 then exists e, parse (t1 ++ t2) = ParseErr e
  else parse (t1 ++ t2) = ParseOk (Kserd id (VCntr (fields_of (l1 ++ l2)))).
Proof.
  intros H1 H2 P1 P2 ND. apply document_text in H1 as (-> & V1 & L1 & T1). apply document_text in H2 as (-> & V2 & L2 & T2). now apply documents_append.
Qed.
