(** Exactly which texts can be read: containers with a line for each field. *)
From Verif Require Import ParseSpec PropertiesParse Base F64 Number NumberSpec BTree Value BaseProps BTreeProps ValueSpec ValueProps ValueProps2 Nom Parse ParseErr ParseProps Grammar VGrammar GrammarProps VGrammarProps VAssemble VGrammarProps2 Format FormatProps Nav NavSpec NavProps NavProps2 Fmt Formatter FmtText FmtSpec FmtProps FmtProps2 FormatterProps FormatterProps2 FormatterProps3 FormatterProps4 VSpec VRtProps VRtProps2 VRtProps3 VRtProps4 VRtProps5 Syntax SyntaxProps SyntaxProps2 SyntaxProps3 SyntaxProps4 RtSpec RtProps2 RtProps3 RtProps4 RtProps5 RtProps6 RtProps7 MisreadSpec MisreadProps MisreadProps2 MisreadProps3 MisreadProps4 MisreadProps5 MisreadProps6 MisreadProps7 LegibleSpec LegibleProps LegibleProps2 LegibleProps3.
Open Scope N_scope.

(** ** legible fields are read *)
Definition field_ok (e : str * dk) : Prop := name_ok (fst e) = true /\ in_grammar (snd e).
Lemma one_line e : field_ok e -> exists c Z b, field_text field_col e = c :: Z /\ anchor c = true /\ mem c (s "([{") = false /\ chunk O c (c :: Z) [line_item e] b.
Proof.
  destruct e as [n x]. intros [N G]. cbn [fst snd] in *. assert (NN := N). apply name_ok_spec in NN as [NE NC]. destruct n as [|c n]; [congruence|].
  destruct (name_first c n N) as (A & M & _). exists c, (n ++ s " =" ++ RtProps2.gap x ++ text true x (field_col (c :: n, x))), (bare_number x). split; [reflexivity|]. split; [exact A|]. split; [exact M|].
  apply (chunk_item O c _ _ _ false []); [constructor| |exact A].
  apply (I_field O _ (c :: n) (norm x)). change (c :: n ++ s " =" ++ RtProps2.gap x ++ text true x (field_col (c :: n, x))) with ((c :: n) ++ [32] ++ s "=" ++ RtProps2.gap x ++ text true x (field_col (c :: n, x))).
  apply Field; [exact NE|exact NC|reflexivity|apply gap_blanks|]. apply G. discriminate.
Qed.
Lemma many_lines m : m <> [] -> Forall field_ok m ->
  exists c Z b, concat (map line m) = (c :: Z) ++ nl /\ mem c (s "([{") = false /\ chunk O c (c :: Z) (map line_item m) b.
Proof.
  intros NE F. induction F as [|e m OE _ IH]; [congruence|]. destruct (one_line e OE) as (c & Z & b & EF & A & M & CH). cbn [map concat]. unfold line at 1. rewrite EF. destruct m as [|e' m].
  - exists c, Z, b. cbn [map concat]. rewrite app_nil_r. auto.
  - destruct (IH ltac:(discriminate)) as (c' & Z' & b' & E' & M' & CH'). rewrite E'. exists c, (Z ++ nl ++ c' :: Z'), b'. split; [cbn [app]; now rewrite <- !app_assoc|]. split; [exact M|].
    apply (chunk_app O c (c :: Z) [line_item e] b [] c' (c' :: Z') _ b' CH (BL_none) CH'). auto.
Qed.
Lemma assigns_nl t : assigns (t ++ nl) = true -> assigns t = true.
Proof.
  induction t as [|c t IH]; cbn [app assigns]; [discriminate|]. intros H. apply orb_true_iff in H as [H|H]; [now rewrite H|]. apply andb_true_iff in H as [H1 H2].
  rewrite H1, (IH H2). apply orb_true_r.
Qed.
Lemma named_first e m : name_ok (fst e) = true -> forall t, concat (map line (e :: m)) = t ++ nl -> verbose_first t = true.
Proof.
  intros N t E. apply name_ok_spec in N as [NE NC]. destruct e as [n x]. cbn [fst map concat] in *. change (line (n, x)) with ((n ++ s " =" ++ RtProps2.gap x ++ text true x (field_col (n, x))) ++ nl) in E. rewrite <- !app_assoc in E.
  assert (A : assigns t = true) by (apply assigns_nl; rewrite <- E; now apply names_assign).
  assert (ST : stops space t). { pose proof (names_stop_space n (s " =" ++ RtProps2.gap x ++ text true x (field_col (n, x)) ++ nl ++ concat (map line m)) NC NE) as X. rewrite E in X. destruct t as [|c t]; [discriminate A|exact X]. }
  unfold verbose_first, verbose_start. rewrite trim_id by exact ST. rewrite A. now rewrite orb_true_r, orb_true_r.
Qed.
Theorem legible_fields f id m : f_line f = Verbose -> m <> [] -> Forall field_ok m -> Forall (fun e => verbose_line (snd e) = false) m -> NoDup (map fst m) ->
  opt_ok is_id (if f_id f then id else None) = true -> parse (text true (DK f id (VCntr m)) 0) = ParseOk (vnorm (DK f id (VCntr m))).
Proof.
  intros L NE F V ND I. apply vdocument_parses. rewrite (text_lines f id m L V), vnorm_verbose by exact L.
  replace (map (fun e => (fst e, vfield (snd e))) m) with (map (fun e : str * dk => (fst e, norm (snd e))) m).
  2:{ apply map_ext_in. intros e He. rewrite Forall_forall in V. now rewrite vfield_plain by now apply V. }
  destruct (many_lines m NE F) as (c & Z & b & E & M & CH). rewrite E. set (sid := if f_id f then id else None) in *. destruct sid as [i|].
  - cbn [opt_ok] in I. rewrite <- (container_id i (map line_item m)); [|apply lines_named|now apply lines_gather].
    assert (C0 : chunk O (ch ":") (s ":" ++ [] ++ i) [It_id i] false).
    { apply (chunk_item O (ch ":") i _ _ false []); [constructor|now apply (I_id O [])|reflexivity]. }
    pose proof (chunk_app O (ch ":") _ _ _ [] c (c :: Z) _ b C0 BL_none CH) as (VL & _). { discriminate. }
    replace ((s ":" ++ i ++ nl) ++ (c :: Z) ++ nl) with (((s ":" ++ [] ++ i) ++ nl ++ [] ++ c :: Z) ++ nl ++ []) by (cbn [app]; rewrite <- !app_assoc; reflexivity).
    eapply VDocument; [exact VL|reflexivity|exact bl_nl|reflexivity|reflexivity].
  - rewrite <- (container_plain (map line_item m)); [|apply lines_named|now apply lines_gather]. destruct CH as (VL & _). cbn [app]. rewrite <- (app_nil_r nl).
    change (c :: Z ++ nl ++ []) with ((c :: Z) ++ nl ++ []). eapply VDocument; [exact VL| |exact bl_nl|reflexivity|reflexivity].
    destruct m as [|e m]; [congruence|]. apply (named_first e m); [|exact E]. inversion_clear F as [|? ? [N _] _]. exact N.
Qed.

(** ** what is read is legible *)
Definition line_reading (e : str * dk) : Prop := holds (field_at (value_at false)) (field_text field_col) (fun e => reading (snd e)) e.
Lemma lines_legible m : Forall line_ok m -> Forall line_reading m -> forall W t r l, spaces W -> items_at O t r l -> spaces r -> t ++ r = W ++ concat (map line m) -> Forall (fun e => d_all legible_node (snd e) = true) m.
Proof.
  induction 1 as [|e m HE _ IH]; intros LR W t r l HW H HR E; [constructor|]. cbn [map concat] in *. inversion_clear LR as [|? ? LE LM].
  destruct HE as (HN & OB & OX). assert (FF := field_text_first e (conj HN (conj OB OX))). destruct FF as (c & Z & EF & C).
  inversion H as [|n0 w t0 i u l0 r0 L HA HU]; subst.
  - exfalso. cbn [app] in E. unfold spaces in HR. rewrite E in HR. unfold line in HR. rewrite !forallb_app in HR. destruct (field_text field_col e) as [|x f]; [contradiction|]. destruct OB as [OB _]. cbn [forallb] in HR. rewrite OB in HR. cbn [andb] in HR. rewrite andb_false_r in HR. discriminate.
  - pose proof (item_begins _ _ _ _ HA) as B. unfold line in E. rewrite <- !app_assoc in E.
    apply gap_eq in E as [-> E]; [|now apply lead_spaces in L|now apply begins_space, SyntaxProps2.begins_app|exact HW|now apply begins_space, SyntaxProps2.begins_app].
    destruct (item_named _ _ _ _ c (Z ++ nl ++ concat (map line m)) HA C) as (name & v & -> & F); [rewrite E, EF; reflexivity|].
    assert (FO : follow (nl ++ concat (map line m))) by now apply follow_char.
    destruct (OX _ _ _ _ FO F) as [-> X]; [exact E|]. apply app_inv_head in E. constructor; [|exact (IH LM nl u r l0 eq_refl HU HR E)].
    rewrite E in F. exact (proj1 (LE _ _ FO F)).
Qed.
Lemma clear_readings f id m : d_all clear_node (DK f id (VCntr m)) = true -> Forall (fun c => d_all flat_node c = true) (d_children (VCntr m)) -> Forall line_reading m.
Proof.
  intros C F. apply d_all_children in C as [C CC]. unfold clear_node in C. cbn [d_val] in C. apply andb_true_iff in C as [_ C]. rewrite forallb_forall in C.
  cbn [d_children] in *. rewrite Forall_map in CC, F. rewrite Forall_forall in *. intros e He. apply field_holds; [apply value_at_begins|exact (C e He)| |].
  - apply exactly_only with (I := fun x => text true x (field_col e)). apply text_exactly; auto. discriminate.
  - intros r k FO HV. apply (text_reading (snd e)) in HV; auto. discriminate.
Qed.
Theorem fields_legible f id m k : f_line f = Verbose -> Forall line_ok m -> Forall line_reading m -> Forall (fun e => verbose_line (snd e) = false) m ->
  opt_ok is_id (if f_id f then id else None) = true ->
  parse (text true (DK f id (VCntr m)) 0) = ParseOk k -> Forall (fun e => d_all legible_node (snd e) = true) m.
Proof.
  intros L OK LR V I P. destruct m as [|e0 m0] eqn:EM; [constructor|]. rewrite <- EM in *. assert (NE : m <> []) by congruence. clear EM. apply parse_iff in P. rewrite (text_lines f id m L V) in P.
  set (sid := if f_id f then id else None) in *. set (pre := match sid with Some i => s ":" ++ i ++ nl | None => [] end) in *.
  remember (pre ++ concat (map line m)) as T eqn:ET.
  assert (VF : verbose_first T = true).
  { destruct sid as [i|]; subst pre; [subst T; reflexivity|]. cbn [app] in ET. destruct OK as [|e m OE _]; [congruence|].
    destruct OE as (NO & OB & _). subst T. cbn [map concat]. unfold verbose_first. rewrite trim_id.
    - unfold verbose_start. apply orb_true_iff. right. apply orb_true_iff. left. apply orb_true_iff. right. unfold line, field_text. rewrite <- !app_assoc. apply names_assign.
      now apply name_ok_spec in NO as [_ NO].
    - unfold line. rewrite <- app_assoc. now apply begins_space, SyntaxProps2.begins_app. }
  destruct P as [w1 t w2 k W1 HV W2 NV|t l w1 w2 HI W1 W2 VV]; [congruence|].
  assert (SP : spaces (w1 ++ w2)). { unfold spaces. rewrite forallb_app. apply andb_true_iff. split; [now apply blank_lines_spaces|now apply blanks_spaces]. }
  destruct sid as [i|]; subst pre; [|apply (lines_legible m OK LR [] t (w1 ++ w2) l); auto].
  cbn [opt_ok] in I. inversion HI as [n0 r0 EN|n0 w t0 it u l0 r0 LD HA HU EN]; subst.
  - exfalso. cbn [app] in ET. rewrite ET in SP. discriminate.
  - rewrite <- !app_assoc in ET.
    destruct (spaces_begins w (t0 ++ u ++ w1 ++ w2) _ (lead_spaces _ _ LD) (conj eq_refl eq_refl : SyntaxProps2.begins (s ":" ++ i ++ nl ++ concat (map line m))) ET) as [-> E2].
    destruct (item_marked _ _ _ _ _ _ HA I E2) as [-> E3]. exact (lines_legible m OK LR nl u (w1 ++ w2) l0 eq_refl HU SP E3).
Qed.

(** ** formatters *)
Theorem below_decided d : d_all lay_node d = true -> below_flat d -> d_all clear_node d = true -> k_sorted (undeco d) = true ->
  if vlegible d then parse (text true d 0) = ParseOk (vnorm d) else exists e, parse (text true d 0) = ParseErr e.
Proof.
  intros LY BF T KS. destruct (verbose_cntr d) eqn:VC.
  - unfold vlegible. rewrite VC. cbn [orb]. rewrite andb_true_r, each_all. pose proof (below_kids _ LY BF) as K. destruct d as [f id v]. unfold verbose_cntr, cntr_node, verbose_line, d_line in VC. cbn [d_fmt d_val] in *. apply andb_true_iff in VC as [VL VC]. destruct v as [| | | | | |m| |]; try discriminate.
    destruct (f_line f) eqn:EL; try discriminate. unfold below_flat in BF. cbn [d_val d_children] in BF, K. rewrite Forall_map in BF. clear VL VC.
    assert (NE : m <> []). { apply d_all_children in LY as [LY _]. unfold lay_node, kind_max, d_line in LY. cbn [d_fmt undeco kval] in LY. rewrite EL in LY. intros ->. discriminate. }
    assert (ID : opt_ok is_id (if f_id f then id else None) = true).
    { apply d_all_children in T as [T _]. unfold clear_node, shown_id in T. cbn [d_val d_id d_fmt] in T. apply andb_true_iff in T as [T _]. destruct (if f_id f then id else None); [now apply id_plain_id|reflexivity]. }
    assert (ND : NoDup (map fst m)) by (destruct (sorted_kids f id (VCntr m) KS) as [SN _]; now apply sorted_names).
    pose proof (clear_lines f id m T K) as OK. pose proof (clear_readings f id m T K) as LR.
    destruct (d_all legible_node (DK f id (VCntr m))) eqn:LG.
    + apply legible_fields; auto. apply d_all_children in LG as [_ LG]. apply d_all_children in T as [_ T]. cbn [d_children] in LG, T. rewrite Forall_map in LG, T, K. rewrite Forall_forall in *. intros e He.
      split; [exact (proj1 (OK e He))|]. apply fine_in_grammar; auto. apply fine_all; auto.
    + destruct (C17_parse_total (text true (DK f id (VCntr m)) 0)) as [[k P]|[e P]]; [|now exists e]. exfalso. apply fields_legible in P; auto.
      assert (X : d_all legible_node (DK f id (VCntr m)) = true); [|congruence]. apply d_all_children. split; [reflexivity|]. cbn [d_children]. now rewrite Forall_map.
  - rewrite (vnorm_plain _ VC). unfold vlegible. rewrite VC. cbn [orb]. apply text_decided. split; [exact T|now apply below_all].
Qed.
Theorem decided_fields k fm : reachable k fm -> (forall i, (0 < i)%nat -> line_of fm i <> Some Verbose) -> k_sorted k = true -> clear (deco (fm_fmts fm) 0 k) = true ->
  exists t, fm_write fm [] = LRet t /\ if vlegible (deco (fm_fmts fm) 0 k) then parse t = ParseOk (vnorm (deco (fm_fmts fm) 0 k)) else exists e, parse t = ParseErr e.
Proof.
  intros R V KS T. change (deco (fm_fmts fm) 0 k) with (shown k fm) in *. pose proof (clear_strings k fm T) as S.
  pose proof (reachable_finv k fm R) as FI. pose proof (fm_write_text k fm [] FI S) as E.
  replace (FmtText.cut (shown k fm) []) with (@nil char) in E by (unfold FmtText.cut; destruct (drops _); reflexivity). cbn [app] in E.
  exists (text true (shown k fm) 0). split; [exact E|]. apply below_decided; [now apply shown_lay|now apply shown_below|unfold clear in T; now rewrite each_all in T|now rewrite shown_undeco].
Qed.
