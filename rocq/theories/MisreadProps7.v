(** What is written is not taken for another value: containers with a line for each field. *)
From Verif Require Import ParseSpec PropertiesParse Base F64 Number NumberSpec BTree Value BaseProps BTreeProps ValueSpec ValueProps ValueProps2 Nom Parse ParseErr ParseProps Grammar VGrammar GrammarProps VGrammarProps VAssemble VGrammarProps2 Format FormatProps Nav NavSpec NavProps NavProps2 Fmt Formatter FmtText FmtSpec FmtProps FmtProps2 FormatterProps FormatterProps2 FormatterProps3 FormatterProps4 VSpec VRtProps VRtProps2 VRtProps3 VRtProps4 VRtProps5 Syntax SyntaxProps SyntaxProps2 SyntaxProps3 SyntaxProps4 RtSpec RtProps2 RtProps3 RtProps4 RtProps5 RtProps6 RtProps7 MisreadSpec MisreadProps MisreadProps2 MisreadProps3 MisreadProps4 MisreadProps5 MisreadProps6.
From Verif Require FmtDepthProps2 LocalProps3.
Open Scope N_scope.

(** ** the lines *)
Lemma item_begins n t r i : item_at n t r i -> SyntaxProps2.begins t.
Proof.
  intros H. destruct H as [n w id r W I _|n t r name v F|n h name id w e t r v HT W He HB|n h name id w e t r v HT W He HB _|n h name id w e w1 tk k w2 w3 t r v HT W He W1 HK W2 W3 HV|n h name id w e w1 tk k w2 w3 e' t r v HT W He W1 HK W2 W3 He' HB];
    try (split; reflexivity). exact (field_at_begins _ _ _ _ F).
Qed.
Definition field_col (e : str * dk) : nat := (length (fst e) + 3)%nat.
Definition line (e : str * dk) : str := field_text field_col e ++ nl.
Definition line_item (e : str * dk) : VGrammar.item := It_field (fst e) (norm (snd e)).
(** an item which begins like a name is a field *)
Lemma item_named n t r i c Z : item_at n t r i -> name_char c = true -> t ++ r = c :: Z -> exists name v, i = It_field name v /\ field_at (value_at false) t r (name, v).
Proof.
  intros H C E. destruct H as [n w id r W I _|n t r name v F|n h name id w e t r v HT W He HB|n h name id w e t r v HT W He HB _|n h name id w e w1 tk k w2 w3 t r v HT W He W1 HK W2 W3 HV|n h name id w e w1 tk k w2 w3 e' t r v HT W He W1 HK W2 W3 He' HB];
    try (exfalso; cbn [app s map list_ascii_of_string] in E; injection E as <- _; discriminate). eauto.
Qed.
Definition line_ok (e : str * dk) : Prop := name_ok (fst e) = true /\ only (field_at (value_at false)) (field_text field_col) read_field e.
Lemma field_text_first e : line_ok e -> exists c Z, field_text field_col e = c :: Z /\ name_char c = true.
Proof. intros (N & _). apply name_ok_spec in N as [NE N]. unfold field_text. destruct (fst e) as [|c Z]; [congruence|]. cbn [forallb] in N. apply andb_true_iff in N as [C _]. cbn [app]. eexists _, _. split; [reflexivity|exact C]. Qed.
Lemma lines_items m : Forall line_ok m -> forall W t r l, spaces W -> items_at O t r l -> spaces r -> t ++ r = W ++ concat (map line m) -> l = map line_item m.
Proof.
  induction 1 as [|e m HE _ IH]; intros W t r l HW H HR E; cbn [map concat] in *.
  - rewrite app_nil_r in E. unfold spaces in HW. rewrite <- E in HW. clear E. inversion H as [|n0 w t0 i u l0 r0 L HA HU]; subst; [reflexivity|]. exfalso. pose proof (item_begins _ _ _ _ HA) as B.
    destruct t0 as [|c t0]; [contradiction|]. destruct B as [B _]. rewrite !forallb_app in HW. cbn [forallb] in HW. rewrite B in HW. cbn [andb] in HW. rewrite andb_false_r in HW. discriminate.
  - destruct HE as (HN & OB & OX). assert (FF := field_text_first e (conj HN (conj OB OX))). destruct FF as (c & Z & EF & C).
    inversion H as [|n0 w t0 i u l0 r0 L HA HU]; subst.
    + exfalso. cbn [app] in E. unfold spaces in HR. rewrite E in HR. unfold line in HR. rewrite !forallb_app in HR. destruct (field_text field_col e) as [|x f]; [contradiction|]. destruct OB as [OB _]. cbn [forallb] in HR. rewrite OB in HR. cbn [andb] in HR. rewrite andb_false_r in HR. discriminate.
    + pose proof (item_begins _ _ _ _ HA) as B. unfold line in E. rewrite <- !app_assoc in E.
      apply gap_eq in E as [-> E]; [|now apply lead_spaces in L|now apply begins_space, SyntaxProps2.begins_app|exact HW|now apply begins_space, SyntaxProps2.begins_app].
      destruct (item_named _ _ _ _ c (Z ++ nl ++ concat (map line m)) HA C) as (name & v & -> & F); [rewrite E, EF; reflexivity|].
      destruct (OX _ _ _ (nl ++ concat (map line m)) ltac:(now apply follow_char) F) as [-> X]; [exact E|]. unfold read_field in X. injection X as -> ->.
      apply app_inv_head in E. f_equal. exact (IH nl u r l0 eq_refl HU HR E).
Qed.

(** ** the text of a container *)
Lemma step_line acc e : verbose_line (snd e) = false -> fstep 0 acc e = acc ++ line e.
Proof.
  destruct e as [name [xf xi xv]]. unfold verbose_line, d_line. cbn [snd d_fmt]. intros V. unfold line, field_text, field_col, fstep. cbn [fst snd].
  assert (X : FmtText.cut (DK xf xi xv) (acc ++ sp 0 ++ name ++ s " = ") = acc ++ name ++ s " =" ++ RtProps2.gap (DK xf xi xv)).
  { change (s " = ") with (s " =" ++ [32]). change (sp 0) with (@nil char). cbn [app]. rewrite !app_assoc, cut_space. now rewrite <- !app_assoc. }
  rewrite X, <- !app_assoc. destruct (f_line xf); [..|discriminate]; rewrite <- ?app_assoc; reflexivity.
Qed.
Lemma vfield_plain x : verbose_line x = false -> vfield x = norm x.
Proof. destruct x as [f id v]. unfold verbose_line, d_line, vfield. cbn [d_fmt]. destruct (f_line f); (reflexivity || discriminate). Qed.
Lemma text_lines f id m : f_line f = Verbose -> Forall (fun e => verbose_line (snd e) = false) m ->
  text true (DK f id (VCntr m)) 0 = match (if f_id f then id else None) with Some i => s ":" ++ i ++ nl | None => [] end ++ concat (map line m).
Proof.
  intros L V. rewrite text_verbose by exact L. rewrite (fold_concat (fstep 0) line).
  - f_equal. rewrite andb_true_r. destruct (f_id f), id; reflexivity.
  - intros acc x Hx. apply step_line. rewrite Forall_forall in V. now apply V.
Qed.
Lemma lines_gather m : NoDup (map fst m) -> gathers (map line_item m) (map (fun e : str * dk => (fst e, norm (snd e))) m).
Proof.
  induction m as [|[n x] m IH]; intros N; [apply gathers_nil|]. cbn [map fst] in *. inversion_clear N as [|? ? N1 N2].
  apply (gathers_cons n (norm x) [line_item (n, x)]); [discriminate|now repeat constructor|apply value_field| |now apply IH].
  rewrite map_map. cbn [fst]. exact N1.
Qed.
Lemma lines_named m i : In i (map line_item m) -> item_name i <> None.
Proof. intros H. apply in_map_iff in H as (e & <- & _). discriminate. Qed.
Lemma stop_stops f r : stop f r = true -> stops f r.
Proof. destruct r as [|c r]; cbn [stop stops]; [auto|]. now intros H%negb_true_iff. Qed.
Lemma names_stop_space i r : forallb name_char i = true -> i <> [] -> stops space (i ++ r).
Proof.
  destruct i as [|c i]; [congruence|]. cbn [forallb app stops]. intros H _. apply andb_true_iff in H as [H _].
  apply begins_space with (t := [c]). apply starts_begins. now apply name_start.
Qed.
(** an item which begins with a colon is the id *)
Lemma item_marked n t r it i Z : item_at n t r it -> is_id i = true -> t ++ r = s ":" ++ i ++ nl ++ Z -> it = It_id i /\ r = nl ++ Z.
Proof.
  intros H I E. destruct H as [n w id r W Hi ST|n t r name v F|n h name id w e t r v HT W He HB|n h name id w e t r v HT W He HB _|n h name id w e w1 tk k w2 w3 t r v HT W He W1 HK W2 W3 HV|n h name id w e w1 tk k w2 w3 e' t r v HT W He W1 HK W2 W3 He' HB];
    try (exfalso; cbn [app s map list_ascii_of_string] in E; injection E as E _; discriminate).
  - rewrite <- !app_assoc in E. apply app_inv_head in E. pose proof (id_name _ I) as [NI I1]. pose proof (id_name _ Hi) as [NH H1].
    apply (blank_eq w _ [] _) in E as [-> E]; auto; [|now apply names_stop_space|reflexivity|now apply names_stop_space].
    apply span_eq with (f := name_char) in E as [-> ->]; auto; [now apply stop_stops|reflexivity].
  - exfalso. inversion F as [name0 w1 w2 u r0 v0 N1 N2 W1 W2 HR]; subst. destruct name as [|c name].
    + rewrite (N2 eq_refl) in E. discriminate.
    + cbn [forallb] in N1. apply andb_true_iff in N1 as [N1 _]. cbn [app s map list_ascii_of_string] in E. injection E as -> _. discriminate.
Qed.
Theorem fields_read f id m k : f_line f = Verbose -> Forall line_ok m -> Forall (fun e => verbose_line (snd e) = false) m -> NoDup (map fst m) ->
  opt_ok is_id (if f_id f then id else None) = true ->
  parse (text true (DK f id (VCntr m)) 0) = ParseOk k -> k = vnorm (DK f id (VCntr m)).
Proof.
  intros L OK V ND I P. apply parse_iff in P. rewrite (text_lines f id m L V) in P. rewrite vnorm_verbose by exact L.
  replace (map (fun e => (fst e, vfield (snd e))) m) with (map (fun e : str * dk => (fst e, norm (snd e))) m).
  2:{ apply map_ext_in. intros e He. rewrite Forall_forall in V. now rewrite vfield_plain by now apply V. }
  set (sid := if f_id f then id else None) in *. set (pre := match sid with Some i => s ":" ++ i ++ nl | None => [] end) in *.
  remember (pre ++ concat (map line m)) as T eqn:ET.
  assert (VF : verbose_first T = true \/ T = []).
  { destruct sid as [i|]; subst pre; [left; subst T; reflexivity|]. cbn [app] in ET. destruct OK as [|e m OE _]; [now right|]. left.
    destruct (field_text_first e OE) as (c & Z & EF & C). destruct OE as (NO & OB & _). subst T. cbn [map concat]. unfold verbose_first. rewrite trim_id.
    - unfold verbose_start. apply orb_true_iff. right. apply orb_true_iff. left. apply orb_true_iff. right. unfold line, field_text. rewrite <- !app_assoc. apply names_assign.
      now apply name_ok_spec in NO as [_ NO].
    - unfold line. rewrite <- app_assoc. now apply begins_space, SyntaxProps2.begins_app. }
  destruct P as [w1 t w2 k W1 HV W2 NV|t l w1 w2 HI W1 W2 VV].
  - exfalso. destruct VF as [VF|VF]; [congruence|]. pose proof (value_at_begins _ _ _ _ HV) as B. apply app_eq_nil in VF as [_ VF]. apply app_eq_nil in VF as [-> _]. contradiction.
  - assert (SP : spaces (w1 ++ w2)). { unfold spaces. rewrite forallb_app. apply andb_true_iff. split; [now apply blank_lines_spaces|now apply blanks_spaces]. }
    destruct sid as [i|]; subst pre.
    + cbn [opt_ok] in I. inversion HI as [n0 r0 EN|n0 w t0 it u l0 r0 LD HA HU EN]; subst.
      * exfalso. cbn [app] in ET. rewrite ET in SP. discriminate.
      * rewrite <- !app_assoc in ET. pose proof (item_begins _ _ _ _ HA) as B. 
        destruct (spaces_begins w (t0 ++ u ++ w1 ++ w2) _ (lead_spaces _ _ LD) (conj eq_refl eq_refl : SyntaxProps2.begins (s ":" ++ i ++ nl ++ concat (map line m))) ET) as [-> E2].
        destruct (item_marked _ _ _ _ _ _ HA I E2) as [-> E3].
        rewrite (lines_items m OK nl u (w1 ++ w2) l0 eq_refl HU SP E3).
        apply container_id; [apply lines_named|now apply lines_gather].
    + cbn [app] in ET. rewrite (container_plain l (map (fun e : str * dk => (fst e, norm (snd e))) m)); [reflexivity| |].
      * rewrite (lines_items m OK [] t (w1 ++ w2) l); auto. apply lines_named.
      * rewrite (lines_items m OK [] t (w1 ++ w2) l); auto. now apply lines_gather.
Qed.

(** ** formatters *)
Definition below_flat (d : dk) : Prop := Forall (fun c => verbose_line c = false) (d_children (d_val d)).
Lemma shown_below k fm : reachable k fm -> (forall i, (0 < i)%nat -> line_of fm i <> Some Verbose) -> below_flat (shown k fm).
Proof.
  intros R V. apply reachable_finv in R as [N I]. apply Forall_forall. intros x Hx. apply D_kid in Hx as (c & Hc & ->). pose proof (root_ok k) as RO.
  pose proof (kid_ok k _ c RO Hc) as OC. pose proof (kids_parent _ c Hc) as KP. unfold verbose_line. destruct (d_line (D (fm_fmts fm) c)) eqn:E; try reflexivity. exfalso.
  apply (V (fst c)); [|apply line_of_at; rewrite <- E; now apply (D_line k); [apply I|]].
  pose proof (proj1 (FmtDepthProps2.kid_within _ c Hc)) as LT. cbn [fst] in LT. exact LT.
Qed.
Lemma clear_lines f id m : d_all clear_node (DK f id (VCntr m)) = true -> Forall (fun c => d_all flat_node c = true) (d_children (VCntr m)) -> Forall line_ok m.
Proof.
  intros C F. apply d_all_children in C as [C CC]. unfold clear_node in C. cbn [d_val] in C. apply andb_true_iff in C as [_ C]. rewrite forallb_forall in C.
  cbn [d_children] in *. rewrite Forall_map in CC, F. rewrite Forall_forall in *. intros e He. split.
  - pose proof (C e He) as X. destruct e as [[|x n] y]; [discriminate X|exact X].
  - apply field_only; [apply value_at_begins|exact (C e He)|]. apply exactly_only with (I := fun x => text true x (field_col e)). apply text_exactly; auto. discriminate.
Qed.
Lemma below_kids d : d_all lay_node d = true -> below_flat d -> Forall (fun c => d_all flat_node c = true) (d_children (d_val d)).
Proof.
  destruct d as [f id v]. unfold below_flat. cbn [d_val]. intros L V. apply d_all_children in L as [_ L]. rewrite Forall_forall in *. intros c Hc. apply lay_flat; auto.
Qed.
Lemma below_all d : d_all lay_node d = true -> below_flat d -> verbose_cntr d = false -> d_all flat_node d = true.
Proof.
  intros L V N. destruct (verbose_line d) eqn:VL; [|now apply lay_flat]. pose proof (below_kids d L V) as K. destruct d as [f id v]. cbn [d_val] in K.
  apply d_all_children in L as [L _]. apply d_all_children. split; [|exact K]. unfold lay_node in L. apply andb_true_iff in L as [L _].
  unfold verbose_cntr, verbose_line, cntr_node, flat_node, d_line, kind_max in *. cbn [d_fmt d_val undeco kval] in *.
  destruct (f_line f); [discriminate VL|discriminate VL|]. destruct v as [| | | | |[|]|[|]|[|]|[|]]; (reflexivity || discriminate).
Qed.
Lemma never_misread_below k fm t k' : reachable k fm -> below_flat (shown k fm) -> k_sorted k = true -> clear (deco (fm_fmts fm) 0 k) = true ->
  fm_write fm [] = LRet t -> parse t = ParseOk k' -> k' = vnorm (deco (fm_fmts fm) 0 k).
Proof.
  intros R BF KS T E P. change (deco (fm_fmts fm) 0 k) with (shown k fm) in *. pose proof (clear_strings k fm T) as S.
  pose proof (reachable_finv k fm R) as FI. rewrite (fm_write_text k fm [] FI S) in E. injection E as <-.
  replace (FmtText.cut (shown k fm) []) with (@nil char) in P by (unfold FmtText.cut; destruct (drops _); reflexivity). cbn [app] in P.
  pose proof (shown_lay k fm R) as LY. unfold clear in T. rewrite each_all in T. rewrite <- (shown_undeco k fm) in KS.
  destruct (verbose_cntr (shown k fm)) eqn:VC.
  - pose proof (below_kids _ LY BF) as K. destruct (shown k fm) as [f id v]. unfold verbose_cntr, cntr_node, verbose_line, d_line in VC. cbn [d_fmt d_val] in *. apply andb_true_iff in VC as [VL VC]. destruct v as [| | | | | |m| |]; try discriminate.
    destruct (f_line f) eqn:EL; try discriminate. unfold below_flat in BF. cbn [d_val d_children] in BF. rewrite Forall_map in BF.
    apply fields_read in P; auto.
    + now apply (clear_lines f id).
    + destruct (sorted_kids f id (VCntr m) KS) as [SN _]. now apply sorted_names.
    + apply d_all_children in T as [T _]. unfold clear_node, shown_id in T. cbn [d_val d_id d_fmt] in T. apply andb_true_iff in T as [T _]. destruct (if f_id f then id else None); [now apply id_plain_id|reflexivity].
  - rewrite (vnorm_plain _ VC). apply text_read; [|exact P]. split; [exact T|now apply below_all].
Qed.
Theorem never_misread_fields k fm t k' : reachable k fm -> (forall i, (0 < i)%nat -> line_of fm i <> Some Verbose) -> k_sorted k = true -> clear (deco (fm_fmts fm) 0 k) = true ->
  fm_write fm [] = LRet t -> parse t = ParseOk k' -> k' = vnorm (deco (fm_fmts fm) 0 k).
Proof. intros R V. apply never_misread_below; [exact R|now apply shown_below]. Qed.
Lemma never_unequal_below k fm t k' : reachable k fm -> below_flat (shown k fm) -> k_sorted k = true ->
  clear (deco (fm_fmts fm) 0 k) = true -> each faithful_node (deco (fm_fmts fm) 0 k) = true ->
  fm_write fm [] = LRet t -> parse t = ParseOk k' -> k_eqb k' k = true.
Proof.
  intros R V K T F E P. rewrite (never_misread_below k fm t k' R V K T E P). change (deco (fm_fmts fm) 0 k) with (shown k fm) in *.
  rewrite <- (shown_undeco k fm) in K. rewrite each_all in F. destruct (vnorm_same (shown k fm) F K) as (A & B & Q). rewrite shown_undeco in *. now apply good_key_eqb.
Qed.
Theorem never_unequal_fields k fm t k' : reachable k fm -> (forall i, (0 < i)%nat -> line_of fm i <> Some Verbose) -> k_sorted k = true ->
  clear (deco (fm_fmts fm) 0 k) = true -> each faithful_node (deco (fm_fmts fm) 0 k) = true ->
  fm_write fm [] = LRet t -> parse t = ParseOk k' -> k_eqb k' k = true.
Proof. intros R V. apply never_unequal_below; [exact R|now apply shown_below]. Qed.
Theorem refused_or_right_fields k fm : reachable k fm -> (forall i, (0 < i)%nat -> line_of fm i <> Some Verbose) -> k_sorted k = true -> clear (deco (fm_fmts fm) 0 k) = true ->
  exists t, fm_write fm [] = LRet t /\ ((exists e, parse t = ParseErr e) \/ parse t = ParseOk (vnorm (deco (fm_fmts fm) 0 k))).
Proof.
  intros R V K T. destruct (write_returns k fm [] R (clear_strings k fm T)) as (t & E). exists t. split; [exact E|].
  destruct (C17_parse_total t) as [[k' P]|[e P]]; [right|left; now exists e]. rewrite P. f_equal. now apply (never_misread_fields k fm t).
Qed.

(** ** conditions on the value alone: records of primitives and tuples, with any width *)
Lemma record_below d : d_all lay_node d = true -> flat_record (undeco d) = true -> below_flat d.
Proof.
  destruct d as [f id v]. intros L R. apply d_all_children in L as [_ L]. unfold flat_record in R. rewrite undeco_children, forallb_mapped, forallb_forall in R. unfold below_flat.
  cbn [d_val]. rewrite Forall_forall in *. intros c Hc. specialize (L c Hc). specialize (R c Hc). destruct c as [cf ci cv]. apply d_all_children in L as [L _]. unfold lay_node in L.
  apply andb_true_iff in L as [L _]. unfold verbose_line, d_line, kind_max, flat_field in *. cbn [d_fmt undeco kval] in *. destruct (f_line cf); try reflexivity.
  destruct cv as [| | | | |[|]|[|]|[|]|[|]]; discriminate.
Qed.
Theorem as_str_record_never_misread k cfg t k' : flat_record k = true -> k_all clear_value k = true ->
  (id_on_tuples cfg = true \/ forall x, In x (preorder k) -> match kval x with VTuple _ => kid x = None | _ => True end) ->
  k_sorted k = true -> k_all whole_value k = true ->
  as_str_with_config k cfg = LRet t -> parse t = ParseOk k' -> k_eqb k' k = true.
Proof.
  intros C S T K W E P. unfold as_str_with_config in E. destruct (new_returns k) as (fm & EN & R). rewrite EN in E. cbn [lbind] in E.
  destruct (apply_config fm cfg) as [fm'| |] eqn:E'; try discriminate. cbn [lbind] in E.
  assert (R' : reachable k fm') by (exact (LocalProps3.reach_step k fm (OpConfig cfg) fm' R E')).
  pose proof (config_tuples k fm cfg fm' R E' T) as TS. unfold tuple_ids_shown in TS. rewrite each_all in TS.
  destruct (clear_shown (shown k fm')) as [A B]; [now rewrite shown_undeco|exact TS|]. rewrite shown_undeco in B.
  apply (never_unequal_below k fm' t k' R'); auto.
  apply record_below; [now apply shown_lay|now rewrite shown_undeco].
Qed.
