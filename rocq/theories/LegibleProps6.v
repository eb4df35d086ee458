(** Exactly which documents with titles can be read: the kinds of field. *)
From Verif Require Import ParseSpec PropertiesParse Base F64 Number NumberSpec BTree Value BaseProps BTreeProps ValueSpec ValueProps ValueProps2 Nom Parse ParseErr ParseProps Grammar VGrammar GrammarProps VGrammarProps VAssemble VGrammarProps2 Format FormatProps Nav NavSpec NavProps NavProps2 Fmt Formatter FmtText FmtSpec FmtProps FmtProps2 FormatterProps FormatterProps2 FormatterProps3 FormatterProps4 VSpec VRtProps VRtProps2 VRtProps3 VRtProps4 VRtProps5 Syntax SyntaxProps SyntaxProps2 SyntaxProps3 SyntaxProps4 RtSpec RtProps2 RtProps3 RtProps4 RtProps5 RtProps6 RtProps7 MisreadSpec MisreadProps MisreadProps2 MisreadProps3 MisreadProps4 MisreadProps5 MisreadProps6 MisreadProps7 LegibleSpec MisreadSpec2 MisreadProps8 MisreadProps9 LegibleSpec2 LegibleProps5.
From Verif Require LegibleProps LegibleProps2.
Open Scope N_scope.

Lemma tlegible_plain d : verbose_cntr d = false -> tlegible d = each legible_node d.
Proof. destruct d as [f id v]. unfold verbose_cntr, verbose_line, d_line, cntr_node. cbn [d_fmt d_val tlegible]. destruct (f_line f), v; (reflexivity || discriminate). Qed.
Definition has_lp (d : dk) : Prop := forall top outer n, verbose_cntr d = true -> vclear top outer d = true -> (outer = true -> n = O) -> vtidy d ->
  exists ps, text top d (4 * n) = rtext n ps /\ Forall (good_piece n) ps /\
    container (map itemp ps) = Kserd (if top then shown_id d else None) (kval (vnorm d)) /\
    (forall o, pleg ps o <-> tlegible d = true /\ (ends_bare d = true -> o = false)).
Lemma below_both d top n rest : has_lp d -> verbose_cntr d = true -> vclear top false d = true -> vtidy d -> lower (S n) rest ->
  (forall u r v, body_at (S n) u r v -> u ++ r = text top d (4 * n + 4) ++ rest -> tlegible d = true /\ (ends_bare d = true -> Grammar.opens rest = false)) /\
  (tlegible d = true -> (ends_bare d = true -> Grammar.opens rest = false) -> exists u W, text top d (4 * n + 4) = u ++ W /\ blank_lines W /\
     body_at (S n) u (W ++ rest) (Kserd (if top then shown_id d else None) (kval (vnorm d)))).
Proof.
  intros H VC VL T L. replace (4 * n + 4)%nat with (4 * S n)%nat by lia.
  destruct (proj1 (all_pieces d) top false (S n) VC VL ltac:(discriminate) T) as (_ & _ & _ & VF & _). destruct (H top false (S n) VC VL ltac:(discriminate) T) as (ps & EP & FP & CT & PI). split.
  - intros u r v B E. apply PI. inversion B as [n0 w u' r0 v0 W HV NF|n0 u' r0 l HI VF' C]; subst.
    + exfalso. rewrite <- app_assoc in E. rewrite E, VF in NF. discriminate.
    + rewrite EP in E. exact (items_back (S n) ps FP [] u r l rest BL_none L HI C E).
  - intros A B. destruct (items_fwd (S n) ps FP [] rest BL_none L) as (t & W & E & BW & HI); [now apply PI|]. cbn [app] in E. exists t, W. rewrite EP. split; [exact E|]. split; [exact BW|]. rewrite <- CT. constructor.
    + exact HI.
    + rewrite app_assoc, <- E, <- EP. apply VF.
    + apply lower_closes. now apply lower_lines.
Qed.
Lemma title_here name id : name_ok name = true -> opt_ok is_id id = true -> titlef (name ++ id_part id) name id.
Proof.
  intros N I. apply name_ok_spec in N as [_ N]. destruct id as [i|]; cbn [id_part].
  - pose proof (Titlef_id [] name [] [] i [] eq_refl N eq_refl eq_refl I eq_refl) as X. cbn [app] in X. now rewrite app_nil_r in X.
  - exact (Titlef [] name [] eq_refl N eq_refl).
Qed.
Lemma eol_nl : eol nl.
Proof. now left. Qed.

Lemma section_iff n name x : name_ok name = true -> has_lp x -> verbose_cntr x = true -> vclear false false x = true -> vtidy x ->
  item_iff n (s "[" ++ name ++ id_part (shown_id x) ++ s "]" ++ nl ++ text false x (4 * n + 4)) (It_field name (vnorm x)) (tlegible x) (ends_bare x).
Proof.
  intros N HP VC VL T rest L.
  assert (I : opt_ok is_id (shown_id x) = true).
  { destruct T as (T & _). apply all_here in T. destruct x as [f i v0]. unfold verbose_cntr, cntr_node in VC. cbn [d_val] in VC. apply andb_true_iff in VC as [_ VC]. destruct v0; try discriminate.
    unfold clear_node, shown_id in *. cbn [d_val d_id d_fmt] in *. apply andb_true_iff in T as [T _]. destruct (if f_id f then i else None); [now apply id_plain_id|reflexivity]. }
  destruct (below_both x false n rest HP VC VL T L) as [BA FW]. split.
  - intros t r i' HA E. rewrite <- !app_assoc in E.
    destruct (bracket_item n t r i' name _ HA E N) as (h & name' & id & w & e & u & v & -> & HT & W & He & HB & E').
    apply (title_eq h name' id name (shown_id x)) in E' as (-> & -> & E'); auto. apply (line_eq w e) in E'; auto. exact (BA _ _ _ HB E').
  - intros A B. destruct (FW A B) as (u & W & E & BW & HB). exists (s "[" ++ (name ++ id_part (shown_id x)) ++ s "]" ++ [] ++ nl ++ u), W.
    split; [rewrite E, <- !app_assoc; reflexivity|]. split; [exact BW|].
    replace (vnorm x) with (default_id (shown_id x) (Kserd None (kval (vnorm x)))) by (unfold default_id; cbn [kid kval]; now rewrite <- (vnorm_id x VC)).
    apply A_section; [now apply title_here|reflexivity|exact eol_nl|exact HB].
Qed.
Lemma elem_iff n name y : name_ok name = true -> has_lp y -> vtidy y -> (if verbose_cntr y then vclear true false y && keyless_first y else plain_elem y) = true ->
  item_iff n (s "[[" ++ name ++ s "]]" ++ nl ++ below n y) (It_elem None name (vnorm y)) (tlegible y) (ends_bare y).
Proof.
  intros N HP T C rest L.
  assert (ET : forall h name' id w e u Y, titlef h name' id -> blanks w -> eol e -> h ++ ch "]" :: ch "]" :: w ++ e ++ u = name ++ s "]]" ++ nl ++ Y -> name' = name /\ id = None /\ u = Y).
  { intros h name' id w e u Y HT W He X. apply (title_eq h name' id name None) in X as (-> & -> & X); auto. apply (f_equal (@tl _)) in X. cbn [tl] in X. apply (line_eq w e) in X; auto. }
  assert (NK : ~ keyed (below n y ++ rest)).
  { unfold below. destruct (verbose_cntr y) eqn:VC.
    - apply andb_true_iff in C as [C K]. apply keyless_keyed. replace (4 * n + 4)%nat with (4 * S n)%nat by lia. destruct (proj1 (all_pieces y) true false (S n) VC C ltac:(discriminate) T) as (_ & _ & _ & _ & KF & _). now apply KF.
    - assert (V : verbose_line y = false) by (unfold plain_elem in C; rewrite !andb_true_iff, !negb_true_iff in C; apply C). intros K. rewrite <- !app_assoc in K.
      apply (text_keyed (4 * n) y (4 * n) rest); [now apply vtidy_flat|exact K]. }
  assert (HH : forall u W v, below n y = u ++ W -> blank_lines W -> body_at (S n) u (W ++ rest) v -> exists T' W, s "[[" ++ name ++ s "]]" ++ nl ++ below n y = T' ++ W /\ blank_lines W /\ item_at n T' (W ++ rest) (It_elem None name v)).
  { intros u W v E BW HB. exists (s "[[" ++ name ++ s "]]" ++ [] ++ nl ++ u), W. split; [rewrite E, <- !app_assoc; reflexivity|]. split; [exact BW|].
    apply A_elem; [rewrite <- (app_nil_r name) at 1; now apply (title_here name None)|reflexivity|exact eol_nl|exact HB|]. rewrite app_assoc, <- E. exact NK. }
  assert (EB : forall t r i', item_at n t r i' -> t ++ r = (s "[[" ++ name ++ s "]]" ++ nl ++ below n y) ++ rest -> exists u v, body_at (S n) u r v /\ u ++ r = below n y ++ rest).
  { intros t r i' HA E. rewrite <- !app_assoc in E. destruct (brackets_item n t r i' _ HA E) as (h & name' & id & w & e & u & v & -> & HT & W & He & HB & E').
    { intros h name' id w e u HT W He X. destruct (ET h name' id w e u _ HT W He X) as (_ & _ & ->). exact NK. }
    destruct (ET h name' id w e (u ++ r) _ HT W He E') as (-> & -> & X). eauto. }
  unfold below in *. destruct (verbose_cntr y) eqn:VC.
  - apply andb_true_iff in C as [C K]. destruct (below_both y true n rest HP VC C T L) as [BA FW]. split.
    + intros t r i' HA E. destruct (EB _ _ _ HA E) as (u & v & HB & E'). exact (BA _ _ _ HB E').
    + intros A B. destruct (FW A B) as (u & W & E & BW & HB). rewrite (vnorm_id y VC). exact (HH _ _ _ E BW HB).
  - assert (V : verbose_line y = false) by (unfold plain_elem in C; rewrite !andb_true_iff, !negb_true_iff in C; apply C). pose proof (vtidy_flat y T V) as TD.
    pose proof (elem_value (4 * n) y (4 * n) rest TD C) as EV. pose proof (text_begins y (4 * n) (proj1 TD) (proj2 TD)) as BT. rewrite (vnorm_plain y VC), (tlegible_plain y VC), (ends_plain y VC). split.
    + intros t r i' HA E. destruct (EB _ _ _ HA E) as (u & v & HB & X). rewrite <- !app_assoc in X. inversion HB as [n0 w' u' r0 v0 W' HV NF|n0 u' r0 l HI VF' CL]; subst.
      * rewrite <- app_assoc in X. pose proof (value_at_begins _ _ _ _ HV) as B.
        apply blank_eq in X as [_ X]; [|exact W'|now apply begins_space, SyntaxProps2.begins_app|apply sp_blanks|now apply begins_space, SyntaxProps2.begins_app].
        destruct (text_exactly y (proj1 TD) (proj2 TD) false (4 * n)) as [_ OX]; [discriminate|].
        destruct (OX u' r v (nl ++ rest) ltac:(now apply follow_char) HV X) as [-> ->]. apply app_inv_head in X. subst r. exact (plain_back y (4 * n) rest _ TD HV).
      * exfalso. rewrite X, EV in VF'. discriminate.
    + intros A B. apply (HH (sp (4 * n) ++ text true y (4 * n)) nl); [now rewrite <- app_assoc|exact bl_nl|]. constructor; [apply sp_blanks|now apply plain_fwd|exact EV].
Qed.
Lemma entry_iff name (p : dk * dk) : name_ok name = true -> has_lp (snd p) -> vtidy (fst p) -> vtidy (snd p) -> entry_clear p = true ->
  item_iff O (entry_T name p) (It_entry None name (norm (fst p)) (vnorm (snd p))) (tlegible (snd p)) (ends_bare (snd p)).
Proof.
  intros N HP TK T C rest L. unfold entry_clear in C. rewrite !andb_true_iff in C. destruct C as [[[LK IK] DKY] C].
  assert (IK' : d_line (fst p) = Inline) by (destruct (d_line (fst p)); (reflexivity || discriminate)).
  assert (TD : tidy (fst p)) by (apply vtidy_flat; [exact TK|unfold verbose_line; now rewrite IK']).
  unfold entry_T. cbv zeta. set (kt := text true (fst p) 0). set (ind := match d_line (fst p) with Inline => _ | _ => _ end). set (V := match d_line (snd p) with Verbose => _ | _ => _ end). clearbody ind.
  assert (ET : forall h name' id w e u Y, titlef h name' id -> blanks w -> eol e -> h ++ ch "]" :: ch "]" :: w ++ e ++ u = name ++ s "]]" ++ nl ++ Y -> name' = name /\ id = None /\ u = Y).
  { intros h name' id w e u Y HT W He X. apply (title_eq h name' id name None) in X as (-> & -> & X); auto. apply (f_equal (@tl _)) in X. cbn [tl] in X. apply (line_eq w e) in X; auto. }
  pose proof (text_begins (fst p) 0 (proj1 TD) (proj2 TD)) as BK.
  assert (KY : forall w1 tk k w2 Z, blanks w1 -> blanks w2 -> value_at true tk (w2 ++ s ":" ++ Z) k -> w1 ++ tk ++ w2 ++ s ":" ++ Z = kt ++ s ":" ++ V ++ rest -> k = norm (fst p) /\ Z = V ++ rest).
  { intros w1 tk k w2 Z W1 W2 HK X. apply value_at_weak in HK. pose proof (value_at_begins _ _ _ _ HK) as B.
    apply (blank_eq w1 _ [] _) in X as [-> X]; [|exact W1|now apply begins_space, SyntaxProps2.begins_app|reflexivity|now apply begins_space, SyntaxProps2.begins_app].
    destruct (text_exactly (fst p) (proj1 TD) (proj2 TD) false 0) as [_ OX]; [discriminate|].
    destruct (OX tk _ k (s ":" ++ V ++ rest) ltac:(now apply follow_char) HK X) as [-> ->]. split; [reflexivity|]. apply app_inv_head in X.
    apply (blank_eq w2 _ [] _) in X as [-> X]; auto; try reflexivity. now apply app_inv_head in X. }
  assert (TH : titlef name name None) by (rewrite <- (app_nil_r name) at 1; now apply (title_here name None)).
  assert (KV : forall z, value_at true kt (s ":" ++ z) (norm (fst p))) by (intros z; now apply key_text).
  split.
  - intros t r i' HA E. rewrite <- !app_assoc in E.
    remember 0%nat as z0 eqn:Z0 in HA. destruct HA as [n w id r W I _|n t r nm v F|n h nm id w e t r v HT W He HB|n h nm id w e t r v HT W He HB NK|n h nm id w e w1 tk k w2 w3 t r v HT W He W1 HK W2 W3 HV|n h nm id w e w1 tk k w2 w3 e' t r v HT W He W1 HK W2 W3 He' HB]; subst n.
    + discriminate E.
    + exfalso. inversion F as [name0 w1 w2 u r0 v0 N1 N2 W1 W2 HR]; subst. destruct nm as [|x nm].
      * rewrite (N2 eq_refl) in E. discriminate.
      * cbn [forallb] in N1. apply andb_true_iff in N1 as [N1 _]. cbn [app s map list_ascii_of_string] in E. injection E as -> _. discriminate.
    + exfalso. rewrite <- !app_assoc in E. cbn [app s map list_ascii_of_string] in E. injection E as E. apply (titlef_first h nm id) in E as [E _]; (discriminate || auto).
    + exfalso. rewrite <- !app_assoc in E. apply app_inv_head in E. destruct (ET h nm id w e _ _ HT W He E) as (_ & _ & X). apply NK. exists [], kt, [], (V ++ rest), (norm (fst p)).
      split; [exact X|]. split; [reflexivity|]. split; [reflexivity|]. apply KV.
    + rewrite <- !app_assoc in E. apply app_inv_head in E. destruct (ET h nm id w e _ _ HT W He E) as (-> & -> & X). destruct (KY w1 tk k w2 _ W1 W2 HK X) as (-> & Y). clear X E KY ET.
      pose proof (value_at_begins _ _ _ _ HV) as B. destruct (verbose_line (snd p)) eqn:VL.
      * exfalso. unfold V, verbose_line in *. destruct (d_line (snd p)); try discriminate. destruct w3 as [|c w3]; [destruct t; [contradiction|]; cbn [app] in Y; injection Y as -> _; destruct B; discriminate|].
        cbn [app] in Y. change nl with [10] in Y. cbn [app] in Y. injection Y as -> _. discriminate W3.
      * pose proof (vtidy_flat (snd p) T VL) as TV. pose proof (text_begins (snd p) ind (proj1 TV) (proj2 TV)) as BT.
        assert (EV : V = RtProps2.gap (snd p) ++ text true (snd p) ind ++ nl) by (unfold V, verbose_line in *; destruct (d_line (snd p)); (reflexivity || discriminate)). rewrite EV, <- !app_assoc in Y.
        apply blank_eq in Y as [_ Y]; [|exact W3|now apply begins_space, SyntaxProps2.begins_app|unfold RtProps2.gap; destruct (drops (snd p)); reflexivity|now apply begins_space, SyntaxProps2.begins_app].
        destruct (text_exactly (snd p) (proj1 TV) (proj2 TV) false ind) as [_ OX]; [discriminate|].
        destruct (OX t r v (nl ++ rest) ltac:(now apply follow_char) HV Y) as [-> ->]. apply app_inv_head in Y. subst r.
        assert (VC : verbose_cntr (snd p) = false) by (unfold verbose_cntr; now rewrite VL). rewrite (tlegible_plain _ VC), (ends_plain _ VC). exact (plain_back _ _ _ _ TV HV).
    + rewrite <- !app_assoc in E. apply app_inv_head in E. destruct (ET h nm id w e _ _ HT W He E) as (-> & -> & X). destruct (KY w1 tk k w2 _ W1 W2 HK X) as (-> & Y). clear X E KY ET. destruct (verbose_line (snd p)) eqn:VL.
      * apply andb_true_iff in C as [VC VCL]. assert (EV : V = nl ++ text true (snd p) 4 ++ nl) by (unfold V, verbose_line in *; destruct (d_line (snd p)); (reflexivity || discriminate)). rewrite EV, <- !app_assoc in Y.
        apply (line_eq w3 e') in Y; auto. exact (proj1 (below_both (snd p) true 0 (nl ++ rest) HP VC VCL T ltac:(now apply lower_lines; [exact bl_nl|])) _ _ _ HB Y).
      * exfalso. pose proof (vtidy_flat (snd p) T VL) as TV. pose proof (text_begins (snd p) ind (proj1 TV) (proj2 TV)) as BT.
        assert (EV : V = RtProps2.gap (snd p) ++ text true (snd p) ind ++ nl) by (unfold V, verbose_line in *; destruct (d_line (snd p)); (reflexivity || discriminate)). rewrite EV, <- !app_assoc in Y.
        apply span_eq with (f := blank) in Y as [_ Y]; [|exact W3|destruct He' as [->| ->]; reflexivity|unfold RtProps2.gap; destruct (drops (snd p)); reflexivity|now apply stops_space_blank, begins_space, SyntaxProps2.begins_app].
        destruct (text true (snd p) ind) as [|c z]; [contradiction|]. destruct BT as [BT _]. destruct He' as [->| ->]; cbn [app] in Y; injection Y as <- _; discriminate.
  - intros A B. destruct (verbose_line (snd p)) eqn:VL.
    + apply andb_true_iff in C as [VC VCL]. assert (EV : V = nl ++ text true (snd p) 4 ++ nl) by (unfold V, verbose_line in *; destruct (d_line (snd p)); (reflexivity || discriminate)).
      destruct (proj2 (below_both (snd p) true 0 (nl ++ rest) HP VC VCL T ltac:(now apply lower_lines; [exact bl_nl|])) A B) as (u & W & E & BW & HB). change (4 * 0 + 4)%nat with 4%nat in E.
      exists (s "[[" ++ name ++ s "]]" ++ [] ++ nl ++ [] ++ kt ++ [] ++ s ":" ++ [] ++ nl ++ u), (W ++ nl). split; [rewrite EV, E, <- !app_assoc; reflexivity|]. split; [apply bl_app; [exact BW|exact bl_nl]|]. rewrite <- app_assoc, (vnorm_id _ VC).
      apply A_entry_below; auto; try reflexivity; try exact eol_nl. apply KV.
    + pose proof (vtidy_flat (snd p) T VL) as TV. assert (EV : V = RtProps2.gap (snd p) ++ text true (snd p) ind ++ nl) by (unfold V, verbose_line in *; destruct (d_line (snd p)); (reflexivity || discriminate)).
      assert (VC : verbose_cntr (snd p) = false) by (unfold verbose_cntr; now rewrite VL). rewrite (tlegible_plain _ VC) in A. rewrite (ends_plain _ VC) in B. rewrite (vnorm_plain _ VC).
      exists (s "[[" ++ name ++ s "]]" ++ [] ++ nl ++ [] ++ kt ++ [] ++ s ":" ++ RtProps2.gap (snd p) ++ text true (snd p) ind), nl. split; [rewrite EV, <- !app_assoc; reflexivity|]. split; [exact bl_nl|].
      apply A_entry; auto; try reflexivity; try exact eol_nl; [apply KV|unfold RtProps2.gap; destruct (drops (snd p)); reflexivity|now apply plain_fwd].
Qed.
Lemma direct_iff n (e : str * dk) : name_ok (fst e) = true -> tidy (snd e) -> item_iff n (field_text (at_col n) e ++ nl) (It_field (fst e) (norm (snd e))) (each legible_node (snd e)) (bare_number (snd e)).
Proof.
  intros N TD rest _.
  assert (OE : only (value_at false) (fun x => text true x (at_col n e)) norm (snd e)) by (apply exactly_only with (I := fun x => text true x (at_col n e)); apply text_exactly; [apply TD..|discriminate]).
  assert (NM : match fst e with [] => false | n => forallb name_char n end = true) by (destruct (fst e); [discriminate N|exact N]).
  pose proof (field_only (value_at false) (at_col n) e (value_at_begins false) NM OE) as O.
  destruct O as [OB OX]. pose proof (name_ok_spec _ N) as [NE N2]. split.
  - intros t r i' HA E. rewrite <- app_assoc in E.
    assert (FF : exists c Z, field_text (at_col n) e = c :: Z /\ name_char c = true).
    { unfold field_text. destruct (fst e) as [|c Z]; [congruence|]. cbn [forallb] in N2. apply andb_true_iff in N2 as [C _]. cbn [app]. eauto. }
    destruct FF as (c & Z & EF & C). destruct (item_named _ _ _ _ c (Z ++ nl ++ rest) HA C) as (name & v & -> & F); [rewrite E, EF; reflexivity|].
    assert (FO : follow (nl ++ rest)) by now apply follow_char. destruct (OX _ _ _ (nl ++ rest) FO F E) as [-> X]. apply app_inv_head in E. subst r. rewrite each_all.
    apply (LegibleProps2.field_holds (value_at false) (at_col n) e (value_at_begins false) NM OE) in F; [exact F| |exact FO].
    intros r k FR HV. now apply (LegibleProps2.text_reading (snd e) (proj1 TD) (proj2 TD) false (at_col n e) ltac:(discriminate)) in HV.
  - intros A B. exists (field_text (at_col n) e), nl. split; [reflexivity|]. split; [exact bl_nl|]. apply A_field. destruct e as [name x]. unfold field_text. cbn [fst snd] in *.
    change (s " =") with ([32] ++ s "="). rewrite <- !app_assoc. constructor; [exact N2|congruence|reflexivity|unfold RtProps2.gap; destruct (drops x); reflexivity|now apply plain_fwd].
Qed.
