(** What is written is not taken for another value: every layout with titles. *)
From Verif Require Import ParseSpec PropertiesParse Base F64 Number NumberSpec BTree Value BaseProps BTreeProps ValueSpec ValueProps ValueProps2 Nom Parse ParseErr ParseProps Grammar VGrammar GrammarProps VGrammarProps VAssemble VGrammarProps2 Format FormatProps Nav NavSpec NavProps NavProps2 Fmt Formatter FmtText FmtSpec FmtProps FmtProps2 FormatterProps FormatterProps2 FormatterProps3 FormatterProps4 VSpec VRtProps VRtProps2 VRtProps3 VRtProps4 VRtProps5 Syntax SyntaxProps SyntaxProps2 SyntaxProps3 SyntaxProps4 RtSpec RtProps2 RtProps3 RtProps4 RtProps5 RtProps6 RtProps7 MisreadSpec MisreadProps MisreadProps2 MisreadProps3 MisreadProps4 MisreadProps5 MisreadProps6 MisreadProps7 LegibleSpec MisreadSpec2 MisreadProps8.
From Verif Require LegibleProps.
From Verif Require LocalProps3.
Open Scope N_scope.

Definition vtidy (d : dk) : Prop := d_all clear_node d = true /\ d_all lay_node d = true /\ k_sorted (undeco d) = true.
Lemma vtidy_kids d : vtidy d -> Forall vtidy (d_children (d_val d)).
Proof.
  destruct d as [f id v]. intros (C & L & K). apply d_all_children in C as [_ C]. apply d_all_children in L as [_ L]. apply sorted_kids in K as [_ K]. cbn [d_val].
  rewrite Forall_forall in *. intros x Hx. split; [|split]; auto.
Qed.
Lemma vtidy_flat d : vtidy d -> verbose_line d = false -> tidy d.
Proof. intros (C & L & _) V. split; [exact C|now apply lay_flat]. Qed.
Lemma direct_line d : vtidy d -> titled d = false -> verbose_line d = false.
Proof.
  intros (_ & L & _) T. apply all_here in L. unfold lay_node in L. apply andb_true_iff in L as [L _]. unfold titled in T. destruct (verbose_line d) eqn:V; [|reflexivity]. cbn [andb] in T.
  unfold verbose_line in V. destruct d as [f id v]. unfold d_line, kind_max in *. cbn [d_fmt d_val undeco kval] in *. destruct (f_line f); try discriminate. destruct v as [| | | | |[|]|[|]|[|]|[|]]; discriminate.
Qed.

(** ** the text below a title *)
Definition entry_clear (p : dk * dk) : bool :=
  each legible_node (fst p) && repr_eqb (d_line (fst p)) Inline && negb (drops (fst p)) &&
  (if verbose_line (snd p) then verbose_cntr (snd p) && vclear true false (snd p) else true).
Definition field_clear (outer : bool) (e : str * dk) : bool :=
  match snd e with DK xf _ xv =>
    match f_line xf, xv with
    | Verbose, VCntr _ => vclear false false (snd e)
    | Verbose, VSeq l => nonempty l && forallb (fun y => negb (drops y) && (if verbose_cntr y then vclear true false y && keyless_first y else plain_elem y)) l
    | Verbose, VMap l => outer && nonempty l && forallb entry_clear l
    | _, _ => true
    end
  end.
Lemma vclear_verbose top outer f id m : f_line f = Verbose -> vclear top outer (DK f id (VCntr m)) =
  nonempty m && (top && is_some (if f_id f then id else None) || seen_first m) && forallb (field_clear outer) m.
Proof. intros L. cbn [vclear]. rewrite L. reflexivity. Qed.

Lemma vclear_plain top outer d : verbose_cntr d = false -> vclear top outer d = true -> d_all flat_node d = true.
Proof. destruct d as [f id v]. unfold verbose_cntr, verbose_line, cntr_node, d_line. cbn [d_fmt d_val vclear]. destruct (f_line f), v; try discriminate; intros _ H; (now rewrite each_all in H). Qed.

Definition has_pieces (d : dk) : Prop := forall top outer n, verbose_cntr d = true -> vclear top outer d = true -> (outer = true -> n = O) -> vtidy d ->
  exists ps, text top d (4 * n) = concat (map (render n) ps) /\ Forall (piece_read n) ps /\
    (forall rest, verbose_first (text top d (4 * n) ++ rest) = true) /\
    (keyless_first d = true -> top = true -> keyless (text true d (4 * n)) = true) /\
    container (map snd ps) = Kserd (if top then shown_id d else None) (kval (vnorm d)).
Lemma below_read d top n t r v rest : has_pieces d -> verbose_cntr d = true -> vclear top false d = true -> vtidy d -> lower (S n) rest ->
  body_at (S n) t r v -> t ++ r = text top d (4 * n + 4) ++ rest ->
  v = Kserd (if top then shown_id d else None) (kval (vnorm d)) /\ exists W, blank_lines W /\ r = W ++ rest.
Proof.
  intros H VC VL T L B E. replace (4 * n + 4)%nat with (4 * S n)%nat in E by lia. destruct (H top false (S n) VC VL ltac:(discriminate) T) as (ps & EP & FP & VF & _ & CT).
  inversion B as [n0 w u r0 v0 W HV NF|n0 u r0 l HI VF' C]; subst.
  - exfalso. rewrite <- app_assoc in E. rewrite E, VF in NF. discriminate.
  - rewrite EP in E. destruct (pieces_read (S n) ps FP [] t r l rest BL_none L HI C E) as (-> & R). split; [exact CT|exact R].
Qed.

(** ** the three kinds of field *)
Lemma bracket_item (n : nat) t r i name Z : item_at n t r i -> t ++ r = s "[" ++ name ++ Z -> name_ok name = true ->
  exists h name' id w e u v, i = It_field name' (default_id id v) /\ titlef h name' id /\ blanks w /\ eol e /\ body_at (S n) u r v /\ h ++ ch "]" :: w ++ e ++ u ++ r = name ++ Z.
Proof.
  intros H E N. apply name_ok_spec in N as [NE N]. destruct name as [|c name]; [congruence|]. cbn [forallb] in N. apply andb_true_iff in N as [N _].
  assert (NB : c <> ch "[") by (intros ->; discriminate).
  destruct H as [n w id r W I _|n t r nm v F|n h nm id w e t r v HT W He HB|n h nm id w e t r v HT W He HB _|n h nm id w e w1 tk k w2 w3 t r v HT W He W1 HK W2 W3 HV|n h nm id w e w1 tk k w2 w3 e' t r v HT W He W1 HK W2 W3 He' HB].
  - discriminate E.
  - exfalso. inversion F as [name0 w1 w2 u r0 v0 N1 N2 W1 W2 HR]; subst. destruct nm as [|x nm].
    + rewrite (N2 eq_refl) in E. discriminate.
    + cbn [forallb] in N1. apply andb_true_iff in N1 as [N1 _]. cbn [app s map list_ascii_of_string] in E. injection E as -> _. discriminate.
  - exists h, nm, id, w, e, t, v. repeat (split; [assumption || reflexivity|]). rewrite <- !app_assoc in E. apply app_inv_head in E. exact E.
  - exfalso. cbn [app s map list_ascii_of_string] in E. injection E as E _. subst c. discriminate N.
  - exfalso. cbn [app s map list_ascii_of_string] in E. injection E as E _. subst c. discriminate N.
  - exfalso. cbn [app s map list_ascii_of_string] in E. injection E as E _. subst c. discriminate N.
Qed.
Lemma brackets_item (n : nat) t r i Z : item_at n t r i -> t ++ r = s "[[" ++ Z ->
  (forall h name' id w e u, titlef h name' id -> blanks w -> eol e -> h ++ ch "]" :: ch "]" :: w ++ e ++ u = Z -> ~ keyed u) ->
  exists h name' id w e u v, i = It_elem id name' v /\ titlef h name' id /\ blanks w /\ eol e /\ body_at (S n) u r v /\ h ++ ch "]" :: ch "]" :: w ++ e ++ u ++ r = Z.
Proof.
  intros H E NK.
  destruct H as [n w id r W I _|n t r nm v F|n h nm id w e t r v HT W He HB|n h nm id w e t r v HT W He HB _|n h nm id w e w1 tk k w2 w3 t r v HT W He W1 HK W2 W3 HV|n h nm id w e w1 tk k w2 w3 e' t r v HT W He W1 HK W2 W3 He' HB].
  - discriminate E.
  - exfalso. inversion F as [name0 w1 w2 u r0 v0 N1 N2 W1 W2 HR]; subst. destruct nm as [|x nm].
    + rewrite (N2 eq_refl) in E. discriminate.
    + cbn [forallb] in N1. apply andb_true_iff in N1 as [N1 _]. cbn [app s map list_ascii_of_string] in E. injection E as -> _. discriminate.
  - exfalso. rewrite <- !app_assoc in E. cbn [app s map list_ascii_of_string] in E. injection E as E. apply (titlef_first h nm id) in E as [E _]; (discriminate || auto).
  - exists h, nm, id, w, e, t, v. repeat (split; [assumption || reflexivity|]). rewrite <- !app_assoc in E. apply app_inv_head in E. exact E.
  - exfalso. rewrite <- !app_assoc in E. apply app_inv_head in E. apply (NK h nm id w e (w1 ++ tk ++ w2 ++ s ":" ++ w3 ++ t ++ r) HT W He E). exists w1, tk, w2, (w3 ++ t ++ r), k. auto.
  - exfalso. rewrite <- !app_assoc in E. apply app_inv_head in E. apply (NK h nm id w e (w1 ++ tk ++ w2 ++ s ":" ++ w3 ++ e' ++ t ++ r) HT W He E). exists w1, tk, w2, (w3 ++ e' ++ t ++ r), k. auto.
Qed.
Lemma section_piece n name x : name_ok name = true -> has_pieces x -> verbose_cntr x = true -> vclear false false x = true -> vtidy x ->
  piece_ok n (s "[" ++ name ++ id_part (shown_id x) ++ s "]" ++ nl ++ text false x (4 * n + 4)) (It_field name (vnorm x)).
Proof.
  intros N HP VC VL T. split; [split; reflexivity|]. intros t r i' rest L HA E. rewrite <- !app_assoc in E.
  destruct (bracket_item n t r i' name _ HA E N) as (h & name' & id & w & e & u & v & -> & HT & W & He & HB & E').
  assert (I : opt_ok is_id (shown_id x) = true).
  { destruct T as (T & _). apply all_here in T. destruct x as [f i v0]. unfold verbose_cntr, cntr_node in VC. cbn [d_val] in VC. apply andb_true_iff in VC as [_ VC]. destruct v0; try discriminate.
    unfold clear_node, shown_id in *. cbn [d_val d_id d_fmt] in *. apply andb_true_iff in T as [T _]. destruct (if f_id f then i else None); [now apply id_plain_id|reflexivity]. }
  apply (title_eq h name' id name (shown_id x)) in E' as (-> & -> & E'); auto. apply (line_eq w e) in E'; auto.
  destruct (below_read x false n u r v rest HP VC VL T L HB E') as (-> & R). split; [|exact R]. unfold default_id. cbn [kid kval]. now rewrite <- (vnorm_id x VC).
Qed.
Definition below (n : nat) (y : dk) : str := if verbose_cntr y then text true y (4 * n + 4) else sp (4 * n) ++ text true y (4 * n) ++ nl.
Lemma elem_piece n name y : name_ok name = true -> has_pieces y -> vtidy y -> (if verbose_cntr y then vclear true false y && keyless_first y else plain_elem y) = true ->
  piece_ok n (s "[[" ++ name ++ s "]]" ++ nl ++ below n y) (It_elem None name (vnorm y)).
Proof.
  intros N HP T C. split; [split; reflexivity|]. intros t r i' rest L HA E. rewrite <- !app_assoc in E.
  assert (ET : forall h name' id w e u Y, titlef h name' id -> blanks w -> eol e -> h ++ ch "]" :: ch "]" :: w ++ e ++ u = name ++ s "]]" ++ nl ++ Y -> name' = name /\ id = None /\ u = Y).
  { intros h name' id w e u Y HT W He X. apply (title_eq h name' id name None) in X as (-> & -> & X); auto. apply (f_equal (@tl _)) in X. cbn [tl] in X. apply (line_eq w e) in X; auto. }
  assert (NK : ~ keyed (below n y ++ rest)).
  { unfold below. destruct (verbose_cntr y) eqn:VC.
    - apply andb_true_iff in C as [C K]. apply keyless_keyed. replace (4 * n + 4)%nat with (4 * S n)%nat by lia. destruct (HP true false (S n) VC C ltac:(discriminate) T) as (_ & _ & _ & _ & KF & _). now apply KF.
    - assert (V : verbose_line y = false) by (unfold plain_elem in C; rewrite !andb_true_iff, !negb_true_iff in C; apply C). intros K. rewrite <- !app_assoc in K.
      apply (text_keyed (4 * n) y (4 * n) rest); [now apply vtidy_flat|exact K]. }
  destruct (brackets_item n t r i' _ HA E) as (h & name' & id & w & e & u & v & -> & HT & W & He & HB & E').
  { intros h name' id w e u HT W He X. destruct (ET h name' id w e u _ HT W He X) as (_ & _ & ->). exact NK. }
  destruct (ET h name' id w e (u ++ r) _ HT W He E') as (-> & -> & X). clear E' ET NK E. unfold below in X. destruct (verbose_cntr y) eqn:VC.
  - apply andb_true_iff in C as [C K]. destruct (below_read y true n u r v rest HP VC C T L HB X) as (-> & R). split; [|exact R]. now rewrite <- (vnorm_id y VC).
  - assert (V : verbose_line y = false) by (unfold plain_elem in C; rewrite !andb_true_iff, !negb_true_iff in C; apply C). pose proof (vtidy_flat y T V) as TD.
    rewrite <- !app_assoc in X. pose proof (elem_value (4 * n) y (4 * n) rest TD C) as EV. rewrite (vnorm_plain y VC).
    inversion HB as [n0 w' u' r0 v0 W' HV NF|n0 u' r0 l HI VF' CL]; subst.
    + rewrite <- app_assoc in X. pose proof (value_at_begins _ _ _ _ HV) as B. pose proof (text_begins y (4 * n) (proj1 TD) (proj2 TD)) as BT.
      apply blank_eq in X as [_ X]; [|exact W'|now apply begins_space, SyntaxProps2.begins_app|apply sp_blanks|now apply begins_space, SyntaxProps2.begins_app].
      destruct (text_exactly y (proj1 TD) (proj2 TD) false (4 * n)) as [_ OX]; [discriminate|].
      destruct (OX u' r v (nl ++ rest) ltac:(now apply follow_char) HV X) as [-> ->]. apply app_inv_head in X. split; [reflexivity|]. exists nl. split; [exact bl_nl|exact X].
    + exfalso. rewrite X, EV in VF'. discriminate.
Qed.
(** ** entries *)
Lemma key_text (x : dk) z : tidy x -> each legible_node x = true -> d_line x = Inline -> value_at true (text true x 0) (ch ":" :: z) (norm x).
Proof.
  intros TD L I. rewrite each_all in L. pose proof (LegibleProps.fine_in_grammar x (LegibleProps.fine_all _ (proj1 TD) L) L (proj2 TD) true 0%nat (fun _ => I)) as R.
  set (t := text true x 0) in *. pose proof (reads_ok (S (length t)) true t (norm x) _ (ch ":" :: z) R) as P.
  assert (Q : kserd_delimited (S (length t)) true (t ++ ch ":" :: z) = POk (ch ":" :: z) (norm x)) by (apply P; auto; lia).
  pose proof (text_begins x 0 (proj1 TD) (proj2 TD)) as B. apply delimited_at in Q as (t' & E & V); [|now apply stops_space_blank, begins_space, SyntaxProps2.begins_app].
  apply app_inv_tail in E. now subst t'.
Qed.
Lemma entry_piece name (p : dk * dk) : name_ok name = true -> has_pieces (snd p) -> vtidy (fst p) -> vtidy (snd p) -> entry_clear p = true ->
  piece_ok O (entry_T name p) (It_entry None name (norm (fst p)) (vnorm (snd p))).
Proof.
  intros N HP TK T C. unfold entry_clear in C. rewrite !andb_true_iff in C. destruct C as [[[LK IK] DKY] C].
  assert (IK' : d_line (fst p) = Inline) by (destruct (d_line (fst p)); (reflexivity || discriminate)).
  assert (TD : tidy (fst p)) by (apply vtidy_flat; [exact TK|unfold verbose_line; now rewrite IK']).
  unfold entry_T. cbv zeta. set (kt := text true (fst p) 0). set (ind := match d_line (fst p) with Inline => _ | _ => _ end). set (V := match d_line (snd p) with Verbose => _ | _ => _ end). clearbody ind.
  split; [split; reflexivity|]. intros t r i' rest L HA E. rewrite <- !app_assoc in E.
  assert (ET : forall h name' id w e u Y, titlef h name' id -> blanks w -> eol e -> h ++ ch "]" :: ch "]" :: w ++ e ++ u = name ++ s "]]" ++ nl ++ Y -> name' = name /\ id = None /\ u = Y).
  { intros h name' id w e u Y HT W He X. apply (title_eq h name' id name None) in X as (-> & -> & X); auto. apply (f_equal (@tl _)) in X. cbn [tl] in X. apply (line_eq w e) in X; auto. }
  pose proof (text_begins (fst p) 0 (proj1 TD) (proj2 TD)) as BK.
  assert (KY : forall w1 tk k w2 Z, blanks w1 -> blanks w2 -> value_at true tk (w2 ++ s ":" ++ Z) k -> w1 ++ tk ++ w2 ++ s ":" ++ Z = kt ++ s ":" ++ V ++ rest -> k = norm (fst p) /\ Z = V ++ rest).
  { intros w1 tk k w2 Z W1 W2 HK X. apply value_at_weak in HK. pose proof (value_at_begins _ _ _ _ HK) as B.
    apply (blank_eq w1 _ [] _) in X as [-> X]; [|exact W1|now apply begins_space, SyntaxProps2.begins_app|reflexivity|now apply begins_space, SyntaxProps2.begins_app].
    destruct (text_exactly (fst p) (proj1 TD) (proj2 TD) false 0) as [_ OX]; [discriminate|].
    destruct (OX tk _ k (s ":" ++ V ++ rest) ltac:(now apply follow_char) HK X) as [-> ->]. split; [reflexivity|]. apply app_inv_head in X.
    apply (blank_eq w2 _ [] _) in X as [-> X]; auto; try reflexivity. now apply app_inv_head in X. }
  remember 0%nat as z0 eqn:Z0 in HA. destruct HA as [n w id r W I _|n t r nm v F|n h nm id w e t r v HT W He HB|n h nm id w e t r v HT W He HB NK|n h nm id w e w1 tk k w2 w3 t r v HT W He W1 HK W2 W3 HV|n h nm id w e w1 tk k w2 w3 e' t r v HT W He W1 HK W2 W3 He' HB]; subst n.
  - discriminate E.
  - exfalso. inversion F as [name0 w1 w2 u r0 v0 N1 N2 W1 W2 HR]; subst. destruct nm as [|x nm].
    + rewrite (N2 eq_refl) in E. discriminate.
    + cbn [forallb] in N1. apply andb_true_iff in N1 as [N1 _]. cbn [app s map list_ascii_of_string] in E. injection E as -> _. discriminate.
  - exfalso. rewrite <- !app_assoc in E. cbn [app s map list_ascii_of_string] in E. injection E as E. apply (titlef_first h nm id) in E as [E _]; (discriminate || auto).
  - exfalso. rewrite <- !app_assoc in E. apply app_inv_head in E. destruct (ET h nm id w e _ _ HT W He E) as (_ & _ & X). apply NK. exists [], kt, [], (V ++ rest), (norm (fst p)).
    split; [exact X|]. split; [reflexivity|]. split; [reflexivity|]. cbn [app s map list_ascii_of_string]. now apply key_text.
  - rewrite <- !app_assoc in E. apply app_inv_head in E. destruct (ET h nm id w e _ _ HT W He E) as (-> & -> & X). destruct (KY w1 tk k w2 _ W1 W2 HK X) as (-> & Y). clear X E KY ET.
    pose proof (value_at_begins _ _ _ _ HV) as B. destruct (verbose_line (snd p)) eqn:VL.
    + exfalso. unfold V, verbose_line in *. destruct (d_line (snd p)); try discriminate. destruct w3 as [|c w3]; [destruct t; [contradiction|]; cbn [app] in Y; injection Y as -> _; destruct B; discriminate|].
      cbn [app] in Y. change nl with [10] in Y. cbn [app] in Y. injection Y as -> _. discriminate W3.
    + pose proof (vtidy_flat (snd p) T VL) as TV. pose proof (text_begins (snd p) ind (proj1 TV) (proj2 TV)) as BT.
      assert (EV : V = RtProps2.gap (snd p) ++ text true (snd p) ind ++ nl) by (unfold V, verbose_line in *; destruct (d_line (snd p)); (reflexivity || discriminate)). rewrite EV, <- !app_assoc in Y.
      apply blank_eq in Y as [_ Y]; [|exact W3|now apply begins_space, SyntaxProps2.begins_app|unfold RtProps2.gap; destruct (drops (snd p)); reflexivity|now apply begins_space, SyntaxProps2.begins_app].
      destruct (text_exactly (snd p) (proj1 TV) (proj2 TV) false ind) as [_ OX]; [discriminate|].
      destruct (OX t r v (nl ++ rest) ltac:(now apply follow_char) HV Y) as [-> ->]. apply app_inv_head in Y. rewrite vnorm_plain by (unfold verbose_cntr; now rewrite VL). split; [reflexivity|]. exists nl. split; [exact bl_nl|exact Y].
  - rewrite <- !app_assoc in E. apply app_inv_head in E. destruct (ET h nm id w e _ _ HT W He E) as (-> & -> & X). destruct (KY w1 tk k w2 _ W1 W2 HK X) as (-> & Y). clear X E KY ET. destruct (verbose_line (snd p)) eqn:VL.
    + apply andb_true_iff in C as [VC VCL]. assert (EV : V = nl ++ text true (snd p) 4 ++ nl) by (unfold V, verbose_line in *; destruct (d_line (snd p)); (reflexivity || discriminate)). rewrite EV, <- !app_assoc in Y.
      apply (line_eq w3 e') in Y; auto. destruct (below_read (snd p) true 0 t r v (nl ++ rest) HP VC VCL T) as (-> & W' & BW & ->); [now apply lower_lines; [exact bl_nl|]|exact HB|exact Y|].
      split; [now rewrite <- (vnorm_id _ VC)|]. exists (W' ++ nl). split; [apply bl_app; [exact BW|exact bl_nl]|now rewrite <- app_assoc].
    + exfalso. pose proof (vtidy_flat (snd p) T VL) as TV. pose proof (text_begins (snd p) ind (proj1 TV) (proj2 TV)) as BT.
      assert (EV : V = RtProps2.gap (snd p) ++ text true (snd p) ind ++ nl) by (unfold V, verbose_line in *; destruct (d_line (snd p)); (reflexivity || discriminate)). rewrite EV, <- !app_assoc in Y.
      apply span_eq with (f := blank) in Y as [_ Y]; [|exact W3|destruct He' as [->| ->]; reflexivity|unfold RtProps2.gap; destruct (drops (snd p)); reflexivity|now apply stops_space_blank, begins_space, SyntaxProps2.begins_app].
      destruct (text true (snd p) ind) as [|c z]; [contradiction|]. destruct BT as [BT _]. destruct He' as [->| ->]; cbn [app] in Y; injection Y as <- _; discriminate.
Qed.

Definition entry_pieces (name : str) (m : list (dk * dk)) : list piece :=
  let it p := It_entry None name (norm (fst p)) (vnorm (snd p)) in
  match m with p :: m => (nl, entry_T name p, it p) :: map (fun p => ([], entry_T name p, it p)) m | [] => [] end.
Definition at_col (n : nat) (e : str * dk) : nat := (4 * n + (length (fst e) + 3))%nat.
Lemma direct_piece n (e : str * dk) : name_ok (fst e) = true -> tidy (snd e) -> piece_ok n (field_text (at_col n) e ++ nl) (It_field (fst e) (norm (snd e))).
Proof.
  intros N TD. assert (O : only (field_at (value_at false)) (field_text (at_col n)) read_field e).
  { apply field_only; [apply value_at_begins|destruct (fst e); [discriminate N|exact N]|]. apply exactly_only with (I := fun x => text true x (at_col n e)). apply text_exactly; [apply TD..|discriminate]. }
  destruct O as [OB OX]. split; [now apply SyntaxProps2.begins_app|]. intros t r i' rest _ HA E. rewrite <- app_assoc in E.
  assert (FF : exists c Z, field_text (at_col n) e = c :: Z /\ name_char c = true).
  { apply name_ok_spec in N as [NE N]. unfold field_text. destruct (fst e) as [|c Z]; [congruence|]. cbn [forallb] in N. apply andb_true_iff in N as [C _]. cbn [app]. eauto. }
  destruct FF as (c & Z & EF & C). destruct (item_named _ _ _ _ c (Z ++ nl ++ rest) HA C) as (name & v & -> & F); [rewrite E, EF; reflexivity|].
  destruct (OX _ _ _ (nl ++ rest) ltac:(now apply follow_char) F E) as [-> X]. unfold read_field in X. injection X as -> ->. apply app_inv_head in E. split; [reflexivity|]. exists nl. split; [exact bl_nl|exact E].
Qed.

(** ** fields *)
Lemma nl_shift {A} (B : A -> str) l : nl ++ concat (map (fun y => B y ++ nl) l) = concat (map (fun y => nl ++ B y) l) ++ nl.
Proof. induction l as [|y l IH]; [now rewrite app_nil_r|]. cbn [map concat]. rewrite <- !app_assoc, IH. reflexivity. Qed.
Lemma field_pieces outer n name x : (outer = true -> n = O) -> name_ok name = true -> has_pieces x -> Forall has_pieces (d_children (d_val x)) -> vtidy x -> field_clear outer (name, x) = true ->
  exists ps, (forall acc, fstep (4 * n) acc (name, x) = acc ++ concat (map (render n) ps)) /\ Forall (piece_read n) ps /\ ps <> [] /\
    Forall (fun i => item_name i = Some name) (map snd ps) /\ value_of name (map snd ps) = vfield x /\
    (seen_first [(name, x)] = true -> forall rest, verbose_first (concat (map (render n) ps) ++ rest) = true) /\
    (titled x || negb (starts_with (s "str") name) = true -> keyless (concat (map (render n) ps)) = true).
Proof.
  intros OU N HP HC T FC. destruct (titled x) eqn:TI.
  2:{ pose proof (direct_line x T TI) as V. pose proof (vtidy_flat x T V) as TD. exists [([], field_text (at_col n) (name, x) ++ nl, It_field name (norm x))]. cbn [map concat snd]. unfold render. cbn [fst snd]. rewrite !app_nil_r. cbn [app].
    pose proof (name_ok_spec name N) as [NE N2].
    split; [|split; [|split; [|split; [|split; [|split]]]]].
    - intros acc. assert (X : FmtText.cut x (acc ++ sp (4 * n) ++ name ++ s " = ") = acc ++ sp (4 * n) ++ name ++ s " =" ++ RtProps2.gap x).
      { change (s " = ") with (s " =" ++ [32]). rewrite !app_assoc, cut_space. now rewrite <- !app_assoc. }
      unfold field_text, at_col. cbn [fst snd]. transitivity (FmtText.cut x (acc ++ sp (4 * n) ++ name ++ s " = ") ++ text true x (4 * n + (length name + 3)) ++ nl); [|rewrite X, <- !app_assoc; reflexivity].
      destruct x as [f id v]. unfold verbose_line, d_line in V. cbn [d_fmt] in V. cbn [fstep snd]. destruct (f_line f); [reflexivity..|discriminate].
    - constructor; [|constructor]. split; [constructor|]. cbn [fst snd]. exact (direct_piece n (name, x) N TD).
    - discriminate.
    - now repeat constructor.
    - rewrite (vfield_plain x V). apply value_field.
    - intros _ rest. unfold field_text. cbn [fst snd]. rewrite <- !app_assoc. pose proof (first_at [] (sp (4 * n)) (name ++ s " =" ++ RtProps2.gap x ++ text true x (at_col n (name, x)) ++ nl ++ rest) BL_none (sp_blanks _) (names_space name _ N2 NE)) as Y. cbn [app] in Y. rewrite Y.
      unfold verbose_start. cbn [s map list_ascii_of_string app]. rewrite (names_assign name _ N2). now rewrite !orb_true_r.
    - cbn [orb]. intros NS. unfold field_text. cbn [fst snd]. rewrite <- !app_assoc. unfold keyless. rewrite skip_blanks_app by apply sp_blanks.
      destruct name as [|c nm]; [congruence|]. set (name := c :: nm) in *. set (Z := s " =" ++ _). 
      assert (SB : Grammar.skip_blanks (name ++ Z) = name ++ Z) by (apply skip_blanks_id; apply stops_space_blank; now apply names_space). rewrite SB.
      assert (TK : take_while name_char (name ++ Z) = (name, Z)) by (apply take_while_spec; [exact N2|reflexivity]).
      change (name ++ Z) with (c :: nm ++ Z) at 1. cbv iota beta. apply orb_true_iff. right. change (c :: nm ++ Z) with (name ++ Z). rewrite TK, NS. reflexivity. }
  assert (V : verbose_line x = true) by (unfold titled in TI; now apply andb_true_iff in TI as [TI _]).
  assert (L : d_line x = Verbose) by (unfold verbose_line in V; destruct (d_line x); (reflexivity || discriminate)).
  unfold field_clear in FC. cbn [snd] in FC. destruct x as [f id v]. pose proof L as EL. unfold d_line in EL. cbn [d_fmt] in EL. rewrite EL in FC. unfold titled in TI. cbn [d_val] in TI. rewrite V in TI. cbn [andb] in TI. destruct v as [| | | | | |m|l|m]; try discriminate.
  - set (x := DK f id (VCntr m)) in *. assert (VC : verbose_cntr x = true) by (unfold verbose_cntr, cntr_node; rewrite V; reflexivity).
    exists [(nl, s "[" ++ name ++ id_part (shown_id x) ++ s "]" ++ nl ++ text false x (4 * n + 4), It_field name (vnorm x))]. cbn [map concat snd]. unfold render. cbn [fst snd]. rewrite !app_nil_r.
    split; [|split; [|split; [|split; [|split; [|split]]]]].
    + intros acc. unfold x at 1. cbn [fstep snd]. rewrite EL. unfold id_part, x, shown_id. cbn [d_fmt d_id]. destruct (f_id f); [destruct id|]; rewrite <- ?app_assoc; reflexivity.
    + constructor; [|constructor]. split; [exact bl_nl|]. cbn [fst snd]. now apply section_piece.
    + discriminate.
    + now repeat constructor.
    + rewrite value_field. unfold x. cbn [vfield]. now rewrite EL.
    + unfold seen_first. rewrite VC. cbn [negb orb]. intros H rest. apply andb_true_iff in H as [H1 H2]. destruct (shown_id x); [discriminate|]. cbn [id_part app]. rewrite <- !app_assoc.
      rewrite (first_at nl (sp (4 * n)) (s "[" ++ name ++ s "]" ++ nl ++ text false x (4 * n + 4) ++ rest) bl_nl (sp_blanks _) eq_refl). unfold verbose_start. rewrite bracketed_name by exact H2. now rewrite !orb_true_r.
    + reflexivity.
  - apply andb_true_iff in FC as [NE FC]. rewrite forallb_forall in FC. set (x := DK f id (VSeq l)) in *. pose proof (vtidy_kids x T) as TK. unfold x in TK, HC. cbn [d_val d_children] in TK, HC.
    set (B := fun y => s "[[" ++ name ++ s "]]" ++ nl ++ below n y). exists (map (fun y => (nl, B y, It_elem None name (vnorm y))) l). rewrite !map_map. cbn [snd].
    assert (ER : map (fun y => render n (nl, B y, It_elem None name (vnorm y))) l = map (fun y => nl ++ sp (4 * n) ++ B y) l) by reflexivity. rewrite ER.
    split; [|split; [|split; [|split; [|split; [|split]]]]].
    + intros acc. unfold x. cbn [fstep]. rewrite EL. rewrite (fold_concat _ (fun y => (sp (4 * n) ++ B y) ++ nl)).
      * rewrite <- app_assoc, nl_shift, app_assoc. change nl with [10] at 2. now rewrite pop_app_last.
      * intros a y Hy. specialize (FC y Hy). apply andb_true_iff in FC as [D C]. apply negb_true_iff in D. unfold FmtText.cut. rewrite D. unfold B, below. cbv zeta.
        destruct (verbose_cntr y) eqn:VC.
        -- unfold verbose_cntr, verbose_line in VC. apply andb_true_iff in VC as [VC _]. destruct (d_line y); try discriminate. now rewrite <- !app_assoc.
        -- unfold plain_elem in C. rewrite !andb_true_iff, !negb_true_iff in C. destruct C as [[C _] _]. unfold verbose_line in C. destruct (d_line y); try discriminate; now rewrite <- !app_assoc.
    + apply Forall_map, Forall_forall. intros y Hy. rewrite Forall_forall in *. specialize (FC y Hy). apply andb_true_iff in FC as [_ C]. split; [exact bl_nl|]. cbn [fst snd]. apply elem_piece; auto.
    + destruct l; discriminate.
    + apply Forall_map, Forall_forall. reflexivity.
    + unfold x. cbn [vfield]. rewrite EL. apply value_elems. destruct l; discriminate.
    + intros _ rest. destruct l as [|y l]; [discriminate|]. cbn [map concat]. unfold B at 1. rewrite <- !app_assoc. now rewrite (first_at nl (sp (4 * n)) (s "[[" ++ _) bl_nl (sp_blanks _) eq_refl).
    + intros _. destruct l; [discriminate|reflexivity].
  - rewrite !andb_true_iff in FC. destruct FC as [[OO NE] FC]. specialize (OU OO). subst n. rewrite forallb_forall in FC. set (x := DK f id (VMap m)) in *. pose proof (vtidy_kids x T) as TK. unfold x in TK, HC. cbn [d_val d_children] in TK, HC.
    apply Forall_entries in TK, HC. set (it := fun p : dk * dk => It_entry None name (norm (fst p)) (vnorm (snd p))).
    exists (entry_pieces name m).
    assert (ES : map snd (entry_pieces name m) = map it m) by (destruct m as [|p m]; [reflexivity|cbn [entry_pieces map snd]; now rewrite map_map]).
    assert (EC : concat (map (render 0) (entry_pieces name m)) = nl ++ concat (map (entry_T name) m)) by (destruct m as [|p m]; [discriminate|cbn [entry_pieces map concat]; rewrite map_map; reflexivity]).
    rewrite ES, EC. split; [|split; [|split; [|split; [|split; [|split]]]]].
    + intros acc. unfold x. cbn [fstep]. rewrite EL. change (4 * 0)%nat with 0%nat. rewrite (fold_concat _ (entry_T name)); [now rewrite <- app_assoc|].
      intros a p Hp. specialize (FC p Hp). unfold entry_clear in FC. rewrite !andb_true_iff, negb_true_iff in FC. destruct FC as [[_ D] C]. apply entry_step; [exact D|].
      intros V'. rewrite V' in C. apply andb_true_iff in C as [C _]. now apply cntr_drops.
    + assert (G : forall w, blank_lines w -> forall p, In p m -> piece_read 0 (w, entry_T name p, it p)).
      { intros w Hw p Hp. rewrite Forall_forall in *. split; [exact Hw|]. cbn [fst snd]. apply entry_piece; [exact N|apply (HC p Hp)|apply (TK p Hp)|apply (TK p Hp)|now apply FC]. }
      destruct m as [|p m]; [discriminate|]. constructor; [apply G; [exact bl_nl|now left]|]. apply Forall_map, Forall_forall. intros q Hq. apply G; [constructor|now right].
    + destruct m; discriminate.
    + apply Forall_map, Forall_forall. reflexivity.
    + unfold x. cbn [vfield]. rewrite EL. apply value_entries. destruct m; discriminate.
    + intros _ rest. destruct m as [|p m]; [discriminate|]. cbn [map concat]. unfold entry_T at 1. cbv zeta. rewrite <- !app_assoc. etransitivity; [exact (first_at nl [] (s "[[" ++ _) bl_nl eq_refl eq_refl)|reflexivity].
    + reflexivity.
Qed.
Lemma fields_pieces outer n m : (outer = true -> n = O) -> NoDup (map fst m) -> Forall (fun e => name_ok (fst e) = true /\ has_pieces (snd e) /\ Forall has_pieces (d_children (d_val (snd e))) /\ vtidy (snd e)) m -> forallb (field_clear outer) m = true ->
  exists ps, (forall acc, fold_left (fstep (4 * n)) m acc = acc ++ concat (map (render n) ps)) /\ Forall (piece_read n) ps /\
    (forall i, In i (map snd ps) -> item_name i <> None) /\ gathers (map snd ps) (map (fun e => (fst e, vfield (snd e))) m) /\
    (seen_first m = true -> forall rest, verbose_first (concat (map (render n) ps) ++ rest) = true) /\
    (match m with e :: _ => titled (snd e) || negb (starts_with (s "str") (fst e)) | [] => false end = true -> keyless (concat (map (render n) ps)) = true).
Proof.
  intros OU ND F C. induction F as [|[name x] m (N & HP & HC & T) F IH].
  - exists []. cbn [map concat fold_left]. split; [intros; now rewrite app_nil_r|]. split; [constructor|]. split; [contradiction|]. split; [apply gathers_nil|]. split; discriminate.
  - cbn [fst snd forallb map] in *. apply andb_true_iff in C as [C1 C2]. inversion_clear ND as [|? ? ND1 ND2].
    destruct (IH ND2 C2) as (qs & EQ & FQ & NQ & GQ & _ & _). destruct (field_pieces outer n name x OU N HP HC T C1) as (ps & EP & FP & NE & IP & VP & SP & KP).
    exists (ps ++ qs). rewrite !map_app, concat_app. split; [|split; [|split; [|split; [|split]]]].
    + intros acc. cbn [fold_left]. rewrite EP, EQ. now rewrite <- app_assoc.
    + now apply Forall_app.
    + intros i Hi. apply in_app_or in Hi as [Hi|Hi]; [|now apply NQ]. rewrite Forall_forall in IP. rewrite (IP i Hi). discriminate.
    + apply gathers_cons; auto; [destruct ps; [congruence|discriminate]|]. rewrite map_map. exact ND1.
    + intros H rest. rewrite <- app_assoc. now apply SP.
    + intros H. apply keyless_app. now apply KP.
Qed.
Lemma all_pieces d : has_pieces d /\ Forall has_pieces (d_children (d_val d)).
Proof.
  induction d as [f id v IH] using dk_ind'. split; [|cbn [d_val]; eapply Forall_impl; [|exact IH]; intros a [H _]; exact H].
  intros top outer n VC VL OU T. unfold verbose_cntr, verbose_line, d_line, cntr_node in VC. cbn [d_fmt d_val] in VC. apply andb_true_iff in VC as [L C].
  destruct v as [| | | | | |m| |]; try discriminate. destruct (f_line f) eqn:EL; try discriminate. clear L C.
  rewrite vclear_verbose in VL by exact EL. rewrite !andb_true_iff in VL. destruct VL as [[NE FO] F]. pose proof (vtidy_kids _ T) as TK. cbn [d_val d_children] in TK, IH. rewrite Forall_map in TK, IH.
  destruct T as (TC & _ & TS). apply sorted_kids in TS as [TS _]. apply all_here in TC. unfold clear_node, shown_id in TC. cbn [d_val d_id d_fmt] in TC. apply andb_true_iff in TC as [TI TN].
  assert (FW : Forall (fun e : str * dk => name_ok (fst e) = true /\ has_pieces (snd e) /\ Forall has_pieces (d_children (d_val (snd e))) /\ vtidy (snd e)) m).
  { rewrite forallb_forall in TN. rewrite Forall_forall in *. intros e He. specialize (IH e He). specialize (TN e He). split; [|split; [|split]]; [destruct e as [[|c nm] y]; [discriminate TN|exact TN]|apply IH|apply IH|now apply TK]. }
  destruct (fields_pieces outer n m OU (sorted_names m TS) FW F) as (ps & EP & FP & NP & GP & SP & KP).
  rewrite vnorm_verbose by exact EL. rewrite !text_verbose by exact EL. unfold shown_id. cbn [d_fmt d_id kval].
  destruct (if f_id f then id else None) as [i|] eqn:SI.
  2:{ rewrite !EP. assert (X : forall top, match f_id f && top with true => match id with Some i => sp (4 * n) ++ s ":" ++ i ++ nl | None => [] end | false => [] end = []) by (intros []; destruct (f_id f), id; (reflexivity || discriminate)).
      rewrite !X. rewrite andb_false_r in FO. cbn [orb app] in *. exists ps. split; [reflexivity|]. split; [exact FP|]. split; [auto|]. split.
      - unfold keyless_first, shown_id. cbn [d_val d_fmt d_id]. destruct m as [|[name x] m]; [discriminate|]. intros H _. rewrite SI in H. unfold verbose_line, d_line in H. cbn [d_fmt] in H. rewrite EL in H. apply KP. exact H.
      - rewrite (container_plain _ _ NP GP). destruct top; reflexivity. }
  destruct (f_id f) eqn:FI; [|discriminate]. subst id. cbn [opt_ok] in TI. destruct top.
  2:{ cbn [andb]. rewrite !EP. cbn [andb orb] in FO. cbn [app]. exists ps. split; [reflexivity|]. split; [exact FP|]. split; [auto|]. split; [discriminate|]. apply (container_plain _ _ NP GP). }
  cbn [andb]. rewrite !EP. exists (([], s ":" ++ i ++ nl, It_id i) :: ps). cbn [map concat snd]. change (render n ([], s ":" ++ i ++ nl, It_id i)) with (sp (4 * n) ++ s ":" ++ i ++ nl). split; [reflexivity|]. split; [|split; [|split]].
  - constructor; [|exact FP]. split; [constructor|]. cbn [fst snd]. split; [split; reflexivity|]. intros t r i' rest _ HA E. rewrite <- !app_assoc in E.
    destruct (item_marked _ _ _ _ _ _ HA (id_plain_id _ TI) E) as [-> ->]. split; [reflexivity|]. exists nl. split; [exact bl_nl|reflexivity].
  - intros rest. rewrite <- !app_assoc. exact (first_at [] (sp (4 * n)) (s ":" ++ _) BL_none (sp_blanks _) eq_refl).
  - intros _ _. unfold keyless. rewrite <- !app_assoc, skip_blanks_app by apply sp_blanks. reflexivity.
  - apply (container_id i _ _ NP GP).
Qed.

(** ** documents *)
Theorem titles_read d k : verbose_cntr d = true -> vclear true true d = true -> vtidy d -> parse (text true d 0) = ParseOk k -> k = vnorm d.
Proof.
  intros VC VL T P. destruct (proj1 (all_pieces d) true true O VC VL ltac:(reflexivity) T) as (ps & EP & FP & VF & _ & CT). change (4 * 0)%nat with 0%nat in *.
  apply parse_iff in P. remember (text true d 0) as X eqn:EX. destruct P as [w1 t w2 k W1 HV W2 NV|t l w1 w2 HI W1 W2 _].
  - exfalso. specialize (VF []). rewrite app_nil_r in VF. congruence.
  - destruct (pieces_read O ps FP [] t (w1 ++ w2) l [] BL_none (or_introl BL_none) HI (rest_closes _ _ _ W1 W2)) as (-> & _); [now rewrite app_nil_r|].
    rewrite CT. symmetry. now apply vnorm_id.
Qed.
Theorem never_misread_titles k fm t k' : reachable k fm -> k_sorted k = true -> clear (deco (fm_fmts fm) 0 k) = true -> vclear true true (deco (fm_fmts fm) 0 k) = true ->
  fm_write fm [] = LRet t -> parse t = ParseOk k' -> k' = vnorm (deco (fm_fmts fm) 0 k).
Proof.
  intros R KS T VL E P. change (deco (fm_fmts fm) 0 k) with (shown k fm) in *. pose proof (clear_strings k fm T) as S.
  pose proof (reachable_finv k fm R) as FI. rewrite (fm_write_text k fm [] FI S) in E. injection E as <-.
  replace (FmtText.cut (shown k fm) []) with (@nil char) in P by (unfold FmtText.cut; destruct (drops _); reflexivity). cbn [app] in P.
  pose proof (shown_lay k fm R) as LY. unfold clear in T. rewrite each_all in T. rewrite <- (shown_undeco k fm) in KS.
  destruct (verbose_cntr (shown k fm)) eqn:VC; [apply titles_read; auto; now split|].
  rewrite (vnorm_plain _ VC). apply text_read; [|exact P]. split; [exact T|]. now apply vclear_plain in VL.
Qed.
