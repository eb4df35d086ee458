(** Exactly which documents with titles can be read: containers and documents. *)
From Verif Require Import ParseSpec PropertiesParse Base F64 Number NumberSpec BTree Value BaseProps BTreeProps ValueSpec ValueProps ValueProps2 Nom Parse ParseErr ParseProps Grammar VGrammar GrammarProps VGrammarProps VAssemble VGrammarProps2 Format FormatProps Nav NavSpec NavProps NavProps2 Fmt Formatter FmtText FmtSpec FmtProps FmtProps2 FormatterProps FormatterProps2 FormatterProps3 FormatterProps4 VSpec VRtProps VRtProps2 VRtProps3 VRtProps4 VRtProps5 Syntax SyntaxProps SyntaxProps2 SyntaxProps3 SyntaxProps4 RtSpec RtProps2 RtProps3 RtProps4 RtProps5 RtProps6 RtProps7 MisreadSpec MisreadProps MisreadProps2 MisreadProps3 MisreadProps4 MisreadProps5 MisreadProps6 MisreadProps7 LegibleSpec MisreadSpec2 MisreadProps8 MisreadProps9 LegibleSpec2 LegibleProps5 LegibleProps6.
From Verif Require LegibleProps LegibleProps2 LegibleProps3.
Open Scope N_scope.

Definition field_legible (x : dk) : bool :=
  match x with DK xf _ xv =>
    match f_line xf, xv with
    | Verbose, VCntr _ => tlegible x
    | Verbose, VSeq l => chain (fun y _ => negb (ends_bare y)) l && forallb tlegible l
    | Verbose, VMap l => chain (fun p => fun _ => negb (ends_bare (snd p))) l && forallb (fun p => tlegible (snd p)) l
    | _, _ => each legible_node x
    end
  end.
Lemma tlegible_verbose f id m : f_line f = Verbose -> tlegible (DK f id (VCntr m)) =
  chain (fun e e' => negb (field_ends_bare (snd e) && titled (snd e'))) m && forallb (fun e => field_legible (snd e)) m.
Proof. intros L. cbn [tlegible]. rewrite L. reflexivity. Qed.
Lemma field_legible_plain x : verbose_line x = false -> field_legible x = each legible_node x /\ field_ends_bare x = bare_number x.
Proof. intros V. destruct x as [f id v]. unfold verbose_line, d_line in V. cbn [d_fmt] in V. unfold field_legible, field_ends_bare. cbn [ends_bare]. destruct (f_line f); try discriminate; now destruct v. Qed.
Lemma pleg_one p o : pleg [p] o <-> legp p = true /\ (barep p = true -> o = false).
Proof. cbn [pleg next_open]. tauto. Qed.
Definition entry_lpieces (name : str) (m : list (dk * dk)) : list lpiece :=
  let it p := It_entry None name (norm (fst p)) (vnorm (snd p)) in
  let lb p := (tlegible (snd p), ends_bare (snd p)) in
  match m with p :: m => ((nl, entry_T name p, it p), lb p) :: map (fun p => (([], entry_T name p, it p), lb p)) m | [] => [] end.
Lemma pleg_same (ps qs : list lpiece) o : map (fun p => (bodyp p, snd p)) ps = map (fun p => (bodyp p, snd p)) qs -> pleg ps o <-> pleg qs o.
Proof.
  revert qs. induction ps as [|p ps IH]; intros [|q qs] E; try discriminate; [tauto|]. cbn [map] in E. injection E as E1 E2 E3. cbn [pleg]. rewrite (IH qs E3). unfold legp, barep. rewrite E2.
  assert (X : next_open ps o = next_open qs o) by (destruct ps, qs; try discriminate; [reflexivity|]; cbn [map] in E3; injection E3 as E3 _; cbn [next_open]; unfold popen; now rewrite E3). now rewrite X.
Qed.

Lemma field_lpieces outer n name x : (outer = true -> n = O) -> name_ok name = true -> has_lp x -> Forall has_lp (d_children (d_val x)) -> vtidy x -> field_clear outer (name, x) = true ->
  exists ps, (forall acc, fstep (4 * n) acc (name, x) = acc ++ rtext n ps) /\ Forall (good_piece n) ps /\ ps <> [] /\
    Forall (fun i => item_name i = Some name) (map itemp ps) /\ value_of name (map itemp ps) = vfield x /\
    (forall o, next_open ps o = titled x) /\ (forall o, pleg ps o <-> field_legible x = true /\ (field_ends_bare x = true -> o = false)).
Proof.
  intros OU N HP HC T FC. pose proof (proj1 (all_pieces x)) as AP. pose proof (proj2 (all_pieces x)) as AC. destruct (titled x) eqn:TI.
  2:{ pose proof (direct_line x T TI) as V. pose proof (vtidy_flat x T V) as TD. destruct (field_legible_plain x V) as [EL EB]. exists [(([], field_text (at_col n) (name, x) ++ nl, It_field name (norm x)), (each legible_node x, bare_number x))].
    unfold rtext. cbn [map concat fst snd]. unfold render. cbn [fst snd]. rewrite !app_nil_r. cbn [app].
    pose proof (name_ok_spec name N) as [NE N2].
    split; [|split; [|split; [|split; [|split; [|split]]]]].
    - intros acc. assert (X : FmtText.cut x (acc ++ sp (4 * n) ++ name ++ s " = ") = acc ++ sp (4 * n) ++ name ++ s " =" ++ RtProps2.gap x).
      { change (s " = ") with (s " =" ++ [32]). rewrite !app_assoc, cut_space. now rewrite <- !app_assoc. }
      unfold field_text, at_col. cbn [fst snd]. transitivity (FmtText.cut x (acc ++ sp (4 * n) ++ name ++ s " = ") ++ text true x (4 * n + (length name + 3)) ++ nl); [|rewrite X, <- !app_assoc; reflexivity].
      destruct x as [f id v]. unfold verbose_line, d_line in V. cbn [d_fmt] in V. cbn [fstep snd]. destruct (f_line f); [reflexivity..|discriminate].
    - constructor; [|constructor]. split; [split; [constructor|exact (direct_piece n (name, x) N TD)]|exact (direct_iff n (name, x) N TD)].
    - discriminate.
    - now repeat constructor.
    - rewrite (vfield_plain x V). apply value_field.
    - intros o. unfold next_open, popen, bodyp, field_text. cbn [fst snd]. clear -N NE N2. destruct name as [|c nm]; [congruence|]. destruct (name_first c nm N) as (A & M & _). cbn [app Grammar.opens].
      pose proof (names_space (c :: nm) [] N2 NE) as Y. cbn [app] in Y. unfold stops in Y. now rewrite Y.
    - intros o. rewrite pleg_one, EL, EB. reflexivity. }
  assert (V : verbose_line x = true) by (unfold titled in TI; now apply andb_true_iff in TI as [TI _]).
  assert (L : d_line x = Verbose) by (unfold verbose_line in V; destruct (d_line x); (reflexivity || discriminate)).
  unfold field_clear in FC. cbn [snd] in FC. destruct x as [f id v]. pose proof L as EL. unfold d_line in EL. cbn [d_fmt] in EL. rewrite EL in FC. unfold titled in TI. cbn [d_val] in TI. rewrite V in TI. cbn [andb] in TI. destruct v as [| | | | | |m|l|m]; try discriminate.
  - set (x := DK f id (VCntr m)) in *. assert (VC : verbose_cntr x = true) by (unfold verbose_cntr, cntr_node; rewrite V; reflexivity).
    exists [((nl, s "[" ++ name ++ id_part (shown_id x) ++ s "]" ++ nl ++ text false x (4 * n + 4), It_field name (vnorm x)), (tlegible x, ends_bare x))]. unfold rtext. cbn [map concat fst snd]. unfold render. cbn [fst snd]. rewrite !app_nil_r.
    split; [|split; [|split; [|split; [|split; [|split]]]]].
    + intros acc. unfold x at 1. cbn [fstep snd]. rewrite EL. unfold id_part, x, shown_id. cbn [d_fmt d_id]. destruct (f_id f); [destruct id|]; rewrite <- ?app_assoc; reflexivity.
    + constructor; [|constructor]. split; [split; [exact bl_nl|]|]; [now apply section_piece|now apply section_iff].
    + discriminate.
    + now repeat constructor.
    + etransitivity; [apply value_field|]. unfold x. cbn [vfield]. now rewrite EL.
    + reflexivity.
    + intros o. rewrite pleg_one. unfold legp, barep. cbn [fst snd]. unfold x at 3 4. cbn [field_legible field_ends_bare]. rewrite EL. reflexivity.
  - apply andb_true_iff in FC as [NE FC]. rewrite forallb_forall in FC. set (x := DK f id (VSeq l)) in *. pose proof (vtidy_kids x T) as TK. unfold x in TK, HC, AC. cbn [d_val d_children] in TK, HC, AC.
    set (B := fun y => s "[[" ++ name ++ s "]]" ++ nl ++ below n y). set (F := fun y => ((nl, B y, It_elem None name (vnorm y)), (tlegible y, ends_bare y)) : lpiece). exists (map F l). unfold rtext. rewrite !map_map.
    assert (ER : map (fun y => render n (fst (F y))) l = map (fun y => nl ++ sp (4 * n) ++ B y) l) by reflexivity. rewrite ER.
    split; [|split; [|split; [|split; [|split; [|split]]]]].
    + intros acc. unfold x. cbn [fstep]. rewrite EL. rewrite (fold_concat _ (fun y => (sp (4 * n) ++ B y) ++ nl)).
      * rewrite <- app_assoc, nl_shift, app_assoc. change nl with [10] at 2. now rewrite pop_app_last.
      * intros a y Hy. specialize (FC y Hy). apply andb_true_iff in FC as [D C]. apply negb_true_iff in D. unfold FmtText.cut. rewrite D. unfold B, below. cbv zeta.
        destruct (verbose_cntr y) eqn:VC.
        -- unfold verbose_cntr, verbose_line in VC. apply andb_true_iff in VC as [VC _]. destruct (d_line y); try discriminate. now rewrite <- !app_assoc.
        -- unfold plain_elem in C. rewrite !andb_true_iff, !negb_true_iff in C. destruct C as [[C _] _]. unfold verbose_line in C. destruct (d_line y); try discriminate; now rewrite <- !app_assoc.
    + apply Forall_map, Forall_forall. intros y Hy. rewrite Forall_forall in *. specialize (FC y Hy). apply andb_true_iff in FC as [_ C]. split; [split; [exact bl_nl|]|]; [apply elem_piece; auto|apply elem_iff; auto].
    + destruct l; discriminate.
    + apply Forall_map, Forall_forall. reflexivity.
    + unfold x. cbn [vfield]. rewrite EL. apply value_elems. destruct l; discriminate.
    + intros o. destruct l; [discriminate|reflexivity].
    + intros o. rewrite pleg_map by reflexivity. unfold x. cbn [field_legible field_ends_bare]. rewrite EL, andb_true_iff.
      change (fun y => legp (F y)) with (fun y => tlegible y). change (fun y => barep (F y)) with (fun y => ends_bare y). change (fun y (_ : dk) => negb (barep (F y))) with (fun y (_ : dk) => negb (ends_bare y)).
      change (forallb (fun y => tlegible y) l) with (forallb tlegible l). change (map (fun y => ends_bare y) l) with (map ends_bare l). tauto.
  - rewrite !andb_true_iff in FC. destruct FC as [[OO NE] FC]. specialize (OU OO). subst n. rewrite forallb_forall in FC. set (x := DK f id (VMap m)) in *. pose proof (vtidy_kids x T) as TK. unfold x in TK, HC, AC. cbn [d_val d_children] in TK, HC, AC.
    apply Forall_entries in TK, HC, AC. set (it := fun p : dk * dk => It_entry None name (norm (fst p)) (vnorm (snd p))).
    exists (entry_lpieces name m).
    assert (ES : map itemp (entry_lpieces name m) = map it m) by (destruct m as [|p m]; [reflexivity|cbn [entry_lpieces map]; now rewrite map_map]).
    assert (EC : rtext 0 (entry_lpieces name m) = nl ++ concat (map (entry_T name) m)) by (unfold rtext; destruct m as [|p m]; [discriminate|cbn [entry_lpieces map concat]; rewrite !map_map; reflexivity]).
    rewrite ES, EC. split; [|split; [|split; [|split; [|split; [|split]]]]].
    + intros acc. unfold x. cbn [fstep]. rewrite EL. change (4 * 0)%nat with 0%nat. rewrite (fold_concat _ (entry_T name)); [now rewrite <- app_assoc|].
      intros a p Hp. specialize (FC p Hp). unfold entry_clear in FC. rewrite !andb_true_iff, negb_true_iff in FC. destruct FC as [[_ D] C]. apply entry_step; [exact D|].
      intros V'. rewrite V' in C. apply andb_true_iff in C as [C _]. now apply cntr_drops.
    + assert (G : forall w, blank_lines w -> forall p, In p m -> good_piece 0 ((w, entry_T name p, it p), (tlegible (snd p), ends_bare (snd p)))).
      { intros w Hw p Hp. rewrite Forall_forall in *. split; [split; [exact Hw|]|]; cbn [fst snd].
        - apply entry_piece; [exact N|apply (AC p Hp)|apply (TK p Hp)|apply (TK p Hp)|now apply FC].
        - apply entry_iff; [exact N|apply (HC p Hp)|apply (TK p Hp)|apply (TK p Hp)|now apply FC]. }
      destruct m as [|p m]; [discriminate|]. constructor; [apply G; [exact bl_nl|now left]|]. apply Forall_map, Forall_forall. intros q Hq. apply G; [constructor|now right].
    + destruct m; discriminate.
    + apply Forall_map, Forall_forall. reflexivity.
    + unfold x. cbn [vfield]. rewrite EL. apply value_entries. destruct m; discriminate.
    + intros o. destruct m; [discriminate|reflexivity].
    + intros o. set (F := fun p => (([], entry_T name p, it p), (tlegible (snd p), ends_bare (snd p))) : lpiece).
      rewrite (pleg_same _ (map F m) o) by (destruct m as [|p m]; [reflexivity|]; cbn [entry_lpieces map]; rewrite !map_map; reflexivity). rewrite pleg_map by reflexivity. unfold x. cbn [field_legible field_ends_bare]. rewrite EL, andb_true_iff.
      change (fun y => legp (F y)) with (fun p : dk * dk => tlegible (snd p)). change (fun y => barep (F y)) with (fun p : dk * dk => ends_bare (snd p)). change (fun y (_ : dk * dk) => negb (barep (F y))) with (fun (p : dk * dk) (_ : dk * dk) => negb (ends_bare (snd p))). tauto.
Qed.
Lemma fields_lpieces outer n m : (outer = true -> n = O) -> NoDup (map fst m) -> Forall (fun e => name_ok (fst e) = true /\ has_lp (snd e) /\ Forall has_lp (d_children (d_val (snd e))) /\ vtidy (snd e)) m -> forallb (field_clear outer) m = true ->
  exists ps, (forall acc, fold_left (fstep (4 * n)) m acc = acc ++ rtext n ps) /\ Forall (good_piece n) ps /\
    (forall i, In i (map itemp ps) -> item_name i <> None) /\ gathers (map itemp ps) (map (fun e => (fst e, vfield (snd e))) m) /\
    (forall o, next_open ps o = match m with e :: _ => titled (snd e) | [] => o end) /\
    (forall o, pleg ps o <-> (chain (fun e e' => negb (field_ends_bare (snd e) && titled (snd e'))) m && forallb (fun e => field_legible (snd e)) m = true) /\ (last (map (fun e => field_ends_bare (snd e)) m) false = true -> o = false)).
Proof.
  intros OU ND F C. induction F as [|[name x] m (N & HP & HC & T) F IH].
  - exists []. unfold rtext. cbn [map concat fold_left]. split; [intros; now rewrite app_nil_r|]. split; [constructor|]. split; [contradiction|]. split; [apply gathers_nil|]. split; [reflexivity|]. intros o. cbn. intuition discriminate.
  - cbn [fst snd forallb map] in *. apply andb_true_iff in C as [C1 C2]. inversion_clear ND as [|? ? ND1 ND2].
    destruct (IH ND2 C2) as (qs & EQ & FQ & NQ & GQ & OQ & PQ). destruct (field_lpieces outer n name x OU N HP HC T C1) as (ps & EP & FP & NE & IP & VP & OP & PP).
    exists (ps ++ qs). unfold rtext in *. rewrite !map_app, concat_app. split; [|split; [|split; [|split; [|split]]]].
    + intros acc. cbn [fold_left]. rewrite EP, EQ. now rewrite <- app_assoc.
    + now apply Forall_app.
    + intros i Hi. apply in_app_or in Hi as [Hi|Hi]; [|now apply NQ]. rewrite Forall_forall in IP. rewrite (IP i Hi). discriminate.
    + apply gathers_cons; auto; [destruct ps; [congruence|discriminate]|]. rewrite map_map. exact ND1.
    + intros o. destruct ps as [|q ps]; [congruence|]. exact (OP o).
    + intros o. rewrite pleg_app, PP, PQ, OQ. destruct m as [|e m]; [cbn; rewrite ?andb_true_r; intuition discriminate|]. set (m' := e :: m).
      change (chain (fun e e' : str * dk => negb (field_ends_bare (snd e) && titled (snd e'))) ((name, x) :: m')) with (negb (field_ends_bare x && titled (snd e)) && chain (fun e e' : str * dk => negb (field_ends_bare (snd e) && titled (snd e'))) m').
      change (last (field_ends_bare x :: map (fun e : str * dk => field_ends_bare (snd e)) m') false) with (last (map (fun e : str * dk => field_ends_bare (snd e)) m') false).
      rewrite !andb_true_iff, negb_true_iff. destruct (field_ends_bare x), (titled (snd e)); cbn [andb]; intuition congruence.
Qed.
Lemma all_lp d : has_lp d /\ Forall has_lp (d_children (d_val d)).
Proof.
  induction d as [f id v IH] using dk_ind'. split; [|cbn [d_val]; eapply Forall_impl; [|exact IH]; intros a [H _]; exact H].
  intros top outer n VC VL OU T. unfold verbose_cntr, verbose_line, d_line, cntr_node in VC. cbn [d_fmt d_val] in VC. apply andb_true_iff in VC as [L C].
  destruct v as [| | | | | |m| |]; try discriminate. destruct (f_line f) eqn:EL; try discriminate. clear L C.
  rewrite vclear_verbose in VL by exact EL. rewrite !andb_true_iff in VL. destruct VL as [[NE FO] F]. pose proof (vtidy_kids _ T) as TK. cbn [d_val d_children] in TK, IH. rewrite Forall_map in TK, IH.
  destruct T as (TC & _ & TS). apply sorted_kids in TS as [TS _]. apply all_here in TC. unfold clear_node, shown_id in TC. cbn [d_val d_id d_fmt] in TC. apply andb_true_iff in TC as [TI TN].
  assert (FW : Forall (fun e : str * dk => name_ok (fst e) = true /\ has_lp (snd e) /\ Forall has_lp (d_children (d_val (snd e))) /\ vtidy (snd e)) m).
  { rewrite forallb_forall in TN. rewrite Forall_forall in *. intros e He. specialize (IH e He). specialize (TN e He). split; [|split; [|split]]; [destruct e as [[|c nm] y]; [discriminate TN|exact TN]|apply IH|apply IH|now apply TK]. }
  destruct (fields_lpieces outer n m OU (sorted_names m TS) FW F) as (ps & EP & FP & NP & GP & OP & PP).
  rewrite vnorm_verbose by exact EL. rewrite !text_verbose by exact EL. rewrite (tlegible_verbose f id m EL), (ends_verbose f id m EL). unfold shown_id. cbn [d_fmt d_id kval].
  destruct (if f_id f then id else None) as [i|] eqn:SI.
  2:{ rewrite !EP. assert (X : forall top, match f_id f && top with true => match id with Some i => sp (4 * n) ++ s ":" ++ i ++ nl | None => [] end | false => [] end = []) by (intros []; destruct (f_id f), id; (reflexivity || discriminate)).
      rewrite !X. cbn [app] in *. exists ps. split; [reflexivity|]. split; [exact FP|]. split; [|exact PP]. rewrite (container_plain _ _ NP GP). destruct top; reflexivity. }
  destruct (f_id f) eqn:FI; [|discriminate]. subst id. cbn [opt_ok] in TI. destruct top.
  2:{ cbn [andb]. rewrite !EP. cbn [app]. exists ps. split; [reflexivity|]. split; [exact FP|]. split; [|exact PP]. apply (container_plain _ _ NP GP). }
  cbn [andb]. rewrite !EP. exists ((([], s ":" ++ i ++ nl, It_id i), (true, false)) :: ps). unfold rtext. cbn [map concat fst snd]. change (render n ([], s ":" ++ i ++ nl, It_id i)) with (sp (4 * n) ++ s ":" ++ i ++ nl). split; [reflexivity|]. split; [|split].
  - constructor; [|exact FP]. split; [split; [constructor|]|]; cbn [fst snd].
    + split; [split; reflexivity|]. intros t r i' rest _ HA E. rewrite <- !app_assoc in E.
      destruct (item_marked _ _ _ _ _ _ HA (id_plain_id _ TI) E) as [-> ->]. split; [reflexivity|]. exists nl. split; [exact bl_nl|reflexivity].
    + intros rest _. split; [split; [reflexivity|discriminate]|]. intros _ _. exists (s ":" ++ i), nl. unfold bodyp, itemp. cbn [fst snd]. split; [now rewrite <- app_assoc|]. split; [exact bl_nl|].
      apply (A_id n [] i (nl ++ rest)); [reflexivity|now apply id_plain_id|reflexivity].
  - apply (container_id i _ _ NP GP).
  - intros o. cbn [pleg]. rewrite PP. unfold legp, barep. cbn [fst snd]. intuition discriminate.
Qed.

(** ** documents *)
Theorem titles_decided d : verbose_cntr d = true -> vclear true true d = true -> vtidy d ->
  if tlegible d then parse (text true d 0) = ParseOk (vnorm d) else exists e, parse (text true d 0) = ParseErr e.
Proof.
  intros VC VL T. destruct (proj1 (all_pieces d) true true O VC VL ltac:(reflexivity) T) as (_ & _ & _ & VF & _). destruct (proj1 (all_lp d) true true O VC VL ltac:(reflexivity) T) as (ps & EP & FP & CT & PI). change (4 * 0)%nat with 0%nat in *.
  specialize (PI false). destruct (tlegible d) eqn:TL.
  - destruct (items_fwd O ps FP [] [] BL_none (or_introl BL_none)) as (t & W & E & BW & HI); [now apply PI|]. cbn [app] in E. rewrite <- EP in E. rewrite app_nil_r in HI. rewrite (vnorm_id d VC), <- CT.
    apply parse_iff. rewrite E, <- (app_nil_r W). apply Syntax_items; [now rewrite app_nil_r|exact BW|reflexivity|]. rewrite app_nil_r, <- E. specialize (VF []). now rewrite app_nil_r in VF.
  - destruct (C17_parse_total (text true d 0)) as [[k P]|[e P]]; [|now exists e]. exfalso. apply parse_iff in P. remember (text true d 0) as X eqn:EX. destruct P as [w1 t w2 k W1 HV W2 NV|t l w1 w2 HI W1 W2 _].
    + specialize (VF []). rewrite app_nil_r in VF. congruence.
    + assert (Y : pleg ps (Grammar.opens [])) by (apply (items_back O ps FP [] t (w1 ++ w2) l [] BL_none (or_introl BL_none) HI (rest_closes _ _ _ W1 W2)); now rewrite app_nil_r).
      apply PI in Y as [Y _]. discriminate.
Qed.
Theorem decided_titles k fm : reachable k fm -> k_sorted k = true -> clear (deco (fm_fmts fm) 0 k) = true -> vclear true true (deco (fm_fmts fm) 0 k) = true ->
  exists t, fm_write fm [] = LRet t /\
    if (let d := deco (fm_fmts fm) 0 k in if verbose_cntr d then tlegible d else legible d) then parse t = ParseOk (vnorm (deco (fm_fmts fm) 0 k)) else exists e, parse t = ParseErr e.
Proof.
  intros R KS T VL. change (deco (fm_fmts fm) 0 k) with (shown k fm) in *. cbv zeta. pose proof (clear_strings k fm T) as S.
  pose proof (reachable_finv k fm R) as FI. pose proof (fm_write_text k fm [] FI S) as E.
  replace (FmtText.cut (shown k fm) []) with (@nil char) in E by (unfold FmtText.cut; destruct (drops _); reflexivity). cbn [app] in E.
  exists (text true (shown k fm) 0). split; [exact E|]. pose proof (shown_lay k fm R) as LY. unfold clear in T. rewrite each_all in T. rewrite <- (shown_undeco k fm) in KS.
  destruct (verbose_cntr (shown k fm)) eqn:VC; [apply titles_decided; auto; now split|].
  rewrite (vnorm_plain _ VC). apply LegibleProps3.text_decided. split; [exact T|]. now apply vclear_plain in VL.
Qed.
Theorem accepted_iff_titles k fm t : reachable k fm -> k_sorted k = true -> clear (deco (fm_fmts fm) 0 k) = true -> vclear true true (deco (fm_fmts fm) 0 k) = true -> verbose_cntr (deco (fm_fmts fm) 0 k) = true ->
  fm_write fm [] = LRet t -> ((exists k', parse t = ParseOk k') <-> tlegible (deco (fm_fmts fm) 0 k) = true).
Proof.
  intros R K T V VC E. destruct (decided_titles k fm R K T V) as (t' & E' & D). rewrite E in E'. injection E' as <-. cbv zeta in D. rewrite VC in D. destruct (tlegible _).
  - split; [reflexivity|]. intros _. eauto.
  - split; [|discriminate]. intros [k' P]. destruct D as [e D]. congruence.
Qed.
