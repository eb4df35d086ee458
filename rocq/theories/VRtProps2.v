(** The texts of verbose containers are in the verbose grammar. *)
From Verif Require Import Base F64 Number BTree Value BaseProps BTreeProps ValueSpec ValueProps2 Nom Parse Grammar GrammarProps VGrammar VGrammarProps VAssemble VGrammarProps2 Nav Fmt FmtText FmtSpec FmtProps FmtProps2 RtSpec RtProps2 RtProps3 RtProps4 VSpec VRtProps.
Open Scope N_scope.

Definition fstep (col : nat) (acc : str) (e : str * dk) : str :=
  match e with (name, DK vf vid vv) =>
    match f_line vf, vv with
    | Verbose, VCntr _ =>
        acc ++ nl ++ sp col ++ s "[" ++ name ++
        (match f_id vf, vid with true, Some i => s ":" ++ i | _, _ => [] end) ++ s "]" ++ nl
        ++ text false (snd e) (col + 4)
    | Verbose, VSeq l =>
        pop (fold_left (fun acc x =>
               let acc := acc ++ sp col ++ s "[[" ++ name ++ s "]]" ++ nl in
               match d_line x with
               | Verbose => FmtText.cut x acc ++ text true x (col + 4) ++ nl
               | _ => FmtText.cut x (acc ++ sp col) ++ text true x col ++ nl ++ nl
               end) l (acc ++ nl))
    | Verbose, VMap m =>
        fold_left (fun acc e =>
          let acc := acc ++ s "[[" ++ name ++ s "]]" ++ nl in
          let kt := text true (fst e) col in
          match d_line (snd e) with
          | Verbose => FmtText.cut (snd e) (FmtText.cut (fst e) acc ++ kt ++ s ":" ++ nl) ++ text true (snd e) (col + 4) ++ nl
          | _ =>
              let ind := match d_line (fst e) with Inline => length kt + 2 - (if drops (fst e) then 1 else 0) | _ => 3 end%nat in
              FmtText.cut (snd e) (FmtText.cut (fst e) acc ++ kt ++ s ": ") ++ text true (snd e) (col + ind) ++ nl
          end) m (acc ++ nl)
    | _, _ => FmtText.cut (snd e) (acc ++ sp col ++ name ++ s " = ") ++ text true (snd e) (col + (length name + 3)) ++ nl
    end
  end.
Lemma text_verbose top f id m col : f_line f = Verbose -> text top (DK f id (VCntr m)) col =
  fold_left (fstep col) m (match f_id f && top, id with true, Some i => sp col ++ s ":" ++ i ++ nl | _, _ => [] end).
Proof. intros L. cbn [text]. rewrite L. reflexivity. Qed.

(** what is read back for a field *)
Definition vfield (x : dk) : kserd :=
  match x with DK xf _ xv =>
    match f_line xf, xv with
    | Verbose, VCntr _ => vnorm x
    | Verbose, VSeq l => Kserd None (VSeq (map vnorm l))
    | Verbose, VMap l => Kserd None (VMap (bt_inserts k_cmp (map (fun p => (norm (fst p), vnorm (snd p))) l)))
    | _, _ => norm x
    end
  end.
Lemma vnorm_verbose f id m : f_line f = Verbose -> vnorm (DK f id (VCntr m)) = Kserd (if f_id f then id else None) (VCntr (fields_of (map (fun e => (fst e, vfield (snd e))) m))).
Proof. intros L. cbn [vnorm]. rewrite L. reflexivity. Qed.
Lemma vnorm_plain d : verbose_cntr d = false -> vnorm d = norm d.
Proof. destruct d as [f id v]. unfold verbose_cntr, verbose_line, d_line, cntr_node. cbn [d_fmt d_val vnorm]. destruct (f_line f), v; (reflexivity || discriminate). Qed.
Lemma ends_plain d : verbose_cntr d = false -> ends_bare d = bare_number d.
Proof. destruct d as [f id v]. unfold verbose_cntr, verbose_line, d_line, cntr_node. cbn [d_fmt d_val ends_bare]. destruct (f_line f), v; (reflexivity || discriminate). Qed.
Lemma ends_verbose f id m : f_line f = Verbose -> ends_bare (DK f id (VCntr m)) = last (map (fun e => field_ends_bare (snd e)) m) false.
Proof. intros L. cbn [ends_bare]. rewrite L. reflexivity. Qed.
Lemma vsafe_plain top n d : verbose_cntr d = false -> vsafe top n d = plain_safe d && safe_root d.
Proof. destruct d as [f id v]. unfold verbose_cntr, verbose_line, d_line, cntr_node. cbn [d_fmt d_val vsafe]. destruct (f_line f), v; (reflexivity || discriminate). Qed.
Lemma cntr_drops d : verbose_cntr d = true -> drops d = false.
Proof. destruct d as [f [i|] v]; unfold verbose_cntr, cntr_node; cbn [d_val]; destruct v; rewrite ?andb_false_r; (reflexivity || discriminate). Qed.

(** ** titles *)
Lemma name_ok_spec name : name_ok name = true -> name <> [] /\ forallb name_char name = true.
Proof. destruct name; [discriminate|]. split; [discriminate|assumption]. Qed.
Lemma title_name name : name_ok name = true -> title name name None.
Proof. intros N. apply name_ok_spec in N as [N1 N2]. pose proof (Title [] name [] eq_refl N1 N2 eq_refl) as T. cbn [app] in T. now rewrite app_nil_r in T. Qed.
Lemma title_both name i : name_ok name = true -> is_id i = true -> title (name ++ s ":" ++ i) name (Some i).
Proof. intros N I. apply name_ok_spec in N as [N1 N2]. pose proof (Title_id [] name [] [] i [] eq_refl N1 N2 eq_refl eq_refl I eq_refl) as T. cbn [app] in T. now rewrite app_nil_r in T. Qed.
Lemma nl_eol : eol nl. Proof. now left. Qed.

Lemma plain_reads d : plain_safe d = true -> forall m col, (m = true -> d_line d = Inline) -> reads m (text true d col) (norm d) (bare_number d).
Proof. unfold plain_safe. rewrite !each_all. intros H. apply andb_true_iff in H as [S F]. now apply text_in_grammar. Qed.
Lemma plain_body n w d col : blanks w -> plain_safe d = true -> safe_root d = true -> body n (w ++ text true d col) (norm d) (bare_number d) false.
Proof.
  intros W P R. constructor; [exact W|now apply plain_reads|]. intros r L. unfold plain_safe in P. rewrite !each_all in P. apply andb_true_iff in P as [S F].
  pose proof (text_looks d S F R col r) as X. unfold looks in X. apply orb_false_iff in X as [X1 X2]. unfold verbose_start. rewrite X1, X2. cbn [orb]. rewrite orb_false_r.
  apply quiet_assigns. apply quiet_app; [now apply text_quiet|].
  unfold line_ends in L. destruct (skip_blanks_split r) as (w' & W' & ER). rewrite ER. unfold quiet. rewrite scan_app. replace (scan w') with (@None bool).
  - destruct (Grammar.skip_blanks r) as [|c u]; [discriminate|]. destruct (line_ending_cases _ L ltac:(discriminate)) as (e & z & [->| ->] & ->); discriminate.
  - symmetry. clear - W'. unfold blanks in W'. induction w' as [|c w IH]; [reflexivity|]. cbn [forallb] in W'. apply andb_true_iff in W' as [W1 W2]. cbn [scan]. rewrite IH by exact W2.
    unfold blank in W1. apply mem_In in W1. each_char W1.
Qed.

(** ** the induction hypothesis *)
Definition written (d : dk) : Prop := forall top n, vsafe top n d = true -> k_sorted (undeco d) = true -> verbose_cntr d = true ->
  exists t e l c, text top d (4 * n) = t ++ nl ++ e /\ blank_lines e /\ chunk n c t l (ends_bare d) /\ verbose_first t = true /\
    (keyless_first d = true -> top = true -> keyless t = true) /\ container l = Kserd (if top then shown_id d else None) (kval (vnorm d)).
Lemma container_body n t e l c b : blank_lines e -> chunk n c t l b -> verbose_first t = true -> body n t (container l) b true.
Proof. intros _ (V & _) F. now constructor. Qed.
Lemma vnorm_id d : verbose_cntr d = true -> vnorm d = Kserd (shown_id d) (kval (vnorm d)).
Proof.
  destruct d as [f id v]. unfold verbose_cntr, verbose_line, d_line, cntr_node, shown_id. cbn [d_fmt d_val d_id]. intros H. apply andb_true_iff in H as [H1 H2].
  destruct v; try discriminate. destruct (f_line f) eqn:L; try discriminate. now rewrite vnorm_verbose.
Qed.

(** ** elements *)
Definition elem_T (col : nat) (name : str) (y : dk) : str :=
  sp col ++ s "[[" ++ name ++ s "]]" ++ nl ++
  match d_line y with Verbose => text true y (col + 4) ++ nl | _ => sp (if drops y then col - 1 else col) ++ text true y col ++ nl ++ nl end.
Lemma elem_step col name acc y : (drops y = false \/ (0 < col)%nat /\ d_line y <> Verbose) ->
  (let acc := acc ++ sp col ++ s "[[" ++ name ++ s "]]" ++ nl in
   match d_line y with
   | Verbose => FmtText.cut y acc ++ text true y (col + 4) ++ nl
   | _ => FmtText.cut y (acc ++ sp col) ++ text true y col ++ nl ++ nl
   end) = acc ++ elem_T col name y.
Proof.
  intros H. unfold elem_T, FmtText.cut. destruct (drops y) eqn:D.
  - destruct H as [H|[H1 H2]]; [discriminate|]. destruct col as [|col]; [lia|]. cbv zeta. rewrite pop_sp. replace (S col - 1)%nat with col by lia.
    destruct (d_line y); [| |congruence]; now rewrite <- !app_assoc.
  - destruct (d_line y); cbv zeta; now rewrite <- !app_assoc.
Qed.
Definition padded (e : str) : Prop := exists e', e = e' ++ nl /\ blank_lines e'.
Lemma elem_lines n name y : name_ok name = true -> written y -> k_sorted (undeco y) = true ->
  vsafe true (S n) y && keyless_first y && (verbose_cntr y || negb (verbose_line y)) && (negb (drops y) || Nat.ltb 0 n) = true ->
  lines_of (sp (4 * n) ++ s "[[") padded (elem_T (4 * n) name) (fun y => It_elem None name (vnorm y)) ends_bare n (ch "[") y.
Proof.
  intros N W K H. rewrite !andb_true_iff in H. destruct H as [[[V KL] VC] D]. unfold elem_T. destruct (verbose_cntr y) eqn:C.
  - destruct (W true (S n) V K C) as (t & e & l & c & ET & E & CH & VF & KF & CT). rewrite <- (vnorm_id y C) in CT.
    assert (L : d_line y = Verbose) by (unfold verbose_cntr, verbose_line in C; destruct (d_line y); (reflexivity || discriminate)). 
    exists (sp (4 * n) ++ s "[[" ++ name ++ s "]]" ++ nl ++ t), (e ++ nl). split; [|split; [now apply bl_app; [|exact bl_nl]|split; [split; [now exists e|rewrite (app_assoc (sp _)); eexists; reflexivity]|]]].
    + rewrite L. replace (4 * n + 4)%nat with (4 * S n)%nat by lia. rewrite ET, <- !app_assoc. reflexivity.
    + change (sp (4 * n) ++ s "[[" ++ name ++ s "]]" ++ nl ++ t) with ([] ++ sp (4 * n) ++ ch "[" :: (s "[" ++ name ++ s "]]" ++ nl ++ t)).
      eapply chunk_item; [constructor| |reflexivity]. rewrite <- CT.
      apply (I_elem n name name None [] nl t _ _ true); [now apply title_name|reflexivity|exact nl_eol|eapply container_body; eassumption|auto].
  - assert (L : verbose_line y = false) by (destruct (verbose_line y); [discriminate|reflexivity]). rewrite vsafe_plain in V by exact C. apply andb_true_iff in V as [P R].
    set (w := sp (if drops y then 4 * n - 1 else 4 * n)). set (col := (4 * n)%nat).
    exists (sp col ++ s "[[" ++ name ++ s "]]" ++ nl ++ w ++ text true y col), nl. split; [|split; [exact bl_nl|split; [split; [exists []; split; [reflexivity|constructor]|rewrite (app_assoc (sp _)); eexists; reflexivity]|]]].
    + unfold verbose_line in L. destruct (d_line y); [| |discriminate]; rewrite <- !app_assoc; reflexivity.
    + rewrite (vnorm_plain y C), (ends_plain y C).
      change (sp col ++ s "[[" ++ name ++ s "]]" ++ nl ++ w ++ text true y col) with ([] ++ sp (4 * n) ++ ch "[" :: (s "[" ++ name ++ s "]]" ++ nl ++ w ++ text true y col)).
      eapply chunk_item; [constructor| |reflexivity].
      apply (I_elem n name name None [] nl (w ++ text true y col) _ _ false); [now apply title_name|reflexivity|exact nl_eol|apply plain_body; [apply sp_blanks|exact P|exact R]|discriminate].
Qed.

(** ** entries, in the outermost container *)
Definition entry_T (name : str) (p : dk * dk) : str :=
  let kt := text true (fst p) 0 in
  s "[[" ++ name ++ s "]]" ++ nl ++ kt ++ s ":" ++
  match d_line (snd p) with
  | Verbose => nl ++ text true (snd p) 4 ++ nl
  | _ => gap (snd p) ++ text true (snd p) (match d_line (fst p) with Inline => length kt + 2 - (if drops (fst p) then 1 else 0) | _ => 3 end%nat) ++ nl
  end.
Lemma entry_step name acc (e : dk * dk) : drops (fst e) = false -> (verbose_line (snd e) = true -> drops (snd e) = false) ->
  (let acc := acc ++ s "[[" ++ name ++ s "]]" ++ nl in
   let kt := text true (fst e) 0 in
   match d_line (snd e) with
   | Verbose => FmtText.cut (snd e) (FmtText.cut (fst e) acc ++ kt ++ s ":" ++ nl) ++ text true (snd e) (0 + 4) ++ nl
   | _ =>
       let ind := match d_line (fst e) with Inline => length kt + 2 - (if drops (fst e) then 1 else 0) | _ => 3 end%nat in
       FmtText.cut (snd e) (FmtText.cut (fst e) acc ++ kt ++ s ": ") ++ text true (snd e) (0 + ind) ++ nl
   end) = acc ++ entry_T name e.
Proof.
  intros D1 D2. unfold entry_T. cbv zeta. unfold FmtText.cut at 2 4 6. rewrite D1. unfold verbose_line in D2.
  assert (G : forall a, FmtText.cut (snd e) ((acc ++ s "[[" ++ name ++ s "]]" ++ nl) ++ a ++ s ": ") = (acc ++ s "[[" ++ name ++ s "]]" ++ nl) ++ a ++ s ":" ++ gap (snd e)).
  { intros a. change (s ": ") with (s ":" ++ [32]). rewrite !app_assoc, cut_space. now rewrite <- !app_assoc. }
  destruct (d_line (snd e)).
  - rewrite G. cbn [Nat.add]. now rewrite <- !app_assoc.
  - rewrite G. cbn [Nat.add]. now rewrite <- !app_assoc.
  - unfold FmtText.cut. rewrite D2 by reflexivity. now rewrite <- !app_assoc.
Qed.
Lemma entry_lines name (p : dk * dk) : name_ok name = true -> written (snd p) -> k_sorted (undeco (snd p)) = true ->
  plain_safe (fst p) && repr_eqb (d_line (fst p)) Inline && negb (drops (fst p)) &&
    (if verbose_line (snd p) then vsafe true 1 (snd p) && negb (drops (snd p)) else plain_safe (snd p)) = true ->
  lines_of (s "[[") (fun _ => True) (entry_T name) (fun p => It_entry None name (norm (fst p)) (vnorm (snd p))) (fun p => ends_bare (snd p)) 0 (ch "[") p.
Proof.
  intros N W K H. rewrite !andb_true_iff in H. destruct H as [[[PK LK] DK] V]. unfold lines_of, entry_T. cbv zeta.
  assert (RK : reads true (text true (fst p) 0) (norm (fst p)) (bare_number (fst p))).
  { apply plain_reads; [exact PK|]. intros _. destruct (d_line (fst p)); (reflexivity || discriminate). }
  set (kt := text true (fst p) 0) in *. destruct (verbose_line (snd p)) eqn:L.
  - assert (L' : d_line (snd p) = Verbose) by (unfold verbose_line in L; destruct (d_line (snd p)); (reflexivity || discriminate)). rewrite L'.
    apply andb_true_iff in V as [V _].
    assert (B : exists t e v b c, text true (snd p) 4 ++ nl = t ++ nl ++ e /\ blank_lines e /\ body 1 t v b c /\ v = vnorm (snd p) /\ b = ends_bare (snd p)).
    { destruct (verbose_cntr (snd p)) eqn:C.
      - destruct (W true 1%nat V K C) as (t & e & l & c & ET & E & CH & VF & KF & CT). rewrite <- (vnorm_id _ C) in CT.
        exists t, (e ++ nl), (container l), (ends_bare (snd p)), true. split; [change 4%nat with (4 * 1)%nat; rewrite ET, <- !app_assoc; reflexivity|].
        split; [now apply bl_app; [|exact bl_nl]|]. split; [eapply container_body; eassumption|auto].
      - rewrite vsafe_plain in V by exact C. apply andb_true_iff in V as [P R]. exists (text true (snd p) 4), [], (norm (snd p)), (bare_number (snd p)), false.
        split; [now rewrite app_nil_r|]. split; [constructor|]. split; [|now rewrite vnorm_plain, ends_plain by exact C]. now apply (plain_body 1 []). }
    destruct B as (t & e & v & b & c & ET & E & B & -> & ->). exists (s "[[" ++ name ++ s "]]" ++ nl ++ kt ++ s ":" ++ nl ++ t), e. split; [rewrite ET, <- !app_assoc; reflexivity|]. split; [exact E|]. split; [split; [exact Logic.I|eexists; reflexivity]|].
    apply (chunk_item 0 (ch "[") (s "[" ++ name ++ s "]]" ++ nl ++ kt ++ s ":" ++ nl ++ t) _ _ c []); [constructor| |reflexivity].
    apply (I_entry_below 0 name name None [] nl [] kt _ _ [] [] nl t _ _ c (title_name name N) eq_refl nl_eol eq_refl RK eq_refl eq_refl nl_eol B).
  - assert (C : verbose_cntr (snd p) = false) by (unfold verbose_cntr; now rewrite L). rewrite (vnorm_plain _ C), (ends_plain _ C).
    set (ind := match d_line (fst p) with Inline => _ | _ => _ end).
    exists (s "[[" ++ name ++ s "]]" ++ nl ++ kt ++ s ":" ++ gap (snd p) ++ text true (snd p) ind), []. split; [|split; [constructor|split; [split; [exact Logic.I|eexists; reflexivity]|]]].
    + unfold verbose_line in L. destruct (d_line (snd p)); [| |discriminate]; rewrite <- !app_assoc; reflexivity.
    + apply (chunk_item 0 (ch "[") (s "[" ++ name ++ s "]]" ++ nl ++ kt ++ s ":" ++ gap (snd p) ++ text true (snd p) ind) _ _ false []); [constructor| |reflexivity].
      apply (I_entry 0 name name None [] nl [] kt _ _ [] (gap (snd p)) (text true (snd p) ind) _ _ (title_name name N) eq_refl nl_eol eq_refl RK eq_refl); [unfold gap; now destruct (drops (snd p))|].
      apply plain_reads; [exact V|discriminate].
Qed.
