(** The texts of verbose containers are in the verbose grammar: fields and
    whole containers. *)
From Verif Require Import Base F64 Number BTree Value BaseProps BTreeProps ValueSpec ValueProps ValueProps2 Nom Parse ParseErr Grammar GrammarProps VGrammar VGrammarProps VAssemble VGrammarProps2 Nav Fmt FmtText FmtSpec FmtProps FmtProps2 RtSpec RtProps2 RtProps3 RtProps4 RtProps6 VSpec VRtProps VRtProps2.
Open Scope N_scope.

Definition field_safe (n : nat) (e : str * dk) : bool :=
  name_ok (fst e) &&
  match snd e with DK xf _ xv =>
    match f_line xf, xv with
    | Verbose, VCntr _ => vsafe false (S n) (snd e)
    | Verbose, VSeq l =>
        nonempty l && chain (fun y _ => negb (ends_bare y)) l &&
        forallb (fun y => vsafe true (S n) y && keyless_first y && (verbose_cntr y || negb (verbose_line y)) &&
                          (negb (drops y) || Nat.ltb 0 n)) l
    | Verbose, VMap l =>
        Nat.eqb n 0 && nonempty l && chain (fun p _ => negb (ends_bare (snd p))) l &&
        forallb (fun p => plain_safe (fst p) && repr_eqb (d_line (fst p)) Inline && negb (drops (fst p)) &&
                          (if verbose_line (snd p) then vsafe true (S n) (snd p) && negb (drops (snd p)) else plain_safe (snd p))) l
    | _, _ => plain_safe (snd e)
    end
  end.
Lemma vsafe_verbose top n f id m : f_line f = Verbose -> vsafe top n (DK f id (VCntr m)) =
  opt_ok is_id (if f_id f then id else None) && nonempty m && (top && is_some (if f_id f then id else None) || seen_first m) &&
  chain (fun e e' => negb (field_ends_bare (snd e) && titled (snd e'))) m && forallb (field_safe n) m.
Proof. intros L. cbn [vsafe]. rewrite L. reflexivity. Qed.

(** ** first lines *)
Lemma keyless_app t r : keyless t = true -> keyless (t ++ r) = true.
Proof.
  unfold keyless. intros H. rewrite skip_blanks_app2 by (intros E; now rewrite E in H). destruct (Grammar.skip_blanks t) as [|c u]; [discriminate|]. cbn [app].
  destruct (mem c [10; 13; ch ":"]); [reflexivity|]. cbn [orb] in *.
  pose proof (take_while_app name_char (c :: u)) as A. pose proof (take_while_all name_char (c :: u)) as F. pose proof (take_while_rest name_char (c :: u)) as R.
  destruct (take_while name_char (c :: u)) as [i q]. cbn [fst snd] in *. apply andb_true_iff in H as [H1 H].
  assert (NQ : q <> []) by (intros ->; discriminate).
  assert (TK : take_while name_char (c :: u ++ r) = (i, q ++ r)).
  { change (c :: u ++ r) with ((c :: u) ++ r). rewrite <- A, <- app_assoc. apply take_while_spec; [exact F|]. now apply stops_app. }
  rewrite TK, H1. cbn [andb]. rewrite skip_blanks_app2 by (intros E; rewrite E in H; discriminate). now apply starts_app_r.
Qed.
Lemma first_at e w t : blank_lines e -> blanks w -> stops space t -> verbose_first (e ++ w ++ t) = starts_with (s ":") t || verbose_start t.
Proof. intros E W S. unfold verbose_first. rewrite app_assoc, trim_app; [reflexivity|apply spaces_app; [now apply blank_lines_spaces|now apply blanks_spaces]|exact S]. Qed.
Lemma name_first c name : name_ok (c :: name) = true -> anchor c = true /\ mem c (s "([{") = false /\ space c = false.
Proof.
  cbn [name_ok forallb]. intros H. apply andb_true_iff in H as [H _]. assert (A : anchor c = true) by (unfold anchor; now rewrite H).
  split; [exact A|]. split; [|now apply anchor_space]. destruct (mem c _) eqn:M; [|reflexivity]. apply mem_In in M. each_char M; discriminate.
Qed.
Lemma bracketed_name name z : is_id name = true -> bracketed (s "[" ++ name ++ s "]" ++ z) = true.
Proof.
  intros I. pose proof (id_name name I) as [N NE]. change (bracketed (s "[" ++ name ++ s "]" ++ z)) with
    (true && let (i, r) := take_while name_char (Grammar.skip_blanks (name ++ s "]" ++ z)) in is_id i && starts_with (s "]") (Grammar.skip_blanks r)).
  rewrite skip_blanks_id.
  - assert (T : take_while name_char (name ++ s "]" ++ z) = (name, s "]" ++ z)) by (apply take_while_spec; [exact N|reflexivity]). rewrite T, I. reflexivity.
  - destruct name as [|c name]; [discriminate|]. cbn [forallb] in N. apply andb_true_iff in N as [N _]. cbn. destruct (blank c) eqn:B; [|exact B].
    unfold blank in B. apply mem_In in B. each_char B; discriminate.
Qed.

(** ** values of the items *)
Lemma elems_map name (f : dk -> kserd) l : elems_of name (map (fun y => It_elem None name (f y)) l) = map (fun y => (None, f y)) l.
Proof. induction l as [|y l IH]; [reflexivity|]. cbn [map]. unfold elems_of in *. cbn [flat_map]. rewrite IH. now rewrite (proj2 (str_eqb_eq name name) eq_refl). Qed.
Lemma entries_elems name k (f : dk -> kserd) l : entries_of k (map (fun y => It_elem None name (f y)) l) = [].
Proof. induction l as [|y l IH]; [reflexivity|exact IH]. Qed.
Lemma entries_map name (f g : dk * dk -> kserd) l : entries_of name (map (fun y => It_entry None name (f y) (g y)) l) = map (fun y => (None, (f y, g y))) l.
Proof. induction l as [|y l IH]; [reflexivity|]. cbn [map]. unfold entries_of in *. cbn [flat_map]. rewrite IH. now rewrite (proj2 (str_eqb_eq name name) eq_refl). Qed.
Lemma last_nones {A B} (l : list A) : last_some (map (fun _ => @None B) l) = None.
Proof. unfold last_some. induction l as [|x l IH]; [reflexivity|exact IH]. Qed.
Lemma value_elems name (f : dk -> kserd) l : l <> [] -> value_of name (map (fun y => It_elem None name (f y)) l) = Kserd None (VSeq (map f l)).
Proof.
  intros NE. unfold value_of. rewrite entries_elems, elems_map. destruct l as [|x l]; [congruence|]. cbn [map]. f_equal.
  - pose proof (@last_nones dk str (x :: l)) as H. cbn [map] in H. rewrite <- H at 2. f_equal. f_equal. rewrite map_map. reflexivity.
  - f_equal. cbn [snd]. f_equal. rewrite map_map. reflexivity.
Qed.
Lemma value_entries name (f g : dk * dk -> kserd) l : l <> [] -> value_of name (map (fun y => It_entry None name (f y) (g y)) l) = Kserd None (VMap (bt_inserts k_cmp (map (fun p => (f p, g p)) l))).
Proof.
  intros NE. unfold value_of. rewrite entries_map. destruct l as [|x l]; [congruence|]. cbn [map]. f_equal.
  - pose proof (@last_nones (dk * dk) str (x :: l)) as H. cbn [map] in H. rewrite <- H at 2. f_equal. f_equal. rewrite map_map. reflexivity.
  - f_equal. f_equal. cbn [snd]. f_equal. rewrite map_map. reflexivity.
Qed.
Lemma value_field name v : value_of name [It_field name v] = v.
Proof. unfold value_of. cbn [entries_of elems_of direct_of flat_map app]. rewrite (proj2 (str_eqb_eq name name) eq_refl). reflexivity. Qed.

(** ** fields *)
Lemma field_lines n name x : written x -> Forall written (d_children (d_val x)) -> k_sorted (undeco x) = true -> field_safe n (name, x) = true ->
  exists t e its c, (forall acc, fstep (4 * n) acc (name, x) = acc ++ t ++ nl ++ e) /\ blank_lines e /\ chunk n c t its (field_ends_bare x) /\
    (titled x = false -> mem c (s "([{") = false) /\ its <> [] /\ Forall (fun i => item_name i = Some name) its /\ value_of name its = vfield x /\
    (seen_first [(name, x)] = true -> verbose_first t = true) /\ (titled x || negb (starts_with (s "str") name) = true -> keyless t = true).
Proof.
  intros W WC K S. unfold field_safe in S. cbn [fst snd] in S. apply andb_true_iff in S as [N S].
  destruct (titled x) eqn:T.
  2:{ (* direct *)
    assert (P : plain_safe x = true).
    { destruct x as [f id v]. unfold titled, verbose_line, d_line in T. cbn [d_fmt d_val] in T. destruct (f_line f), v; (exact S || discriminate). }
    assert (C : verbose_cntr x = false). { destruct x as [f id v]. unfold titled, verbose_cntr, verbose_line, cntr_node in *. destruct (repr_eqb _ _); [|reflexivity]. cbn [d_val andb] in *. destruct v; (reflexivity || discriminate). }
    assert (VF : vfield x = norm x /\ field_ends_bare x = bare_number x).
    { destruct x as [f id v]. unfold titled, verbose_line, d_line in T. cbn [d_fmt d_val] in T. cbn [vfield field_ends_bare]. destruct (f_line f) eqn:L, v; try discriminate; (split; [reflexivity|]); cbn [ends_bare]; rewrite ?L; reflexivity. }
    destruct VF as [VF FE]. destruct name as [|c name]; [discriminate|]. set (nm := c :: name) in *. destruct (name_first c name N) as (A1 & A2 & A3).
    set (cc := (4 * n + (length nm + 3))%nat). set (tx := s " =" ++ gap x ++ text true x cc).
    exists (sp (4 * n) ++ nm ++ tx), [], [It_field nm (norm x)], c. 
    assert (I : vitem n (nm ++ tx) (It_field nm (norm x)) (bare_number x) false).
    { constructor. apply name_ok_spec in N as [N1 N2]. unfold tx. change (s " =" ++ gap x ++ text true x cc) with ([32] ++ s "=" ++ gap x ++ text true x cc). constructor; try assumption; [reflexivity|unfold gap; now destruct (drops x)|].
      apply plain_reads; [exact P|discriminate]. }
    split; [|split; [constructor|split; [|split; [|split; [|split; [|split; [|split]]]]]]].
    - intros acc. unfold tx. assert (E : fstep (4 * n) acc (nm, x) = FmtText.cut x (acc ++ sp (4 * n) ++ nm ++ s " = ") ++ text true x cc ++ nl).
      { destruct x as [f id v]. unfold titled, verbose_line, d_line in T. cbn [d_fmt d_val] in T. unfold cc. cbn [fstep snd]. destruct (f_line f), v; (reflexivity || discriminate). }
      etransitivity; [exact E|]. change (s " = ") with (s " =" ++ [32]). rewrite !app_assoc, cut_space, <- !app_assoc. now rewrite app_nil_r.
    - rewrite FE. apply (chunk_item n c (name ++ tx) _ _ false []); [constructor|exact I|exact A1].
    - intros _. exact A2.
    - discriminate.
    - now repeat constructor.
    - rewrite VF. apply value_field.
    - intros _. pose proof (first_at [] (sp (4 * n)) (nm ++ tx) BL_none (sp_blanks _) A3) as X. rewrite app_nil_l in X. rewrite X.
      apply name_ok_spec in N as [N1 N2]. assert (Y : assigns (nm ++ tx) = true) by exact (name_assigns nm [32] (gap x ++ text true x cc) N2 eq_refl).
      unfold verbose_start. rewrite Y. now rewrite !orb_true_r.
    - cbn [orb]. intros NS. unfold keyless. rewrite skip_blanks_app by apply sp_blanks. rewrite skip_blanks_id by (cbn; now apply space_blank).
      apply name_ok_spec in N as [N1 N2]. change (mem c [10; 13; ch ":"] || (let (name0, r) := take_while name_char (c :: name ++ tx) in negb (str_eqb name0 []) && negb (starts_with (s "str") name0) && starts_with (s "=") (Grammar.skip_blanks r)) = true). apply orb_true_iff. right. 
      assert (TK : take_while name_char (c :: name ++ tx) = (nm, tx)) by (change (c :: name ++ tx) with (nm ++ tx); apply take_while_spec; [exact N2|reflexivity]). rewrite TK, NS. reflexivity. }
  destruct x as [f id v]. unfold titled, verbose_line, d_line in T. cbn [d_fmt d_val] in T, WC. apply andb_true_iff in T as [L T].
  destruct (f_line f) eqn:EL; try discriminate. clear L. cbn [vfield field_ends_bare fstep snd]. rewrite EL. destruct v as [| | | | | |m|l|l]; try discriminate; clear T.
  - (* container *)
    assert (C : verbose_cntr (DK f id (VCntr m)) = true) by (unfold verbose_cntr, verbose_line, d_line; cbn [d_fmt]; now rewrite EL).
    set (x := DK f id (VCntr m)) in *. pose proof S as S0. unfold x in S. rewrite vsafe_verbose in S by exact EL. rewrite !andb_true_iff in S. destruct S as [[[[OI _] _] _] _].
    destruct (W false (Datatypes.S n) S0 K C) as (t & e & l & c & ET & E & CH & VF & _ & CT).
    set (h := name ++ match f_id f with true => match id with Some i => s ":" ++ i | None => [] end | false => [] end).
    assert (TI : title h name (shown_id x)).
    { unfold h, x, shown_id. cbn [d_fmt d_id]. destruct (f_id f); [destruct id as [i|]|]; [now apply title_both|rewrite app_nil_r; now apply title_name..]. }
    exists (nl ++ sp (4 * n) ++ s "[" ++ h ++ s "]" ++ nl ++ t), e, [It_field name (vnorm x)], (ch "[").
    split; [|split; [exact E|split; [|split; [|split; [|split; [|split; [|split]]]]]]].
    + intros acc. replace (4 * n + 4)%nat with (4 * Datatypes.S n)%nat by lia. rewrite ET. unfold h. destruct (f_id f); [destruct id|]; rewrite <- !app_assoc; reflexivity.
    + assert (V : vnorm x = default_id (shown_id x) (container l)) by (rewrite CT; unfold default_id; cbn [kid kval]; now apply vnorm_id). rewrite V.
      apply (chunk_item n (ch "[") (h ++ s "]" ++ nl ++ t) _ _ true nl); [exact bl_nl| |reflexivity].
      apply (I_cntr n h name (shown_id x) [] nl t (container l) _ true TI eq_refl nl_eol). eapply container_body; eassumption.
    + discriminate.
    + discriminate.
    + now repeat constructor.
    + apply value_field.
    + unfold seen_first. rewrite C. cbn [negb orb]. intros H. apply andb_true_iff in H as [H1 H2].
      rewrite (first_at nl (sp (4 * n)) (s "[" ++ h ++ s "]" ++ nl ++ t) bl_nl (sp_blanks _) eq_refl). unfold verbose_start.
      assert (EH : h = name). { unfold h. unfold x, shown_id in H1. cbn [d_fmt d_id] in H1. destruct (f_id f); [destruct id; [discriminate|]|]; apply app_nil_r. }
      rewrite EH, bracketed_name by exact H2. now rewrite !orb_true_r.
    + reflexivity.
  - (* elements *)
    rewrite !andb_true_iff in S. destruct S as [[NE CH] F].
    assert (LN : Forall (lines_of (sp (4 * n) ++ s "[[") padded (elem_T (4 * n) name) (fun y => It_elem None name (vnorm y)) ends_bare n (ch "[")) l).
    { rewrite forallb_forall in F. cbn [d_children] in WC. rewrite Forall_forall in *. intros y Hy. apply elem_lines; auto.
      cbn [undeco] in K. unfold k_sorted in *. apply k_all_children in K as [_ K]. cbn [vchildren] in K. rewrite Forall_map, Forall_forall in K. auto. }
    assert (NE' : l <> []) by (destruct l; [discriminate|discriminate]).
    destruct (chunks _ _ _ _ _ n (ch "[") l NE' LN CH) as (t & e & ET & E & [(e' & -> & E') (z & EZ)] & CK).
    exists (nl ++ t), e', (map (fun y => It_elem None name (vnorm y)) l), (ch "[").
    assert (X : forall acc, fold_left (fun acc x => let acc := acc ++ sp (4 * n) ++ s "[[" ++ name ++ s "]]" ++ nl in
               match d_line x with
               | Verbose => FmtText.cut x acc ++ text true x (4 * n + 4) ++ nl
               | _ => FmtText.cut x (acc ++ sp (4 * n)) ++ text true x (4 * n) ++ nl ++ nl
               end) l acc = acc ++ concat (map (elem_T (4 * n) name) l)).
    { apply fold_concat. intros acc y Hy. apply elem_step. rewrite forallb_forall in F. specialize (F y Hy). rewrite !andb_true_iff in F. destruct F as [[_ F1] F2].
      destruct (drops y) eqn:D; [|now left]. right. cbn [negb orb] in F2. apply Nat.ltb_lt in F2. split; [lia|]. intros EV. unfold verbose_line in F1. rewrite EV in F1.
      destruct (verbose_cntr y) eqn:C; [|discriminate]. rewrite cntr_drops in D by exact C. discriminate. }
    split; [|split; [exact E'|split; [|split; [|split; [|split; [|split; [|split]]]]]]].
    + intros acc. rewrite X, ET. replace ((acc ++ nl) ++ t ++ nl ++ e' ++ nl) with ((acc ++ (nl ++ t) ++ nl ++ e') ++ [10]) by (rewrite <- !app_assoc; reflexivity). apply pop_app_last.
    + now apply chunk_lines; [exact bl_nl|].
    + discriminate.
    + destruct l; [congruence|discriminate].
    + apply Forall_map, Forall_forall. reflexivity.
    + now apply value_elems.
    + intros _. rewrite EZ, <- app_assoc. now rewrite (first_at nl (sp (4 * n)) (s "[[" ++ z) bl_nl (sp_blanks _) eq_refl).
    + reflexivity.
  - (* entries *)
    rewrite !andb_true_iff in S. destruct S as [[[N0 NE] CH] F]. apply Nat.eqb_eq in N0. subst n.
    assert (LN : Forall (lines_of (s "[[") (fun _ => True) (entry_T name) (fun p => It_entry None name (norm (fst p)) (vnorm (snd p))) (fun p => ends_bare (snd p)) 0 (ch "[")) l).
    { rewrite forallb_forall in F. cbn [d_children] in WC. apply Forall_entries in WC. rewrite Forall_forall in *. intros y Hy. apply entry_lines; auto; [now apply WC|].
      cbn [undeco] in K. unfold k_sorted in *. apply k_all_children in K as [_ K]. cbn [vchildren] in K. apply Forall_entries in K. rewrite Forall_map, Forall_forall in K. now apply K. }
    assert (NE' : l <> []) by (destruct l; [discriminate|discriminate]).
    destruct (chunks _ _ _ _ _ 0%nat (ch "[") l NE' LN CH) as (t & e & ET & E & [_ (z & EZ)] & CK).
    exists (nl ++ t), e, (map (fun p => It_entry None name (norm (fst p)) (vnorm (snd p))) l), (ch "[").
    split; [|split; [exact E|split; [|split; [|split; [|split; [|split; [|split]]]]]]].
    + intros acc. change (4 * 0)%nat with 0%nat. rewrite (fold_concat _ (entry_T name)).
      * rewrite ET, <- !app_assoc. reflexivity.
      * intros a y Hy. rewrite forallb_forall in F. specialize (F y Hy). rewrite !andb_true_iff, !negb_true_iff in F. destruct F as [[_ F1] F2]. apply entry_step; [exact F1|].
        intros V. rewrite V in F2. apply andb_true_iff in F2 as [_ F2]. now apply negb_true_iff in F2.
    + now apply chunk_lines; [exact bl_nl|].
    + discriminate.
    + destruct l; [congruence|discriminate].
    + apply Forall_map, Forall_forall. reflexivity.
    + now apply value_entries.
    + intros _. rewrite EZ. etransitivity; [exact (first_at nl [] (s "[[" ++ z) bl_nl eq_refl eq_refl)|reflexivity].
    + reflexivity.
Qed.

(** ** lists of fields *)
Lemma fields_lines n m : m <> [] -> NoDup (map fst m) -> Forall (fun e => written (snd e) /\ Forall written (d_children (d_val (snd e))) /\ k_sorted (undeco (snd e)) = true) m ->
  forallb (field_safe n) m = true -> chain (fun e e' => negb (field_ends_bare (snd e) && titled (snd e'))) m = true ->
  exists t e l c, (forall acc, fold_left (fstep (4 * n)) m acc = acc ++ t ++ nl ++ e) /\ blank_lines e /\
    chunk n c t l (last (map (fun e => field_ends_bare (snd e)) m) false) /\
    (match m with e :: _ => titled (snd e) = false | [] => True end -> mem c (s "([{") = false) /\
    (forall i, In i l -> item_name i <> None) /\ gathers l (map (fun e => (fst e, vfield (snd e))) m) /\
    (seen_first m = true -> verbose_first t = true) /\
    (match m with e :: _ => titled (snd e) || negb (starts_with (s "str") (fst e)) | [] => false end = true -> keyless t = true).
Proof.
  intros NE ND F S C. induction F as [|[name x] m (W & WC & K) F IH]; [congruence|]. cbn [fst snd] in *. cbn [forallb] in S. apply andb_true_iff in S as [S1 S2].
  destruct (field_lines n name x W WC K S1) as (t & e & its & c & T & E & CH & O & NI & FI & VI & SF & KF).
  cbn [map fst] in ND. inversion_clear ND as [|? ? ND1 ND2].
  assert (IDS : forall i, In i its -> item_name i <> None) by (intros i Hi; rewrite Forall_forall in FI; rewrite (FI i Hi); discriminate).
  destruct m as [|[name' x'] m].
  - exists t, e, its, c. split; [exact T|]. split; [exact E|]. split; [exact CH|]. split; [exact O|]. split; [exact IDS|]. split; [|split; [exact SF|exact KF]].
    rewrite <- (app_nil_r its). now apply gathers_cons; [..|exact gathers_nil].
  - change (chain _ ((name, x) :: (name', x') :: m)) with (negb (field_ends_bare x && titled x') && chain (fun e e' : str * dk => negb (field_ends_bare (snd e) && titled (snd e'))) ((name', x') :: m)) in C.
    apply andb_true_iff in C as [C1 C2]. apply negb_true_iff in C1.
    destruct (IH ltac:(discriminate) ND2 S2 C2) as (t' & e' & l' & c' & T' & E' & CH' & O' & IDS' & G' & _ & _). cbn [snd] in O'.
    exists (t ++ nl ++ e ++ t'), e', (its ++ l'), c. split; [|split; [exact E'|split; [|split; [exact O|split; [|split; [|split]]]]]].
    + intros acc. change (fold_left (fstep (4 * n)) ((name, x) :: (name', x') :: m) acc) with (fold_left (fstep (4 * n)) ((name', x') :: m) (fstep (4 * n) acc (name, x))).
      rewrite T', T, <- !app_assoc. reflexivity.
    + change (last (map (fun e => field_ends_bare (snd e)) ((name, x) :: (name', x') :: m)) false) with (last (map (fun e : str * dk => field_ends_bare (snd e)) ((name', x') :: m)) false).
      eapply chunk_app; [exact CH|exact E|exact CH'|]. intros B. apply O'. rewrite B in C1. exact C1.
    + intros i Hi. apply in_app_or in Hi as [Hi|Hi]; auto.
    + change (map (fun e => (fst e, vfield (snd e))) ((name, x) :: (name', x') :: m)) with ((name, vfield x) :: map (fun e : str * dk => (fst e, vfield (snd e))) ((name', x') :: m)).
      apply gathers_cons; auto. rewrite map_map. exact ND1.
    + intros H. apply verbose_first_app; [destruct CH as [V _]; eapply list_firm, V|]. apply SF. exact H.
    + intros H. apply keyless_app. apply KF. exact H.
Qed.

Lemma sorted_names m : strictly_sorted str_cmp (map (fun e : str * dk => (fst e, undeco (snd e))) m) = true -> NoDup (map fst m).
Proof.
  induction m as [|e m IH]; cbn [map strictly_sorted]; intros H; [constructor|]. apply andb_true_iff in H as [H1 H2]. constructor; [|auto].
  intros Hi. apply in_map_iff in Hi as (e' & E' & Hi). rewrite forallb_forall in H1. specialize (H1 (fst e', undeco (snd e')) ltac:(apply in_map_iff; exists e'; auto)).
  cbn [fst] in H1. rewrite E', str_cmp_refl in H1. discriminate.
Qed.

Lemma all_written d : written d /\ Forall written (d_children (d_val d)).
Proof.
  induction d as [f id v IH] using dk_ind'. split; [|cbn [d_val]; eapply Forall_impl; [|exact IH]; intros a [H _]; exact H].
  intros top n S K C. unfold verbose_cntr, verbose_line, d_line, cntr_node in C. cbn [d_fmt d_val] in C. apply andb_true_iff in C as [L C].
  destruct v as [| | | | | |m| |]; try discriminate. destruct (f_line f) eqn:EL; try discriminate. clear L C.
  rewrite vsafe_verbose in S by exact EL. rewrite !andb_true_iff in S. destruct S as [[[[OI NE] FO] CH] F].
  cbn [undeco] in K. unfold k_sorted in K. apply k_all_children in K as [KN KC]. unfold sorted_node in KN. cbn [kval] in KN. cbn [vchildren] in KC. rewrite !Forall_map in KC. cbn [snd] in KC.
  cbn [d_children] in IH. rewrite Forall_map in IH.
  assert (NE' : m <> []) by (destruct m; [discriminate|discriminate]).
  assert (FW : Forall (fun e : str * dk => written (snd e) /\ Forall written (d_children (d_val (snd e))) /\ k_sorted (undeco (snd e)) = true) m).
  { rewrite Forall_forall in *. intros e He. specialize (IH e He). specialize (KC e He). tauto. }
  destruct (fields_lines n m NE' (sorted_names m KN) FW F CH) as (t & e & l & c & T & E & CK & _ & IDS & G & SF & KF).
  rewrite text_verbose by exact EL. rewrite ends_verbose by exact EL. rewrite vnorm_verbose by exact EL. unfold shown_id. cbn [d_fmt d_id kval].
  destruct (if f_id f then id else None) as [i|] eqn:SI.
  2:{ rewrite T. match goal with |- exists _ _ _ _, ?h ++ _ = _ /\ _ => assert (X : h = []) by (destruct (f_id f), top, id; (reflexivity || discriminate)); rewrite X; clear X end.
      rewrite andb_false_r in FO. cbn [orb] in FO.
      exists t, e, l, c. split; [reflexivity|]. split; [exact E|]. split; [exact CK|]. split; [auto|]. split.
      - unfold keyless_first, shown_id. cbn [d_val d_fmt d_id]. destruct m as [|[name x] m]; [congruence|]. intros H _. rewrite SI in H. unfold verbose_line, d_line in H. cbn [d_fmt] in H. rewrite EL in H. apply KF. exact H.
      - rewrite (container_plain l _ IDS G). destruct top; reflexivity. }
  destruct (f_id f) eqn:FI; [|discriminate]. subst id. destruct top.
  2:{ cbn [andb]. rewrite T. exists t, e, l, c. split; [reflexivity|]. split; [exact E|]. split; [exact CK|]. cbn [andb orb] in FO. split; [auto|]. split; [discriminate|]. apply (container_plain l _ IDS G). }
  cbn [andb]. rewrite T. cbn [opt_ok] in OI.
  assert (CI : chunk n (ch ":") (sp (4 * n) ++ s ":" ++ i) [It_id i] false).
  { apply (chunk_item n (ch ":") i _ _ false []); [constructor| |reflexivity]. apply (I_id n [] i); [reflexivity|exact OI]. }
  exists ((sp (4 * n) ++ s ":" ++ i) ++ nl ++ [] ++ t), e, ([It_id i] ++ l), (ch ":"). split; [now rewrite <- !app_assoc|]. split; [exact E|].
  assert (CA : chunk n (ch ":") ((sp (4 * n) ++ s ":" ++ i) ++ nl ++ [] ++ t) ([It_id i] ++ l) (last (map (fun e => field_ends_bare (snd e)) m) false)).
  { eapply chunk_app; [exact CI|constructor|exact CK|discriminate]. }
  split; [exact CA|]. split; [|split].
  - rewrite <- !app_assoc. etransitivity; [exact (first_at [] (sp (4 * n)) (s ":" ++ i ++ nl ++ [] ++ t) BL_none (sp_blanks _) eq_refl)|reflexivity].
  - intros _ _. unfold keyless. rewrite <- !app_assoc, skip_blanks_app by apply sp_blanks. reflexivity.
  - exact (container_id i l _ IDS G).
Qed.

(** ** documents *)
Theorem verbose_document d : vsafe true 0 d = true -> verbose_cntr d = true -> k_sorted (undeco d) = true -> vdocument (text true d 0) (vnorm d).
Proof.
  intros S C K. destruct (proj1 (all_written d) true 0%nat S K C) as (t & e & l & c & ET & E & (V & _) & VF & _ & CT). change (4 * 0)%nat with 0%nat in ET.
  rewrite ET, <- (app_nil_r (nl ++ e)). rewrite <- (vnorm_id d C) in CT. rewrite <- CT. eapply VDocument; [exact V|exact VF|apply bl_app; [exact bl_nl|exact E]|reflexivity|reflexivity].
Qed.
