(** Whole documents: what the formatter writes is read back as [norm]. *)
From Verif Require Import Base F64 Number BTree Value BaseProps NumberProps3 Base91 Base91Props Nom Parse ParseErr Grammar GrammarProps Nav NavSpec NavProps NavProps2 Fmt Formatter FmtText FmtSpec FmtProps FmtProps2 FormatterProps FormatterProps2 FormatterProps3 FormatterProps4 RtProps RtSpec RtProps2 RtProps3.
Open Scope N_scope.

(** ** the first word of a text *)
Definition wordy (t : str) : bool := let (i, r) := take_while name_char t in is_id i && starts_with (s "]") (Grammar.skip_blanks r).
Lemma wordy_stop t : stops id_head t -> wordy t = false.
Proof.
  intros H. unfold wordy. destruct t as [|c t]; [reflexivity|]. cbn [take_while]. cbn in H. destruct (name_char c); [|reflexivity].
  destruct (take_while name_char t). unfold is_id. fold (id_head c). now rewrite H.
Qed.
Lemma wordy_next i w c t : forallb name_char i = true -> blanks w -> name_char c = false -> blank c = false -> c <> ch "]" -> wordy (i ++ w ++ c :: t) = false.
Proof.
  intros I W N B C. unfold wordy. assert (S : stops name_char (w ++ c :: t)) by now apply blanks_stop_name.
  assert (E : take_while name_char (i ++ (w ++ c :: t)) = (i, w ++ c :: t)) by (apply take_while_spec; [exact I|exact S]).
  rewrite E. replace (Grammar.skip_blanks (w ++ c :: t)) with (c :: t).
  - change (starts_with (s "]") (c :: t)) with ((ch "]" =? c) && true). replace (ch "]" =? c) with false by (symmetry; apply N.eqb_neq; congruence). apply andb_false_r.
  - clear -W B. unfold blanks in W. induction w as [|d w IH]; cbn [app Grammar.skip_blanks]; [now rewrite B|].
    cbn [forallb] in W. apply andb_true_iff in W as [W1 W2]. rewrite W1. auto.
Qed.
Lemma id_wordy id w c t : opt_ok is_id_plain id = true -> blanks w -> opener c = true -> wordy (head id w ++ c :: t) = false.
Proof.
  intros I W O. assert (C : c <> ch "]") by (intros ->; discriminate). destruct id as [i|]; cbn [head].
  - rewrite <- app_assoc. apply wordy_next; auto; [|now apply opener_name|now apply space_blank, opener_space].
    cbn [opt_ok] in I. apply andb_true_iff in I as [I _]. apply andb_true_iff in I as [I _]. now apply id_name in I.
  - apply (wordy_next [] [] c t); auto; [now apply opener_name|now apply space_blank, opener_space].
Qed.
Lemma dotted_head t : forallb dotted t = true -> stops id_head t.
Proof.
  destruct t as [|c t]; [exact (fun _ => Logic.I)|]. cbn [forallb stops]. intros H. apply andb_true_iff in H as [H _]. unfold dotted in H. apply orb_true_iff in H as [H|H].
  - apply digit_cases in H. each_char H.
  - apply mem_In in H. each_char H.
Qed.
Lemma display_head n : match n with Float (FInf false | FNaN _ _) => true | _ => false end = false -> stops id_head (num_display n).
Proof.
  destruct n as [x|x|x]; cbn [num_display]; intros E.
  - apply dotted_head, Z_display_dotted.
  - apply dotted_head, Z_display_dotted.
  - destruct x as [sg p|[] |sg m e]; [discriminate|reflexivity|discriminate|]. apply dotted_head. cbn [f_display]. rewrite forallb_app.
    apply andb_true_iff. split; [destruct sg; reflexivity|].
    destruct (m =? 0)%Z; [reflexivity|]. destruct (exact_dec m e) as [d t]. destruct (shortest _ d t _) as [d1 t1]. destruct (strip0 _ d1 t1) as [d2 t2]. apply positional_dotted.
Qed.
Lemma text_wordy d : safe_node d = true -> flat_node d = true -> word_only d = false -> forall col z, wordy (text true d col ++ z) = false.
Proof.
  destruct d as [f id v]. intros S F W col z.
  assert (P : forall t, (is_some (if f_id f then id else None) = false -> wordy (t ++ z) = false) -> wordy ((prim_id f id ++ t) ++ z) = false).
  { intros t H. unfold prim_id. destruct (f_id f); [destruct id|]; [|now apply H..]. rewrite <- !app_assoc. now apply wordy_stop. }
  destruct v as [|b|n|t|b|l|l|l|l]; cbn [text prim_text]; unfold safe_node, shown_id, word_only, shown_id in *; cbn [d_val d_id d_fmt] in *.
  - destruct id as [[|c i]|]; try reflexivity. pose proof (id_wordy (Some (c :: i)) [] (ch "(") (s ")" ++ z) S eq_refl eq_refl) as X. cbn [head] in X. rewrite app_nil_r in X. rewrite <- app_assoc. exact X.
  - apply P. intros N. rewrite N in W. discriminate.
  - apply P. intros N. rewrite N in W. cbn [negb andb] in W. apply wordy_stop. apply andb_true_iff in S as [_ S].
    pose proof (nonempty_display n S) as NE. apply stops_app; [exact NE|]. apply display_head. unfold bare_number, shown_id in W. cbn [d_val d_fmt d_id] in W.
    destruct (if f_id f then id else None); [discriminate|]. destruct n as [| |[|[] |]]; (reflexivity || exact W).
  - apply P. intros N. apply andb_true_iff in S as [_ S]. unfold safe_string, str_text in *. destruct (delimiter t) as [d|] eqn:E; [|discriminate]. rewrite N in S. cbn [orb] in S.
    apply andb_true_iff in S as [_ S]. destruct (N.eqb_spec d 34) as [->|_]; [now apply wordy_stop|]. rewrite <- !app_assoc.
    unfold plain_delim in S. apply negb_true_iff, orb_false_iff in S as [S _]. apply orb_false_iff in S as [S1 S2].
    apply (wordy_next (s "str") [] d); [reflexivity|reflexivity|exact S1|now apply space_blank|]. apply delimiter_spec in E as [E _]. intros ->. revert E. clear. intros E. repeat (destruct E as [E|E]; [discriminate|]). contradiction.
  - apply P. intros N. rewrite <- !app_assoc. now apply (wordy_next (s "b91") [] (ch "'")).
  - apply andb_true_iff in S as [S SL]. unfold flat_node, d_line in *. cbn [d_fmt d_val d_children] in *. destruct (f_line f); try discriminate.
    + rewrite inline_items, tuple_head, <- !app_assoc by assumption. now apply id_wordy.
    + rewrite (app_assoc (tuple_id f _)), (app_assoc _ (sp col)), concise_items, tuple_head, <- !app_assoc. now apply id_wordy.
    + rewrite (app_assoc (tuple_id f _)), (app_assoc _ (sp col)), concise_items, tuple_head, <- !app_assoc. now apply id_wordy.
  - apply andb_true_iff in S as [S SL]. unfold flat_node, d_line in *. cbn [d_fmt d_val d_children] in *. destruct (f_line f); try discriminate.
    + rewrite inline_fields, nonprim_head, <- !app_assoc. now apply id_wordy.
    + rewrite (app_assoc (nonprim_id f _)), (app_assoc _ (sp col)), concise_fields, nonprim_head, <- !app_assoc. now apply id_wordy.
  - apply andb_true_iff in S as [S SL]. unfold flat_node, d_line in *. cbn [d_fmt d_val d_children] in *. destruct (f_line f); try discriminate.
    + rewrite inline_items, nonprim_head, <- !app_assoc by assumption. now apply id_wordy.
    + rewrite (app_assoc (nonprim_id f _)), (app_assoc _ (sp col)), concise_items, nonprim_head, <- !app_assoc. now apply id_wordy.
    + rewrite (app_assoc (nonprim_id f _)), (app_assoc _ (sp col)), concise_items, nonprim_head, <- !app_assoc. now apply id_wordy.
  - apply andb_true_iff in S as [S SL]. unfold flat_node, d_line in *. cbn [d_fmt d_val d_children] in *. destruct (f_line f); try discriminate.
    + rewrite (app_assoc (nonprim_id f _)), inline_entries, nonprim_head, <- !app_assoc. now apply id_wordy.
    + rewrite (app_assoc (nonprim_id f _)), (app_assoc _ (sp col)), concise_entries, nonprim_head, <- !app_assoc. now apply id_wordy.
    + rewrite (app_assoc (nonprim_id f _)), (app_assoc _ (sp col)), concise_entries, nonprim_head, <- !app_assoc. now apply id_wordy.
Qed.

(** ** the text of a document does not look verbose *)
Definition looks (t : str) : bool := starts_with (s "[[") t || bracketed t.
Lemma looks_first c t : c <> ch "[" -> looks (c :: t) = false.
Proof.
  intros H. unfold looks. change (starts_with (s "[[") (c :: t)) with ((ch "[" =? c) && starts_with (s "[") t). cbn [bracketed].
  replace (ch "[" =? c) with false by (symmetry; apply N.eqb_neq; congruence). replace (c =? ch "[") with false by (symmetry; now apply N.eqb_neq). reflexivity.
Qed.
Lemma name_bracket c : name_char c = true -> c <> ch "[". Proof. intros H ->. discriminate. Qed.
Lemma looks_id id w c t : opt_ok is_id_plain id = true -> (id = None -> c <> ch "[") -> looks (head id w ++ c :: t) = false.
Proof.
  intros I C. destruct id as [[|d i]|]; cbn [head app]; [discriminate| |apply looks_first; auto].
  apply looks_first, name_bracket. cbn [opt_ok] in I. apply andb_true_iff in I as [I _]. apply andb_true_iff in I as [I _]. apply id_name in I as [I _]. cbn [forallb] in I. now apply andb_true_iff in I as [I _].
Qed.
Lemma looks_bracket t : stops blank t -> looks (ch "[" :: t) = starts_with (s "[") t || wordy t.
Proof.
  intros B. unfold looks. change (starts_with (s "[[") (ch "[" :: t)) with (starts_with (s "[") t). f_equal. cbn [bracketed]. rewrite N.eqb_refl. cbn [andb].
  replace (Grammar.skip_blanks t) with t; [reflexivity|]. destruct t as [|c t]; [reflexivity|]. cbn [Grammar.skip_blanks]. cbn [stops] in B. now rewrite B.
Qed.
Lemma text_bracket d : safe_node d = true -> flat_node d = true -> bracket_first d && match d_val d with VSeq _ => true | _ => false end = false ->
  forall col z, starts_with (s "[") (text true d col ++ z) = false.
Proof.
  intros S F B col z. destruct (bracket_first d) eqn:BF.
  - cbn [andb] in B. destruct d as [f id v]. unfold bracket_first, shown_id in BF. cbn [d_val d_id d_fmt] in *.
    assert (H : forall c t, c <> ch "[" -> starts_with (s "[") (c :: t) = false).
    { intros c t N. change (starts_with (s "[") (c :: t)) with ((ch "[" =? c) && true). rewrite andb_true_r. apply N.eqb_neq. congruence. }
    destruct v as [| | | | |l|l|l|l]; try discriminate; cbn [text prim_text].
    + destruct id as [[|]|]; try discriminate; now apply H.
    + unfold safe_node, flat_node, d_line, shown_id in *. cbn [d_val d_fmt d_id] in *. apply andb_true_iff in S as [_ S].
      assert (T : tuple_id f id = []) by (unfold tuple_id; destruct (f_id f), id; (reflexivity || discriminate)). rewrite T. cbn [app].
      destruct (f_line f).
      * rewrite inline_items by exact S. rewrite <- !app_assoc. now apply H.
      * rewrite (app_assoc _ (sp col)). rewrite (concise_items (s "(")). rewrite <- !app_assoc. now apply H.
      * rewrite (app_assoc _ (sp col)). rewrite (concise_items (s "(")). rewrite <- !app_assoc. now apply H.
    + unfold safe_node, flat_node, d_line, shown_id in *. cbn [d_val d_fmt d_id] in *.
      assert (T : nonprim_id f id = []) by (unfold nonprim_id; destruct (f_id f), id; (reflexivity || discriminate)). rewrite T. cbn [app].
      destruct (f_line f); [| |discriminate].
      * rewrite inline_fields. rewrite <- !app_assoc. now apply H.
      * rewrite (app_assoc _ (sp col)). rewrite (concise_fields (s "(")). rewrite <- !app_assoc. now apply H.
    + unfold safe_node, flat_node, d_line, shown_id in *. cbn [d_val d_fmt d_id] in *.
      assert (T : nonprim_id f id = []) by (unfold nonprim_id; destruct (f_id f), id; (reflexivity || discriminate)). rewrite T. cbn [app].
      destruct (f_line f).
      * rewrite (inline_entries (s "{")). rewrite <- !app_assoc. now apply H.
      * rewrite (app_assoc _ (sp col)). rewrite (concise_entries (s "{")). rewrite <- !app_assoc. now apply H.
      * rewrite (app_assoc _ (sp col)). rewrite (concise_entries (s "{")). rewrite <- !app_assoc. now apply H.
  - pose proof (text_opens d S F BF col z) as O. destruct (text true d col ++ z) as [|c u]; [reflexivity|].
    change (starts_with (s "[") (c :: u)) with ((ch "[" =? c) && true). destruct (N.eqb_spec (ch "[") c) as [<-|_]; [discriminate O|reflexivity].
Qed.
Lemma word_text d : word_only d = true -> forall col, forallb name_char (text true d col) = true.
Proof.
  destruct d as [f id v]. unfold word_only, bare_number, shown_id. cbn [d_val d_id d_fmt]. intros H col.
  assert (E : match v with VBool _ | VNum _ => prim_id f id | _ => [] end = []).
  { unfold prim_id. destruct (f_id f), id, v; (reflexivity || discriminate). }
  destruct v as [|b|n| | | | | |]; try (destruct (if f_id f then id else None); discriminate); cbn [text prim_text]; rewrite E; cbn [app].
  - destruct b; reflexivity.
  - destruct n as [| |[|[] |]]; (reflexivity || (destruct (if f_id f then id else None); discriminate)).
Qed.
Lemma text_looks d : d_all safe_node d = true -> d_all flat_node d = true -> safe_root d = true -> forall col z, looks (text true d col ++ z) = false.
Proof.
  intros SA FA R col z. destruct d as [f id v]. pose proof SA as S. pose proof FA as F. apply d_all_children in S as [S SC]. apply d_all_children in F as [F FC].
  assert (P : forall t, looks (t ++ z) = false -> looks ((prim_id f id ++ t) ++ z) = false).
  { intros t H. unfold prim_id. destruct (f_id f); [destruct id|]; [|exact H..]. rewrite <- !app_assoc. now apply looks_first. }
  destruct v as [|b|n|t|b|l|l|l|l]; cbn [text prim_text]; unfold safe_node, shown_id in S; cbn [d_val d_id d_fmt] in *.
  - destruct id as [[|c i]|]; try reflexivity. pose proof (looks_id (Some (c :: i)) [] (ch "(") (s ")" ++ z) S ltac:(discriminate)) as X. cbn [head] in X. rewrite app_nil_r in X. rewrite <- app_assoc. exact X.
  - apply P. destruct b; reflexivity.
  - apply P. pose proof (display_num_chars n) as C. apply andb_true_iff in S as [_ S]. pose proof (nonempty_display n S) as NE. destruct (num_display n) as [|c u]; [congruence|]. cbn [forallb] in C. apply andb_true_iff in C as [C _]. apply looks_first. intros ->. discriminate.
  - apply P. apply andb_true_iff in S as [_ S]. unfold safe_string, str_text in *. destruct (delimiter t) as [d|]; [|discriminate]. destruct (N.eqb_spec d 34) as [->|]; now apply looks_first.
  - apply P. now apply looks_first.
  - apply andb_true_iff in S as [S SL]. unfold flat_node, d_line in *. cbn [d_fmt d_val d_children] in *. destruct (f_line f); try discriminate.
    + rewrite inline_items, tuple_head, <- !app_assoc by assumption. now apply looks_id.
    + rewrite (app_assoc (tuple_id f _)), (app_assoc _ (sp col)), concise_items, tuple_head, <- !app_assoc. now apply looks_id.
    + rewrite (app_assoc (tuple_id f _)), (app_assoc _ (sp col)), concise_items, tuple_head, <- !app_assoc. now apply looks_id.
  - apply andb_true_iff in S as [S SL]. unfold flat_node, d_line in *. cbn [d_fmt d_val d_children] in *. destruct (f_line f); try discriminate.
    + rewrite inline_fields, nonprim_head, <- !app_assoc by assumption. now apply looks_id.
    + rewrite (app_assoc (nonprim_id f _)), (app_assoc _ (sp col)), concise_fields, nonprim_head, <- !app_assoc. now apply looks_id.
  - apply andb_true_iff in S as [S SL]. unfold flat_node, safe_root, d_line, shown_id in *. cbn [d_fmt d_val d_id d_children] in *.
    destruct (f_line f) eqn:EL; try discriminate.
    + rewrite inline_items, nonprim_head, <- !app_assoc by assumption. destruct (if f_id f then id else None) as [i|]; [now apply looks_id|]. cbn [head app].
      change (looks (ch "[" :: (first_text drops (fun x => text true x col) [] l ++ s "]" ++ z)) = false). destruct l as [|x l]; [reflexivity|].
      inversion_clear SC as [|? ? SX _]. inversion_clear FC as [|? ? FX _]. cbn [first_shown] in SL. apply negb_true_iff in SL.
      cbn [first_text]. rewrite SL. cbn [app]. rewrite <- app_assoc. apply andb_true_iff in R as [R1 R2]. apply negb_true_iff in R1, R2.
      assert (ST : starts (text true x col)).
      { eapply reads_start, (text_in_grammar x SX FX false). discriminate. }
      assert (SX1 : safe_node x = true) by (destruct x; now apply d_all_children in SX as [SX _]).
      assert (FX1 : flat_node x = true) by (destruct x; now apply d_all_children in FX as [FX _]).
      rewrite looks_bracket by now apply starts_blank, starts_app. rewrite text_bracket by assumption. cbn [orb].
      destruct (word_only x) eqn:W; [|now apply text_wordy]. cbn [andb] in R2. destruct l as [|y l]; [discriminate|]. cbn [more_text]. rewrite <- !app_assoc.
      apply (wordy_next _ [] (ch ",")); (reflexivity || discriminate || now apply word_text).
    + rewrite (app_assoc (nonprim_id f _)), (app_assoc _ (sp col)), concise_items, nonprim_head, <- !app_assoc. destruct (if f_id f then id else None) as [i|]; [now apply looks_id|]. destruct l; reflexivity.
    + rewrite (app_assoc (nonprim_id f _)), (app_assoc _ (sp col)), concise_items, nonprim_head, <- !app_assoc. destruct (if f_id f then id else None) as [i|]; [now apply looks_id|]. destruct l; reflexivity.
  - apply andb_true_iff in S as [S SL]. unfold flat_node, d_line in *. cbn [d_fmt d_val d_children] in *. destruct (f_line f); try discriminate.
    + rewrite (app_assoc (nonprim_id f _)), inline_entries, nonprim_head, <- !app_assoc by assumption. now apply looks_id.
    + rewrite (app_assoc (nonprim_id f _)), (app_assoc _ (sp col)), concise_entries, nonprim_head, <- !app_assoc. now apply looks_id.
    + rewrite (app_assoc (nonprim_id f _)), (app_assoc _ (sp col)), concise_entries, nonprim_head, <- !app_assoc. now apply looks_id.
Qed.
Lemma text_document d : text_safe d = true -> d_all flat_node d = true -> document (text true d 0) (norm d).
Proof.
  intros S F. unfold text_safe in S. apply andb_true_iff in S as [S R]. rewrite each_all in S.
  rewrite <- (app_nil_r (text true d 0)). apply (Document [] _ [] _ (bare_number d)); [reflexivity|apply text_in_grammar; [exact S|exact F|discriminate]|reflexivity|].
  rewrite app_nil_r. unfold verbose_start. pose proof (text_looks d S F R 0 []) as L. rewrite app_nil_r in L. unfold looks in L. apply orb_false_iff in L as [-> ->].
  rewrite (proj2 (quiet_assigns _) (text_quiet d S F 0)). reflexivity.
Qed.
Lemma text_parses d : text_safe d = true -> d_all flat_node d = true -> parse (text true d 0) = ParseOk (norm d).
Proof. intros S F. unfold parse. now rewrite (document_ok _ _ (text_document d S F)). Qed.
