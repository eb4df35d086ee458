(** The error for a line of the verbose layout which is no field. *)
From Verif Require Import Base BaseProps F64 Number BTree Value ValueSpec Nom Parse ParseErr ParseSpec ParseProps ParseErrProps ParseErrProps2 ParseErrProps3 Grammar GrammarProps.
Open Scope nat_scope.

Section Line.
  Variables (id : str) (n0 : char) (name w1 rest : str).
  Hypotheses (HI : is_id id = true) (N0 : is_name_char n0 = true) (NN : forallb is_name_char name = true) (B1 : blanks w1).
  Hypothesis HR : match rest with [] => True | c :: _ => is_blank c = false /\ c <> ch "=" /\ (w1 = [] -> is_name_char c = false) end.
  Let line : str := n0 :: name ++ w1 ++ rest.
  Let src : str := ch ":" :: id ++ 10%N :: line.
  Let err : perr := [(rest, EChar (ch "=")); (line, EContext (s "name-kserd key value pair"))].
  Lemma l_blank : is_blank n0 = false. Proof. now apply name_blank. Qed.
  Lemma l_inline : inline_whitespace line = POk line [].
  Proof. unfold inline_whitespace, ptake_while, line. cbn [take_while]. now rewrite l_blank. Qed.
  Lemma l_ending : ignore_ws line_ending line = PErr [(line, ENom NkCrLf)].
  Proof.
    unfold ignore_ws, opt. rewrite l_inline. cbn [pbind]. unfold line, line_ending. assert (A : n0 <> 10%N /\ n0 <> 13%N) by (split; intros E; rewrite E in N0; discriminate).
    destruct A as [A1 A2]. destruct n0 as [|p]; [reflexivity|]. do 4 (destruct p as [p|p|]; try reflexivity; try congruence).
  Qed.
  Lemma l_kvp inl con : kvp_field inl con false line = PErr err.
  Proof.
    unfold kvp_field, context, separated_pair, field_name, ptake_while.
    assert (T : take_while is_name_char line = (n0 :: name, w1 ++ rest)).
    { apply (take_while_spec is_name_char (n0 :: name)); [cbn [forallb]; now rewrite N0, NN|]. destruct w1 as [|c w]; [destruct rest; [exact I|now apply HR]|]. unfold blanks in B1. cbn [app forallb] in *. apply andb_true_iff in B1 as [B _]. now apply blank_name. }
    rewrite T. cbn [pbind]. rewrite GrammarProps.skip_blanks; [|exact B1|destruct rest; [exact I|apply HR]].
    assert (Q : pchar (ch "=") rest = PErr [(rest, EChar (ch "="))]).
    { unfold pchar. destruct rest as [|c r]; [reflexivity|]. destruct HR as (_ & NE & _). apply N.eqb_neq in NE. now rewrite NE. }
    rewrite Q. reflexivity.
  Qed.
  Lemma l_item inl con nested : verbose_cntr_field inl con nested 0 (10%N :: line) = PFail err.
  Proof.
    unfold verbose_cntr_field.
    assert (SK : skip_lines (S (length (10%N :: line))) (10%N :: line) = POk line tt).
    { cbn [skip_lines]. change (opt (ignore_ws line_ending) (10%N :: line)) with (POk line (Some [10%N])). cbn [pbind length skip_lines]. unfold opt. rewrite l_ending. reflexivity. }
    match goal with |- pbind ?a _ = _ => change a with (skip_lines (S (length (10%N :: line))) (10%N :: line)) end. rewrite SK. cbn [pbind expect_indents]. rewrite l_inline. cbn [pbind]. rewrite l_ending. unfold line at 1. cbn [is_ok orb].
    assert (X : forall c t, is_name_char c = false -> starts_with (c :: t) line = false).
    { intros c t H. unfold line. cbn [starts_with]. assert (E : (c =? n0)%N = false) by (apply N.eqb_neq; intros <-; congruence). now rewrite E. }
    change (s ":") with [58%N]. change (s "[[") with [91%N; 91%N]. change (s "[") with [91%N]. rewrite !X by reflexivity. unfold cut. rewrite l_kvp. reflexivity.
  Qed.
  Lemma l_first inl con nested : verbose_cntr_field inl con nested 0 src = POk (10%N :: line) (CfId id).
  Proof.
    unfold verbose_cntr_field. change (skip_lines (S (length src)) src) with (POk src tt). cbn [pbind expect_indents].
    change (inline_whitespace src) with (POk src (@nil char)). cbn [pbind]. change (is_ok (ignore_ws line_ending src)) with false. change (starts_with (s ":") src) with true. unfold src at 1. cbn [orb tl].
    change (tl src) with (id ++ 10%N :: line).
    assert (SB : stops blank (id ++ 10%N :: line)). { destruct id as [|c i]; [discriminate HI|]. cbn [app stops]. pose proof (id_start c i HI) as [_ Z]. cbn [forallb] in Z. apply andb_true_iff in Z as [Z _]. rewrite name_char_eq in Z. exact (name_blank c Z). }
    rewrite (GrammarProps.skip_blanks (ident false) [] (id ++ 10%N :: line) eq_refl SB : ignore_ws (ident false) (id ++ 10%N :: line) = _).
    rewrite ident_ok by (try exact HI; reflexivity). reflexivity.
  Qed.
  Lemma l_root : kserd_root src = PFail err.
  Proof.
    unfold kserd_root, src. cbv zeta iota. fold src. unfold all_consuming, terminated. cbn [kserd_nested]. change (pattern_match_verbose src) with (POk src true). cbn [pbind].
    unfold cntr_verbose, many0. cbn [many0_loop]. rewrite l_first. replace (Nat.eqb _ _) with false by (symmetry; apply Nat.eqb_neq; unfold src; cbn [length]; rewrite app_length; cbn [length]; lia).
    assert (L : exists m, length src = S m) by (unfold src; cbn [length]; eauto). destruct L as [m ->]. cbn [many0_loop]. rewrite l_item. reflexivity.
  Qed.
End Line.

Theorem bad_line : forall id name w1 rest, is_id id = true -> name <> [] -> forallb word_char name = true -> blanks w1 ->
  (forall c r, rest = c :: r -> c <> 32%N /\ c <> 9%N /\ c <> ch "=" /\ (w1 = [] -> word_char c = false)) ->
  let before := s ":" ++ id ++ [10%N] in
  let src := before ++ name ++ w1 ++ rest in
  exists e, parse src = ParseErr e /\ e_len e = 2 /\
    forall i k p, nth_error [(EChar (ch "="), before ++ name ++ w1); (EContext (s "name-kserd key value pair"), before)] i = Some (k, p) ->
      exists tr, e_get e i = Ret (Some tr) /\ describes src p k tr.
Proof.
  intros id [|n0 name] w1 rest HI NE NN B1 R before src; [easy|]. rewrite word_chars_eq in NN. cbn [forallb] in NN. apply andb_true_iff in NN as [N0 NN].
  assert (HR : match rest with [] => True | c :: _ => is_blank c = false /\ c <> ch "=" /\ (w1 = [] -> is_name_char c = false) end).
  { destruct rest as [|c r]; [exact I|]. destruct (R c r eq_refl) as (R1 & R2 & R3 & R4). rewrite word_char_eq in R4. split; [|split; assumption].
    unfold is_blank, mem. cbn [existsb]. apply N.eqb_neq in R1, R2. now rewrite R1, R2. }
  set (line := n0 :: name ++ w1 ++ rest). set (pe := [(rest, EChar (ch "=")); (line, EContext (s "name-kserd key value pair"))]).
  assert (E : src = ch ":" :: id ++ 10%N :: line) by (unfold src, before, line; cbn [s map list_ascii_of_string app]; rewrite <- app_assoc; reflexivity).
  assert (P : parse src = ParseErr (error_new src pe)).
  { unfold parse. pose proof (l_root id n0 name w1 rest HI N0 NN B1 HR) as K. fold line in K. rewrite <- E in K. rewrite K. reflexivity. }
  exists (error_new src pe). split; [exact P|]. split; [reflexivity|]. intros i k p Hi.
  destruct i as [|[|i]]; cbn [nth_error] in Hi; [| |destruct i; discriminate Hi]; injection Hi as <- <-.
  - apply (place_at src pe _ 0 (before ++ (n0 :: name) ++ w1) rest _ P eq_refl eq_refl). unfold src. now rewrite <- !app_assoc.
  - exact (place_at src pe _ 1 before line _ P eq_refl eq_refl eq_refl).
Qed.
