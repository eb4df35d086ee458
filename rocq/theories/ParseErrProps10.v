(** The error for a line with an identity in the verbose layout which is no name. *)
From Verif Require Import Base BaseProps F64 Number BTree Value ValueSpec Nom Parse ParseErr ParseSpec ParseProps ParseErrProps ParseErrProps2 ParseErrProps3 ParseErrProps6 Grammar GrammarProps.
Open Scope nat_scope.

Theorem bad_identity : forall w rest, blanks w -> (forall c r, rest = c :: r -> c <> 32%N /\ c <> 9%N /\ (word_char c = false \/ is_digit c = true \/ c = 45%N)) ->
  let src := ch ":" :: w ++ rest in
  exists e tr, parse src = ParseErr e /\ e_len e = 1 /\ e_get e 0 = Ret (Some tr) /\ describes src [] (ENom NkEof) tr.
Proof.
  intros w rest B R src.
  assert (HR : match rest with [] => True | c :: _ => starter c = false end).
  { destruct rest as [|c r]; [exact I|]. rewrite starter_word. destruct (R c r eq_refl) as (_ & _ & [E|[E|E]]); [now rewrite E|rewrite E; apply andb_false_r|subst c; reflexivity]. }
  assert (SB : stops blank rest).
  { destruct rest as [|c r]; [exact I|]. destruct (R c r eq_refl) as (R1 & R2 & _). cbn [stops]. unfold blank, mem. cbn [existsb]. apply N.eqb_neq in R1, R2. now rewrite R1, R2. }
  assert (IT : forall inl con nested, exists e, verbose_cntr_field inl con nested 0 src = PErr e).
  { intros inl con nested. unfold verbose_cntr_field. change (skip_lines (S (length src)) src) with (POk src tt). cbn [pbind expect_indents].
    change (inline_whitespace src) with (POk src (@nil char)). cbn [pbind]. change (is_ok (ignore_ws line_ending src)) with false. change (starts_with (s ":") src) with true. unfold src at 1. cbn [orb].
    change (tl src) with (w ++ rest). rewrite GrammarProps.skip_blanks by assumption. unfold ident, context, valid_name. rewrite (start_no rest HR). cbn [pbind]. eauto. }
  assert (P : parse src = ParseErr (error_new src [(src, ENom NkEof)])).
  { unfold parse. enough (K : kserd_root src = PErr [(src, ENom NkEof)]) by now rewrite K.
    unfold kserd_root, src. cbv zeta iota. fold src. unfold all_consuming, terminated. cbn [kserd_nested]. change (pattern_match_verbose src) with (POk src true). cbn [pbind].
    unfold cntr_verbose, many0. cbn [many0_loop].
    match goal with |- context [verbose_cntr_field ?a ?b ?c 0 src] => destruct (IT a b c) as [e E] end. rewrite E. reflexivity. }
  destruct (place_at src _ _ 0 [] src (ENom NkEof) P eq_refl eq_refl eq_refl) as (tr & G & D).
  exists (error_new src [(src, ENom NkEof)]), tr. repeat (split; [first [assumption|reflexivity]|]). exact D.
Qed.
