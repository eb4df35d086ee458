(** The error for a title which is not closed. *)
From Verif Require Import Base BaseProps BTree Value ValueSpec Nom Parse ParseErr ParseSpec ParseProps ParseErrProps ParseErrProps2.
Open Scope nat_scope.

Lemma place_at src pe e i p q k : parse src = ParseErr e -> e = error_new src pe -> nth_error pe i = Some (q, k) -> src = p ++ q ->
  exists tr, e_get e i = Ret (Some tr) /\ describes src p k tr.
Proof.
  intros P E N S. assert (Hi : i < e_len e). { rewrite E. unfold e_len. cbn [error_new errs]. rewrite map_length. apply nth_error_Some. congruence. }
  destruct (e_get_spec src e i P Hi) as (p' & q' & k' & tr & S' & NE & G & D). exists tr. split; [exact G|].
  rewrite E in NE. cbn [error_new errs] in NE. rewrite nth_error_map, N in NE. cbn [option_map fst snd] in NE. injection NE as NE <-.
  replace p' with p in D; [exact D|]. unfold offset in NE. rewrite bytes_len in NE. rewrite S in NE at 1. rewrite byte_len_app in NE.
  destruct (prefix_le p p' q q') as [w W]; [congruence|lia|]. subst p'. rewrite byte_len_app in NE. assert (Z : byte_len w = 0) by lia.
  destruct w as [|w0 w]; [now rewrite app_nil_r|]. exfalso. cbn [byte_len fold_right] in Z. pose proof (utf8_len_pos w0). lia.
Qed.

Lemma name_blank c : is_name_char c = true -> is_blank c = false.
Proof. unfold is_name_char, is_blank, is_alnum, is_alpha, is_digit, mem. cbn [existsb]. lia. Qed.
Lemma blank_name c : is_blank c = true -> is_name_char c = false.
Proof. intros H. destruct (is_name_char c) eqn:E; [|reflexivity]. now rewrite (name_blank c E) in H. Qed.
Lemma skip_blanks {A} (p : parser A) b i : forallb is_blank b = true -> match i with [] => True | c :: _ => is_blank c = false end -> ignore_ws p (b ++ i) = p i.
Proof. intros HB HI. unfold ignore_ws, opt, inline_whitespace, ptake_while. rewrite (take_while_spec is_blank b i HB HI). reflexivity. Qed.

Section Title.
  Variables (b1 name b2 rest : str).
  Hypotheses (B1 : forallb is_blank b1 = true) (N : forallb is_name_char name = true) (NE : name <> []) (B2 : forallb is_blank b2 = true).
  Hypothesis (R : match rest with [] => True | c :: _ => is_blank c = false /\ c <> ch ":" /\ (b2 = [] -> is_name_char c = false) end).
  Hypothesis (O : starts_with (s "]]") rest = false).
  Definition title_src : str := s "[[" ++ b1 ++ name ++ b2 ++ rest.
  Lemma title_item inl con nested : verbose_cntr_field inl con nested 0 title_src = PFail [(rest, ENom NkTag); (title_src, EContext (s "field name. expecting 'field_name[:identity]'"))].
  Proof.
    unfold verbose_cntr_field. change (skip_lines (S (length title_src)) title_src) with (POk title_src tt). cbn [pbind expect_indents].
    change (inline_whitespace title_src) with (POk title_src (@nil char)). cbn [pbind].
    change (is_ok (ignore_ws line_ending title_src)) with false. change (starts_with (s ":") title_src) with false. change (starts_with (s "[[") title_src) with true. unfold title_src at 1. cbn [s app orb].
    cbv iota. unfold context at 1, cut, preceded. change (tag (s "[[") title_src) with (POk (b1 ++ name ++ b2 ++ rest) (s "[[")). cbn [pbind]. unfold terminated.
    assert (HN : match name ++ b2 ++ rest with [] => True | c :: _ => is_blank c = false end).
    { destruct name as [|c n]; [easy|]. cbn [app forallb] in *. apply andb_true_iff in N as [N _]. now apply name_blank. }
    assert (HR : match b2 ++ rest with [] => True | c :: _ => is_name_char c = false end).
    { destruct b2 as [|c b]; cbn [app forallb] in *; [destruct rest; [exact I|now apply R]|]. apply andb_true_iff in B2 as [B2 _]. now apply blank_name. }
    assert (HB : match rest with [] => True | c :: _ => is_blank c = false end) by (destruct rest; [exact I|apply R]).
    unfold verbose_field_name_and_identity, context. rewrite (skip_blanks field_name b1 (name ++ b2 ++ rest) B1 HN). unfold field_name, ptake_while.
    rewrite (take_while_spec is_name_char name (b2 ++ rest) N HR). cbn [pbind]. rewrite (skip_blanks (pchar (ch ":")) b2 rest B2 HB).
    assert (C : exists e, pchar (ch ":") rest = PErr e).
    { unfold pchar. destruct rest as [|c r]; [eauto|]. destruct R as (_ & R' & _). destruct (N.eqb_spec c (ch ":")); [contradiction|]. eauto. }
    destruct C as [e ->]. cbn [pbind]. rewrite (skip_blanks (tag (s "]]")) b2 rest B2 HB). unfold tag. rewrite O. reflexivity.
  Qed.
  Theorem title_error : exists e tr tr', parse title_src = ParseErr e /\ e_len e = 2 /\
    e_get e 0 = Ret (Some tr) /\ describes title_src (s "[[" ++ b1 ++ name ++ b2) (ENom NkTag) tr /\
    e_get e 1 = Ret (Some tr') /\ describes title_src [] (EContext (s "field name. expecting 'field_name[:identity]'")) tr'.
  Proof.
    set (pe := [(rest, ENom NkTag); (title_src, EContext (s "field name. expecting 'field_name[:identity]'"))]).
    assert (P : parse title_src = ParseErr (error_new title_src pe)).
    { unfold parse. enough (K : kserd_root title_src = PFail pe) by now rewrite K.
      unfold kserd_root. change (match title_src with [] => ?a | _ :: _ => ?b end) with b.
      cbv zeta. unfold all_consuming, terminated. cbn [kserd_nested]. change (pattern_match_verbose title_src) with (POk title_src true). cbn [pbind].
      unfold cntr_verbose, many0. cbn [many0_loop]. rewrite title_item. reflexivity. }
    exists (error_new title_src pe).
    destruct (place_at title_src pe _ 0 (s "[[" ++ b1 ++ name ++ b2) rest (ENom NkTag) P eq_refl eq_refl) as (tr & G & D); [unfold title_src; now rewrite <- !app_assoc|].
    destruct (place_at title_src pe _ 1 [] title_src _ P eq_refl eq_refl eq_refl) as (tr' & G' & D').
    exists tr, tr'. repeat (split; [first [assumption|reflexivity]|]). assumption.
  Qed.
End Title.
Theorem title_unclosed b1 name b2 rest :
  (forall c, In c (b1 ++ b2) -> c = 32%N \/ c = 9%N) -> name <> [] -> forallb word_char name = true ->
  (forall c r, rest = c :: r -> c <> 32%N /\ c <> 9%N /\ c <> ch ":" /\ (b2 = [] -> word_char c = false)) -> (forall r, rest <> s "]]" ++ r) ->
  let src := s "[[" ++ b1 ++ name ++ b2 ++ rest in
  exists e tr tr', parse src = ParseErr e /\ e_len e = 2 /\
    e_get e 0 = Ret (Some tr) /\ describes src (s "[[" ++ b1 ++ name ++ b2) (ENom NkTag) tr /\
    e_get e 1 = Ret (Some tr') /\ describes src [] (EContext (s "field name. expecting 'field_name[:identity]'")) tr'.
Proof.
  intros B NE N R O. assert (WC : forall c, word_char c = is_name_char c) by (intros c; unfold word_char, is_name_char, is_alnum, is_alpha, is_digit; lia).
  assert (BL : forall b, (forall c, In c b -> In c (b1 ++ b2)) -> forallb is_blank b = true).
  { intros b H. apply forallb_forall. intros c Hc. destruct (B c (H c Hc)) as [-> | ->]; reflexivity. }
  apply title_error.
  - apply BL. intros c Hc. apply in_or_app. now left.
  - rewrite forallb_forall in *. intros c Hc. rewrite <- WC. auto.
  - exact NE.
  - apply BL. intros c Hc. apply in_or_app. now right.
  - destruct rest as [|c r]; [exact I|]. destruct (R c r eq_refl) as (X & Y & Z & V). split; [unfold is_blank, mem; cbn [existsb]; lia|]. split; [exact Z|]. rewrite <- WC. exact V.
  - destruct rest as [|c [|c2 r]]; [reflexivity|cbn; now rewrite ?andb_false_r|]. destruct (starts_with (s "]]") (c :: c2 :: r)) eqn:E; [|reflexivity].
    exfalso. cbn [starts_with s String.list_ascii_of_string map] in E. rewrite !andb_true_iff in E. destruct E as (E1 & E2 & _). apply N.eqb_eq in E1, E2. apply (O r). rewrite <- E1, <- E2. reflexivity.
Qed.
