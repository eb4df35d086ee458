(** The errors for identities in angle brackets which are not closed or not names. *)
From Verif Require Import Base BaseProps F64 Number BTree Value ValueSpec Nom Parse ParseErr ParseSpec ParseProps ParseErrProps ParseErrProps2 ParseErrProps3.
Open Scope nat_scope.

Lemma angle_root : forall r e, let src := 60%N :: r in ident true src = PFail e -> parse src = ParseErr (error_new src e).
Proof.
  intros r e src P. unfold parse. enough (K : kserd_root src = PFail e) by now rewrite K.
  unfold kserd_root, src. cbv zeta iota. fold src. unfold all_consuming, terminated. cbn [kserd_nested].
  change (pattern_match_verbose src) with (POk src false). cbn [pbind].
  unfold ignore_ws. change (opt inline_whitespace src) with (POk src (Some (@nil char))). cbn [pbind].
  unfold kserd_concise. cbn [kserd_delimited]. unfold delimited_body, pattern_match_delimited.
  change (starts_with (s "true") src || starts_with (s "false") src) with false. cbv iota. unfold opt. rewrite P. reflexivity.
Qed.

(** letters and the underscore *)
Definition starter (c : char) : bool := is_alpha c || (c =? 95)%N.
Lemma starter_name c : starter c = true -> is_name_char c = true.
Proof. unfold starter, is_name_char, is_alnum. destruct (is_alpha c); [reflexivity|]. cbn [orb]. intros ->. apply orb_true_r. Qed.
Lemma start_ok c r : starter c = true -> exists x y, alt2 alpha1 (tag (s "_")) (c :: r) = POk x y.
Proof.
  unfold starter, alt2, alpha1. cbn [take_while]. destruct (is_alpha c); [destruct (take_while is_alpha r); eauto|]. cbn [orb]. intros H. apply N.eqb_eq in H. subst c.
  change (tag (s "_") (95%N :: r)) with (POk r (s "_")). eauto.
Qed.
Lemma start_no i : match i with [] => True | c :: _ => starter c = false end -> alt2 alpha1 (tag (s "_")) i = PErr [(i, ENom NkTag); (i, ENom NkAlt)].
Proof.
  intros H. unfold alt2, alpha1. destruct i as [|c r]; [reflexivity|]. unfold starter in H. apply orb_false_iff in H as [A U]. cbn [take_while]. rewrite A.
  unfold tag. change (s "_") with [95%N]. cbn [starts_with]. rewrite N.eqb_sym, U. reflexivity.
Qed.

Section Angle.
  Variables (c0 : char) (name rest : str).
  Hypotheses (S0 : starter c0 = true) (N : forallb is_name_char name = true).
  Hypothesis (R : match rest with [] => True | c :: _ => is_name_char c = false /\ c <> 62%N end).
  Definition angle_src : str := 60%N :: c0 :: name ++ rest.
  Definition angle_err : perr := [(rest, EChar 62%N); (angle_src, EContext (s "identity"))].
  Lemma angle_ident : ident true angle_src = PFail angle_err.
  Proof.
    unfold ident, context at 1, preceded. change (pchar (ch "<") angle_src) with (POk (c0 :: name ++ rest) 60%N). cbn [pbind]. unfold cut, terminated, valid_name.
    destruct (start_ok c0 (name ++ rest) S0) as (x & y & ->). cbn [pbind]. unfold context, cut, ptake_while1.
    assert (HR : match rest with [] => True | c :: _ => is_name_char c = false end) by (destruct rest; [exact I|apply R]).
    assert (T : take_while is_name_char (c0 :: name ++ rest) = (c0 :: name, rest)).
    { apply (take_while_spec is_name_char (c0 :: name) rest); [|exact HR]. cbn [forallb]. now rewrite (starter_name c0 S0), N. }
    rewrite T. cbn [pbind]. assert (Q : pchar (ch ">") rest = PErr [(rest, EChar 62%N)]).
    { unfold pchar. destruct rest as [|c r]; [reflexivity|]. destruct R as [_ R']. destruct (N.eqb_spec c (ch ">")) as [E|E]; [now contradiction R'|reflexivity]. }
    rewrite Q. reflexivity.
  Qed.
  Lemma angle_error : exists e, parse angle_src = ParseErr e /\ e_len e = 2 /\
    forall i k p, nth_error [(EChar 62%N, 60%N :: c0 :: name); (EContext (s "identity"), [])] i = Some (k, p) ->
      exists tr, e_get e i = Ret (Some tr) /\ describes angle_src p k tr.
  Proof.
    assert (P : parse angle_src = ParseErr (error_new angle_src angle_err)) by (apply angle_root; exact angle_ident).
    exists (error_new angle_src angle_err). split; [exact P|]. split; [reflexivity|]. intros i k p Hi.
    destruct i as [|[|i]]; cbn [nth_error] in Hi; [| |destruct i; discriminate Hi]; injection Hi as <- <-.
    - exact (place_at angle_src angle_err _ 0 (60%N :: c0 :: name) rest _ P eq_refl eq_refl eq_refl).
    - exact (place_at angle_src angle_err _ 1 [] angle_src _ P eq_refl eq_refl eq_refl).
  Qed.
End Angle.

Section NoName.
  Variable (rest : str).
  Hypothesis (R : match rest with [] => True | c :: _ => starter c = false end).
  Definition noname_src : str := 60%N :: rest.
  Definition noname_err : perr := [(rest, ENom NkTag); (rest, ENom NkAlt); (noname_src, EContext (s "identity"))].
  Lemma noname_ident : ident true noname_src = PFail noname_err.
  Proof.
    unfold ident, context at 1, preceded. change (pchar (ch "<") noname_src) with (POk rest 60%N). cbn [pbind]. unfold cut, terminated, valid_name.
    rewrite (start_no rest R). reflexivity.
  Qed.
  Lemma noname_error : exists e, parse noname_src = ParseErr e /\ e_len e = 3 /\
    forall i k p, nth_error [(ENom NkTag, [60%N]); (ENom NkAlt, [60%N]); (EContext (s "identity"), [])] i = Some (k, p) ->
      exists tr, e_get e i = Ret (Some tr) /\ describes noname_src p k tr.
  Proof.
    assert (P : parse noname_src = ParseErr (error_new noname_src noname_err)) by (apply angle_root; exact noname_ident).
    exists (error_new noname_src noname_err). split; [exact P|]. split; [reflexivity|]. intros i k p Hi.
    destruct i as [|[|[|i]]]; cbn [nth_error] in Hi; [| | |destruct i; discriminate Hi]; injection Hi as <- <-.
    - exact (place_at noname_src noname_err _ 0 [60%N] rest _ P eq_refl eq_refl eq_refl).
    - exact (place_at noname_src noname_err _ 1 [60%N] rest _ P eq_refl eq_refl eq_refl).
    - exact (place_at noname_src noname_err _ 2 [] noname_src _ P eq_refl eq_refl eq_refl).
  Qed.
End NoName.

Lemma starter_word c : starter c = word_char c && negb (is_digit c || (c =? 45)%N).
Proof. unfold starter, word_char, is_alpha, is_digit. lia. Qed.

Theorem open_identity : forall name rest, name <> [] -> forallb word_char name = true -> (forall c r, name = c :: r -> is_digit c = false /\ c <> 45%N) ->
  (forall c r, rest = c :: r -> word_char c = false /\ c <> 62%N) ->
  let src := 60%N :: name ++ rest in
  exists e, parse src = ParseErr e /\ e_len e = 2 /\
    forall i k p, nth_error [(EChar 62%N, 60%N :: name); (EContext (s "identity"), [])] i = Some (k, p) ->
      exists tr, e_get e i = Ret (Some tr) /\ describes src p k tr.
Proof.
  intros [|c0 name] rest NE W F R; [easy|]. cbn [forallb] in W. apply andb_true_iff in W as [W0 W]. destruct (F c0 name eq_refl) as [F1 F2]. apply N.eqb_neq in F2.
  rewrite word_chars_eq in W. assert (R' : match rest with [] => True | c :: _ => is_name_char c = false /\ c <> 62%N end).
  { destruct rest as [|c r]; [exact I|]. rewrite <- word_char_eq. now apply (R c r). }
  apply (angle_error c0 name rest); [|exact W|exact R']. now rewrite starter_word, W0, F1, F2.
Qed.

Theorem no_identity : forall rest, (forall c r, rest = c :: r -> word_char c = false \/ is_digit c = true \/ c = 45%N) ->
  let src := 60%N :: rest in
  exists e, parse src = ParseErr e /\ e_len e = 3 /\
    forall i k p, nth_error [(ENom NkTag, [60%N]); (ENom NkAlt, [60%N]); (EContext (s "identity"), [])] i = Some (k, p) ->
      exists tr, e_get e i = Ret (Some tr) /\ describes src p k tr.
Proof.
  intros rest R. apply noname_error. destruct rest as [|c r]; [exact I|]. rewrite starter_word.
  destruct (R c r eq_refl) as [E|[E|E]]; [now rewrite E|rewrite E; apply andb_false_r|subst c; reflexivity].
Qed.
