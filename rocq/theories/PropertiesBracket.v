(** Property C19, continued: lists, containers and maps closed by the wrong bracket or not at all, and
    text behind a value, and lines which are no fields. *)
From Verif Require Import Base F64 Number BTree Value Nom Parse ParseErr ParseSpec Grammar BracketSpec BracketProps2 BracketProps4 BracketProps5 ParseErrProps8 ParseErrProps9 ParseErrProps10.
Open Scope N_scope.

(** A sequence, tuple, container or map, in one line or in several, with or without an identity
    before it, with a bracket of another kind where its own closing bracket belongs: the document is
    refused with two traces.  The first asks for the right bracket at the place of the wrong one, the
    second says what was being read and points right behind the opening bracket. *)
Theorem C19_bracket : forall id w o cl what t c rest, head_ok id w -> begun (c :: rest) o cl what t -> In c (s ")]}") -> c <> cl ->
  let before := head id w ++ [o] in
  let src := before ++ t ++ c :: rest in
  verbose_start src = false ->
  exists e, parse src = ParseErr e /\ e_len e = 2%nat /\
    forall i k p, nth_error [(EChar cl, before ++ t); (EContext what, before)] i = Some (k, p) ->
      exists tr, e_get e i = Ret (Some tr) /\ describes src p k tr.
Proof. exact wrong_bracket. Qed.
Print Assumptions C19_bracket.
(** ids (1, true ] and {true: 1 ) *)
Example C19_bracket_case :
  (exists l, inline_list (reads true) (s "1, true ") l) /\ (exists l, inline_list (entry_of (reads false) (reads true)) (s "true: 1 ") l) /\
  let shown src := match parse src with
  | ParseErr e => match e_iter e with Ret l => map (fun t => (t_line t, t_col t, t_msg t)) l | _ => [] end
  | _ => []
  end in
  assigns (trim (s "1, true ] 2")) = false /\ verbose_start (s "ids (1, true ] 2") = false /\
  shown (s "ids (1, true ] 2") = [(1%nat, 14%nat, s "expected ')', found ']'"); (1%nat, 6%nat, s "in inline tuple")] /\
  shown (s "{true: 1 )") = [(1%nat, 10%nat, s "expected '}', found ')'"); (1%nat, 2%nat, s "in inline map")].
Proof.
  assert (N1 : forall m, reads m (s "1") (Kserd None (VNum (Uint 1))) false) by (intros m; apply (R_plain m (s "1") (VNum (Uint 1))); [apply T_num; reflexivity|intros d r X; discriminate X]).
  assert (NT : forall m, reads m (s "true") (Kserd None (VBool true)) false) by (intros m; apply (R_plain m (s "true") (VBool true)); [apply T_true|intros d r X; discriminate X]).
  split; [|split; [|vm_compute; auto]].
  - eexists. apply (IL_first (reads true) [] (s "1") (Kserd None (VNum (Uint 1))) false (s ", true ") [Kserd None (VBool true)]); [reflexivity|apply N1|].
    apply (IM_next (reads true) [] (s " ") (s "true") (Kserd None (VBool true)) false (s " ") []); [reflexivity|reflexivity|apply NT|now constructor].
  - eexists. apply (IL_first (entry_of (reads false) (reads true)) [] (s "true: 1") (Kserd None (VBool true), Kserd None (VNum (Uint 1))) false (s " ") []); [reflexivity| |now constructor].
    apply (Entry (reads false) (reads true) (s "true") [] (s " ") (s "1") (Kserd None (VBool true)) (Kserd None (VNum (Uint 1))) false false); [reflexivity|reflexivity|apply NT|apply N1].
Qed.
(** The same for one which is not closed before the end of the document: the first trace asks for
    the closing bracket at the end. *)
Theorem C19_unclosed : forall id w o cl what t, head_ok id w -> begun [] o cl what t ->
  let before := head id w ++ [o] in
  let src := before ++ t in
  verbose_start src = false ->
  exists e, parse src = ParseErr e /\ e_len e = 2%nat /\
    forall i k p, nth_error [(EChar cl, src); (EContext what, before)] i = Some (k, p) ->
      exists tr, e_get e i = Ret (Some tr) /\ describes src p k tr.
Proof. exact open_bracket. Qed.
Print Assumptions C19_unclosed.
Example C19_unclosed_case :
  (exists l, concise_list (reads false) (s "
  1
  true
") l) /\
  let src := s "[
  1
  true
" in
  verbose_start src = false /\
  match parse src with
  | ParseErr e => match e_iter e with Ret l => map (fun t => (t_line t, t_col t, t_msg t)) l | _ => [] end
  | _ => []
  end = [(3%nat, 8%nat, s "expected ']', reached end of line or end of file first"); (1%nat, 2%nat, s "in multi-line (concise) sequence")].
Proof.
  assert (N1 : forall m, reads m (s "1") (Kserd None (VNum (Uint 1))) false) by (intros m; apply (R_plain m (s "1") (VNum (Uint 1))); [apply T_num; reflexivity|intros d r X; discriminate X]).
  assert (NT : forall m, reads m (s "true") (Kserd None (VBool true)) false) by (intros m; apply (R_plain m (s "true") (VBool true)); [apply T_true|intros d r X; discriminate X]).
  split; [|vm_compute; auto]. exists [Kserd None (VNum (Uint 1)); Kserd None (VBool true)]. split; [reflexivity|].
  apply (CM_next (reads false) (10 :: s "  ") (s "1") (Kserd None (VNum (Uint 1))) false (10 :: s "  true" ++ [10])); [reflexivity|discriminate|apply N1| |discriminate].
  apply (CM_next (reads false) (10 :: s "  ") (s "true") (Kserd None (VBool true)) false [10]); [reflexivity|discriminate|apply NT| |discriminate].
  apply CM_end; [reflexivity|discriminate].
Qed.
(** Text behind a value, with spaces or line ends between them, is refused with a single trace,
    which points to that text. *)
Theorem C19_extra : forall w1 t w2 k b c r, blanks w1 -> reads false t k b -> spaces w2 -> w2 <> [] -> space c = false -> (b = true -> ~ In c (s "([{")) ->
  let src := w1 ++ t ++ w2 ++ c :: r in
  verbose_start (t ++ w2 ++ c :: r) = false ->
  exists e tr, parse src = ParseErr e /\ e_len e = 1%nat /\ e_get e 0 = Ret (Some tr) /\ describes src (w1 ++ t ++ w2) (ENom NkEof) tr.
Proof. exact extra_text. Qed.
Print Assumptions C19_extra.
Example C19_extra_case :
  reads false (s "true") (Kserd None (VBool true)) false /\
  let src := s "true
2" in
  verbose_start src = false /\
  match parse src with
  | ParseErr e => match e_iter e with Ret l => map (fun t => (t_line t, t_col t, t_msg t)) l | _ => [] end
  | _ => []
  end = [(2%nat, 1%nat, s "in Eof")].
Proof.
  split; [|vm_compute; auto]. apply (R_plain false (s "true") (VBool true)); [apply T_true|intros d r X; discriminate X].
Qed.
(** A line name = word in the verbose layout, the word being no value: the last trace points to the
    name and says that a field was being read, the others point to the word. *)
Theorem C19_field : forall name w1 w2 w, name <> [] -> forallb word_char name = true -> blanks w1 -> blanks w2 -> w <> [] -> forallb word_char w = true ->
  (forall p q, w = p ++ q -> p <> s "true" /\ p <> s "false" /\ p <> s "str" /\ num_from_str p = None) ->
  let before := name ++ w1 ++ s "=" ++ w2 in
  let src := before ++ w in
  exists e, parse src = ParseErr e /\ e_len e = 6%nat /\
    forall i k p, nth_error [(ENom NkTag, before); (EContext (s "base 91 byte array"), before); (ENom NkAlt, before); (EContext (s "primitive value"), before); (EContext (s "primitive"), before); (EContext (s "name-kserd key value pair"), [])] i = Some (k, p) ->
      exists tr, e_get e i = Ret (Some tr) /\ describes src p k tr.
Proof. exact field_no_value. Qed.
Print Assumptions C19_field.
Example C19_field_case :
  (forall p q, s "off" = p ++ q -> p <> s "true" /\ p <> s "false" /\ p <> s "str" /\ num_from_str p = None) /\
  match parse (s "light = off") with
  | ParseErr e => match e_iter e with Ret l => map (fun t => (t_line t, t_col t, t_msg t)) l | _ => [] end
  | _ => []
  end = map (fun m => (1%nat, 9%nat, m)) [s "in Tag"; s "in base 91 byte array"; s "in Alt"; s "in primitive value"; s "in primitive"] ++ [(1%nat, 1%nat, s "in name-kserd key value pair")].
Proof.
  split; [|vm_compute; reflexivity]. intros p q E. assert (L : p = firstn (length p) (s "off")) by (rewrite E, firstn_app, firstn_all, Nat.sub_diag, app_nil_r; reflexivity).
  assert (N : (length p <= 3)%nat) by (apply (f_equal (@length char)) in E; rewrite app_length in E; change (length (s "off")) with 3%nat in E; lia).
  rewrite L. destruct (length p) as [|[|[|[|n]]]]; [| | | |lia]; (split; [discriminate|split; [discriminate|split; [discriminate|vm_compute; reflexivity]]]).
Qed.
(** A line of the verbose layout, behind the one with the identity, which has no equals sign behind
    its first word: the first trace asks for it, the second points to the beginning of the line. *)
Theorem C19_line : forall id name w1 rest, is_id id = true -> name <> [] -> forallb word_char name = true -> blanks w1 ->
  (forall c r, rest = c :: r -> c <> 32 /\ c <> 9 /\ c <> ch "=" /\ (w1 = [] -> word_char c = false)) ->
  let before := s ":" ++ id ++ [10] in
  let src := before ++ name ++ w1 ++ rest in
  exists e, parse src = ParseErr e /\ e_len e = 2%nat /\
    forall i k p, nth_error [(EChar (ch "="), before ++ name ++ w1); (EContext (s "name-kserd key value pair"), before)] i = Some (k, p) ->
      exists tr, e_get e i = Ret (Some tr) /\ describes src p k tr.
Proof. exact bad_line. Qed.
Print Assumptions C19_line.
Example C19_line_case :
  is_id (s "Lamp") = true /\
  match parse (s ":Lamp
light : on
") with
  | ParseErr e => match e_iter e with Ret l => map (fun t => (t_line t, t_col t, t_msg t)) l | _ => [] end
  | _ => []
  end = [(2%nat, 7%nat, s "expected '=', found ':'"); (2%nat, 1%nat, s "in name-kserd key value pair")].
Proof. split; vm_compute; reflexivity. Qed.
(** A document which begins with a colon and no name behind it: an empty container is read and the
    whole document is the text behind it, so the only trace points to the beginning. *)
Theorem C19_colon : forall w rest, blanks w -> (forall c r, rest = c :: r -> c <> 32 /\ c <> 9 /\ (word_char c = false \/ is_digit c = true \/ c = 45)) ->
  let src := ch ":" :: w ++ rest in
  exists e tr, parse src = ParseErr e /\ e_len e = 1%nat /\ e_get e 0 = Ret (Some tr) /\ describes src [] (ENom NkEof) tr.
Proof. exact bad_identity. Qed.
Print Assumptions C19_colon.
Example C19_colon_case :
  match parse (s ": 3rd
a = 1
") with
  | ParseErr e => match e_iter e with Ret l => map (fun t => (t_line t, t_col t, t_msg t)) l | _ => [] end
  | _ => []
  end = [(1%nat, 1%nat, s "in Eof")].
Proof. vm_compute. reflexivity. Qed.
