(** Property C19, continued: the errors for titles, strings, byte arrays and identities which are not closed. *)
From Verif Require Import Base F64 Number BTree Value Nom Parse ParseErr ParseSpec ParseErrProps3 ParseErrProps4 ParseErrProps5 ParseErrProps6 ParseErrProps7.
Open Scope N_scope.

(** A document which begins with [[ and the name of a field, behind which neither ]] nor a colon
    follows, is refused with two traces: the first is about the place where ]] was expected, the
    second says that a title was being read and points to its beginning. *)
Theorem C19_title : forall b1 name b2 rest,
  (forall c, In c (b1 ++ b2) -> c = 32 \/ c = 9) -> name <> [] -> forallb word_char name = true ->
  (forall c r, rest = c :: r -> c <> 32 /\ c <> 9 /\ c <> ch ":" /\ (b2 = [] -> word_char c = false)) -> (forall r, rest <> s "]]" ++ r) ->
  let src := s "[[" ++ b1 ++ name ++ b2 ++ rest in
  exists e tr tr', parse src = ParseErr e /\ e_len e = 2%nat /\
    e_get e 0 = Ret (Some tr) /\ describes src (s "[[" ++ b1 ++ name ++ b2) (ENom NkTag) tr /\
    e_get e 1 = Ret (Some tr') /\ describes src [] (EContext (s "field name. expecting 'field_name[:identity]'")) tr'.
Proof. exact title_unclosed. Qed.
Print Assumptions C19_title.
Example C19_title_case :
  match parse (s "[[ kids ]
1
") with
  | ParseErr e => match e_iter e with Ret l => map (fun t => (t_line t, t_col t, t_msg t)) l | _ => [] end
  | _ => []
  end = [(1%nat, 9%nat, s "in Tag"); (1%nat, 1%nat, s "in field name. expecting 'field_name[:identity]'")].
Proof. vm_compute. reflexivity. Qed.
(** A string which begins the document and is not closed: the first trace points to the end of
    the document and asks for the quote, the others point to the quote it begins with. *)
Theorem C19_string : forall t, ~ In 34 t -> exists e, parse (34 :: t) = ParseErr e /\ e_len e = 4%nat /\
  forall i k p, nth_error [(EChar 34, 34 :: t); (EContext (s "string"), []); (EContext (s "primitive value"), []); (EContext (s "primitive"), [])] i = Some (k, p) ->
    exists tr, e_get e i = Ret (Some tr) /\ describes (34 :: t) p k tr.
Proof. exact open_string. Qed.
Print Assumptions C19_string.
Example C19_string_case :
  match parse (34 :: s "it's
open") with
  | ParseErr e => match e_iter e with Ret l => map (fun t => (t_line t, t_col t, t_msg t)) l | _ => [] end
  | _ => []
  end = [(2%nat, 5%nat, s "expected '""', reached end of line or end of file first"); (1%nat, 1%nat, s "in string"); (1%nat, 1%nat, s "in primitive value"); (1%nat, 1%nat, s "in primitive")].
Proof. vm_compute. reflexivity. Qed.
(** A string with a quote of its own, as str'..., which is not closed: the quote asked for is the
    one it begins with. *)
Theorem C19_quoted : forall d t, d = 34 \/ d = 39 -> ~ In d t -> let src := s "str" ++ d :: t in
  exists e, parse src = ParseErr e /\ e_len e = 4%nat /\
  forall i k p, nth_error [(EChar d, src); (EContext (s "string"), s "str"); (EContext (s "primitive value"), []); (EContext (s "primitive"), [])] i = Some (k, p) ->
    exists tr, e_get e i = Ret (Some tr) /\ describes src p k tr.
Proof. exact open_quoted. Qed.
Print Assumptions C19_quoted.
Example C19_quoted_case :
  match parse (s "str'say ""a""") with
  | ParseErr e => match e_iter e with Ret l => map (fun t => (t_line t, t_col t, t_msg t)) l | _ => [] end
  | _ => []
  end = [(1%nat, 12%nat, s "expected ''', reached end of line or end of file first"); (1%nat, 4%nat, s "in string"); (1%nat, 1%nat, s "in primitive value"); (1%nat, 1%nat, s "in primitive")].
Proof. vm_compute. reflexivity. Qed.
(** A byte array which is not closed. *)
Theorem C19_bytes : forall t, ~ In 39 t -> let src := s "b91'" ++ t in
  exists e, parse src = ParseErr e /\ e_len e = 4%nat /\
  forall i k p, nth_error [(EChar 39, src); (EContext (s "base 91 byte array"), []); (EContext (s "primitive value"), []); (EContext (s "primitive"), [])] i = Some (k, p) ->
    exists tr, e_get e i = Ret (Some tr) /\ describes src p k tr.
Proof. exact open_bytes. Qed.
Print Assumptions C19_bytes.
Example C19_bytes_case :
  match parse (s "b91'Ph2") with
  | ParseErr e => match e_iter e with Ret l => map (fun t => (t_line t, t_col t, t_msg t)) l | _ => [] end
  | _ => []
  end = [(1%nat, 8%nat, s "expected ''', reached end of line or end of file first"); (1%nat, 1%nat, s "in base 91 byte array"); (1%nat, 1%nat, s "in primitive value"); (1%nat, 1%nat, s "in primitive")].
Proof. vm_compute. reflexivity. Qed.
(** An identity in angle brackets which is not closed right behind the name: the first trace asks
    for the closing bracket there, the second points to the opening one.  No trace says what the
    identity belongs to. *)
Theorem C19_identity : forall name rest, name <> [] -> forallb word_char name = true -> (forall c r, name = c :: r -> is_digit c = false /\ c <> ch "-") ->
  (forall c r, rest = c :: r -> word_char c = false /\ c <> ch ">") ->
  let src := ch "<" :: name ++ rest in
  exists e, parse src = ParseErr e /\ e_len e = 2%nat /\
  forall i k p, nth_error [(EChar (ch ">"), ch "<" :: name); (EContext (s "identity"), [])] i = Some (k, p) ->
    exists tr, e_get e i = Ret (Some tr) /\ describes src p k tr.
Proof. exact open_identity. Qed.
Print Assumptions C19_identity.
(** An identity in angle brackets which does not begin with a letter or an underscore. *)
Theorem C19_no_identity : forall rest, (forall c r, rest = c :: r -> word_char c = false \/ is_digit c = true \/ c = ch "-") ->
  let src := ch "<" :: rest in
  exists e, parse src = ParseErr e /\ e_len e = 3%nat /\
  forall i k p, nth_error [(ENom NkTag, s "<"); (ENom NkAlt, s "<"); (EContext (s "identity"), [])] i = Some (k, p) ->
    exists tr, e_get e i = Ret (Some tr) /\ describes src p k tr.
Proof. exact no_identity. Qed.
Print Assumptions C19_no_identity.
Example C19_identity_case :
  let shown src := match parse src with
  | ParseErr e => match e_iter e with Ret l => map (fun t => (t_line t, t_col t, t_msg t)) l | _ => [] end
  | _ => []
  end in
  shown (s "<my-id 1") = [(1%nat, 7%nat, s "expected '>', found ' '"); (1%nat, 1%nat, s "in identity")] /\
  shown (s "<9lives> 1") = [(1%nat, 2%nat, s "in Tag"); (1%nat, 2%nat, s "in Alt"); (1%nat, 1%nat, s "in identity")].
Proof. vm_compute. split; reflexivity. Qed.
(** A document which is a single word, no beginning of which is true, false, str or a number, is
    refused; all five traces point to the word, and the second always says that a byte array was
    being read: the error of the last alternative is the one which is kept. *)
Theorem C19_word : forall w, w <> [] -> forallb word_char w = true ->
  (forall p q, w = p ++ q -> p <> s "true" /\ p <> s "false" /\ p <> s "str" /\ num_from_str p = None) ->
  exists e, parse w = ParseErr e /\ e_len e = 5%nat /\
    forall i k, nth_error [ENom NkTag; EContext (s "base 91 byte array"); ENom NkAlt; EContext (s "primitive value"); EContext (s "primitive")] i = Some k ->
      exists tr, e_get e i = Ret (Some tr) /\ describes w [] k tr.
Proof. exact no_value_word. Qed.
Print Assumptions C19_word.
Example C19_word_case :
  (forall p q, s "none-1" = p ++ q -> p <> s "true" /\ p <> s "false" /\ p <> s "str" /\ num_from_str p = None) /\
  match parse (s "none-1") with
  | ParseErr e => match e_iter e with Ret l => map (fun t => (t_line t, t_col t, t_msg t)) l | _ => [] end
  | _ => []
  end = map (fun m => (1%nat, 1%nat, m)) [s "in Tag"; s "in base 91 byte array"; s "in Alt"; s "in primitive value"; s "in primitive"].
Proof.
  split; [|vm_compute; reflexivity]. intros p q E. assert (L : p = firstn (length p) (s "none-1")) by (rewrite E, firstn_app, firstn_all, Nat.sub_diag, app_nil_r; reflexivity).
  assert (N : (length p <= 6)%nat) by (apply (f_equal (@length char)) in E; rewrite app_length in E; change (length (s "none-1")) with 6%nat in E; lia).
  rewrite L. destruct (length p) as [|[|[|[|[|[|[|n]]]]]]]; [| | | | | | |lia]; (split; [discriminate|split; [discriminate|split; [discriminate|vm_compute; reflexivity]]]).
Qed.
