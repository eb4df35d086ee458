(** The text format in its inline and concise layouts, as a grammar: which
    texts stand for which values.  Written from the documentation and the
    tests of /repo/src/parse, not from the parser's functions; where blanks
    stand is left open.  Used to state the round trips and that blanks do not
    matter. *)
From Verif Require Import Base F64 Number BTree Value Base91.
Open Scope N_scope.

Definition blank (c : char) : bool := mem c [32; 9].            (* space, tab *)
Definition space (c : char) : bool := mem c [32; 9; 13; 10].    (* and line ends *)
Definition blanks (w : str) : Prop := forallb blank w = true.
Definition spaces (w : str) : Prop := forallb space w = true.
(** starts with a new line, but for blanks *)
Fixpoint new_line (w : str) : bool :=
  match w with
  | [] => false
  | c :: w => (c =? 10) || ((blank c || (c =? 13)) && new_line w)
  end.

(** letters, digits, '-' and '_' *)
Definition name_char (c : char) : bool := is_alnum c || mem c (s "-_").
(** an id: does not start with a digit or '-' *)
Definition is_id (t : str) : bool :=
  match t with
  | [] => false
  | c :: _ => (is_alpha c || (c =? ch "_")) && forallb name_char t
  end.
(** an id which can stand before a bracket *)
Definition is_id_plain (t : str) : bool :=
  is_id t && negb (starts_with (s "true") t) && negb (starts_with (s "false") t).

(** of angles, parentheses, braces, quotes, '=' and line ends the first in the
    text is '=' *)
Fixpoint assigns (t : str) : bool :=
  match t with
  | [] => false
  | c :: t => (c =? ch "=") || (negb (mem c (s "<>(){}'""" ++ [13; 10])) && assigns t)
  end.
(** the text goes on with an opening bracket *)
Fixpoint opens (t : str) : bool :=
  match t with
  | [] => false
  | c :: t => if space c then opens t else mem c (s "([{")
  end.
(** a value can end here *)
Definition ends (t : str) : bool :=
  match t with [] => true | c :: _ => space c || mem c (s ",)]}:") end.

(** primitives without their id *)
Definition num_char (c : char) : bool := is_digit c || mem c (s "-.einfNa").
Inductive token : str -> value kserd -> Prop :=
| T_unit w : blanks w -> token (s "(" ++ w ++ s ")") VUnit
| T_true : token (s "true") (VBool true)
| T_false : token (s "false") (VBool false)
| T_num t n : forallb num_char t = true -> num_from_str t = Some n -> token t (VNum n)
| T_str t : mem (ch """") t = false -> token (s """" ++ t ++ s """") (VStr t)
| T_str_delim d t : mem d t = false -> token (s "str" ++ [d] ++ t ++ [d]) (VStr t)
| T_bytes t : mem (ch "'") t = false -> token (s "b91'" ++ t ++ s "'") (VBarr (b91_decode t)).
(** a delimiter which may follow [str] when there is no id before it *)
Definition plain_delim (d : char) : bool := negb (name_char d || space d || mem d (s "([{")).
(** [inf] and [NaN]: numbers which look like an id *)
Definition bare (t : str) (v : value kserd) : bool :=
  match v with VNum _ => is_id t | _ => false end.

(** ** lists of elements.  [R t a b]: the text [t] stands for [a]; [b] says that
    it ends in a bare number. *)
Section Lists.
  Context {A : Type} (R : str -> A -> bool -> Prop).
  (** [, t, t ...] *)
  Inductive inline_more : str -> list A -> Prop :=
  | IM_end w : blanks w -> inline_more w []
  | IM_next w1 w2 t a b r l : blanks w1 -> blanks w2 -> R t a b -> inline_more r l ->
      inline_more (w1 ++ s "," ++ w2 ++ t ++ r) (a :: l).
  Inductive inline_list : str -> list A -> Prop :=
  | IL_empty w : blanks w -> inline_list w []
  | IL_first w t a b r l : blanks w -> R t a b -> inline_more r l -> inline_list (w ++ t ++ r) (a :: l).
  (** elements separated and closed by spaces or line ends; a bare number must
      not be followed by an opening bracket *)
  Inductive concise_more : str -> list A -> Prop :=
  | CM_end w : spaces w -> w <> [] -> concise_more w []
  | CM_next w t a b r l : spaces w -> w <> [] -> R t a b -> concise_more r l -> (b = true -> opens r = false) ->
      concise_more (w ++ t ++ r) (a :: l).
  Definition concise_list (t : str) (l : list A) : Prop := new_line t = true /\ concise_more t l.
End Lists.

(** [id ] or nothing *)
Definition head (id : option str) (w : str) : str := match id with Some i => i ++ w | None => [] end.
Definition head_ok (id : option str) (w : str) : Prop :=
  blanks w /\ match id with Some i => is_id_plain i = true | None => True end.
(** leading spaces removed *)
Fixpoint trim (t : str) : str :=
  match t with [] => [] | c :: t' => if space c then trim t' else t end.

(** name = value *)
Inductive field_of (R : str -> kserd -> bool -> Prop) : str -> str * kserd -> bool -> Prop :=
| Field name w1 w2 t k b : name <> [] -> forallb name_char name = true -> blanks w1 -> blanks w2 -> R t k b ->
    field_of R (name ++ w1 ++ s "=" ++ w2 ++ t) (name, k) b.
(** key: value *)
Inductive entry_of (K R : str -> kserd -> bool -> Prop) : str -> kserd * kserd -> bool -> Prop :=
| Entry tk w1 w2 t k v bk b : blanks w1 -> blanks w2 -> K tk k bk -> R t v b ->
    entry_of K R (tk ++ w1 ++ s ":" ++ w2 ++ t) (k, v) b.

(** [reads m t k b]: [t] is a text for [k].  With [m = true] only inline
    layouts are used; inside an inline layout only inline ones can stand (but for
    the keys of maps). *)
Inductive reads : bool -> str -> kserd -> bool -> Prop :=
| R_named m id w t v : is_id id = true -> blanks w -> token t v ->
    reads m (s "<" ++ id ++ s ">" ++ w ++ t) (Kserd (Some id) v) false
| R_plain m t v : token t v -> (forall d r, t = s "str" ++ d :: r -> plain_delim d = true) ->
    reads m t (Kserd None v) (bare t v)
| R_seq m id w t l : head_ok id w -> inline_list (reads true) t l ->
    reads m (head id w ++ s "[" ++ t ++ s "]") (Kserd id (VSeq l)) false
| R_tuple m id w t l : head_ok id w -> inline_list (reads true) t l ->
    (id = None -> l <> []) -> assigns (trim t ++ s ")") = false ->
    reads m (head id w ++ s "(" ++ t ++ s ")") (Kserd id (VTuple l)) false
| R_cntr m id w t l : head_ok id w -> inline_list (field_of (reads true)) t l -> l <> [] ->
    reads m (head id w ++ s "(" ++ t ++ s ")") (Kserd id (VCntr (fields_of l))) false
| R_map m id w t l : head_ok id w -> inline_list (entry_of (reads false) (reads true)) t l ->
    reads m (head id w ++ s "{" ++ t ++ s "}") (Kserd id (VMap (map_of l))) false
| C_seq id w t l : head_ok id w -> concise_list (reads false) t l ->
    reads false (head id w ++ s "[" ++ t ++ s "]") (Kserd id (VSeq l)) false
| C_tuple id w t l : head_ok id w -> concise_list (reads false) t l -> assigns (trim t ++ s ")") = false ->
    reads false (head id w ++ s "(" ++ t ++ s ")") (Kserd id (VTuple l)) false
| C_cntr id w t l : head_ok id w -> concise_list (field_of (reads false)) t l -> l <> [] ->
    reads false (head id w ++ s "(" ++ t ++ s ")") (Kserd id (VCntr (fields_of l))) false
| C_map id w t l : head_ok id w -> concise_list (entry_of (reads false) (reads false)) t l ->
    reads false (head id w ++ s "{" ++ t ++ s "}") (Kserd id (VMap (map_of l))) false.

(** ** whole documents *)
Fixpoint skip_blanks (t : str) : str := match t with [] => [] | c :: t' => if blank c then skip_blanks t' else t end.
(** [ id ] *)
Definition bracketed (t : str) : bool :=
  match t with
  | c :: t => (c =? ch "[") && let (i, r) := take_while name_char (skip_blanks t) in is_id i && starts_with (s "]") (skip_blanks r)
  | [] => false
  end.
(** the first line of a container in the verbose layout: name = value,
    [[name]] or [name] *)
Definition verbose_start (t : str) : bool := starts_with (s "[[") t || assigns t || bracketed t.
(** [document t k]: blanks, a text for [k] which does not look like the verbose
    layout, and any spaces *)
Inductive document : str -> kserd -> Prop :=
| Document w1 t w2 k b : blanks w1 -> reads false t k b -> spaces w2 -> verbose_start (t ++ w2) = false ->
    document (w1 ++ t ++ w2) k.
