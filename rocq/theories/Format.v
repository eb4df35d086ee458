(** The whole text format: every way of writing a value which is accepted.
    Grammar.v and VGrammar.v describe texts which can be relied on to be read as a
    given value, whatever surrounds them; here the conditions which keep apart the
    readings of a text are left out where they depend on what follows.  So a text
    may stand for several values here, but a text which stands for none is
    rejected. *)
From Verif Require Import Base F64 Number BTree Value Base91 Grammar VGrammar.
Open Scope N_scope.

(** ** lists *)
Section Lists.
  Context {A : Type} (R : str -> A -> Prop).
  (** elements, each after a separator *)
  Inductive separated (S : str -> Prop) : str -> list A -> Prop :=
  | Sep_end : separated S [] []
  | Sep_next w t a r l : S w -> R t a -> separated S r l -> separated S (w ++ t ++ r) (a :: l).
  Definition comma (w : str) : Prop := exists w1 w2, blanks w1 /\ blanks w2 /\ w = w1 ++ s "," ++ w2.
  Definition gap (w : str) : Prop := spaces w /\ w <> [].
  (** a, b, c *)
  Inductive inline_items : str -> list A -> Prop :=
  | II_none w : blanks w -> inline_items w []
  | II_some w t a r l w' : blanks w -> R t a -> separated comma r l -> blanks w' ->
      inline_items (w ++ t ++ r ++ w') (a :: l).
  (** a new line, then elements between spaces or new lines *)
  Inductive concise_items : str -> list A -> Prop :=
  | CI_none w : spaces w -> new_line w = true -> concise_items w []
  | CI_some w t a r l w' : spaces w -> new_line w = true -> R t a -> separated gap r l -> gap w' ->
      concise_items (w ++ t ++ r ++ w') (a :: l).
End Lists.

(** name = value; the name may be empty *)
Inductive fieldf (R : str -> kserd -> Prop) : str -> str * kserd -> Prop :=
| Fieldf name w1 w2 t k : forallb name_char name = true -> blanks w1 -> blanks w2 -> R t k ->
    fieldf R (name ++ w1 ++ s "=" ++ w2 ++ t) (name, k).
(** key: value *)
Inductive entryf (K R : str -> kserd -> Prop) : str -> kserd * kserd -> Prop :=
| Entryf tk w1 w2 t k v : blanks w1 -> blanks w2 -> K tk k -> R t v ->
    entryf K R (tk ++ w1 ++ s ":" ++ w2 ++ t) (k, v).

(** [derives m t k]: [t] may stand for [k]; with [m = true] in an inline layout.
    Parentheses hold a container if an '=' comes first in them ([assigns]), else a
    tuple, or a unit if there is nothing in them and no id before them. *)
Inductive derives : bool -> str -> kserd -> Prop :=
| D_named m id w t v : is_id id = true -> blanks w -> token t v ->
    derives m (s "<" ++ id ++ s ">" ++ w ++ t) (Kserd (Some id) v)
| D_plain m t v : token t v -> derives m t (Kserd None v)
| D_seq m id w t l : head_ok id w -> inline_items (derives true) t l ->
    derives m (head id w ++ s "[" ++ t ++ s "]") (Kserd id (VSeq l))
| D_tuple m id w t l : head_ok id w -> inline_items (derives true) t l ->
    (id = None -> l <> []) -> assigns (trim t ++ s ")") = false ->
    derives m (head id w ++ s "(" ++ t ++ s ")") (Kserd id (VTuple l))
| D_cntr m id w t l : head_ok id w -> inline_items (fieldf (derives true)) t l ->
    assigns (trim t ++ s ")") = true ->
    derives m (head id w ++ s "(" ++ t ++ s ")") (Kserd id (VCntr (fields_of l)))
| D_map m id w t l : head_ok id w -> inline_items (entryf (derives false) (derives true)) t l ->
    derives m (head id w ++ s "{" ++ t ++ s "}") (Kserd id (VMap (map_of l)))
| D_seq_lines id w t l : head_ok id w -> concise_items (derives false) t l ->
    derives false (head id w ++ s "[" ++ t ++ s "]") (Kserd id (VSeq l))
| D_tuple_lines id w t l : head_ok id w -> concise_items (derives false) t l ->
    assigns (trim t ++ s ")") = false ->
    derives false (head id w ++ s "(" ++ t ++ s ")") (Kserd id (VTuple l))
| D_cntr_lines id w t l : head_ok id w -> concise_items (fieldf (derives false)) t l ->
    assigns (trim t ++ s ")") = true ->
    derives false (head id w ++ s "(" ++ t ++ s ")") (Kserd id (VCntr (fields_of l)))
| D_map_lines id w t l : head_ok id w -> concise_items (entryf (derives false) (derives false)) t l ->
    derives false (head id w ++ s "{" ++ t ++ s "}") (Kserd id (VMap (map_of l))).

(** ** the verbose layout *)
(** [ name ] and [ name : id ], without the brackets; the name may be empty *)
Inductive titlef : str -> str -> option str -> Prop :=
| Titlef w1 name w2 : blanks w1 -> forallb name_char name = true -> blanks w2 -> titlef (w1 ++ name ++ w2) name None
| Titlef_id w1 name w2 w3 id w4 : blanks w1 -> forallb name_char name = true -> blanks w2 -> blanks w3 ->
    is_id id = true -> blanks w4 -> titlef (w1 ++ name ++ w2 ++ s ":" ++ w3 ++ id ++ w4) name (Some id).

(** [itemf n t i]: [t] is an item of a container which is indented [n] times;
    [bodyf n t v]: the value below a title; [itemsf n t l]: the items of a container *)
Inductive itemf : nat -> str -> item -> Prop :=
| F_id n w id : blanks w -> is_id id = true -> itemf n (s ":" ++ w ++ id) (It_id id)
| F_field n t name v : fieldf (derives false) t (name, v) -> itemf n t (It_field name v)
| F_section n h name id w e t v : titlef h name id -> blanks w -> eol e -> bodyf (S n) t v ->
    itemf n (s "[" ++ h ++ s "]" ++ w ++ e ++ t) (It_field name (default_id id v))
| F_elem n h name id w e t v : titlef h name id -> blanks w -> eol e -> bodyf (S n) t v ->
    itemf n (s "[[" ++ h ++ s "]]" ++ w ++ e ++ t) (It_elem id name v)
| F_entry n h name id w e w1 tk k w2 w3 t v : titlef h name id -> blanks w -> eol e ->
    blanks w1 -> derives true tk k -> blanks w2 -> blanks w3 -> derives false t v ->
    itemf n (s "[[" ++ h ++ s "]]" ++ w ++ e ++ w1 ++ tk ++ w2 ++ s ":" ++ w3 ++ t) (It_entry id name k v)
| F_entry_below n h name id w e w1 tk k w2 w3 e' t v : titlef h name id -> blanks w -> eol e ->
    blanks w1 -> derives true tk k -> blanks w2 -> blanks w3 -> eol e' -> bodyf (S n) t v ->
    itemf n (s "[[" ++ h ++ s "]]" ++ w ++ e ++ w1 ++ tk ++ w2 ++ s ":" ++ w3 ++ e' ++ t) (It_entry id name k v)
with bodyf : nat -> str -> kserd -> Prop :=
| B_value n w t v : blanks w -> derives false t v -> bodyf n (w ++ t) v
| B_items n t l : itemsf n t l -> bodyf n t (container l)
with itemsf : nat -> str -> list item -> Prop :=
| Items_end n : itemsf n [] []
| Items_next n w t i r l : lead n w -> itemf n t i -> itemsf n r l -> itemsf n (w ++ t ++ r) (i :: l).

(** ** whole documents: a value, or the items of a container if the first line
    looks like one of them *)
Inductive format : str -> kserd -> Prop :=
| Format_value w1 t w2 k : blanks w1 -> derives false t k -> spaces w2 ->
    verbose_first (w1 ++ t ++ w2) = false -> format (w1 ++ t ++ w2) k
| Format_items t l w : itemsf O t l -> spaces w -> verbose_first (t ++ w) = true -> format (t ++ w) (container l).
