(** The text format exactly: which texts are accepted, and as what.  As Format.v,
    with the conditions on what follows a text: [value_at m t r k] says that the
    text [t], when [r] comes after it, stands for [k]. *)
From Verif Require Import Base F64 Number BTree Value Base91 Grammar VGrammar Format.
Open Scope N_scope.

(** the text is empty or starts with another kind of character *)
Definition stop (f : char -> bool) (r : str) : bool := match r with [] => true | c :: _ => negb (f c) end.
(** numbers go on as long as there are characters of numbers *)
Definition ends_token (v : value kserd) (r : str) : bool := match v with VNum _ => stop num_char r | _ => true end.
(** what is not taken for a list with an id: [true], [false], no id at all, or an
    id with no opening bracket after it, be it on a later line *)
Definition no_head (t : str) : bool :=
  starts_with (s "true") t || starts_with (s "false") t ||
  (let (id, r) := take_while name_char t in negb (is_id id) || negb (opens r)).

(** ** lists *)
Section Lists.
  Context {A : Type} (R : str -> str -> A -> Prop).
  Inductive separated_at (S : str -> Prop) : str -> str -> list A -> Prop :=
  | At_end r : separated_at S [] r []
  | At_next w t a u l r : S w -> R t (u ++ r) a -> separated_at S u r l -> separated_at S (w ++ t ++ u) r (a :: l).
  Inductive inline_at : str -> str -> list A -> Prop :=
  | IA_none w r : blanks w -> inline_at w r []
  | IA_some w t a u l w' r : blanks w -> R t (u ++ w' ++ r) a -> separated_at comma u (w' ++ r) l -> blanks w' ->
      inline_at (w ++ t ++ u ++ w') r (a :: l).
  Inductive concise_at : str -> str -> list A -> Prop :=
  | CA_none w r : spaces w -> new_line w = true -> concise_at w r []
  | CA_some w t a u l w' r : spaces w -> new_line w = true -> R t (u ++ w' ++ r) a -> separated_at gap u (w' ++ r) l -> gap w' ->
      concise_at (w ++ t ++ u ++ w') r (a :: l).
End Lists.

Inductive field_at (R : str -> str -> kserd -> Prop) : str -> str -> str * kserd -> Prop :=
| Field_at name w1 w2 t r k : forallb name_char name = true -> (name = [] -> w1 = []) -> blanks w1 -> blanks w2 -> R t r k ->
    field_at R (name ++ w1 ++ s "=" ++ w2 ++ t) r (name, k).
Inductive entry_at (K R : str -> str -> kserd -> Prop) : str -> str -> kserd * kserd -> Prop :=
| Entry_at tk w1 w2 t r k v : blanks w1 -> blanks w2 -> K tk (w1 ++ s ":" ++ w2 ++ t ++ r) k -> R t r v ->
    entry_at K R (tk ++ w1 ++ s ":" ++ w2 ++ t) r (k, v).

Inductive value_at : bool -> str -> str -> kserd -> Prop :=
| V_named m id w t v r : is_id id = true -> blanks w -> token t v -> ends_token v r = true ->
    value_at m (s "<" ++ id ++ s ">" ++ w ++ t) r (Kserd (Some id) v)
| V_plain m t v r : token t v -> ends_token v r = true -> no_head (t ++ r) = true ->
    value_at m t r (Kserd None v)
| V_seq m id w t l r : head_ok id w -> inline_at (value_at true) t (s "]" ++ r) l ->
    value_at m (head id w ++ s "[" ++ t ++ s "]") r (Kserd id (VSeq l))
| V_tuple m id w t l r : head_ok id w -> inline_at (value_at true) t (s ")" ++ r) l ->
    (id = None -> l <> []) -> assigns (trim t ++ s ")") = false ->
    value_at m (head id w ++ s "(" ++ t ++ s ")") r (Kserd id (VTuple l))
| V_cntr m id w t l r : head_ok id w -> inline_at (field_at (value_at true)) t (s ")" ++ r) l ->
    assigns (trim t ++ s ")") = true ->
    value_at m (head id w ++ s "(" ++ t ++ s ")") r (Kserd id (VCntr (fields_of l)))
| V_map m id w t l r : head_ok id w -> inline_at (entry_at (value_at false) (value_at true)) t (s "}" ++ r) l ->
    value_at m (head id w ++ s "{" ++ t ++ s "}") r (Kserd id (VMap (map_of l)))
| V_seq_lines id w t l r : head_ok id w -> concise_at (value_at false) t (s "]" ++ r) l ->
    value_at false (head id w ++ s "[" ++ t ++ s "]") r (Kserd id (VSeq l))
| V_tuple_lines id w t l r : head_ok id w -> concise_at (value_at false) t (s ")" ++ r) l ->
    assigns (trim t ++ s ")") = false ->
    value_at false (head id w ++ s "(" ++ t ++ s ")") r (Kserd id (VTuple l))
| V_cntr_lines id w t l r : head_ok id w -> concise_at (field_at (value_at false)) t (s ")" ++ r) l ->
    assigns (trim t ++ s ")") = true ->
    value_at false (head id w ++ s "(" ++ t ++ s ")") r (Kserd id (VCntr (fields_of l)))
| V_map_lines id w t l r : head_ok id w -> concise_at (entry_at (value_at false) (value_at false)) t (s "}" ++ r) l ->
    value_at false (head id w ++ s "{" ++ t ++ s "}") r (Kserd id (VMap (map_of l))).

(** ** the verbose layout *)
(** a value in an inline layout and a colon: the key of a map *)
Definition keyed (t : str) : Prop :=
  exists w1 tk w2 r k, t = w1 ++ tk ++ w2 ++ s ":" ++ r /\ blanks w1 /\ blanks w2 /\ value_at true tk (w2 ++ s ":" ++ r) k.
Inductive item_at : nat -> str -> str -> item -> Prop :=
| A_id n w id r : blanks w -> is_id id = true -> stop name_char r = true -> item_at n (s ":" ++ w ++ id) r (It_id id)
| A_field n t r name v : field_at (value_at false) t r (name, v) -> item_at n t r (It_field name v)
| A_section n h name id w e t r v : titlef h name id -> blanks w -> eol e -> body_at (S n) t r v ->
    item_at n (s "[" ++ h ++ s "]" ++ w ++ e ++ t) r (It_field name (default_id id v))
| A_elem n h name id w e t r v : titlef h name id -> blanks w -> eol e -> body_at (S n) t r v -> ~ keyed (t ++ r) ->
    item_at n (s "[[" ++ h ++ s "]]" ++ w ++ e ++ t) r (It_elem id name v)
| A_entry n h name id w e w1 tk k w2 w3 t r v : titlef h name id -> blanks w -> eol e ->
    blanks w1 -> value_at true tk (w2 ++ s ":" ++ w3 ++ t ++ r) k -> blanks w2 -> blanks w3 -> value_at false t r v ->
    item_at n (s "[[" ++ h ++ s "]]" ++ w ++ e ++ w1 ++ tk ++ w2 ++ s ":" ++ w3 ++ t) r (It_entry id name k v)
| A_entry_below n h name id w e w1 tk k w2 w3 e' t r v : titlef h name id -> blanks w -> eol e ->
    blanks w1 -> value_at true tk (w2 ++ s ":" ++ w3 ++ e' ++ t ++ r) k -> blanks w2 -> blanks w3 -> eol e' -> body_at (S n) t r v ->
    item_at n (s "[[" ++ h ++ s "]]" ++ w ++ e ++ w1 ++ tk ++ w2 ++ s ":" ++ w3 ++ e' ++ t) r (It_entry id name k v)
with body_at : nat -> str -> str -> kserd -> Prop :=
| Body_value n w t r v : blanks w -> value_at false t r v -> verbose_first (w ++ t ++ r) = false -> body_at n (w ++ t) r v
| Body_items n t r l : items_at n t r l -> verbose_first (t ++ r) = true -> closes n r = true -> body_at n t r (container l)
with items_at : nat -> str -> str -> list item -> Prop :=
| Items_at_end n r : items_at n [] r []
| Items_at_next n w t i u l r : lead n w -> item_at n t (u ++ r) i -> items_at n u r l -> items_at n (w ++ t ++ u) r (i :: l).

(** ** whole documents *)
Inductive syntax : str -> kserd -> Prop :=
| Syntax_value w1 t w2 k : blanks w1 -> value_at false t w2 k -> spaces w2 ->
    verbose_first (w1 ++ t ++ w2) = false -> syntax (w1 ++ t ++ w2) k
| Syntax_items t l w1 w2 : items_at O t (w1 ++ w2) l -> blank_lines w1 -> blanks w2 ->
    verbose_first (t ++ w1 ++ w2) = true -> syntax (t ++ w1 ++ w2) (container l).
