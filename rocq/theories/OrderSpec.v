(** What the properties about the order of fields, entries and sections are
    stated against. *)
From Verif Require Import Base F64 Number BTree Value ValueSpec Grammar VGrammar.
Open Scope N_scope.

(** the texts of a list with [sep] between them *)
Fixpoint joined (sep : str) (l : list str) : str :=
  match l with
  | [] => []
  | [t] => t
  | t :: l' => t ++ sep ++ joined sep l'
  end.

(** ** fields: a name and the text of a value *)
Definition field_text (f : str * str) : str := fst f ++ s " = " ++ snd f.
Definition good_field (inline : bool) (f : str * str) : Prop :=
  fst f <> [] /\ forallb name_char (fst f) = true /\ exists k b, reads inline (snd f) k b.
(** on one line, on several, and as a document of its own *)
Definition inline_cntr (fs : list (str * str)) : str := s "(" ++ joined (s ", ") (map field_text fs) ++ s ")".
Definition concise_cntr (fs : list (str * str)) : str := s "(" ++ flat_map (fun f => [10] ++ s "    " ++ field_text f) fs ++ [10] ++ s ")".

(** ** entries of a map: the texts of a key and of a value *)
Definition entry_text (e : str * str) : str := fst e ++ s ": " ++ snd e.
Definition inline_map (es : list (str * str)) : str := s "{" ++ joined (s ", ") (map entry_text es) ++ s "}".
(** the value of a key, for keys which have a place in an order *)
Definition key_of (t : str) (k : kserd) : Prop :=
  (exists b, reads false t k b) /\ k_exact k = true /\ no_empty_cntr k = true.

Definition good_entry (e : str * str) : Prop := (exists k, key_of (fst e) k) /\ exists v b, reads true (snd e) v b.
Definition different (e e' : str * str) : Prop := forall k k', key_of (fst e) k -> key_of (fst e') k' -> k_eqb k k' = false.

(** ** items of a document in the verbose layout: the text of an item and what it
    adds to the container *)
Definition verbose_doc (l : list (str * item)) : str := joined [10] (map fst l).
Definition about (name : option str) (i : item) : bool :=
  match i, name with
  | It_id _, None => true
  | (It_field n _ | It_elem _ n _ | It_entry _ n _ _), Some name => str_eqb n name
  | _, _ => false
  end.
(** an item which can stand in a document (not ending in [inf] or [NaN], which
    must not be followed by a bracket) *)
Definition good_item (e : str * item) : Prop := exists c, vitem O (fst e) (snd e) false c.
(** the same items; those about the same name, and those with the id of the
    document, are in the same order *)
Definition same_but_order (l l' : list item) : Prop := forall name, filter (about name) l = filter (about name) l'.
