(** What rewriting a document is stated against. *)
From Verif Require Import Base F64 Number NumberSpec BTree Value ValueSpec ParseSpec Grammar RtSpec.
Open Scope N_scope.

(** ** values of documents which are the same after they have been written and
    read once more.  What the grammar promises anyway (C18) is not repeated: ids
    do not start with [true] or [false]; a unit has no id, an empty tuple has
    one, containers are not empty and have no empty names; numbers are finite and
    exact; strings leave a delimiter free; a map with numbers in its keys is in
    order. *)
Definition document_node (k : kserd) : bool :=
  match kid k with Some i => negb (starts_with (s "true") i) && negb (starts_with (s "false") i) | None => true end &&
  match kval k with
  | VUnit => match kid k with Some _ => false | None => true end
  | VNum n => exact n && match n with Float (FInf _ | FNaN _ _) => false | _ => true end
  | VStr t => safe_string None t
  | VTuple [] => match kid k with Some _ => true | None => false end
  | VCntr m => negb (match m with [] => true | _ => false end) && forallb (fun e => negb (str_eqb (fst e) [])) m
  | VMap m => forallb (fun e => no_numbers (fst e)) m || strictly_sorted k_cmp m
  | _ => true
  end.
Definition document (k : kserd) : Prop := k_all document_node k = true /\ simple_root k = true.
