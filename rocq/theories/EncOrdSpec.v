(** What the order of encoded values is compared with. *)
From Verif Require Import Base BTree Value Encode.
Open Scope N_scope.

(** the fields of every struct are declared in the order of their names *)
Definition alphabetical (E : decls) : Prop := forall n name fs, E n = DefStruct name fs -> ascending str_cmp fs = true.
