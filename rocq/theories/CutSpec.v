(** What the properties about incomplete texts are stated against. *)
From Verif Require Import Base F64 Number BTree Value.
Open Scope N_scope.

(** a value in brackets *)
Definition in_brackets (k : kserd) : bool := match kval k with VTuple _ | VCntr _ | VSeq _ | VMap _ => true | _ => false end.
Definition is_number (k : kserd) : bool := match kval k with VNum _ => true | _ => false end.
(** the text contains an opening bracket *)
Definition has_bracket (t : str) : bool := existsb (fun c => mem c (s "([{")) t.
