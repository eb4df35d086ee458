(** What the properties about the length of texts are stated against. *)
From Verif Require Import Base F64 Number BTree Value Nav NavSpec Fmt Formatter FmtSpec.
Open Scope nat_scope.

(** the characters of a node: of its id, of its text and of the names of its fields,
    and 16 for brackets, quotes, separators and line breaks *)
Definition own_chars (k : kserd) : nat :=
  16 + match kid k with Some i => length i | None => 0 end +
  match kval k with
  | VNum n => length (num_display n)
  | VStr t => length t
  | VBarr b => 4 * length b
  | VCntr m => list_sum (map (fun e => length (fst e)) m)
  | _ => 0
  end.
(** the characters of all nodes *)
Definition chars (k : kserd) : nat := list_sum (map own_chars (preorder k)).
Definition nodes (k : kserd) : nat := length (preorder k).
(** a unit inside [n] tuples of one *)
Fixpoint tower (n : nat) : kserd := match n with 0 => Kserd None VUnit | S n => Kserd None (VTuple [tower n]) end.
