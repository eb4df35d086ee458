(** What it means that a change of one value stays where it is (C70). *)
From Verif Require Import Base F64 Number BTree Value Nav NavSpec Fmt Formatter FmtSpec.
Open Scope nat_scope.

(** a value without parts; strings are of Unicode characters *)
Definition leaf (k : kserd) : bool :=
  match kval k with
  | VTuple _ | VCntr _ | VSeq _ | VMap _ => false
  | VStr t => forallb (fun c => c <? 0x110000)%N t
  | _ => true
  end.
(** the text the value has by itself, with its id or without *)
Definition own_text (ids : bool) (k : kserd) (t : str) : Prop := exists fm, run k [OpId 0 ids] = LRet fm /\ fm_write fm [] = LRet t.
(** the characters which are reserved for a leaf when lines are measured: those of a
    number; those of a string with escapes and quotes; "()" or the id for a unit; two
    digits, comma and space for a byte; the id in angle brackets *)
Definition room (cfg : config) (k : kserd) : nat :=
  let id := match kid k with Some i => length i | None => 0 end in
  match kval k with
  | VUnit => match id with 0 => 2 | _ => id end
  | VBool b => (if b then 4 else 5) + (if id_on_primitives cfg then id + 3 else 0)
  | VNum n => length (num_display n) + (if id_on_primitives cfg then id + 3 else 0)
  | VStr t => 2 + list_sum (map (fun c => 1 + escape_extra c) t) + (if id_on_primitives cfg then id + 3 else 0)
  | VBarr b => match length b with 0 => 3 | S n => 3 + 2 * S n + 2 * n end + (if id_on_primitives cfg then id + 3 else 0)
  | _ => 0
  end.
(** the lines of a text *)
Definition no_break (t : str) : Prop := ~ In 10%N t.
(** [above] is whole lines, [below] starts after the end of one *)
Definition whole_lines (above below : str) : Prop :=
  (above = [] \/ exists a, above = a ++ [10%N]) /\ (below = [] \/ exists b, below = 10%N :: b).
