(** When [apply_config] on a new formatter panics. *)
From Verif Require Import Base F64 Number BTree Value Nav NavSpec Fmt Formatter FmtSpec LayoutSpec.
Open Scope nat_scope.

(** the width of the last line of the key of an entry of a section at column [b]:
    all of it when it is inline, the closing bracket when it is not *)
Definition key_end (cfg : config) (b : nat) (key : kserd) : nat :=
  match repr_min (wants cfg b key) (kind_max key) with Inline => inline_est cfg key | _ => 1 end.
(** the entry [x] of the section [p] whose lines start at column [b]: the column
    it starts at, and the column its own lines start at if it is a section too *)
Inductive entry_of (cfg : config) (b : nat) : kserd -> kserd -> nat -> nat -> Prop :=
| e_item id l x : In x l -> entry_of cfg b (Kserd id (VSeq l)) x b b
| e_field id m name x : In (name, x) m ->
    entry_of cfg b (Kserd id (VCntr m)) x (b + length name + 3) (b + if is_cntr x then 4 else 0)
| e_value id m key x : In (key, x) m -> entry_of cfg b (Kserd id (VMap m)) x (b + key_end cfg b key + 2) (b + 4).
(** the sections of a document and their columns: the document itself when it is a
    container too wide for the limit even on several lines, and the entries of
    sections which are neither empty nor tuples and too wide where they start *)
Inductive section_at (cfg : config) (k : kserd) : nat -> kserd -> Prop :=
| s_root : is_cntr k = true -> kind_max k = Verbose -> wants cfg 0 k = Verbose -> section_at cfg k 0 k
| s_entry b p x col b' : section_at cfg k b p -> entry_of cfg b p x col b' -> kind_max x = Verbose -> asked cfg col p x = Verbose ->
    section_at cfg k b' x.
(** a map which is a section has a key which would have to be one too *)
Definition stuck (cfg : config) (k : kserd) : Prop :=
  exists b id m key v, section_at cfg k b (Kserd id (VMap m)) /\ In (key, v) m /\ kind_max key = Verbose /\ wants cfg b key = Verbose.
