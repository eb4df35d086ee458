(** What the properties about histories of a Formatter are stated against. *)
From Verif Require Import Base F64 Number BTree Value Nav NavSpec Fmt Formatter FmtSpec LayoutSpec.
Open Scope nat_scope.

(** neither node is in the tree of the other *)
Definition unrelated (nv : nav) (i j : nat) : Prop :=
  exists n m, nav_get nv i = Some n /\ nav_get nv j = Some m /\ (i + tree_size n <= j \/ j + tree_size m <= i).
(** what a node becomes when [r] is asked of it: [r] if its kind and its parent [rp]
    allow it, else what it was, no larger than the parent *)
Definition becomes (r kind rp was : repr) : repr :=
  if (repr_n r <=? repr_n kind) && (repr_n r <=? repr_n rp) then r else repr_min was rp.
Definition lines_of (t : str) : nat := length (line_lengths 0 t).
