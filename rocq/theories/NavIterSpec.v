(** What the properties of the navigator's iterators are stated against. *)
From Verif Require Import Base F64 Number BTree Value Nav NavIter.
Open Scope nat_scope.

(** what a user reads off the data when walking it in order *)
Inductive entry : Type :=
| Elem (k : kserd)
| Field (name : str) (k : kserd)
| Pair (k v : kserd).
Definition entries_of (k : kserd) : list entry :=
  match kval k with
  | VTuple l | VSeq l => map Elem l
  | VCntr m => map (fun e => Field (fst e) (snd e)) m
  | VMap m => map (fun e => Pair (fst e) (snd e)) m
  | _ => []
  end.
(** an item of an iterator, seen as data *)
Definition shown (x : item) : entry :=
  match x with
  | ItNode n => Elem (n_kserd n)
  | ItNamed name n => Field name (n_kserd n)
  | ItKeyed k v => Pair (n_kserd k) (n_kserd v)
  end.

(** the node is the child of [p] at position [j], as a key or as a value *)
Definition child_at (nv : nav) (p : node) (key : bool) (j : nat) (c : node) : Prop :=
  In c nv /\ node_parent nv c = Some p /\ is_key c = key /\ idx_in_parent c = j.
Definition at_place (nv : nav) (p : node) (j : nat) (x : item) : Prop :=
  match x with
  | ItNode c | ItNamed _ c => child_at nv p false j c
  | ItKeyed k v => child_at nv p true j k /\ child_at nv p false j v
  end.

(** [c] calls of [next] on an iterator through [l]: its first [c] members, then
    [None] for ever *)
Definition pulled {A} (c : nat) (l : list A) : list (option A) :=
  map Some (firstn c l) ++ repeat None (c - length l).

(** [it] runs through [l], says at every moment how much is left, and says it is
    empty exactly when it is *)
Definition runs (nv : nav) (it : citer) (l : list item) : Prop :=
  forall c, fst (pull nv c it) = pulled c l /\
            it_len (snd (pull nv c it)) = length l - c /\
            (it_is_empty (snd (pull nv c it)) = true <-> length l <= c).
