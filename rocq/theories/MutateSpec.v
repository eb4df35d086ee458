(** What mutable access should do. *)
From Verif Require Import Base F64 Number BTree Value Mutate.
Open Scope nat_scope.

(** a mutable accessor and its immutable counterpart: both answer in the same
    cases and show the same content, writing what is there changes nothing, and
    what was written is read *)
Definition mirrors {S A} (get : S -> option A) (get_mut : S -> option (mref S A)) : Prop :=
  forall place, get place = option_map shows (get_mut place) /\
  forall r, get_mut place = Some r -> after r (shows r) = place /\ forall y, get (after r y) = Some y.

Definition same_kind (v w : value kserd) : Prop :=
  match v, w with
  | VUnit, VUnit | VBool _, VBool _ | VNum _, VNum _ | VStr _, VStr _ | VBarr _, VBarr _
  | VTuple _, VTuple _ | VCntr _, VCntr _ | VSeq _, VSeq _ | VMap _, VMap _ => True
  | _, _ => False
  end.

(** [one i k x y k']: k' is k, but for its part number i, which is y and was x.
    A part is an element, the value of a field or the value of an entry. *)
Inductive one : nat -> kserd -> kserd -> kserd -> kserd -> Prop :=
| One_tuple id l1 l2 x y : one (length l1) (Kserd id (VTuple (l1 ++ x :: l2))) x y (Kserd id (VTuple (l1 ++ y :: l2)))
| One_seq id l1 l2 x y : one (length l1) (Kserd id (VSeq (l1 ++ x :: l2))) x y (Kserd id (VSeq (l1 ++ y :: l2)))
| One_field id l1 l2 name x y : one (length l1) (Kserd id (VCntr (l1 ++ (name, x) :: l2))) x y (Kserd id (VCntr (l1 ++ (name, y) :: l2)))
| One_entry id l1 l2 key x y : one (length l1) (Kserd id (VMap (l1 ++ (key, x) :: l2))) x y (Kserd id (VMap (l1 ++ (key, y) :: l2))).

(** the same for a part of a part and so on: the numbers lead to it *)
Inductive edited (x y : kserd) : list nat -> kserd -> kserd -> Prop :=
| Edited_here : edited x y [] x y
| Edited_below i p k k' c c' : one i k c c' k' -> edited x y p c c' -> edited x y (i :: p) k k'.

(** [points st k i]: the step goes to part number i.  The entry of a map is the
    first which does not come before the key, if the key is equal to it. *)
Inductive points : step -> kserd -> nat -> Prop :=
| P_tuple id l i : i < length l -> points (TupleElem i) (Kserd id (VTuple l)) i
| P_seq id l i : i < length l -> points (SeqElem i) (Kserd id (VSeq l)) i
| P_tuple' id l i : i < length l -> points (ListElem i) (Kserd id (VTuple l)) i
| P_seq' id l i : i < length l -> points (ListElem i) (Kserd id (VSeq l)) i
| P_field id l1 l2 name x : Forall (fun e => str_cmp name (fst e) = Gt) l1 ->
    points (Field name) (Kserd id (VCntr (l1 ++ (name, x) :: l2))) (length l1)
| P_entry id l1 l2 key key' x : Forall (fun e => k_cmp key (fst e) = Gt) l1 -> k_cmp key key' = Eq ->
    points (Entry key) (Kserd id (VMap (l1 ++ (key', x) :: l2))) (length l1).

(** part number i *)
Definition part (i : nat) (k : kserd) : option kserd :=
  match kval k with
  | VTuple l | VSeq l => nth_error l i
  | VCntr m => option_map snd (nth_error m i)
  | VMap m => option_map snd (nth_error m i)
  | _ => None
  end.

Inductive leads : list step -> kserd -> list nat -> Prop :=
| L_here k : leads [] k []
| L_step st q k i c p : points st k i -> part i k = Some c -> leads q c p -> leads (st :: q) k (i :: p).

(** neither place is inside the other *)
Definition apart (p q : list nat) : Prop := (forall t, q <> p ++ t) /\ (forall t, p <> q ++ t).
