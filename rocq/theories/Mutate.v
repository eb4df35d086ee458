(** Mutable access: the [_mut] accessors of values and containers.

    A [&mut A] into a place of type [S] is what it shows and what the place
    becomes when something is written through it.  Lifetimes are not modelled:
    at most one reference is in use at a time, as the borrow checker enforces. *)
From Verif Require Import Base F64 Number BTree Value.

(** [&mut A] into an [S]: what it shows and what is left after a write *)
Record mref (S A : Type) : Type := MRef { shows : A; after : A -> S }.
Arguments MRef {S A} shows after.
Arguments shows {S A} _.
Arguments after {S A} _ _.

(** [Option::and_then] on a reference, for a reborrow out of what it shows *)
Definition mthen {S A B} (r : mref S A) (f : A -> option (mref A B)) : option (mref S B) :=
  match f (shows r) with
  | Some q => Some (MRef (shows q) (fun y => after r (after q y)))
  | None => None
  end.

(** ** Values (val.rs 297-651) *)
(** ds/val.rs 305-310 *)
Definition v_bool_mut (v : value kserd) : option (mref (value kserd) bool) :=
  match v with VBool b => Some (MRef b VBool) | _ => None end.
(** ds/val.rs 386-391 *)
Definition v_num_mut (v : value kserd) : option (mref (value kserd) number) :=
  match v with VNum n => Some (MRef n VNum) | _ => None end.
(** ds/val.rs 419-424 with Kstr::to_mut (ds/kstr.rs 55-57): whether the text was
    borrowed before is not modelled, it is copied then *)
Definition v_str_mut (v : value kserd) : option (mref (value kserd) str) :=
  match v with VStr t => Some (MRef t VStr) | _ => None end.
(** ds/val.rs 452-457 with Barr::to_mut (ds/barr.rs 56-58), likewise *)
Definition v_barr_mut (v : value kserd) : option (mref (value kserd) (list N)) :=
  match v with VBarr b => Some (MRef b VBarr) | _ => None end.
(** ds/val.rs 486-491 *)
Definition v_tuple_mut (v : value kserd) : option (mref (value kserd) (list kserd)) :=
  match v with VTuple l => Some (MRef l VTuple) | _ => None end.
(** ds/val.rs 525-530; the Accessor dereferences to the fields (ds/val.rs 824-836) *)
Definition v_cntr_mut (v : value kserd) : option (mref (value kserd) (list (str * kserd))) :=
  match v with VCntr m => Some (MRef m VCntr) | _ => None end.
(** ds/val.rs 559-564 *)
Definition v_seq_mut (v : value kserd) : option (mref (value kserd) (list kserd)) :=
  match v with VSeq l => Some (MRef l VSeq) | _ => None end.
(** ds/val.rs 597-602 *)
Definition v_tuple_or_seq_mut (v : value kserd) : option (mref (value kserd) (list kserd)) :=
  match v with VTuple l => Some (MRef l VTuple) | VSeq l => Some (MRef l VSeq) | _ => None end.
(** ds/val.rs 646-651 *)
Definition v_map_mut (v : value kserd) : option (mref (value kserd) (list (kserd * kserd))) :=
  match v with VMap m => Some (MRef m VMap) | _ => None end.

(** DerefMut of Kserd, kserd.rs 290-294, and the field [val] *)
Definition k_val_mut (k : kserd) : mref kserd (value kserd) := MRef (kval k) (Kserd (kid k)).

(** ** The standard library (not in /repo) *)
(** [BTreeMap::get_mut]: the search of [get] *)
Fixpoint bt_get_mut {K V} (cmp : K -> K -> comparison) (k : K) (m : list (K * V)) : option (mref (list (K * V)) V) :=
  match m with
  | [] => None
  | (k', v') :: m' =>
      match cmp k k' with
      | Lt => None
      | Eq => Some (MRef v' (fun y => (k', y) :: m'))
      | Gt => match bt_get_mut cmp k m' with Some r => Some (MRef (shows r) (fun y => (k', v') :: after r y)) | None => None end
      end
  end.
(** [slice::get_mut], and [IndexMut] where it does not panic *)
Fixpoint nth_mut {A} (i : nat) (l : list A) : option (mref (list A) A) :=
  match l, i with
  | [], _ => None
  | x :: l', O => Some (MRef x (fun y => y :: l'))
  | x :: l', Datatypes.S i' => match nth_mut i' l' with Some r => Some (MRef (shows r) (fun y => x :: after r y)) | None => None end
  end.

(** ** Accessor::get_*_mut (val.rs 941-1030): look the field up, go to its value,
    then the accessor *)
Definition get_with_mut {A} (f : value kserd -> option (mref (value kserd) A)) (m : list (str * kserd)) (name : str) :
    option (mref (list (str * kserd)) A) :=
  match bt_get_mut str_cmp name m with
  | Some r => mthen r (fun k => mthen (k_val_mut k) f)
  | None => None
  end.
(** ds/val.rs 946-953 *)
Definition get_bool_mut := get_with_mut v_bool_mut.
(** ds/val.rs 956-963 *)
Definition get_num_mut := get_with_mut v_num_mut.
(** ds/val.rs 966-973 *)
Definition get_str_mut := get_with_mut v_str_mut.
(** ds/val.rs 976-983 *)
Definition get_barr_mut := get_with_mut v_barr_mut.
(** ds/val.rs 986-992 *)
Definition get_tuple_mut := get_with_mut v_tuple_mut.
(** ds/val.rs 995-1001 *)
Definition get_seq_mut := get_with_mut v_seq_mut.
(** ds/val.rs 1004-1010 *)
Definition get_tuple_or_seq_mut := get_with_mut v_tuple_or_seq_mut.
(** ds/val.rs 1013-1019 *)
Definition get_cntr_mut := get_with_mut v_cntr_mut.
(** ds/val.rs 1022-1028 *)
Definition get_map_mut := get_with_mut v_map_mut.

(** ** Programs: how a user walks from a value to one inside it *)
Inductive step : Type :=
| TupleElem (i : nat)      (* k.tuple_mut()?.get_mut(i) *)
| SeqElem (i : nat)        (* k.seq_mut()?.get_mut(i) *)
| ListElem (i : nat)       (* k.tuple_or_seq_mut()?.get_mut(i) *)
| Field (name : str)       (* k.cntr_mut()?.get_mut(name) *)
| Entry (key : kserd).     (* k.map_mut()?.get_mut(key) *)

(** one step of a walk, with the accessors of ds/val.rs 486-651 *)
Definition step_mut (st : step) (k : kserd) : option (mref kserd kserd) :=
  let via {A} (f : value kserd -> option (mref (value kserd) A)) (g : A -> option (mref A kserd)) :=
    match mthen (k_val_mut k) f with Some r => mthen r g | None => None end in
  match st with
  | TupleElem i => via v_tuple_mut (nth_mut i)
  | SeqElem i => via v_seq_mut (nth_mut i)
  | ListElem i => via v_tuple_or_seq_mut (nth_mut i)
  | Field name => via v_cntr_mut (bt_get_mut str_cmp name)
  | Entry key => via v_map_mut (bt_get_mut k_cmp key)
  end.
(** a walk, step by step *)
Fixpoint steps_mut (q : list step) (k : kserd) : option (mref kserd kserd) :=
  match q with
  | [] => Some (MRef k (fun y => y))
  | st :: q' => match step_mut st k with Some r => mthen r (steps_mut q') | None => None end
  end.

(** the same walks with the accessors which do not borrow mutably *)
Definition step_get (st : step) (k : kserd) : option kserd :=
  match st with
  | TupleElem i => opt_bind (v_tuple (kval k)) (fun l => nth_error l i)
  | SeqElem i => opt_bind (v_seq (kval k)) (fun l => nth_error l i)
  | ListElem i => opt_bind (v_tuple_or_seq (kval k)) (fun l => nth_error l i)
  | Field name => opt_bind (v_cntr (kval k)) (bt_get str_cmp name)
  | Entry key => opt_bind (v_map (kval k)) (bt_get k_cmp key)
  end.
(** a walk with the accessors of ds/val.rs 467-623 *)
Fixpoint steps_get (q : list step) (k : kserd) : option kserd :=
  match q with
  | [] => Some k
  | st :: q' => opt_bind (step_get st k) (steps_get q')
  end.
