(** What "the ids decoding does not look at" means. *)
From Verif Require Import Base F64 Number Value Encode.
Open Scope nat_scope.

(** [i] is the name of a variant of such a shape in some enum of the program *)
Definition names_variant (E : decls) (i : option str) (p : shape -> Prop) : Prop := exists n vs name sh, i = Some name /\ E n = DefEnum vs /\ In (name, sh) vs /\ p sh.
(** the shapes of variants which are written as a tuple of [n] elements *)
Definition tuple_shape (n : nat) (sh : shape) : Prop :=
  match sh with
  | ShUnit => n = 0
  | ShNewtype _ => n = 1
  | ShTuple ts => n = length ts
  | ShStruct _ => False
  end.
(** no enum of the program has a variant with named fields *)
Definition no_struct_variant (E : decls) : Prop := forall n vs name fs, E n = DefEnum vs -> ~ In (name, ShStruct fs) vs.
(** the id [i] of a node with the value [v] may be changed to [j]: always, unless the
    node is a unit, tuple or container.  Those are told apart by their ids when they
    are read as an enum: neither [i] nor [j] is the name of a variant which is written in
    this way.  [None] and [Some] are the ids of an Option, and a tuple of one element
    with an id is a newtype, one without an id is not *)
Definition free (E : decls) (v : value kserd) (i j : option str) : Prop :=
  let no_variant p := ~ names_variant E i p /\ ~ names_variant E j p in
  match v with
  | VUnit => no_variant (fun sh => sh = ShUnit)
  | VCntr _ => no_variant (fun sh => exists fs, sh = ShStruct fs)
  | VTuple l =>
      no_variant (tuple_shape (length l)) /\
      match length l with
      | 0 => i <> Some (s "None") /\ j <> Some (s "None")
      | 1 => exists a b, i = Some a /\ j = Some b /\ a <> s "Some" /\ b <> s "Some"
      | _ => True
      end
  | _ => True
  end.
(** the same tree, but for ids which may be changed *)
Inductive renamed (E : decls) : kserd -> kserd -> Prop :=
| Renamed i j v v' : i = j \/ free E v i j -> renamed_value E v v' -> renamed E (Kserd i v) (Kserd j v')
with renamed_value (E : decls) : value kserd -> value kserd -> Prop :=
| Same_unit : renamed_value E VUnit VUnit
| Same_bool b : renamed_value E (VBool b) (VBool b)
| Same_num n : renamed_value E (VNum n) (VNum n)
| Same_str t : renamed_value E (VStr t) (VStr t)
| Same_barr b : renamed_value E (VBarr b) (VBarr b)
| In_tuple l l' : Forall2 (renamed E) l l' -> renamed_value E (VTuple l) (VTuple l')
| In_cntr m m' : Forall2 (fun e f => fst e = fst f /\ renamed E (snd e) (snd f)) m m' -> renamed_value E (VCntr m) (VCntr m')
| In_seq l l' : Forall2 (renamed E) l l' -> renamed_value E (VSeq l) (VSeq l')
| In_map m m' : Forall2 (fun e f => renamed E (fst e) (fst f) /\ renamed E (snd e) (snd f)) m m' -> renamed_value E (VMap m) (VMap m').
