(** What the text of a value is made of. *)
From Verif Require Import Base F64 Number NumberSpec BTree Value ValueSpec Nav NavSpec Fmt FmtText RtSpec TextSpec.
Open Scope nat_scope.

(** the ids are the same if ids are shown, and do not matter if not *)
Definition same_id (shown : bool) (i j : option str) : Prop := if shown then i = j else True.
(** a tuple with an id which is not shown leaves a trace in the text (C20), so
    there it matters whether there is one *)
Definition same_tuple_id (shown : bool) (i j : option str) : Prop :=
  if shown then i = j else match i, j with Some _, Some _ | None, None => True | _, _ => False end.

(** ** two values look the same: they have the same kinds, names and contents,
    the same ids where the configuration shows ids, and their numbers have the
    same text.  The id of a unit is always shown. *)
Inductive looks (cfg : config) : kserd -> kserd -> Prop :=
| l_unit i : looks cfg (Kserd i VUnit) (Kserd i VUnit)
| l_bool i j b : same_id (id_on_primitives cfg) i j -> looks cfg (Kserd i (VBool b)) (Kserd j (VBool b))
| l_num i j n n' : same_id (id_on_primitives cfg) i j -> num_display n = num_display n' -> looks cfg (Kserd i (VNum n)) (Kserd j (VNum n'))
| l_str i j t : same_id (id_on_primitives cfg) i j -> looks cfg (Kserd i (VStr t)) (Kserd j (VStr t))
| l_barr i j b : same_id (id_on_primitives cfg) i j -> looks cfg (Kserd i (VBarr b)) (Kserd j (VBarr b))
| l_tuple i j l l' : same_tuple_id (id_on_tuples cfg) i j -> Forall2 (looks cfg) l l' -> looks cfg (Kserd i (VTuple l)) (Kserd j (VTuple l'))
| l_cntr i j m m' : same_id (id_on_containers cfg) i j -> Forall2 (fun e e' => fst e = fst e' /\ looks cfg (snd e) (snd e')) m m' ->
    looks cfg (Kserd i (VCntr m)) (Kserd j (VCntr m'))
| l_seq i j l l' : same_id (id_on_seqs cfg) i j -> Forall2 (looks cfg) l l' -> looks cfg (Kserd i (VSeq l)) (Kserd j (VSeq l'))
| l_map i j m m' : same_id (id_on_maps cfg) i j -> Forall2 (fun e e' => looks cfg (fst e) (fst e') /\ looks cfg (snd e) (snd e')) m m' ->
    looks cfg (Kserd i (VMap m)) (Kserd j (VMap m')).

(** ** what a value must be like for its text to be written again: the text can
    be read back ([readable_tree], as for C20 to C22), there is no -0.0, and the
    numbers in the keys of maps are exact *)
Definition stable_value (k : kserd) : Prop :=
  readable_tree k = true /\ k_sorted k = true /\ k_typed k = true /\ k_all no_neg_zero k = true /\ key_numbers k = true.
(** tuples have no id which is not shown *)
Definition tuple_ids_seen (cfg : config) (k : kserd) : Prop :=
  id_on_tuples cfg = true \/ forall x, In x (preorder k) -> match kval x with VTuple _ => kid x = None | _ => True end.
(** sequences and maps have no id which is shown: titles have none *)
Definition no_title_ids (cfg : config) (x : kserd) : Prop :=
  match kval x with VSeq _ => id_on_seqs cfg = false \/ kid x = None | VMap _ => id_on_maps cfg = false \/ kid x = None | _ => True end.

(** the configuration with another width limit *)
Definition with_width (cfg : config) (w : option nat) : config :=
  mkConfig (id_on_primitives cfg) (id_on_tuples cfg) (id_on_containers cfg) (id_on_seqs cfg) (id_on_maps cfg) w.
