(** Mutable access changes what it points to and nothing else: C48. *)
From Verif Require Import Base F64 Number BTree Value ValueSpec FmtVectors Mutate MutateSpec MutateProps.
Open Scope nat_scope.

(** * C48  accessors of values *)
(** every [_mut] accessor answers when its counterpart does, with the same
    content; what was written is read, and writing what is there changes nothing *)
Theorem C48_accessors :
  mirrors v_bool v_bool_mut /\ mirrors v_num v_num_mut /\ mirrors v_str v_str_mut /\ mirrors v_barr v_barr_mut /\
  mirrors v_tuple v_tuple_mut /\ mirrors v_cntr v_cntr_mut /\ mirrors v_seq v_seq_mut /\
  mirrors v_tuple_or_seq v_tuple_or_seq_mut /\ mirrors v_map v_map_mut.
Proof. exact value_accessors. Qed.
Print Assumptions C48_accessors.

(** writing never changes the kind of a value: a sequence reached as "tuple or
    sequence" stays a sequence *)
Theorem C48_kinds : forall v,
  (forall r y, v_bool_mut v = Some r -> same_kind v (after r y)) /\ (forall r y, v_num_mut v = Some r -> same_kind v (after r y)) /\
  (forall r y, v_str_mut v = Some r -> same_kind v (after r y)) /\ (forall r y, v_barr_mut v = Some r -> same_kind v (after r y)) /\
  (forall r y, v_tuple_mut v = Some r -> same_kind v (after r y)) /\ (forall r y, v_cntr_mut v = Some r -> same_kind v (after r y)) /\
  (forall r y, v_seq_mut v = Some r -> same_kind v (after r y)) /\ (forall r y, v_tuple_or_seq_mut v = Some r -> same_kind v (after r y)) /\
  (forall r y, v_map_mut v = Some r -> same_kind v (after r y)).
Proof. exact accessor_kinds. Qed.
Print Assumptions C48_kinds.

(** the accessors of fields, likewise *)
Theorem C48_fields : forall name,
  mirrors (fun m => get_bool m name) (fun m => get_bool_mut m name) /\ mirrors (fun m => get_num m name) (fun m => get_num_mut m name) /\
  mirrors (fun m => get_str m name) (fun m => get_str_mut m name) /\ mirrors (fun m => get_barr m name) (fun m => get_barr_mut m name) /\
  mirrors (fun m => get_tuple m name) (fun m => get_tuple_mut m name) /\ mirrors (fun m => get_seq m name) (fun m => get_seq_mut m name) /\
  mirrors (fun m => get_tuple_or_seq m name) (fun m => get_tuple_or_seq_mut m name) /\
  mirrors (fun m => get_cntr m name) (fun m => get_cntr_mut m name) /\ mirrors (fun m => get_map m name) (fun m => get_map_mut m name).
Proof. exact field_accessors. Qed.
Print Assumptions C48_fields.

(** they change the value of that field only: its id, its kind and all other
    fields stay *)
Theorem C48_only_field : forall m name,
  let only {A} (g : list (str * kserd) -> str -> option (mref (list (str * kserd)) A)) := forall r, g m name = Some r ->
    exists l1 id v l2, m = l1 ++ (name, Kserd id v) :: l2 /\ forall y, exists w, same_kind v w /\ after r y = l1 ++ (name, Kserd id w) :: l2 in
  only get_bool_mut /\ only get_num_mut /\ only get_str_mut /\ only get_barr_mut /\ only get_tuple_mut /\ only get_seq_mut /\
  only get_tuple_or_seq_mut /\ only get_cntr_mut /\ only get_map_mut.
Proof. exact field_edits. Qed.
Print Assumptions C48_only_field.

(** * C48  walks: accessors one after the other, of any length *)
(** a mutable walk arrives where the walk which only reads does *)
Theorem C48_same_place : forall q k, steps_get q k = option_map shows (steps_mut q k).
Proof. exact steps_get_mut. Qed.
Print Assumptions C48_same_place.

(** what is written replaces what is in that place; the rest of the value is the
    same, node by node, ids, names, keys and order included *)
Theorem C48_only_there : forall q k r, steps_mut q k = Some r -> exists p, leads q k p /\ forall y, edited (shows r) y p k (after r y).
Proof. exact steps_edit. Qed.
Print Assumptions C48_only_there.

(** a walk leads to one place *)
Theorem C48_one_place : forall q k p, leads q k p -> (exists r, steps_mut q k = Some r) /\ forall p', leads q k p' -> p' = p.
Proof. exact (fun q k p L => conj (leads_reach q k p L) (fun p' L' => leads_unique q k p' p L' L)). Qed.
Print Assumptions C48_one_place.

(** what was written is read; of two writes to a place the last counts; to write
    what is there changes nothing *)
Theorem C48_read_back : forall q k r y, steps_mut q k = Some r -> steps_get q (after r y) = Some y /\
  exists r', steps_mut q (after r y) = Some r' /\ shows r' = y /\ forall z, after r' z = after r z.
Proof. exact steps_back. Qed.
Print Assumptions C48_read_back.
Theorem C48_unchanged : forall q k r, steps_mut q k = Some r -> after r (shows r) = k.
Proof. exact steps_same. Qed.
Print Assumptions C48_unchanged.

(** writes to places apart: neither is seen in the other, and their order does
    not matter *)
Theorem C48_elsewhere : forall q q' k r r' p p' y z,
  steps_mut q k = Some r -> steps_mut q' k = Some r' -> leads q k p -> leads q' k p' -> apart p p' ->
  steps_get q' (after r y) = steps_get q' k /\
  exists r1 r1', steps_mut q (after r' z) = Some r1 /\ steps_mut q' (after r y) = Some r1' /\ after r1 y = after r1' z.
Proof. exact steps_elsewhere. Qed.
Print Assumptions C48_elsewhere.

(** fields and maps stay in order, numbers and bytes stay in range *)
Theorem C48_sorted : forall q k r y, steps_mut q k = Some r -> k_sorted k = true -> k_sorted y = true -> k_sorted (after r y) = true.
Proof. exact steps_sorted. Qed.
Print Assumptions C48_sorted.
Theorem C48_typed : forall q k r y, steps_mut q k = Some r -> k_typed k = true -> k_typed y = true -> k_typed (after r y) = true.
Proof. exact steps_typed. Qed.
Print Assumptions C48_typed.

(** ** a case *)
Definition doc48 : kserd :=
  id_ "Doc" (cn [("a", i32 1); ("b", id_ "List" (sq [st "x"; tup [i32 2; mp [(st "k", new_unit); (st "l", sq [i32 3])]]])); ("c", new_bool true)])%string.
Definition walk48 : list step := [Field (s "b"); ListElem 1; TupleElem 1; Entry (st "l"); SeqElem 0].
Example C48_case :
  k_sorted doc48 = true /\ leads walk48 doc48 [1; 1; 1; 1; 0] /\ leads [Field (s "b"); SeqElem 0] doc48 [1; 0] /\ apart [1; 1; 1; 1; 0] [1; 0] /\
  exists r, steps_mut walk48 doc48 = Some r /\ shows r = i32 3 /\
    after r (new_bool false) = id_ "Doc" (cn [("a", i32 1); ("b", id_ "List" (sq [st "x"; tup [i32 2; mp [(st "k", new_unit); (st "l", sq [new_bool false])]]])); ("c", new_bool true)])%string.
Proof.
  split; [vm_compute; reflexivity|].
  assert (B : points (Field (s "b")) doc48 1).
  { refine (P_field _ [(s "a", i32 1)] _ (s "b") _ _). repeat constructor. }
  split; [|split; [|split]].
  - eapply L_step; [exact B|reflexivity|].
    eapply L_step; [apply P_seq'; cbn; lia|reflexivity|].
    eapply L_step; [apply P_tuple; cbn; lia|reflexivity|].
    eapply L_step; [refine (P_entry _ [(st "k", new_unit)] _ (st "l") (st "l") _ _ _); [repeat constructor|reflexivity]|reflexivity|].
    eapply L_step; [apply P_seq; cbn; lia|reflexivity|constructor].
  - eapply L_step; [exact B|reflexivity|]. eapply L_step; [apply P_seq; cbn; lia|reflexivity|constructor].
  - split; intros [|? [|? t]]; discriminate.
  - eexists. split; [vm_compute; reflexivity|]. split; vm_compute; reflexivity.
Qed.
(** [num_mut] on a field and [push] on a list *)
Example C48_case_fields :
  (exists r, get_num_mut [(s "a", i32 1); (s "b", i32 2)] (s "b") = Some r /\ after r (Uint 7) = [(s "a", i32 1); (s "b", id_ "i32" (knew (VNum (Uint 7))))]) /\
  get_num_mut [(s "a", i32 1)] (s "c") = None /\ get_bool_mut [(s "a", i32 1)] (s "a") = None.
Proof. split; [|split; reflexivity]. eexists. split; vm_compute; reflexivity. Qed.
