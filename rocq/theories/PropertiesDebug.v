(** The texts of Debug, [{:?}] and [{:#?}] (C65).  [float_debug], [one_nans] and
    [plain_names] are in DebugSpec.v; [k_typed] is in ValueSpec.v.  Which characters
    the standard library writes as they are ([plain]) and its text of an f64
    ([f_debug]) are parameters: the theorems hold whatever they are, as long as the
    text of an f64 tells floats apart. *)
From Verif Require Import Base F64 Number BTree Value ValueSpec Grammar Nav NavSpec Debug DebugSpec DebugProps3 DebugProps4 DebugProps5 Ser SerSpec.
Open Scope N_scope.

(** two Kserds have the same text exactly when they are the same in every id, kind of
    value, kind of number and entry; one NaN has the text of another.  [alt] is the
    text over several lines *)
Theorem C65_same : forall plain f_debug alt k1 k2, float_debug f_debug -> k_typed k1 = true -> k_typed k2 = true -> plain_names alt k1 = true -> plain_names alt k2 = true ->
  (debug plain f_debug alt k1 = debug plain f_debug alt k2 <-> one_nans k1 = one_nans k2).
Proof. intros plain f_debug alt k1 k2 F. exact (debug_same plain f_debug F alt k1 k2). Qed.
Print Assumptions C65_same.

(** Kserds which are not equal have different texts, as [assert_eq!] needs *)
Theorem C65_unequal : forall plain f_debug alt k1 k2, float_debug f_debug -> k_typed k1 = true -> k_typed k2 = true -> plain_names alt k1 = true -> plain_names alt k2 = true ->
  k_eqb k1 k2 = false -> debug plain f_debug alt k1 <> debug plain f_debug alt k2.
Proof. exact debug_unequal. Qed.
Print Assumptions C65_unequal.

(** the text of a node says which node of its navigator it is *)
Theorem C65_nodes : forall plain f_debug alt k nv n1 n2, float_debug f_debug -> k_typed k = true -> nav_new k = LRet nv -> In n1 nv -> In n2 nv ->
  debug_node plain f_debug alt nv n1 = debug_node plain f_debug alt nv n2 -> n1 = n2.
Proof. intros plain f_debug alt k nv n1 n2 F. exact (nodes_apart plain f_debug F alt k nv n1 n2). Qed.
Print Assumptions C65_nodes.

(** all that the text of a node tells: its id, its value if that is primitive and else
    the kind of its value, and where it is.  [outline] is in DebugSpec.v *)
Theorem C65_node_texts : forall plain f_debug alt k1 k2 nv1 nv2 n1 n2, float_debug f_debug -> k_typed k1 = true -> k_typed k2 = true ->
  nav_new k1 = LRet nv1 -> nav_new k2 = LRet nv2 -> In n1 nv1 -> In n2 nv2 ->
  (debug_node plain f_debug alt nv1 n1 = debug_node plain f_debug alt nv2 n2 <->
   kid (n_kserd n1) = kid (n_kserd n2) /\ outline (kval (n_kserd n1)) = outline (kval (n_kserd n2)) /\
   n_idx n1 = n_idx n2 /\ option_map n_idx (node_parent nv1 n1) = option_map n_idx (node_parent nv2 n2) /\
   is_key n1 = is_key n2 /\ idx_in_parent n1 = idx_in_parent n2).
Proof. intros plain f_debug alt k1 k2 nv1 nv2 n1 n2 F. exact (node_texts plain f_debug F alt k1 k2 nv1 nv2 n1 n2). Qed.
Print Assumptions C65_node_texts.

(** what is asked of the text of an f64 is true of the standard library's, where it
    writes every digit *)
Theorem C65_floats : float_debug old_debug.
Proof. exact old_float_debug. Qed.
Print Assumptions C65_floats.

(** the converse of [C65_unequal] is false: equality does not look at ids, nor at the
    kind of a number, and Debug writes both *)
Theorem C65_equal_refuted : exists k1 k2 k3 k4, k_eqb k1 k2 = true /\ k_eqb k3 k4 = true /\
  forall plain f_debug alt, debug plain f_debug alt k1 <> debug plain f_debug alt k2 /\ debug plain f_debug alt k3 <> debug plain f_debug alt k4.
Proof.
  exists (Kserd None VUnit), (Kserd (Some []) VUnit), (Kserd None (VNum (Uint 1))), (Kserd None (VNum (Int 1))). split; [reflexivity|]. split; [reflexivity|].
  intros plain f_debug alt. split; destruct alt; vm_compute; discriminate.
Qed.
Print Assumptions C65_equal_refuted.

(** names are written as they are, and the encoder does not check them: two structs
    which encode to unequal Kserds with the same text *)
Theorem C65_names_refuted : exists p q k1 k2, run p = SOk k1 /\ run q = SOk k2 /\ k_eqb k1 k2 = false /\
  forall plain f_debug, debug plain f_debug false k1 = debug plain f_debug false k2.
Proof.
  exists (SStruct (s "P") (all_fields [(s "a", SUnit); (s "b", SUnit)])), (SStruct (s "P") (all_fields [(s "a: Kserd { id: None, val: Unit }, b", SUnit)])).
  do 2 eexists. split; [vm_compute; reflexivity|]. split; [vm_compute; reflexivity|]. split; [vm_compute; reflexivity|].
  intros plain f_debug. vm_compute. reflexivity.
Qed.
Print Assumptions C65_names_refuted.

(** the names [new_cntr] accepts are such names; for the text over several lines, those
    without a line break *)
Theorem C65_names : forall alt k, k_all (fun x => match kval x with VCntr m => forallb (fun e => good_name (fst e) && negb (alt && mem 10 (fst e))) m | _ => true end) k = true ->
  plain_names alt k = true.
Proof. exact good_plain. Qed.
Print Assumptions C65_names.

(** the hypotheses are met: a container with an id, a string which looks like the end
    of its text, numbers of the three kinds, an empty tuple and an empty container; and
    one which differs from it in a quote *)
Definition debug_sample (t : str) : kserd :=
  Kserd (Some (s "P")) (VCntr [(s "a", Kserd None (VStr t)); (s "b", Kserd None (VSeq [Kserd None (VNum (Uint 3)); Kserd None (VNum (Int (-3))); Kserd None (VNum (Float (f_of_Z 3)))]));
    (s "c", Kserd None (VMap [(Kserd None (VTuple []), Kserd None (VCntr []))]))]).
Example C65_case : let t := s "x"") }, b: [" in
  k_typed (debug_sample t) = true /\ plain_names true (debug_sample t) = true /\ k_eqb (debug_sample t) (debug_sample (s "x\"") }, b: [")) = false /\
  debug ascii_plain old_debug false (debug_sample t) =
    s "Kserd { id: Some(""P""), val: Cntr { a: Kserd { id: None, val: Str(""x\"") }, b: ["") }, b: Kserd { id: None, val: [Kserd { id: None, val: Num(Uint(3)) }, Kserd { id: None, val: Num(Int(-3)) }, Kserd { id: None, val: Num(Float(3.0)) }] }, c: Kserd { id: None, val: {Kserd { id: None, val: Tuple }: Kserd { id: None, val: Cntr }} } } }" /\
  debug ascii_plain old_debug true (Kserd None (VCntr [(s "n", Kserd None (VStr (s "a
b")))])) = s "Kserd {
    id: None,
    val: Cntr {
        n: Kserd {
            id: None,
            val: Str(""a\nb""),
        },
    },
}".
Proof. cbv zeta. split; [vm_compute; reflexivity|]. split; [vm_compute; reflexivity|]. split; [vm_compute; reflexivity|]. split; vm_compute; reflexivity. Qed.
(** the second and third node of a sequence of two equal values *)
Example C65_nodes_case :
  match nav_new (Kserd None (VSeq [Kserd None (VBool true); Kserd None (VBool true)])) with
  | LRet nv => map (debug_node ascii_plain old_debug false nv) nv
  | _ => [] end =
  [s "Node { id: None, value-type: ""Seq"", index: 0, parent: None, is_key: false, idx_in_parent: 0 }";
   s "Node { id: None, value-type: ""Primitive"", value: Bool(true), index: 1, parent: Some(0), is_key: false, idx_in_parent: 0 }";
   s "Node { id: None, value-type: ""Primitive"", value: Bool(true), index: 2, parent: Some(0), is_key: false, idx_in_parent: 1 }"].
Proof. vm_compute. reflexivity. Qed.
