(** Properties of the navigator (C29 - C31).  [preorder], [values_of],
    [keys_of], [segment] and [by_levels] are in NavSpec.v. *)
From Verif Require Import Base F64 Number BTree Value Nav NavSpec NavProps NavProps2 NavProps3.
From Coq Require Import Permutation.
Open Scope nat_scope.

(** Navigator::new always succeeds; its nodes are the Kserds of the tree in
    depth first order, each knowing its own index; node 0 is the root *)
Theorem C29_depth_first : forall k, exists nv,
  nav_new k = LRet nv /\
  map n_kserd (nav_nodes nv) = preorder k /\
  map n_idx (nav_nodes nv) = seq 0 (nav_len nv) /\
  nav_len nv = length (preorder k) /\
  (forall i, i < nav_len nv <-> nav_get nv i <> None) /\
  (forall i n, nav_get nv i = Some n -> n_idx n = i /\ nth_error (preorder k) i = Some (n_kserd n)) /\
  (exists r, nav_root nv = Some r /\ nav_get nv 0 = Some r /\ n_kserd r = k).
Proof. exact nav_depth_first. Qed.
Print Assumptions C29_depth_first.

(** the consistency checks run in debug builds never fire *)
Theorem C29_assertions_hold : forall k nv, nav_new k = LRet nv -> nav_validate nv = true.
Proof. exact nav_assertions_hold. Qed.
Print Assumptions C29_assertions_hold.

(** only the root has no parent; parent and children mirror each other *)
Theorem C30_parents : forall k nv, nav_new k = LRet nv ->
  (forall c, In c nv -> (node_parent nv c = None <-> n_idx c = 0)) /\
  (forall p c, In p nv -> In c nv ->
     (node_parent nv c = Some p <-> In c (value_children nv p) \/ In c (key_children nv p))).
Proof. exact nav_parents. Qed.
Print Assumptions C30_parents.

(** children are the elements of the data, in order; keys are marked; the
    index in the parent is the position *)
Theorem C30_children : forall k nv p, nav_new k = LRet nv -> In p nv ->
  map n_kserd (value_children nv p) = values_of (n_kserd p) /\
  map n_kserd (key_children nv p) = keys_of (n_kserd p) /\
  (forall j c, nth_error (value_children nv p) j = Some c -> In c nv /\ is_key c = false /\ idx_in_parent c = j) /\
  (forall j c, nth_error (key_children nv p) j = Some c -> In c nv /\ is_key c = true /\ idx_in_parent c = j).
Proof. exact nav_children. Qed.
Print Assumptions C30_children.

(** [value()] visits exactly those children, named or keyed as in the data *)
Theorem C30_value : forall k nv p, nav_new k = LRet nv -> In p nv ->
  node_val nv p =
    match kval (n_kserd p) with
    | VTuple _ => NTuple (value_children nv p)
    | VSeq _ => NSeq (value_children nv p)
    | VCntr m => NCntr (combine (map fst m) (value_children nv p))
    | VMap _ => NMap (combine (key_children nv p) (value_children nv p))
    | _ => NPrimitive
    end.
Proof. exact nav_value. Qed.
Print Assumptions C30_value.

(** the depth first descendants are the nodes after this one, as many as the
    subtree has below its root *)
Theorem C31_depth : forall k nv n, nav_new k = LRet nv -> In n nv ->
  descendants_depth nv n = LRet (segment nv (S (n_idx n)) (length (preorder (n_kserd n)) - 1)).
Proof. exact nav_depth. Qed.
Print Assumptions C31_depth.

(** the breadth first descendants are the levels below the node one after the
    other, and the same nodes as the depth first ones; no node appears twice *)
Theorem C31_breadth : forall k nv n, nav_new k = LRet nv -> In n nv ->
  exists l, descendants_breadth nv n = LRet l /\
    (forall d, length (preorder (n_kserd n)) <= d -> l = by_levels d nv (key_children nv n ++ value_children nv n)) /\
    Permutation l (segment nv (S (n_idx n)) (length (preorder (n_kserd n)) - 1)) /\
    NoDup (map n_idx l).
Proof. exact nav_breadth. Qed.
Print Assumptions C31_breadth.

(** the hypotheses are met: a map with a tuple key, and one of its inner nodes *)
Definition nav_case : kserd :=
  knew (VMap [(Kserd (Some (s "P")) (VTuple [knew (VNum (Uint 1)); knew (VNum (Uint 2))]), knew (VSeq [knew (VStr (s "a")); knew VUnit]));
              (knew (VNum (Uint 3)), Kserd (Some (s "C")) (VCntr [(s "x", knew (VBool true))]))]).
Example C30_case :
  match nav_new nav_case with
  | LRet nv => map (fun p => (option_map n_idx (node_parent nv p), map n_idx (key_children nv p), map n_idx (value_children nv p))) (firstn 3 nv)
  | _ => []
  end = [(None, [1; 7], [4; 8]); (Some 0, [], [2; 3]); (Some 1, [], [])].
Proof. vm_compute. reflexivity. Qed.
Example C29_case :
  match nav_new nav_case with LRet nv => (nav_len nv, map is_key nv) | _ => (0, []) end =
  (10, [false; true; false; false; false; false; false; true; false; false]).
Proof. vm_compute. reflexivity. Qed.
Example C31_case :
  match nav_new nav_case with
  | LRet nv => match nav_get nv 0, nav_get nv 1 with
               | Some r, Some n =>
                   match descendants_breadth nv r, descendants_depth nv n with
                   | LRet a, LRet b => (map n_idx a, map n_idx b)
                   | _, _ => ([], [])
                   end
               | _, _ => ([], [])
               end
  | _ => ([], [])
  end = ([1; 7; 4; 8; 2; 3; 5; 6; 9], [2; 3]).
Proof. vm_compute. reflexivity. Qed.
