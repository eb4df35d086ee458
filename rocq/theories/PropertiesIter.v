(** The navigator's iterators (C54).  [entries_of], [shown], [at_place],
    [pulled] and [runs] are in NavIterSpec.v. *)
From Verif Require Import Base F64 Number BTree Value Nav NavSpec NavIter NavIterSpec NavIterProps PropertiesNav.
Open Scope nat_scope.

(** [node.value()]: however often [next] is called, the items are those of the
    data in order, each with its own name or key and at its place in the tree;
    [len] and [is_empty] are right after every call; [None] stays [None] *)
Theorem C54_value : forall k nv p, nav_new k = LRet nv -> In p nv ->
  match value_iter p with
  | None => entries_of (n_kserd p) = [] /\ values_of (n_kserd p) = []
  | Some it => exists l,
      map shown l = entries_of (n_kserd p) /\
      (forall j x, nth_error l j = Some x -> at_place nv p j x) /\
      runs nv it l
  end.
Proof. exact value_runs. Qed.
Print Assumptions C54_value.

(** [value_children()] and [key_children()]; which nodes these are is C30 *)
Theorem C54_children : forall k nv p, nav_new k = LRet nv -> In p nv ->
  runs nv (value_children_iter p) (map ItNode (value_children nv p)) /\
  runs nv (key_children_iter p) (map ItNode (key_children nv p)).
Proof. exact children_run. Qed.
Print Assumptions C54_children.

(** [nodes()]: every Kserd of the tree once, then [None]; a navigator is never
    empty *)
Theorem C54_nodes : forall k nv c, nav_new k = LRet nv ->
  exists l, fst (pull_nodes c (nodes_iter nv)) = pulled c l /\ map n_kserd l = preorder k /\ nav_is_empty nv = false /\
            length (snd (pull_nodes c (nodes_iter nv))) = nav_len nv - c.
Proof. exact nodes_run. Qed.
Print Assumptions C54_nodes.

(** two nodes are equal iff they are the same place in the same navigator *)
Theorem C54_equal : forall k nv adr adr' a b, nav_new k = LRet nv -> In a nv -> In b nv ->
  (node_eqb (adr, a) (adr', b) = true <-> adr = adr' /\ a = b).
Proof. exact handles_equal. Qed.
Print Assumptions C54_equal.

(** the hypotheses are met: the root of a map with two entries, read past its end,
    and two nodes with equal data which are not the same node *)
Definition iter_item (x : option item) : list nat :=
  match x with
  | None => []
  | Some (ItNode n) | Some (ItNamed _ n) => [n_idx n]
  | Some (ItKeyed k v) => [n_idx k; n_idx v]
  end.
Example C54_case :
  match nav_new nav_case with
  | LRet nv => match nav_root nv with
               | Some r => match value_iter r with
                           | Some it => (map iter_item (fst (pull nv 3 it)), map (fun c => it_len (snd (pull nv c it))) [0; 1; 2; 3],
                                         map (fun c => it_is_empty (snd (pull nv c it))) [1; 2])
                           | None => ([], [], []) end
               | None => ([], [], []) end
  | _ => ([], [], []) end = ([[1; 4]; [7; 8]; []], [2; 1; 0; 0], [false; true]).
Proof. vm_compute. reflexivity. Qed.
Example C54_equal_case :
  match nav_new (knew (VSeq [new_bool true; new_bool true])) with
  | LRet nv => match nav_get nv 1, nav_get nv 2 with
               | Some a, Some b => (k_eqb (n_kserd a) (n_kserd b), node_eqb (7, a) (7, b), node_eqb (7, a) (7, a), node_eqb (7, a) (8, a))
               | _, _ => (false, false, false, false) end
  | _ => (false, false, false, false) end = (true, false, true, false).
Proof. vm_compute. reflexivity. Qed.
