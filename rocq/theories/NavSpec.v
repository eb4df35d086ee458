(** What the navigator properties are stated against. *)
From Verif Require Import Base F64 Number BTree Value Nav.
Open Scope nat_scope.

(** the Kserds of a tree, depth first, keys before their values *)
Fixpoint preorder (k : kserd) : list kserd :=
  k :: match k with
  | Kserd _ v =>
      match v with
      | VTuple l | VSeq l => flat_map preorder l
      | VCntr m => flat_map (fun e => preorder (snd e)) m
      | VMap m => flat_map (fun e => preorder (fst e) ++ preorder (snd e)) m
      | _ => []
      end
  end.

(** the elements of a tuple or sequence, the values of a container or map *)
Definition values_of (k : kserd) : list kserd :=
  match kval k with
  | VTuple l | VSeq l => l
  | VCntr m => map snd m
  | VMap m => map snd m
  | _ => []
  end.
(** the keys of a map *)
Definition keys_of (k : kserd) : list kserd :=
  match kval k with VMap m => map fst m | _ => [] end.

(** nodes [i], [i+1], ... [i+n-1] *)
Definition segment (nv : nav) (i n : nat) : list node := firstn n (skipn i nv).

(** breadth first listing by whole levels: the nodes [l], then their children
    (keys then values of each), and so on *)
Fixpoint by_levels (depth : nat) (nv : nav) (l : list node) : list node :=
  match depth with
  | O => []
  | S depth => l ++ by_levels depth nv (flat_map (fun n => key_children nv n ++ value_children nv n) l)
  end.
