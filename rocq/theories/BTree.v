(** [std::collections::BTreeMap] (Rust standard library, not in /repo) as the
    sorted list of its entries.  Iteration order is list order.

    Node splitting is not modelled: [bt_insert] scans the entries from the
    front, as the search inside a BTreeMap node does. *)
From Verif Require Import Base.

Section BTree.
  Context {K V : Type} (cmp : K -> K -> comparison) (eqb : K -> K -> bool).

  (** [BTreeMap::insert]: an existing key is kept, its value replaced. *)
  Fixpoint bt_insert (k : K) (v : V) (m : list (K * V)) : list (K * V) :=
    match m with
    | [] => [(k, v)]
    | (k', v') :: m' =>
        match cmp k k' with
        | Lt => (k, v) :: m
        | Eq => (k', v) :: m'
        | Gt => (k', v') :: bt_insert k v m'
        end
    end.

  (** [BTreeMap::get] *)
  Fixpoint bt_get (k : K) (m : list (K * V)) : option V :=
    match m with
    | [] => None
    | (k', v') :: m' =>
        match cmp k k' with
        | Lt => None
        | Eq => Some v'
        | Gt => bt_get k m'
        end
    end.

  (** [slice::sort_by] on the keys: stable *)
  Fixpoint sort_ins (e : K * V) (l : list (K * V)) : list (K * V) :=
    match l with
    | [] => [e]
    | e' :: l' => match cmp (fst e) (fst e') with Gt => e' :: sort_ins e l' | _ => e :: l end
    end.
  (** [slice::sort_by] on the keys (Rust standard library): stable *)
  Definition bt_sort (l : list (K * V)) : list (K * V) := fold_right sort_ins [] l.

  (** DedupSortedIter: of adjacent entries with [==] keys the last is kept *)
  Fixpoint bt_dedup (l : list (K * V)) : list (K * V) :=
    match l with
    | [] => []
    | e :: l' =>
        match l' with
        | [] => [e]
        | e' :: _ => if eqb (fst e) (fst e') then bt_dedup l' else e :: bt_dedup l'
        end
    end.

  (** [BTreeMap::from_iter] / [collect] (Rust 1.56 and later): stable sort, then
      bulk build over the deduplicated entries. *)
  Definition bt_from_list (l : list (K * V)) : list (K * V) := bt_dedup (bt_sort l).

  (** repeated [insert] into an empty map *)
  Definition bt_inserts (l : list (K * V)) : list (K * V) :=
    fold_left (fun m e => bt_insert (fst e) (snd e) m) l [].

  (** strictly ascending keys *)
  Fixpoint ascending (l : list (K * V)) : bool :=
    match l with
    | [] => true
    | e :: l' =>
        match l' with
        | [] => true
        | e' :: _ => match cmp (fst e) (fst e') with Lt => ascending l' | _ => false end
        end
    end.
End BTree.
