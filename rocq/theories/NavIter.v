(** The iterators of the navigator step by step: /repo/src/nav/value.rs,
    NodeIter (nav/navigator.rs 262-271) and [==] of nodes (nav/node.rs 320-325).
    Nav.v has the lists they run through when nobody looks in between. *)
From Verif Require Import Base F64 Number BTree Value Nav.
Open Scope nat_scope.

(** nav/mod.rs 88-105: SeqIter, NamedIter and KeyedIter.  A slice or map iterator
    is the list of what it has not given yet. *)
Inductive citer : Type :=
| ISeq (l : list nat)
| INamed (names : list str) (values : list nat)
| IKeyed (keys values : list nat).

(** what [next] gives: a node, a name and a node, a key and a value *)
Inductive item : Type :=
| ItNode (n : node)
| ItNamed (name : str) (n : node)
| ItKeyed (k v : node).

(** [slice::Iter::next] (Rust standard library) *)
Definition sl_next {A} (l : list A) : option A * list A :=
  match l with [] => (None, []) | x :: l' => (Some x, l') end.
(** [.next().and_then(|&idx| self.nav.inner.get(idx))], in each [next] below *)
Definition idx_next (nv : nav) (l : list nat) : option node * list nat :=
  let '(i, l) := sl_next l in (opt_bind i (nav_get nv), l).

(** nav/value.rs 47-55, 73-86 and 104-125.  A name is taken even if there is no
    value left; no value is taken if the names have run out.  Likewise for keys. *)
Definition it_next (nv : nav) (it : citer) : option item * citer :=
  match it with
  | ISeq l =>
      let '(n, l) := idx_next nv l in (option_map ItNode n, ISeq l)
  | INamed names vs =>
      let '(name, names) := sl_next names in
      match name with
      | Some name => let '(n, vs) := idx_next nv vs in (option_map (ItNamed name) n, INamed names vs)
      | None => (None, INamed names vs)
      end
  | IKeyed ks vs =>
      let '(k, ks) := idx_next nv ks in
      match k with
      | Some k => let '(v, vs) := idx_next nv vs in (option_map (ItKeyed k) v, IKeyed ks vs)
      | None => (None, IKeyed ks vs)
      end
  end.

(** nav/value.rs 34-36, 60-62 and 91-93: of the values *)
Definition it_len (it : citer) : nat :=
  match it with ISeq l => length l | INamed _ vs => length vs | IKeyed _ vs => length vs end.
(** nav/value.rs 39-41, 65-67 and 96-98 *)
Definition it_is_empty (it : citer) : bool :=
  match it with
  | ISeq l | INamed _ l | IKeyed _ l => match l with [] => true | _ => false end
  end.

(** nav/value.rs 4-29; [None] for NodeValue::Primitive.  Tuple and Seq have the
    same iterator. *)
Definition value_iter (n : node) : option citer :=
  match kval (n_kserd n) with
  | VTuple _ | VSeq _ => Some (ISeq (n_value_children n))
  | VCntr m => Some (INamed (map fst m) (n_value_children n))
  | VMap _ => Some (IKeyed (n_key_children n) (n_value_children n))
  | _ => None
  end.
(** nav/node.rs 157-162 *)
Definition value_children_iter (n : node) : citer := ISeq (n_value_children n).
(** nav/node.rs 184-189 *)
Definition key_children_iter (n : node) : citer := ISeq (n_key_children n).

(** a user calling [next] [c] times: what they got, and the iterator then *)
Fixpoint pull (nv : nav) (c : nat) (it : citer) : list (option item) * citer :=
  match c with
  | O => ([], it)
  | S c => let '(x, it) := it_next nv it in let '(xs, it) := pull nv c it in (x :: xs, it)
  end.

(** nav/navigator.rs 254-270: NodeIter, the nodes not given yet *)
Definition nodes_iter (nv : nav) : list node := nv.
(** a user calling [next] of a NodeIter [c] times *)
Fixpoint pull_nodes (c : nat) (it : list node) : list (option node) * list node :=
  match c with
  | O => ([], it)
  | S c => let '(x, it) := sl_next it in let '(xs, it) := pull_nodes c it in (x :: xs, it)
  end.
(** nav/navigator.rs 225-227 *)
Definition nav_is_empty (nv : nav) : bool := match nv with [] => true | _ => false end.

(** nav/mod.rs 45-48.  A Node points to its navigator and to its place in the
    Vec; the navigator's address is a number here, the place is [n_idx]. *)
Definition handle : Type := nat * node.
(** nav/node.rs 320-325: pointer equality of both *)
Definition node_eqb (a b : handle) : bool := (n_idx (snd a) =? n_idx (snd b)) && (fst a =? fst b).
