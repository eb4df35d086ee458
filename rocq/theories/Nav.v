(** Model of /repo/src/nav: Navigator, Node, NodeValue. *)
From Verif Require Import Base F64 Number BTree Value.
Open Scope nat_scope.

(** nav/mod.rs 50-58; the [kserd] pointer is the tree it points to *)
Record node : Type := mkNode {
  n_kserd : kserd;
  n_idx : nat;
  n_parent : option nat;
  n_value_idx : option nat;
  n_key_idx : option nat;
  n_value_children : list nat;
  n_key_children : list nat
}.
(** nav/mod.rs 30-32 *)
Definition nav : Type := list node.

(** nav/navigator.rs 13-17 *)
Record ninfo : Type := mkInfo { i_parent : option nat; i_value : option nat; i_key : option nat }.
(** nav/navigator.rs 12-17 (derived Default) *)
Definition info_default : ninfo := mkInfo None None None.
(** the Info of a value: nav/navigator.rs 46-105 *)
Definition info_value (parent i : nat) : ninfo := mkInfo (Some parent) (Some i) None.
(** the Info of a key: nav/navigator.rs 46-105 *)
Definition info_key (parent i : nat) : ninfo := mkInfo (Some parent) None (Some i).

(** [.enumerate()] *)
Fixpoint enumerate_from {A} (i : nat) (l : list A) : list (nat * A) :=
  match l with [] => [] | x :: l' => (i, x) :: enumerate_from (S i) l' end.
(** [.enumerate()] (Rust standard library) *)
Definition enumerate {A} (l : list A) : list (nat * A) := enumerate_from 0 l.

(** the stack is a list with its top first *)
Definition push {A} (st : list A) (x : A) : list A := x :: st.
(** [Vec::push] of each in turn (Rust standard library) *)
Definition push_each {A} (st : list A) (xs : list A) : list A := fold_left push xs st.

(** the pushes of navigator.rs 46-105, in push order *)
Definition pushes (parent : nat) (v : value kserd) : list (ninfo * kserd) :=
  match v with
  | VTuple l => map (fun e => (info_value parent (fst e), snd e)) (rev (enumerate l))
  | VCntr m => map (fun e => (info_value parent (fst e), snd e)) (rev (enumerate (map snd m)))
  | VSeq l => map (fun e => (info_value parent (fst e), snd e)) (rev (enumerate l))
  | VMap m =>
      flat_map (fun e => [(info_value parent (fst e), snd (snd e)); (info_key parent (fst e), fst (snd e))])
               (rev (enumerate m))
  | _ => []
  end.

(** nav/navigator.rs 25-106.  [inner] is the Vec so far; one unit of fuel per popped
    node, [None] when it runs out *)
Fixpoint nav_loop (fuel : nat) (stack : list (ninfo * kserd)) (inner : list node) : option (list node) :=
  match stack with
  | [] => Some inner
  | (info, k) :: stack =>
      match fuel with
      | O => None
      | S fuel =>
          let len := length inner in
          let n := mkNode k len (i_parent info) (i_value info) (i_key info) [] [] in
          nav_loop fuel (push_each stack (pushes len (kval k))) (inner ++ [n])
      end
  end.

(** nav/navigator.rs 115-158: children of [p] in index order, then sorted by their
    index in the parent.  The HashMap holds one entry per parent, each touching
    its own node only, so its iteration order does not matter. *)
Definition opt_eqb (a b : option nat) : bool :=
  match a, b with Some x, Some y => x =? y | None, None => true | _, _ => false end.
(** nav/navigator.rs 115-158 *)
Definition children_of (inner : list node) (sel : node -> option nat) (p : nat) : list nat :=
  let infos := filter (fun c => opt_eqb (n_parent c) (Some p)) inner in
  let pairs := flat_map (fun c => match sel c with Some y => [(y, n_idx c)] | None => [] end) infos in
  map snd (bt_sort Nat.compare pairs).
(** nav/navigator.rs 115-158 *)
Definition link_node (inner : list node) (n : node) : node :=
  mkNode (n_kserd n) (n_idx n) (n_parent n) (n_value_idx n) (n_key_idx n)
    (n_value_children n ++ children_of inner n_value_idx (n_idx n))
    (n_key_children n ++ children_of inner n_key_idx (n_idx n)).
(** [inner.get_mut(parent).unwrap()] *)
Definition parents_in_range (inner : list node) : bool :=
  forallb (fun c => match n_parent c with Some p => p <? length inner | None => true end) inner.

(** number of Kserds in the tree: the number of pops *)
Fixpoint ksize (k : kserd) : nat :=
  match k with
  | Kserd _ v =>
      S (match v with
         | VTuple l | VSeq l => list_sum (map ksize l)
         | VCntr m => list_sum (map (fun e => ksize (snd e)) m)
         | VMap m => list_sum (map (fun e => ksize (fst e) + ksize (snd e)) m)
         | _ => 0
         end)
  end.

(** results of loops which may unwrap a None (panic) or not end (fuel) *)
Inductive lres (A : Type) : Type := LRet (a : A) | LPanic | LFuel.
Arguments LRet {A} a.
Arguments LPanic {A}.
Arguments LFuel {A}.

(** nav/navigator.rs 11-168 without the debug assertion *)
Definition nav_new (root : kserd) : lres nav :=
  match nav_loop (ksize root) [(info_default, root)] [] with
  | None => LFuel
  | Some inner => if parents_in_range inner then LRet (map (link_node inner) inner) else LPanic
  end.

(** nav/navigator.rs 185-227 *)
Definition nav_get (nv : nav) (i : nat) : option node := nth_error nv i.
(** nav/navigator.rs 185-189; [None] where the [unwrap] would panic *)
Definition nav_root (nv : nav) : option node := hd_error nv.
(** nav/navigator.rs 220-222 *)
Definition nav_len (nv : nav) : nat := length nv.
(** nodes(), navigator.rs 254-270 *)
Definition nav_nodes (nv : nav) : list node := nv.

(** ** Node (nav/node.rs).  nav 9-11, index 19-21, kserd 126-128: a node is given with its
    navigator, [n_idx], [n_kserd] *)
(** nav/node.rs 51-53 *)
Definition node_parent (nv : nav) (n : node) : option node := opt_bind (n_parent n) (nav_get nv).
(** nav/node.rs 74-76 *)
Definition is_key (n : node) : bool := match n_key_idx n with Some _ => true | None => false end.
(** nav/node.rs 118-123 *)
Definition idx_in_parent (n : node) : nat :=
  match n_key_idx n with
  | Some i => i
  | None => match n_value_idx n with Some i => i | None => 0 end
  end.
(** nav/value.rs 44-56: an iterator over indices; ends at the first dangling one *)
Fixpoint seq_iter (nv : nav) (l : list nat) : list node :=
  match l with
  | [] => []
  | i :: l' => match nav_get nv i with Some n => n :: seq_iter nv l' | None => [] end
  end.
(** nav/node.rs 157-189 *)
Definition value_children (nv : nav) (n : node) : list node := seq_iter nv (n_value_children n).
(** nav/node.rs 184-189 *)
Definition key_children (nv : nav) (n : node) : list node := seq_iter nv (n_key_children n).

(** nav/value.rs 70-87 and 101-126 *)
Fixpoint named_iter (nv : nav) (names : list str) (l : list nat) : list (str * node) :=
  match names, l with
  | name :: names, i :: l => match nav_get nv i with Some n => (name, n) :: named_iter nv names l | None => [] end
  | _, _ => []
  end.
(** nav/value.rs 101-126 *)
Fixpoint keyed_iter (nv : nav) (ks vs : list nat) : list (node * node) :=
  match ks, vs with
  | i :: ks, j :: vs =>
      match nav_get nv i, nav_get nv j with Some k, Some v => (k, v) :: keyed_iter nv ks vs | _, _ => [] end
  | _, _ => []
  end.
(** nav/mod.rs 67-78 and nav/value.rs 4-29 *)
Inductive node_value : Type :=
| NPrimitive
| NTuple (l : list node)
| NCntr (m : list (str * node))
| NSeq (l : list node)
| NMap (m : list (node * node)).
(** nav/value.rs 4-29 *)
Definition node_val (nv : nav) (n : node) : node_value :=
  match kval (n_kserd n) with
  | VTuple _ => NTuple (seq_iter nv (n_value_children n))
  | VCntr m => NCntr (named_iter nv (map fst m) (n_value_children n))
  | VSeq _ => NSeq (seq_iter nv (n_value_children n))
  | VMap _ => NMap (keyed_iter nv (n_key_children n) (n_value_children n))
  | _ => NPrimitive
  end.

(** nav/node.rs 217-232: the pushes of push_children, in push order *)
Definition depth_pushes (n : node) : list nat :=
  flat_map (fun i =>
      match nth_error (n_value_children n) i with Some x => [x] | None => [] end ++
      match nth_error (n_key_children n) i with Some x => [x] | None => [] end)
    (rev (seq 0 (max (length (n_key_children n)) (length (n_value_children n))))).
(** nav/node.rs 241-245 *)
Fixpoint depth_loop (fuel : nat) (nv : nav) (todo : list nat) (nodes : list node) : lres (list node) :=
  match todo with
  | [] => LRet nodes
  | i :: todo =>
      match fuel with
      | O => LFuel
      | S fuel =>
          match nav_get nv i with
          | None => LPanic
          | Some n => depth_loop fuel nv (push_each todo (depth_pushes n)) (nodes ++ [n])
          end
      end
  end.
(** nav/node.rs 214-248 *)
Definition descendants_depth (nv : nav) (n : node) : lres (list node) :=
  depth_loop (length nv) nv (push_each [] (depth_pushes n)) [].

(** nav/node.rs 274-279 *)
Definition breadth_children (n : node) : list nat := n_key_children n ++ n_value_children n.
(** nav/node.rs 285-289: a queue with its front first *)
Fixpoint breadth_loop (fuel : nat) (nv : nav) (todo : list nat) (nodes : list node) : lres (list node) :=
  match todo with
  | [] => LRet nodes
  | i :: todo =>
      match fuel with
      | O => LFuel
      | S fuel =>
          match nav_get nv i with
          | None => LPanic
          | Some n => breadth_loop fuel nv (todo ++ breadth_children n) (nodes ++ [n])
          end
      end
  end.
(** nav/node.rs 273-292 *)
Definition descendants_breadth (nv : nav) (n : node) : lres (list node) :=
  breadth_loop (length nv) nv (breadth_children n) [].

(** ** The debug assertion (navigator.rs 278-377; without debug assertions, 274-276, it is true): [false] for a panic or a
    missing entry *)
Definition assert_same (a : option kserd) (b : kserd) : bool :=
  match a with Some a => k_eqb a b | None => false end.
(** nav/navigator.rs 280-377: the values of a tuple, sequence, container or map *)
Definition vvalues (v : value kserd) : option (list kserd) :=
  match v with
  | VTuple l | VSeq l => Some l
  | VCntr m => Some (map snd m)
  | VMap m => Some (map snd m)
  | _ => None
  end.
(** nav/navigator.rs 280-377: the keys of a map *)
Definition vkeys (v : value kserd) : option (list kserd) :=
  match v with VMap m => Some (map fst m) | _ => None end.
(** nav/navigator.rs 299-329 *)
Definition validate_parent (nv : nav) (n : node) : bool :=
  match n_parent n with
  | None => true
  | Some p =>
      match nth_error nv p with
      | None => false
      | Some p =>
          let pv := kval (n_kserd p) in
          match n_value_idx n with
          | Some i => match vvalues pv with Some l => assert_same (nth_error l i) (n_kserd n) | None => false end
          | None => true
          end &&
          match n_key_idx n with
          | Some i => match vkeys pv with Some l => assert_same (nth_error l i) (n_kserd n) | None => false end
          | None => true
          end
      end
  end.
(** nav/navigator.rs 332-374, one list of children *)
Definition validate_list (nv : nav) (idxs : list nat) (l : list kserd) : bool :=
  (length l =? length idxs) &&
  forallb (fun e => assert_same (option_map n_kserd (nth_error nv (fst e))) (snd e)) (combine idxs l).
(** nav/navigator.rs 332-374 *)
Definition validate_children (nv : nav) (n : node) : bool :=
  let v := kval (n_kserd n) in
  validate_list nv (n_value_children n) (match vvalues v with Some l => l | None => [] end) &&
  validate_list nv (n_key_children n) (match vkeys v with Some l => l | None => [] end).
(** nav/navigator.rs 280-377 *)
Definition nav_validate (nv : nav) : bool :=
  match nv with [] => false | r :: _ => match n_parent r with Some _ => false | None => true end end &&
  (length (filter (fun n => match n_parent n with None => true | _ => false end) nv) =? 1) &&
  forallb (fun e => n_idx (snd e) =? fst e) (enumerate nv) &&
  forallb (validate_parent nv) nv &&
  forallb (validate_children nv) nv.

(** vectors from node.rs and navigator.rs documentation tests *)
Definition nav_ex : kserd :=
  knew (VMap [(knew VUnit, knew (VNum (Uint 0))); (knew (VNum (Uint 3)), knew (VNum (Uint 0)))]).
Example nav_v1 : exists nv r, nav_new nav_ex = LRet nv /\ nav_root nv = Some r /\
  map n_idx (value_children nv r) = [2; 4] /\ map n_idx (key_children nv r) = [1; 3] /\
  (exists l, descendants_depth nv r = LRet l /\ map n_idx l = [1; 2; 3; 4]) /\
  (exists l, descendants_breadth nv r = LRet l /\ map n_idx l = [1; 3; 2; 4]) /\
  map idx_in_parent nv = [0; 0; 0; 1; 1] /\ map is_key nv = [false; true; false; true; false] /\
  nav_validate nv = true.
Proof. do 2 eexists. repeat split; try (eexists; split); reflexivity. Qed.
