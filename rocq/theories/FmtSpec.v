(** What the formatter properties are stated against. *)
From Verif Require Import Base F64 Number BTree Value Nav NavSpec Fmt Base91 Formatter.
Open Scope nat_scope.

(** Inline < Concise < Verbose *)
Definition repr_le (a b : repr) : Prop := repr_n a <= repr_n b.

(** the largest representation a kind of value can have: primitives and empty
    values are inline, tuples at most concise *)
Definition kind_max (k : kserd) : repr :=
  match kval k with
  | VTuple [] | VCntr [] | VSeq [] | VMap [] => Inline
  | VTuple _ => Concise
  | VCntr _ | VSeq _ | VMap _ => Verbose
  | _ => Inline
  end.
Definition is_cntr (k : kserd) : bool := match kval k with VCntr _ => true | _ => false end.

(** ** histories of a Formatter *)
Inductive op : Type :=
| OpLine (r : repr) (i : nat)          (* inline(i), concise(i), verbose(i) *)
| OpId (i : nat) (write : bool)        (* id(i, write) *)
| OpConfig (cfg : config).             (* apply_config(cfg) *)
Definition apply_op (fm : formatter) (o : op) : lres formatter :=
  match o with
  | OpLine r i => dl x <- fm_request r fm i ; LRet (fst x)
  | OpId i w => LRet (fst (fm_id fm i w))
  | OpConfig cfg => apply_config fm cfg
  end.
(** the formatter after [Formatter::new(k)] and the operations, whatever they reported *)
Definition run (k : kserd) (ops : list op) : lres formatter :=
  dl fm <- fm_new k ; lfold apply_op ops fm.
Definition reachable (k : kserd) (fm : formatter) : Prop := exists ops, run k ops = LRet fm.

(** the representation of node [i] *)
Definition line_of (fm : formatter) (i : nat) : option repr := option_map f_line (nth_error (fm_fmts fm) i).

(** the representation invariant *)
Definition repr_invariant (k : kserd) (fm : formatter) : Prop :=
  nav_new k = LRet (fm_nav fm) /\
  length (fm_fmts fm) = nav_len (fm_nav fm) /\
  (forall n r, In n (fm_nav fm) -> line_of fm (n_idx n) = Some r -> repr_le r (kind_max (n_kserd n))) /\
  (forall n p r rp, In n (fm_nav fm) -> node_parent (fm_nav fm) n = Some p ->
     line_of fm (n_idx n) = Some r -> line_of fm (n_idx p) = Some rp -> repr_le r rp) /\
  (is_cntr k = false -> line_of fm 0 <> Some Verbose).

(** number of nodes in the tree of a node, itself included *)
Definition tree_size (n : node) : nat := length (preorder (n_kserd n)).

(** every map key of the tree satisfies [p] *)
Definition key_nodes_ok (p : kserd -> bool) (k : kserd) : Prop :=
  forall x, In x (preorder k) -> Forall (fun key => p key = true) (keys_of x).
(** strings leave one of the twenty delimiters free *)
Definition str_ok (k : kserd) : bool :=
  match kval k with
  | VStr t => existsb (fun d => negb (mem d t)) (s """'#`=|*^!%~&_\/:<>()")
  | _ => true
  end.
Definition layout_name (r : repr) : str := match r with Inline => s "inline" | Concise => s "concise" | Verbose => s "verbose" end.
(** what an error says *)
Definition seq_or_map (k : kserd) : bool := match kval k with VSeq _ | VMap _ => true | _ => false end.
Definition error_means (k : kserd) (fm : formatter) (i : nat) (r : repr) (e : fmt_error) : Prop :=
  let nv := fm_nav fm in
  match e with
  | IdxOutOfBounds => nav_len nv <= i
  | SeqMapAtRoot => i = 0 /\ r = Verbose /\ seq_or_map k = true
  | RequestTooHigh max req => exists n, nav_get nv i = Some n /\ max = kind_max (n_kserd n) /\ req = r /\ repr_n max < repr_n r
  | ParentIsInline => exists n p, nav_get nv i = Some n /\ node_parent nv n = Some p /\ line_of fm (n_idx p) = Some Inline /\ r <> Inline
  | ParentIsConcise => exists n p, nav_get nv i = Some n /\ node_parent nv n = Some p /\ line_of fm (n_idx p) = Some Concise /\ r = Verbose
  end.

(** the representation [r] may be requested of [n]: its kind can have it, its
    parent is shown in no smaller one, and it is not a verbose list at the root *)
Definition allowed (fm : formatter) (n : node) (r : repr) : Prop :=
  repr_le r (kind_max (n_kserd n)) /\
  (forall p rp, node_parent (fm_nav fm) n = Some p -> line_of fm (n_idx p) = Some rp -> repr_le r rp) /\
  (n_idx n = 0 -> r = Verbose -> seq_or_map (n_kserd n) = false).
(** after a request: node [i] has [r], the nodes below it (the next [size - 1] in
    depth first order) at most [r], the others what they had *)
Definition lowered (fm fm' : formatter) (i size : nat) (r : repr) : Prop :=
  forall j, line_of fm' j =
    if j =? i then Some r
    else if (i <? j) && (j <? i + size) then option_map (fun x => repr_min x r) (line_of fm j)
    else line_of fm j.

(** ** widths *)
(** characters estimated for a character of a string beyond the one printed: it is
    measured as Rust would escape it (backslash and a letter; nothing; a backslash,
    u, two braces and the hexadecimal digits) *)
Definition escape_extra (c : char) : nat :=
  if mem c [9; 10; 13; 34; 39; 92]%N then 1
  else if ((32 <=? c) && (c <=? 126))%N then 0
  else if (c <? 0x10)%N then 4 else if (c <? 0x100)%N then 5 else if (c <? 0x1000)%N then 6
  else if (c <? 0x10000)%N then 7 else if (c <? 0x100000)%N then 8 else 9.
(** nodes whose printed width the estimate determines: ids are not empty, strings
    are of Unicode characters and can be written, no tuple with an id which is not
    shown *)
Definition plain_node (cfg : config) (k : kserd) : bool :=
  match kid k with Some [] => false | _ => true end &&
  match kval k with
  | VStr t => str_ok k && forallb (fun c => c <? 0x110000)%N t
  | VTuple _ => match kid k with Some _ => id_on_tuples cfg | None => true end
  | _ => true
  end.
(** characters estimated but not printed: the "<> " of a primitive without an
    id, escapes, byte arrays as lists of two digits a byte, the space after the id
    of a tuple *)
Definition overestimate (cfg : config) (k : kserd) : nat :=
  match kval k, kid k with
  | (VBool _ | VNum _ | VStr _ | VBarr _), None => if id_on_primitives cfg then 3 else 0
  | VTuple _, Some _ => if id_on_tuples cfg then 1 else 0
  | _, _ => 0
  end +
  match kval k with
  | VStr t => list_sum (map escape_extra t)
  | VBarr b => 3 + 2 * length b + 2 * (length b - 1)
  | _ => 0
  end.
(** characters printed but not estimated: the inner spaces of a non-empty map,
    the parentheses of a unit with an id, the prefix of a string with quotes, byte
    arrays as [b91'...'] *)
Definition underestimate (k : kserd) : nat :=
  match kval k, kid k with
  | VMap (_ :: _), _ => 2
  | VUnit, Some _ => 2
  | VStr t, _ => if mem 34%N t then 3 else 0
  | VBarr b, _ => 5 + length (b91_encode b)
  | _, _ => 0
  end.
(** the sum over all nodes *)
Definition total (g : kserd -> nat) (k : kserd) : nat := list_sum (map g (preorder k)).

(** the id flag of a configuration for a kind of value *)
Definition flag (cfg : config) {K} (v : value K) : bool :=
  match v with
  | VTuple _ => id_on_tuples cfg
  | VCntr _ => id_on_containers cfg
  | VSeq _ => id_on_seqs cfg
  | VMap _ => id_on_maps cfg
  | _ => id_on_primitives cfg
  end.
(** the configuration without the limit *)
Definition no_limit (cfg : config) : config :=
  mkConfig (id_on_primitives cfg) (id_on_tuples cfg) (id_on_containers cfg) (id_on_seqs cfg) (id_on_maps cfg) None.

(** ** when formatting returns, what it writes *)
Definition strings_ok (k : kserd) : Prop := Forall (fun x => str_ok x = true) (preorder k).
(** no map key is a non-empty container, sequence or map; or the root is not a
    container; or there is no width limit *)
Definition solvable (k : kserd) (cfg : config) : Prop :=
  key_nodes_ok (fun key => negb (repr_eqb (kind_max key) Verbose)) k \/ is_cntr k = false \/ width_limit cfg = None.
(** the root is a tuple with an id which is not shown *)
Definition hidden_tuple (k : kserd) (fm : formatter) : bool :=
  match kid k, kval k with
  | Some _, VTuple _ => match nth_error (fm_fmts fm) 0 with Some f => negb (f_id f) | None => false end
  | _, _ => false
  end.
(** the id, string and field names of a node *)
Definition texts_of (k : kserd) : list str :=
  match kid k with Some i => [i] | None => [] end ++
  match kval k with VStr t => [t] | VCntr m => map fst m | _ => [] end.
