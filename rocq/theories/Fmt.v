(** The writers: /repo/src/fmt/{mod,prims,tuples,seqs,maps,cntr}.rs.
    A String buffer which is passed on and returned is the text in it. *)
From Verif Require Import Base F64 Number BTree Value Base91 Nav.
Open Scope nat_scope.

(** fmt/mod.rs 157-161 *)
Definition FIELDS_ASSIGNER : str := s " =".
(** fmt/mod.rs 158 *)
Definition FIELDS_SEPARATOR : str := s ", ".
(** fmt/mod.rs 159 *)
Definition KEYS_ASSIGNER : str := s ":".
(** fmt/mod.rs 161 *)
Definition INDENT : nat := 4.

(** fmt/mod.rs 367-375 (derived order: as listed) and 379-384 *)
Inductive repr : Type := Inline | Concise | Verbose.
(** the derived order of Repr, fmt/mod.rs 366-375 *)
Definition repr_n (r : repr) : nat := match r with Inline => 0 | Concise => 1 | Verbose => 2 end.
(** [<] of Repr (derived, fmt/mod.rs 366) *)
Definition repr_lt (a b : repr) : bool := repr_n a <? repr_n b.
(** [==] of Repr (derived, fmt/mod.rs 366) *)
Definition repr_eqb (a b : repr) : bool := repr_n a =? repr_n b.
(** [std::cmp::min] at Repr (Rust standard library) *)
Definition repr_min (a b : repr) : repr := if repr_lt b a then b else a.
(** fmt/mod.rs 379-384 *)
Record fmt : Type := mkFmt { f_id : bool; f_line : repr }.
(** fmt/mod.rs 209-349 and 351-363; width_limit is a u16 *)
Record config : Type := mkConfig {
  id_on_primitives : bool; id_on_tuples : bool; id_on_containers : bool; id_on_seqs : bool; id_on_maps : bool;
  width_limit : option nat
}.
(** fmt/mod.rs 351-363 *)
Definition config_default : config := mkConfig false true true false false (Some 60).

(** sequencing of code which may panic; not in /repo *)
Definition lbind {A B} (r : lres A) (f : A -> lres B) : lres B :=
  match r with LRet a => f a | LPanic => LPanic | LFuel => LFuel end.
Notation "'dl' x <- e ; f" := (lbind e (fun x => f)) (at level 60, x pattern, e at level 55, f at level 60, right associativity).
(** [for x in l { acc = f(acc, x) }] *)
Section Fold.
  Context {A B : Type} (f : B -> A -> lres B).
  (** [for x in l { acc = f(acc, x) }]; not in /repo *)
  Fixpoint lfold (l : list A) (acc : B) : lres B :=
    match l with [] => LRet acc | x :: l => dl acc <- f acc x ; lfold l acc end.
End Fold.
(** [.unwrap()] *)
Definition lunwrap {A} (o : option A) : lres A := match o with Some a => LRet a | None => LPanic end.

(** fmt/mod.rs 450-452 *)
Definition write_indent (buf : str) (columns : nat) : str := buf ++ repeat 32%N columns.
(** fmt/mod.rs 456-464 *)
Definition maybe_write_prim_ident (buf : str) (print : bool) (ident : option str) : str :=
  match print, ident with true, Some id => buf ++ s "<" ++ id ++ s "> " | _, _ => buf end.
(** fmt/mod.rs 468-475 *)
Definition maybe_write_nonprim_ident (buf : str) (print : bool) (ident : option str) : str :=
  match print, ident with true, Some id => buf ++ id ++ s " " | _, _ => buf end.

(** ** fmt/prims.rs *)
(** fmt/prims.rs 19-29 *)
Definition fmt_unit (buf : str) (ident : option str) : str :=
  match ident with
  | Some [] => buf ++ s "()"
  | Some id => buf ++ id ++ s "()"
  | None => buf ++ s "()"
  end.
(** the order in which 33-75 try the delimiters *)
Definition delimiters : str := s """'#`=|*^!%~&_\/:<>()".
(** fmt/prims.rs 31-78 with Used (93-152): the first delimiter which is not in the text;
    the double quote is written without the prefix *)
Definition fmt_str (buf : str) (val : str) (print : bool) (ident : option str) : lres str :=
  let buf := maybe_write_prim_ident buf print ident in
  match find (fun d => negb (mem d val)) delimiters with
  | None => LPanic
  | Some d => LRet (buf ++ (if (d =? 34)%N then [] else s "str") ++ [d] ++ val ++ [d])
  end.
(** fmt/prims.rs 80-83 *)
Definition fmt_display (buf : str) (val : str) (print : bool) (ident : option str) : str :=
  maybe_write_prim_ident buf print ident ++ val.
(** fmt/prims.rs 85-91 *)
Definition fmt_byte_array (buf : str) (val : list N) (print : bool) (ident : option str) : str :=
  maybe_write_prim_ident buf print ident ++ s "b91'" ++ b91_encode val ++ s "'".
(** fmt/prims.rs 4-17 *)
Definition prims_write {K} (buf : str) (id : option str) (v : value K) (print : bool) : lres str :=
  match v with
  | VUnit => LRet (fmt_unit buf id)
  | VBool b => LRet (fmt_display buf (if b then s "true" else s "false") print id)
  | VNum n => LRet (fmt_display buf (num_display n) print id)
  | VStr t => fmt_str buf t print id
  | VBarr b => LRet (fmt_byte_array buf b print id)
  | _ => LPanic
  end.

(** [FIELDS_SEPARATOR.chars().for_each(|_| buf.pop())] *)
Definition pop_separator (rm_trailing : bool) (buf : str) : str := if rm_trailing then pop (pop buf) else buf.
(** [!l.is_empty()] (Rust standard library) *)
Definition nonempty {A} (l : list A) : bool := match l with [] => false | _ => true end.

Section Write.
  Variable nv : nav.
  Variable fmts : list fmt.
  (** [rec true] is write_node, [rec false] is cntr::write with
      inline_field_id = false *)
  Variable rec : bool -> str -> node -> nat -> lres str.

  (** [fmts.get(node.index()).unwrap()] *)
  Definition get_fmt (n : node) : lres fmt := lunwrap (nth_error fmts (n_idx n)).

  (** fmt/tuples.rs 8-19 *)
  Definition tuple_prefix (buf : str) (f : fmt) (id : option str) : str :=
    let buf := maybe_write_nonprim_ident buf (f_id f) id in
    let buf := match id with Some _ => pop buf | None => buf end in
    buf ++ s "(".
  (** the loops tuples.rs 25-34, seqs.rs 30-38 and tuples.rs 38-49, seqs.rs 45-57 *)
  Definition inline_items (col : nat) (items : list node) (buf : str) : lres str :=
    dl buf <- lfold (fun buf n => dl buf <- rec true buf n col ; LRet (buf ++ FIELDS_SEPARATOR)) items buf ;
    LRet (pop_separator (nonempty items) buf).
  (** fmt/tuples.rs 38-49, fmt/seqs.rs 45-57 *)
  Definition concise_items (col : nat) (items : list node) (buf : str) : lres str :=
    let buf := buf ++ [10%N] in
    let c := col + INDENT in
    dl buf <- lfold (fun buf n => dl buf <- rec true (write_indent buf c) n c ; LRet (buf ++ [10%N])) items buf ;
    LRet (write_indent buf col).
  (** fmt/tuples.rs 3-55 *)
  Definition tuples_write (buf : str) (n : node) (col : nat) (items : list node) : lres str :=
    dl f <- get_fmt n ;
    let id := kid (n_kserd n) in
    match f_line f with
    | Inline => dl buf <- inline_items col items (tuple_prefix buf f id) ; LRet (buf ++ s ")")
    | Concise => dl buf <- concise_items col items (tuple_prefix buf f id) ; LRet (buf ++ s ")")
    | Verbose => LPanic
    end.

  (** fmt/seqs.rs 3-85 *)
  Definition seqs_write (buf : str) (n : node) (col : nat) (items : list node) (field_name : option str) : lres str :=
    dl f <- get_fmt n ;
    let prefix := maybe_write_nonprim_ident buf (f_id f) (kid (n_kserd n)) ++ s "[" in
    match f_line f, field_name with
    | Inline, _ => dl buf <- inline_items col items prefix ; LRet (buf ++ s "]")
    | Concise, _ | Verbose, None => dl buf <- concise_items col items prefix ; LRet (buf ++ s "]")
    | Verbose, Some name =>
        lfold (fun buf n =>
          let buf := write_indent buf col ++ s "[[" ++ name ++ s "]]" ++ [10%N] in
          dl nf <- get_fmt n ;
          dl buf <-
            match f_line nf with
            | Verbose => rec true buf n (col + INDENT)
            | _ => dl buf <- rec true (write_indent buf col) n col ; LRet (buf ++ [10%N])
            end ;
          LRet (buf ++ [10%N])) items buf
    end.

  (** fmt/maps.rs 25-43; [buf[buf_lo..]] counts characters *)
  Definition key_and_value_concise (buf : str) (k v : node) (col : nat) : lres str :=
    let buf_lo := byte_len buf in
    dl kf <- get_fmt k ;
    dl buf <- rec true buf k col ;
    let buf := buf ++ KEYS_ASSIGNER ++ s " " in
    dl name_indent <- (if repr_eqb (f_line kf) Inline
                       then dl t <- lunwrap (byte_drop buf_lo buf) ; LRet (length t)
                       else LRet (2 + length KEYS_ASSIGNER)) ;
    dl buf <- rec true buf v (col + name_indent) ;
    LRet (buf ++ [10%N]).
  (** fmt/maps.rs 3-121 *)
  Definition maps_write (buf : str) (n : node) (col : nat) (m : list (node * node)) (field_name : option str) : lres str :=
    dl f <- get_fmt n ;
    let prefix := maybe_write_nonprim_ident buf (f_id f) (kid (n_kserd n)) ++ s "{" in
    match f_line f, field_name with
    | Inline, _ =>
        let rm_trailing := nonempty m in
        let buf := if rm_trailing then prefix ++ s " " else prefix in
        dl buf <- lfold (fun buf e =>
                    dl buf <- rec true buf (fst e) col ;
                    dl buf <- rec true (buf ++ KEYS_ASSIGNER ++ s " ") (snd e) col ;
                    LRet (buf ++ FIELDS_SEPARATOR)) m buf ;
        let buf := pop_separator rm_trailing buf in
        LRet ((if rm_trailing then buf ++ s " " else buf) ++ s "}")
    | Concise, _ | Verbose, None =>
        let c := col + INDENT in
        dl buf <- lfold (fun buf e => key_and_value_concise (write_indent buf c) (fst e) (snd e) c) m (prefix ++ [10%N]) ;
        LRet (write_indent buf col ++ s "}")
    | Verbose, Some name =>
        let val_indent := col + INDENT in
        lfold (fun buf e =>
          let '(k, v) := e in
          let buf := buf ++ s "[[" ++ name ++ s "]]" ++ [10%N] in
          dl vf <- get_fmt v ;
          match f_line vf with
          | Verbose =>
              dl buf <- rec true buf k col ;
              dl buf <- rec true (buf ++ KEYS_ASSIGNER ++ [10%N]) v val_indent ;
              LRet (buf ++ [10%N])
          | _ => key_and_value_concise buf k v col
          end) m buf
    end.

  (** fmt/cntr.rs 25-38; the slice taken is exactly the text just written *)
  Definition field_mapping (buf : str) (name : str) (v : node) (col : nat) : lres str :=
    let t := name ++ FIELDS_ASSIGNER ++ s " " in
    dl buf <- rec true (buf ++ t) v (col + length t) ;
    LRet (buf ++ [10%N]).
  (** fmt/cntr.rs 3-130 *)
  Definition cntr_write (buf : str) (n : node) (col : nat) (inline_field_id : bool) (m : list (str * node)) : lres str :=
    dl f <- get_fmt n ;
    let id := kid (n_kserd n) in
    let prefix := maybe_write_nonprim_ident buf (f_id f) id ++ s "(" in
    match f_line f with
    | Inline =>
        dl buf <- lfold (fun buf e =>
                    dl buf <- rec true (buf ++ fst e ++ FIELDS_ASSIGNER ++ s " ") (snd e) col ;
                    LRet (buf ++ FIELDS_SEPARATOR)) m prefix ;
        LRet (pop_separator (nonempty m) buf ++ s ")")
    | Concise =>
        let c := col + INDENT in
        dl buf <- lfold (fun buf e => field_mapping (write_indent buf c) (fst e) (snd e) c) m (prefix ++ [10%N]) ;
        LRet (write_indent buf col ++ s ")")
    | Verbose =>
        let buf :=
          match f_id f && inline_field_id, id with
          | true, Some id => write_indent buf col ++ s ":" ++ id ++ [10%N]
          | _, _ => buf
          end in
        lfold (fun buf e =>
          let '(name, v) := e in
          dl vf <- get_fmt v ;
          match f_line vf, node_val nv v with
          | Verbose, NCntr _ =>
              let buf := write_indent (buf ++ [10%N]) col ++ s "[" ++ name in
              let buf := match f_id vf, kid (n_kserd v) with true, Some id => buf ++ s ":" ++ id | _, _ => buf end in
              rec false (buf ++ s "]" ++ [10%N]) v (col + INDENT)
          | Verbose, NSeq items =>
              dl buf <- seqs_write (buf ++ [10%N]) v col items (Some name) ;
              LRet (pop buf)
          | Verbose, NMap m => maps_write (buf ++ [10%N]) v col m (Some name)
          | _, _ => field_mapping (write_indent buf col) name v col
          end) m buf
    end.

  (** fmt/mod.rs 486-494; delim_writer 477-484 is written out where it is called *)
  Definition write_body (inline_field_id : bool) (buf : str) (n : node) (col : nat) : lres str :=
    match node_val nv n with
    | NPrimitive => dl f <- get_fmt n ; prims_write buf (kid (n_kserd n)) (kval (n_kserd n)) (f_id f)
    | NTuple items => tuples_write buf n col items
    | NCntr m => cntr_write buf n col inline_field_id m
    | NSeq items => seqs_write buf n col items None
    | NMap m => maps_write buf n col m None
    end.
End Write.

(** [fuel] bounds the nesting depth *)
Fixpoint write_node (fuel : nat) (nv : nav) (fmts : list fmt) (inline_field_id : bool) (buf : str) (n : node) (col : nat) : lres str :=
  match fuel with
  | O => LFuel
  | S fuel => write_body nv fmts (write_node fuel nv fmts) inline_field_id buf n col
  end.
