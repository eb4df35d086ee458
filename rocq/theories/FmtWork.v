(** /repo/src/fmt/formatter.rs and solver.rs once more, with a count of the nodes which are
    looked at.  What a definition does is that of the definition of the same name without
    [c_] in Formatter.v; FmtWorkProps.v shows that the results are the same.  One is counted
    for each step of an iterator over nodes, for each step to a parent, and for each node which
    is got by its index for a loop; [nth(i)] of an iterator takes [i + 1] steps.  The characters
    of names and of primitives are not counted, and the Navigator is given (navigator.rs
    11-168 passes over the value once). *)
From Verif Require Import Base F64 Number BTree Value Base91 Nav Fmt Formatter.
Open Scope nat_scope.

(** a result and the nodes which were looked at; not in /repo *)
Definition cl (A : Type) : Type := (lres A * nat)%type.
(** a step which looks at no node; not in /repo *)
Definition free {A} (r : lres A) : cl A := (r, 0).
(** a step which looks at [n] nodes more; not in /repo *)
Definition look {A} (n : nat) (r : cl A) : cl A := (fst r, n + snd r).
(** sequencing; not in /repo *)
Definition cbind {A B} (r : cl A) (f : A -> cl B) : cl B :=
  match fst r with
  | LRet a => let x := f a in (fst x, snd r + snd x)
  | LPanic => (LPanic, snd r)
  | LFuel => (LFuel, snd r)
  end.
Notation "'dc' x <- e ; f" := (cbind e (fun x => f)) (at level 60, x pattern, e at level 55, f at level 60, right associativity).
(** [for x in l { acc = f(acc, x) }]; not in /repo *)
Section Fold.
  Context {A B : Type} (f : B -> A -> cl B).
  (** one step of the iterator for each [x], and what the body looks at; not in /repo *)
  Fixpoint cfold (l : list A) (acc : B) : cl B :=
    match l with [] => free (LRet acc) | x :: l => look 1 (dc acc <- f acc x ; cfold l acc) end.
End Fold.

(** nav/node.rs 214-248 *)
Fixpoint c_depth_loop (fuel : nat) (nv : nav) (todo : list nat) (nodes : list node) : cl (list node) :=
  match todo with
  | [] => free (LRet nodes)
  | i :: todo =>
      match fuel with
      | O => free LFuel
      | S fuel =>
          look 1 (match nav_get nv i with
                  | None => free LPanic
                  | Some n => c_depth_loop fuel nv (push_each todo (depth_pushes n)) (nodes ++ [n])
                  end)
      end
  end.
(** nav/node.rs 214-248 *)
Definition c_descendants_depth (nv : nav) (n : node) : cl (list node) :=
  c_depth_loop (length nv) nv (push_each [] (depth_pushes n)) [].
(** nav/node.rs 285-289 *)
Fixpoint c_breadth_loop (fuel : nat) (nv : nav) (todo : list nat) (nodes : list node) : cl (list node) :=
  match todo with
  | [] => free (LRet nodes)
  | i :: todo =>
      match fuel with
      | O => free LFuel
      | S fuel =>
          look 1 (match nav_get nv i with
                  | None => free LPanic
                  | Some n => c_breadth_loop fuel nv (todo ++ breadth_children n) (nodes ++ [n])
                  end)
      end
  end.
(** nav/node.rs 273-292 *)
Definition c_descendants_breadth (nv : nav) (n : node) : cl (list node) :=
  c_breadth_loop (length nv) nv (breadth_children n) [].

(** fmt/formatter.rs 312-348: the node, its parent, and each descendant twice: when it is
    listed and when it is lowered *)
Definition c_request_repr (nv : nav) (fmts : list fmt) (idx : nat) (requested : repr) : cl (list fmt * option fmt_error) :=
  look 2 (match nav_get nv idx with
  | None => free (LRet (fmts, Some IdxOutOfBounds))
  | Some n =>
      dc prev <- free (lunwrap (nth_error fmts idx)) ;
      if repr_eqb requested (f_line prev) then free (LRet (fmts, None))
      else if (idx =? 0) && repr_eqb requested Verbose &&
              match node_val nv n with NSeq _ | NMap _ => true | _ => false end
      then free (LRet (fmts, Some SeqMapAtRoot))
      else
        let '(max, parent) := line_repr_constraints nv fmts n in
        dc v <- free (validate_request_repr max parent requested) ;
        match v with
        | inr e => free (LRet (fmts, Some e))
        | inl r =>
            let fmts := update fmts idx (set_line r) in
            dc ds <- c_descendants_depth nv n ;
            dc fmts <- cfold (fun fmts d => free (
                         dl cur <- lunwrap (nth_error fmts (n_idx d)) ;
                         LRet (if repr_lt r (f_line cur) then update fmts (n_idx d) (set_line r) else fmts))) ds fmts ;
            free (LRet (fmts, None))
        end
  end).
(** fmt/formatter.rs 131-140: the node and its parent *)
Definition c_knock_on (nv : nav) (fmts : list fmt) (i : nat) : cl (list fmt) :=
  look 1 (match opt_bind (nav_get nv i) (node_parent nv) with
  | None => free (LRet fmts)
  | Some p =>
      dc node_line <- free (lunwrap (nth_error fmts i)) ;
      dc parent_line <- free (lunwrap (nth_error fmts (n_idx p))) ;
      if repr_lt (f_line parent_line) (f_line node_line)
      then dc r <- c_request_repr nv fmts i (f_line parent_line) ; free (LRet (fst r))
      else free (LRet fmts)
  end).
(** fmt/formatter.rs 98-143: the first formats look at each node *)
Definition c_fm_new (root : kserd) : cl formatter :=
  dc nv <- free (nav_new root) ;
  look (length nv) (
  let fmts := map (initial_fmt nv) (nav_nodes nv) in
  dc r <- free (lunwrap (nav_root nv)) ;
  dc fmts <- match node_val nv r with
             | NSeq _ | NMap _ => dc x <- c_request_repr nv fmts 0 Concise ; free (LRet (fst x))
             | _ => free (LRet fmts)
             end ;
  dc fmts <- cfold (c_knock_on nv) (map n_idx (nav_nodes nv)) fmts ;
  free (LRet (mkFmtr nv fmts))).

(** fmt/solver.rs 27-49, 161-169 *)
Definition c_child_width (recurse : node -> widths_t -> cl (nat * widths_t)) (child : node) (ws : widths_t) : cl (nat * widths_t) :=
  dc o <- free (lunwrap (nth_error ws (n_idx child))) ;
  match o with
  | Some w => free (LRet (w, ws))
  | None => dc r <- recurse child ws ; free (LRet (fst r, set_width (fst r) (snd r) (n_idx child)))
  end.
(** fmt/solver.rs 20-52 *)
Fixpoint c_inline_widths_recurse (fuel : nat) (nv : nav) (cfg : config) (n : node) (ws : widths_t) : cl (nat * widths_t) :=
  match fuel with
  | O => free LFuel
  | S fuel =>
      let add := fun acc child =>
        dc r <- c_child_width (c_inline_widths_recurse fuel nv cfg) child (snd acc) ;
        free (LRet (fst acc + fst r, snd r)) in
      dc acc <- cfold add (value_children nv n) (inline_width (n_kserd n) cfg, ws) ;
      cfold add (key_children nv n) acc
  end.
(** fmt/solver.rs 6-11 and 133-138: the loop, and the pass which takes the widths out *)
Definition c_all_widths (recurse : node -> widths_t -> cl (nat * widths_t)) (nv : nav) : cl (list nat) :=
  dc ws <- cfold (fun ws n =>
             dc o <- free (lunwrap (nth_error ws (n_idx n))) ;
             match o with
             | Some _ => free (LRet ws)
             | None => dc r <- recurse n ws ; free (LRet (set_width (fst r) (snd r) (n_idx n)))
             end) (nav_nodes nv) (repeat None (nav_len nv)) ;
  cfold (fun acc o => free (dl w <- lunwrap o ; LRet (acc ++ [w]))) ws [].
(** fmt/solver.rs 3-17 *)
Definition c_inline_widths (nv : nav) (cfg : config) : cl (list nat) :=
  c_all_widths (c_inline_widths_recurse (nav_len nv) nv cfg) nv.
(** fmt/solver.rs 147-230: an entry of a map is a key and a value *)
Fixpoint c_concise_widths_recurse (fuel : nat) (nv : nav) (cfg : config) (inw : list nat) (n : node) (ws : widths_t) : cl (nat * widths_t) :=
  match fuel with
  | O => free LFuel
  | S fuel =>
      let widen := fun (extra : nat) acc child =>
        dc r <- c_child_width (c_concise_widths_recurse fuel nv cfg inw) child (snd acc) ;
        free (LRet (max (fst acc) (extra + fst r), snd r)) in
      let start := (concise_width (n_kserd n) cfg, ws) in
      match node_val nv n with
      | NPrimitive => free (LRet start)
      | NTuple l | NSeq l => cfold (widen INDENT) l start
      | NCntr m => cfold (fun acc e => widen (INDENT + length (fst e) + length FIELDS_ASSIGNER + 1) acc (snd e)) m start
      | NMap m =>
          cfold (fun acc e => look 1 (
            dc r <- c_child_width (c_concise_widths_recurse fuel nv cfg inw) (snd e) (snd acc) ;
            dc kw <- free (lunwrap (nth_error inw (n_idx (fst e)))) ;
            free (LRet (max (fst acc) (INDENT + kw + length KEYS_ASSIGNER + 1 + fst r), snd r)))) m start
      end
  end.
(** fmt/solver.rs 126-144 *)
Definition c_concise_widths (nv : nav) (cfg : config) (inw : list nat) : cl (list nat) :=
  c_all_widths (c_concise_widths_recurse (nav_len nv) nv cfg inw) nv.

(** fmt/solver.rs 363-377, 398-401 and 403-425: the steps of [nth] *)
Definition c_concise_column (pvalue : node_value) (child : node) (fmts : list fmt) (inw : list nat) : cl nat :=
  match pvalue with
  | NCntr _ => look (S (idx_in_parent child)) (free (concise_column pvalue child fmts inw))
  | NMap _ => look (if is_key child then 0 else S (idx_in_parent child)) (free (concise_column pvalue child fmts inw))
  | _ => free (concise_column pvalue child fmts inw)
  end.
(** fmt/solver.rs 340-351: one step to each parent *)
Fixpoint c_offset_loop (fuel : nat) (nv : nav) (fmts : list fmt) (inw : list nat) (child : node) (off : nat) : cl (nat * node) :=
  match node_parent nv child with
  | None => free (LRet (off, child))
  | Some parent =>
      match fuel with
      | O => free LFuel
      | S fuel =>
          look 1 (
          dc pf <- free (lunwrap (nth_error fmts (n_idx parent))) ;
          dc add <- match f_line pf with
                    | Inline => free (LRet 0)
                    | Concise => c_concise_column (node_val nv parent) child fmts inw
                    | Verbose => free (verbose_column (node_val nv parent) child (node_val nv child))
                    end ;
          c_offset_loop fuel nv fmts inw parent (off + add))
      end
  end.
(** fmt/solver.rs 328-361 *)
Definition c_calculate_offset (nv : nav) (n : node) (fmts : list fmt) (inw : list nat) : cl nat :=
  match node_parent nv n with
  | None => free (LRet 0)
  | Some parent =>
      look 1 (
      dc pf <- free (lunwrap (nth_error fmts (n_idx parent))) ;
      dc off <- match f_line pf with
                | Inline => free (LRet 0)
                | _ => c_concise_column (node_val nv parent) n fmts inw
                end ;
      dc r <- c_offset_loop (nav_len nv) nv fmts inw parent off ;
      dc cf <- free (lunwrap (nth_error fmts (n_idx (snd r)))) ;
      free (LRet (if repr_eqb (f_line cf) Verbose then fst r - INDENT else fst r)))
  end.
(** fmt/solver.rs 271-284 *)
Definition c_apply_ids (nv : nav) (cfg : config) (fmts : list fmt) : cl (list fmt) :=
  cfold (fun fmts i => free (
    dl n <- lunwrap (nav_get nv i) ;
    LRet (update fmts i (fun f => mkFmt (id_flag cfg (node_val nv n)) (f_line f))))) (seq 0 (nav_len nv)) fmts.
(** fmt/solver.rs 309-325: the node is got twice, and its parent *)
Definition c_apply_node (nv : nav) (cfg : config) (inw con : list nat) (fmts : list fmt) (c : nat) : cl (list fmt) :=
  look 3 (
  dc child <- free (lunwrap (nav_get nv c)) ;
  dc off <- c_calculate_offset nv child fmts inw ;
  let lim := option_map (fun x => x - off) (width_limit cfg) in
  dc r <- free (min_line_repr c lim inw con) ;
  dc parent <- free (lunwrap (node_parent nv child)) ;
  let r := match r, node_val nv child, node_val nv parent with
           | Concise, NCntr _, NSeq _ => Verbose
           | _, _, _ => r
           end in
  dc x <- c_request_repr nv fmts c r ;
  free (LRet (fst x))).
(** fmt/solver.rs 271-326, called at formatter.rs 151-154; the indices of the descendants are
    collected (300-304) and passed over *)
Definition c_apply_config (fm : formatter) (cfg : config) : cl formatter :=
  let nv := fm_nav fm in
  dc fmts <- c_apply_ids nv cfg (fm_fmts fm) ;
  dc root <- free (lunwrap (nav_root nv)) ;
  dc inw <- c_inline_widths nv cfg ;
  dc con <- c_concise_widths nv cfg inw ;
  dc r <- free (min_line_repr 0 (width_limit cfg) inw con) ;
  dc ds <- c_descendants_breadth nv root ;
  dc x <- c_request_repr nv fmts 0 r ;
  look (length ds) (
  dc fmts <- cfold (c_apply_node nv cfg inw con) (map n_idx ds) (fst x) ;
  free (LRet (mkFmtr nv fmts))).
(** Formatter::new and then apply_config: fmt/mod.rs 430-447 before the writing *)
Definition c_layout (k : kserd) (cfg : config) : cl formatter :=
  dc fm <- c_fm_new k ; c_apply_config fm cfg.
