(** /repo/src/fmt/formatter.rs and solver.rs. *)
From Verif Require Import Base F64 Number BTree Value Base91 Nav Fmt.
Open Scope nat_scope.

(** fmt/formatter.rs 404-464 *)
Inductive fmt_error : Type :=
| IdxOutOfBounds
| ParentIsInline
| ParentIsConcise
| RequestTooHigh (max request : repr)   (* 466-477: their names as text *)
| SeqMapAtRoot.

(** fmt/formatter.rs 91-94; the fields are read by fmts 159-161, as_ref 352-354, deref 359-361 *)
Record formatter : Type := mkFmtr { fm_nav : nav; fm_fmts : list fmt }.

(** fmt/formatter.rs 365-377 *)
Definition max_line_repr (v : node_value) : repr :=
  match v with
  | NPrimitive => Inline
  | NTuple [] => Inline
  | NSeq [] => Inline
  | NMap [] => Inline
  | NCntr [] => Inline
  | NTuple _ => Concise
  | _ => Verbose
  end.
(** fmt/formatter.rs 381-401 *)
Definition validate_request_repr (max_allowed : repr) (parent : option repr) (requested : repr) : lres (repr + fmt_error) :=
  let parent := match parent with Some p => p | None => Verbose end in
  if repr_lt max_allowed requested then LRet (inr (RequestTooHigh max_allowed requested))
  else if repr_lt parent requested then
    match parent with
    | Inline => LRet (inr ParentIsInline)
    | Concise => LRet (inr ParentIsConcise)
    | Verbose => LPanic
    end
  else LRet (inl requested).
(** [fmts.get_mut(i).map(..)] *)
Fixpoint update {A} (l : list A) (i : nat) (f : A -> A) : list A :=
  match l, i with
  | [], _ => []
  | x :: l, O => f x :: l
  | x :: l, S i => x :: update l i f
  end.
(** fmt/formatter.rs 312-348: [fmt.line = r] *)
Definition set_line (r : repr) (f : fmt) : fmt := mkFmt (f_id f) r.
(** fmt/formatter.rs 302-310 *)
Definition line_repr_constraints (nv : nav) (fmts : list fmt) (n : node) : repr * option repr :=
  (max_line_repr (node_val nv n),
   option_map f_line (opt_bind (node_parent nv n) (fun p => nth_error fmts (n_idx p)))).
(** fmt/formatter.rs 312-348: the new formats and Ok (None) or the error *)
Definition request_repr (nv : nav) (fmts : list fmt) (idx : nat) (requested : repr) : lres (list fmt * option fmt_error) :=
  match nav_get nv idx with
  | None => LRet (fmts, Some IdxOutOfBounds)
  | Some n =>
      dl prev <- lunwrap (nth_error fmts idx) ;
      if repr_eqb requested (f_line prev) then LRet (fmts, None)
      else if (idx =? 0) && repr_eqb requested Verbose &&
              match node_val nv n with NSeq _ | NMap _ => true | _ => false end
      then LRet (fmts, Some SeqMapAtRoot)
      else
        let '(max, parent) := line_repr_constraints nv fmts n in
        dl v <- validate_request_repr max parent requested ;
        match v with
        | inr e => LRet (fmts, Some e)
        | inl r =>
            let fmts := update fmts idx (set_line r) in
            dl ds <- descendants_depth nv n ;
            dl fmts <- lfold (fun fmts d =>
                         dl cur <- lunwrap (nth_error fmts (n_idx d)) ;
                         LRet (if repr_lt r (f_line cur) then update fmts (n_idx d) (set_line r) else fmts)) ds fmts ;
            LRet (fmts, None)
        end
  end.
(** fmt/formatter.rs 105-116 *)
Definition initial_fmt (nv : nav) (n : node) : fmt :=
  let line := max_line_repr (node_val nv n) in
  mkFmt true (if is_key n then repr_min line Concise else line).
(** fmt/formatter.rs 131-140; [request_repr_alteration(..).ok()] drops the outcome *)
Definition knock_on (nv : nav) (fmts : list fmt) (i : nat) : lres (list fmt) :=
  match opt_bind (nav_get nv i) (node_parent nv) with
  | None => LRet fmts
  | Some p =>
      dl node_line <- lunwrap (nth_error fmts i) ;
      dl parent_line <- lunwrap (nth_error fmts (n_idx p)) ;
      if repr_lt (f_line parent_line) (f_line node_line)
      then dl r <- request_repr nv fmts i (f_line parent_line) ; LRet (fst r)
      else LRet fmts
  end.
(** fmt/formatter.rs 98-143 *)
Definition fm_new (root : kserd) : lres formatter :=
  dl nv <- nav_new root ;
  let fmts := map (initial_fmt nv) (nav_nodes nv) in
  dl r <- lunwrap (nav_root nv) ;
  dl fmts <- match node_val nv r with
             | NSeq _ | NMap _ => dl x <- request_repr nv fmts 0 Concise ; LRet (fst x)
             | _ => LRet fmts
             end ;
  dl fmts <- lfold (knock_on nv) (map n_idx (nav_nodes nv)) fmts ;
  LRet (mkFmtr nv fmts).

(** fmt/formatter.rs 180-185 *)
Definition fm_id (fm : formatter) (idx : nat) (write : bool) : formatter * option fmt_error :=
  if idx <? length (fm_fmts fm)
  then (mkFmtr (fm_nav fm) (update (fm_fmts fm) idx (fun f => mkFmt write (f_line f))), None)
  else (fm, Some IdxOutOfBounds).
(** fmt/formatter.rs 207-265 *)
Definition fm_request (r : repr) (fm : formatter) (idx : nat) : lres (formatter * option fmt_error) :=
  dl x <- request_repr (fm_nav fm) (fm_fmts fm) idx r ;
  LRet (mkFmtr (fm_nav fm) (fst x), snd x).
(** fmt/formatter.rs 207-209 *)
Definition fm_inline := fm_request Inline.
(** fmt/formatter.rs 233-235 *)
Definition fm_concise := fm_request Concise.
(** fmt/formatter.rs 263-265 *)
Definition fm_verbose := fm_request Verbose.
(** fmt/formatter.rs 298-300 *)
Definition fm_write (fm : formatter) (buf : str) : lres str :=
  dl r <- lunwrap (nav_root (fm_nav fm)) ;
  write_node (length (fm_nav fm)) (fm_nav fm) (fm_fmts fm) true buf r 0.

(** ** fmt/solver.rs.  Widths are usize; they are bounded by the memory the text
    needs, overflow is not modelled. *)
(** [char::escape_default] (Rust standard library): number of characters *)
Fixpoint hex_digits (fuel : nat) (n : N) : nat :=
  match fuel with O => 1 | S f => if (n <? 16)%N then 1 else S (hex_digits f (n / 16)%N) end.
(** the length of [char::escape_default] (Rust standard library), used in fmt/solver.rs 54-124 *)
Definition escape_len (c : char) : nat :=
  if mem c [9%N; 13%N; 10%N; 39%N; 34%N; 92%N] then 2
  else if (32 <=? c)%N && (c <=? 126)%N then 1
  else 4 + hex_digits 6 c.
(** fmt/solver.rs 54-124: the length of the id *)
Definition ident_len (k : kserd) : nat := match kid k with Some id => length id | None => 0 end.
(** fmt/solver.rs 54-124 *)
Definition inline_width (k : kserd) (cfg : config) : nat :=
  let ident := ident_len k in
  let prim_ident_width := if id_on_primitives cfg then ident + 3 else 0 in
  match kval k with
  | VUnit => if 0 <? ident then ident else 2
  | VBool b => prim_ident_width + (if b then 4 else 5)
  | VNum n => prim_ident_width + length (num_display n)
  | VStr t => 2 + prim_ident_width + list_sum (map escape_len t)
  | VBarr b => 3 + prim_ident_width + length b * 2 + (length b - 1) * length FIELDS_SEPARATOR
  | VTuple l => 2 + (length l - 1) * length FIELDS_SEPARATOR + (if (0 <? ident) && id_on_tuples cfg then ident + 1 else 0)
  | VCntr m => 2 + (length m - 1) * length FIELDS_SEPARATOR + list_sum (map (fun e => length (fst e)) m)
               + length m * (length FIELDS_ASSIGNER + 1)
               + (if (0 <? ident) && id_on_containers cfg then ident + 1 else 0)
  | VSeq l => 2 + (length l - 1) * length FIELDS_SEPARATOR + (if (0 <? ident) && id_on_seqs cfg then ident + 1 else 0)
  | VMap m => 2 + (length m - 1) * length FIELDS_SEPARATOR + length m * (length KEYS_ASSIGNER + 1)
              + (if (0 <? ident) && id_on_maps cfg then ident + 1 else 0)
  end.
(** the Vec of widths, fmt/solver.rs 3-17 *)
Definition widths_t : Type := list (option nat).
(** [widths.get_mut(i)] set to [Some(w)], fmt/solver.rs 20-52 *)
Definition set_width (w : nat) (ws : widths_t) (i : nat) : widths_t := update ws i (fun _ => Some w).
(** the width of a child: looked up, or computed and stored (27-49, 161-169) *)
Definition child_width (recurse : node -> widths_t -> lres (nat * widths_t)) (child : node) (ws : widths_t) : lres (nat * widths_t) :=
  dl o <- lunwrap (nth_error ws (n_idx child)) ;
  match o with
  | Some w => LRet (w, ws)
  | None => dl r <- recurse child ws ; LRet (fst r, set_width (fst r) (snd r) (n_idx child))
  end.
(** fmt/solver.rs 20-52; [fuel] bounds the nesting depth *)
Fixpoint inline_widths_recurse (fuel : nat) (nv : nav) (cfg : config) (n : node) (ws : widths_t) : lres (nat * widths_t) :=
  match fuel with
  | O => LFuel
  | S fuel =>
      let add := fun acc child =>
        dl r <- child_width (inline_widths_recurse fuel nv cfg) child (snd acc) ;
        LRet (fst acc + fst r, snd r) in
      dl acc <- lfold add (value_children nv n) (inline_width (n_kserd n) cfg, ws) ;
      lfold add (key_children nv n) acc
  end.
(** the loops 6-11 and 133-138 *)
Definition all_widths (recurse : node -> widths_t -> lres (nat * widths_t)) (nv : nav) : lres (list nat) :=
  dl ws <- lfold (fun ws n =>
             dl o <- lunwrap (nth_error ws (n_idx n)) ;
             match o with
             | Some _ => LRet ws
             | None => dl r <- recurse n ws ; LRet (set_width (fst r) (snd r) (n_idx n))
             end) (nav_nodes nv) (repeat None (nav_len nv)) ;
  lfold (fun acc o => dl w <- lunwrap o ; LRet (acc ++ [w])) ws [].
(** fmt/solver.rs 3-17 *)
Definition inline_widths (nv : nav) (cfg : config) : lres (list nat) :=
  all_widths (inline_widths_recurse (nav_len nv) nv cfg) nv.

(** fmt/solver.rs 232-268 *)
Definition concise_width (k : kserd) (cfg : config) : nat :=
  let ident := ident_len k in
  match kval k with
  | VTuple _ => 1 + (if id_on_tuples cfg then ident + 1 else 0)
  | VCntr _ => 1 + (if id_on_containers cfg then ident + 1 else 0)
  | VSeq _ => 1 + (if id_on_seqs cfg then ident + 1 else 0)
  | VMap _ => 1 + (if id_on_maps cfg then ident + 1 else 0)
  | _ => inline_width k cfg
  end.
(** fmt/solver.rs 147-230 *)
Fixpoint concise_widths_recurse (fuel : nat) (nv : nav) (cfg : config) (inw : list nat) (n : node) (ws : widths_t) : lres (nat * widths_t) :=
  match fuel with
  | O => LFuel
  | S fuel =>
      let widen := fun (extra : nat) acc child =>
        dl r <- child_width (concise_widths_recurse fuel nv cfg inw) child (snd acc) ;
        LRet (max (fst acc) (extra + fst r), snd r) in
      let start := (concise_width (n_kserd n) cfg, ws) in
      match node_val nv n with
      | NPrimitive => LRet start
      | NTuple l | NSeq l => lfold (widen INDENT) l start
      | NCntr m => lfold (fun acc e => widen (INDENT + length (fst e) + length FIELDS_ASSIGNER + 1) acc (snd e)) m start
      | NMap m =>
          lfold (fun acc e =>
            dl r <- child_width (concise_widths_recurse fuel nv cfg inw) (snd e) (snd acc) ;
            dl kw <- lunwrap (nth_error inw (n_idx (fst e))) ;
            LRet (max (fst acc) (INDENT + kw + length KEYS_ASSIGNER + 1 + fst r), snd r)) m start
      end
  end.
(** fmt/solver.rs 126-144 *)
Definition concise_widths (nv : nav) (cfg : config) (inw : list nat) : lres (list nat) :=
  all_widths (concise_widths_recurse (nav_len nv) nv cfg inw) nv.

(** fmt/solver.rs 427-444 *)
Definition min_line_repr (idx : nat) (lim : option nat) (inw con : list nat) : lres repr :=
  match lim with
  | None => LRet Inline
  | Some lim =>
      dl c <- lunwrap (nth_error con idx) ;
      if lim <? c then LRet Verbose
      else dl i <- lunwrap (nth_error inw idx) ;
           LRet (if lim <? i then Concise else Inline)
  end.
(** fmt/solver.rs 398-401 *)
Definition cntr_field_offset (m : list (str * node)) (index : nat) : lres nat :=
  dl e <- lunwrap (nth_error m index) ;
  LRet (length (fst e) + length FIELDS_ASSIGNER + 1).
(** fmt/solver.rs 403-425 *)
Definition map_entry_offset (m : list (node * node)) (child : node) (fmts : list fmt) (inw : list nat) : lres nat :=
  if is_key child then LRet 0
  else
    dl e <- lunwrap (nth_error m (idx_in_parent child)) ;
    dl kf <- lunwrap (nth_error fmts (n_idx (fst e))) ;
    dl klen <- match f_line kf with
               | Inline => lunwrap (nth_error inw (n_idx (fst e)))
               | Concise => LRet 1
               | Verbose => LPanic
               end ;
    LRet (klen + length KEYS_ASSIGNER + 1).
(** fmt/solver.rs 363-377 *)
Definition concise_column (pvalue : node_value) (child : node) (fmts : list fmt) (inw : list nat) : lres nat :=
  match pvalue with
  | NPrimitive => LPanic
  | NTuple _ | NSeq _ => LRet INDENT
  | NCntr m => dl x <- cntr_field_offset m (idx_in_parent child) ; LRet (INDENT + x)
  | NMap m => dl x <- map_entry_offset m child fmts inw ; LRet (INDENT + x)
  end.
(** fmt/solver.rs 379-396 *)
Definition verbose_column (pvalue : node_value) (child : node) (cvalue : node_value) : lres nat :=
  match pvalue, cvalue with
  | NPrimitive, _ => LPanic
  | NTuple _, _ => LPanic
  | NSeq _, _ => LRet 0
  | NCntr _, NCntr _ => LRet INDENT
  | NCntr _, _ => LRet 0
  | NMap _, _ => LRet (if is_key child then 0 else INDENT)
  end.
(** fmt/solver.rs 340-351: the offset and the last node reached, one unit of fuel per step *)
Fixpoint offset_loop (fuel : nat) (nv : nav) (fmts : list fmt) (inw : list nat) (child : node) (off : nat) : lres (nat * node) :=
  match node_parent nv child with
  | None => LRet (off, child)
  | Some parent =>
      match fuel with
      | O => LFuel
      | S fuel =>
          dl pf <- lunwrap (nth_error fmts (n_idx parent)) ;
          dl add <- match f_line pf with
                    | Inline => LRet 0
                    | Concise => concise_column (node_val nv parent) child fmts inw
                    | Verbose => verbose_column (node_val nv parent) child (node_val nv child)
                    end ;
          offset_loop fuel nv fmts inw parent (off + add)
      end
  end.
(** fmt/solver.rs 328-361 *)
Definition calculate_offset (nv : nav) (n : node) (fmts : list fmt) (inw : list nat) : lres nat :=
  match node_parent nv n with
  | None => LRet 0
  | Some parent =>
      dl pf <- lunwrap (nth_error fmts (n_idx parent)) ;
      dl off <- match f_line pf with
                | Inline => LRet 0
                | _ => concise_column (node_val nv parent) n fmts inw
                end ;
      dl r <- offset_loop (nav_len nv) nv fmts inw parent off ;
      dl cf <- lunwrap (nth_error fmts (n_idx (snd r))) ;
      LRet (if repr_eqb (f_line cf) Verbose then fst r - INDENT else fst r)
  end.
(** fmt/solver.rs 271-284 *)
Definition id_flag (cfg : config) (v : node_value) : bool :=
  match v with
  | NPrimitive => id_on_primitives cfg
  | NTuple _ => id_on_tuples cfg
  | NCntr _ => id_on_containers cfg
  | NSeq _ => id_on_seqs cfg
  | NMap _ => id_on_maps cfg
  end.
(** fmt/solver.rs 271-284 *)
Definition apply_ids (nv : nav) (cfg : config) (fmts : list fmt) : lres (list fmt) :=
  lfold (fun fmts i =>
    dl n <- lunwrap (nav_get nv i) ;
    LRet (update fmts i (fun f => mkFmt (id_flag cfg (node_val nv n)) (f_line f)))) (seq 0 (nav_len nv)) fmts.
(** fmt/solver.rs 309-325 *)
Definition apply_node (nv : nav) (cfg : config) (inw con : list nat) (fmts : list fmt) (c : nat) : lres (list fmt) :=
  dl child <- lunwrap (nav_get nv c) ;
  dl off <- calculate_offset nv child fmts inw ;
  let lim := option_map (fun x => x - off) (width_limit cfg) in
  dl r <- min_line_repr c lim inw con ;
  dl parent <- lunwrap (node_parent nv child) ;
  let r := match r, node_val nv child, node_val nv parent with
           | Concise, NCntr _, NSeq _ => Verbose
           | _, _, _ => r
           end in
  dl x <- request_repr nv fmts c r ;
  LRet (fst x).
(** fmt/solver.rs 271-326, called at formatter.rs 151-154 *)
Definition apply_config (fm : formatter) (cfg : config) : lres formatter :=
  let nv := fm_nav fm in
  dl fmts <- apply_ids nv cfg (fm_fmts fm) ;
  dl root <- lunwrap (nav_root nv) ;
  dl inw <- inline_widths nv cfg ;
  dl con <- concise_widths nv cfg inw ;
  dl r <- min_line_repr 0 (width_limit cfg) inw con ;
  dl ds <- descendants_breadth nv root ;
  dl x <- request_repr nv fmts 0 r ;
  dl fmts <- lfold (apply_node nv cfg inw con) (map n_idx ds) (fst x) ;
  LRet (mkFmtr nv fmts).

(** fmt/mod.rs 430-447 and the Display impl 496-501 *)
Definition as_str_with_config (k : kserd) (cfg : config) : lres str :=
  dl fm <- fm_new k ;
  dl fm <- apply_config fm cfg ;
  fm_write fm [].
(** fmt/mod.rs 411-414 *)
Definition as_str (k : kserd) : lres str := as_str_with_config k config_default.
