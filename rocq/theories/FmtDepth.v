(** The formatter with a limit on its recursion.  [write_node] (/repo/src/fmt/mod.rs 486-494) calls itself,
    through tuples::write, seqs::write, maps::write and cntr::write, for the nodes in a node, and cntr::write
    calls itself for a section; [inline_widths_recurse] and [concise_widths_recurse] (fmt/solver.rs 20-52, 147-230)
    call themselves for the nodes in a node.  Here a call made when [limit] calls are already under way gives
    [LFuel]: the stack is full.  Nothing else is changed: the bodies of the functions are those of
    Fmt.v and Formatter.v. *)
From Verif Require Import Base F64 Number BTree Value Nav Fmt Formatter.
Open Scope nat_scope.

(** fmt/formatter.rs 298-300.  The sequences and maps which cntr::write writes as sections are written in its own call. *)
Definition write_within (limit : nat) (fm : formatter) (buf : str) : lres str :=
  dl r <- lunwrap (nav_root (fm_nav fm)) ;
  write_node limit (fm_nav fm) (fm_fmts fm) true buf r 0.
(** fmt/solver.rs 271-326 *)
Definition apply_within (limit : nat) (fm : formatter) (cfg : config) : lres formatter :=
  let nv := fm_nav fm in
  dl fmts <- apply_ids nv cfg (fm_fmts fm) ;
  dl root <- lunwrap (nav_root nv) ;
  dl inw <- all_widths (inline_widths_recurse limit nv cfg) nv ;
  dl con <- all_widths (concise_widths_recurse limit nv cfg inw) nv ;
  dl r <- min_line_repr 0 (width_limit cfg) inw con ;
  dl ds <- descendants_breadth nv root ;
  dl x <- request_repr nv fmts 0 r ;
  dl fmts <- lfold (apply_node nv cfg inw con) (map n_idx ds) (fst x) ;
  LRet (mkFmtr nv fmts).
(** fmt/mod.rs 430-447 *)
Definition as_str_within (limit : nat) (k : kserd) (cfg : config) : lres str :=
  dl fm <- fm_new k ;
  dl fm <- apply_within limit fm cfg ;
  write_within limit fm [].
