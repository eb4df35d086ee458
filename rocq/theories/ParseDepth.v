(** The parser with a limit on its recursion.  The functions of /repo which read values call each
    other: [kserd_nested] (parse/mod.rs 92-104) calls itself for the parts of a verbose container and
    [kserd_delimited] (parse/mod.rs 68-82) for values, and [kserd_delimited] calls itself for
    the elements of a value.  Here a call made when [limit] calls are already under way gives
    [PFuel]: the stack is full.  Nothing else is changed: the bodies of the functions are those of Parse.v. *)
From Verif Require Import Base F64 Number BTree Value Nom Parse ParseErr.
Open Scope nat_scope.

(** parse/mod.rs 92-104 *)
Fixpoint nested_within (limit indents : nat) (i : str) {struct limit} : pres kserd :=
  match limit with
  | O => PFuel
  | S limit =>
      let? (i, verbose) := pattern_match_verbose i in
      if verbose then
        cntr_verbose (kserd_inline limit) (kserd_concise limit) (nested_within limit (S indents)) indents i
      else ignore_ws (kserd_concise limit) i
  end.
(** parse/mod.rs 106-114 *)
Definition root_within (limit : nat) (i : str) : pres kserd :=
  match i with
  | [] => context (s "empty input") (fun i => PErr [(i, ENom NkEof)]) i
  | _ => all_consuming (terminated (nested_within limit 0) multiline_whitespace) i
  end.
(** parse/mod.rs 210-219; [ParseFuel]: the limit was reached *)
Definition parse_within (limit : nat) (src : str) : parse_result :=
  match root_within limit src with
  | POk _ k => ParseOk k
  | PErr e | PFail e => ParseErr (error_new src e)
  | PPanic => ParsePanic
  | PFuel => ParseFuel
  end.
