(** Documents which may be refused when they are written and read once more, but
    not misread. *)
From Verif Require Import Base F64 Number NumberSpec BTree Value ValueSpec ParseSpec Fmt FmtText Grammar RtSpec MisreadSpec.
Open Scope N_scope.

(** As [document_node] (DocSpec.v), but numbers may be inf or NaN and strings may contain
    anything as long as the delimiter they leave free is clear. *)
Definition lasting_node (k : kserd) : bool :=
  match kid k with Some i => negb (starts_with (s "true") i) && negb (starts_with (s "false") i) | None => true end &&
  match kval k with
  | VUnit => match kid k with Some _ => false | None => true end
  | VNum n => exact n
  | VStr t => match delimiter t with Some d => clear_delim d | None => false end
  | VTuple [] => match kid k with Some _ => true | None => false end
  | VCntr m => negb (match m with [] => true | _ => false end) && forallb (fun e => negb (str_eqb (fst e) [])) m
  | VMap m => forallb (fun e => no_numbers (fst e)) m || strictly_sorted k_cmp m
  | _ => true
  end.
