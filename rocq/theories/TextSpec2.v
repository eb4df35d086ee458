(** Kserds whose texts are refused or still decode to the same value. *)
From Verif Require Import Base F64 Number Value TextSpec.

(** units have no id, empty tuples have one, no container is empty, -0.0 is absent and NaN
    is the one which is read from [NaN] *)
Definition lasting_value (k : kserd) : bool :=
  match kval k with
  | VUnit => match kid k with Some _ => false | None => true end
  | VNum n => num_kept n
  | VTuple [] => match kid k with Some _ => true | None => false end
  | VCntr [] => false
  | _ => true
  end.
