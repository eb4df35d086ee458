(** What the round trip of values through texts is stated against: what a text
    has to keep so that it still decodes to the same value. *)
From Verif Require Import Base F64 Number NumberSpec BTree Value ValueSpec Nav Fmt FmtText RtSpec.
Open Scope N_scope.

(** the id of the node is in the text, if it has one *)
Definition id_kept (d : dk) : bool := f_id (d_fmt d) || negb (is_some (d_id d)).
(** -0.0 is read back as 0, and NaN as the one NaN whose text is [NaN] *)
Definition num_kept (n : number) : bool :=
  match n with
  | Float (FNaN sg p) => negb sg && (p =? 2 ^ 51)
  | Float (FFin sg m _) => negb (sg && (m =? 0)%Z)
  | _ => true
  end.
(** units have no id, the ids of tuples and containers are shown, there are no
    empty containers, nor empty tuples without an id, and the keys of maps are
    read back as equal keys *)
Definition kept_node (d : dk) : bool :=
  match d_val d with
  | VUnit => negb (is_some (d_id d))
  | VNum n => num_kept n
  | VTuple l => id_kept d && match l with [] => is_some (d_id d) | _ => true end
  | VCntr m => id_kept d && match m with [] => false | _ => true end
  | VMap m => forallb (fun e => each faithful_node (fst e)) m
  | _ => true
  end.
(** the same where the ids of containers do not matter ([named] is [false]) *)
Definition kept_at (named : bool) (d : dk) : bool :=
  match d_val d with
  | VCntr m => (negb named || id_kept d) && match m with [] => false | _ => true end
  | _ => kept_node d
  end.
(** the ids of tuples and containers are shown *)
Definition data_ids_shown (d : dk) : bool :=
  each (fun x => match d_val x with VTuple _ | VCntr _ => id_kept x | _ => true end) d.

(** ** conditions on the Kserd of a value alone *)
(** no -0.0 *)
Definition no_neg_zero (k : kserd) : bool :=
  match kval k with VNum (Float (FFin sg m _)) => negb (sg && (m =? 0)%Z) | _ => true end.
