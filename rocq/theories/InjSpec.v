(** What the properties about values with the same text are stated against. *)
From Verif Require Import Base F64 Number Value ValueSpec Nav NavSpec Fmt Formatter FmtText FmtSpec RtSpec VSpec StuckSpec.
Open Scope N_scope.

(** [fm] is a formatter for [k] after any history, [t] is what it writes, and the
    conditions under which texts are read back (C22) hold *)
Definition written (k : kserd) (fm : formatter) (t : str) : Prop :=
  reachable k fm /\ k_sorted k = true /\ vsafe true 0 (deco (fm_fmts fm) 0 k) = true /\ each faithful_node (deco (fm_fmts fm) 0 k) = true /\
  fm_write fm [] = LRet t.
(** the same with conditions on the value alone, for [as_str_with_config] *)
Definition plain_enough (k : kserd) (cfg : config) : Prop :=
  simple_tree k = true /\ vsimple (id_on_containers cfg) k = true /\ k_sorted k = true /\ ~ stuck cfg k /\
  (id_on_tuples cfg = true \/ forall x, In x (preorder k) -> match kval x with VTuple _ => kid x = None | _ => True end).
