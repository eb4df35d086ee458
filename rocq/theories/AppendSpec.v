(** What appending to a document is stated with. *)
From Verif Require Import Base F64 Number BTree Value ValueSpec Nav NavSpec Fmt Formatter FmtText FmtSpec Grammar RtSpec VSpec MisreadSpec LegibleSpec MisreadSpec2.

(** [t] was written by a formatter with a line for each field of the outermost
    container, under the conditions of C78 *)
Definition line_document (k : kserd) (fm : formatter) (t : str) : Prop :=
  reachable k fm /\ k_sorted k = true /\ clear (deco (fm_fmts fm) 0 k) = true /\ vclear true true (deco (fm_fmts fm) 0 k) = true /\
  line_of fm 0 = Some Verbose /\ fm_write fm [] = LRet t.
