(** Exactly which documents with titles can be read. *)
From Verif Require Import Base F64 Number NumberSpec BTree Value Nav Fmt FmtText Grammar RtSpec VSpec LegibleSpec.
Open Scope N_scope.

(** in a container with a line for each field, no title follows a bare [inf] or [NaN];
    what stands on lines of its own, behind a name or a key or below a title, is legible ([legible_node]) *)
Fixpoint tlegible (d : dk) : bool :=
  match d with
  | DK f id v =>
      match f_line f, v with
      | Verbose, VCntr m =>
          chain (fun e e' => negb (field_ends_bare (snd e) && titled (snd e'))) m &&
          forallb (fun e =>
            match snd e with DK xf _ xv =>
              match f_line xf, xv with
              | Verbose, VCntr _ => tlegible (snd e)
              | Verbose, VSeq l => chain (fun y _ => negb (ends_bare y)) l && forallb tlegible l
              | Verbose, VMap l => chain (fun p _ => negb (ends_bare (snd p))) l && forallb (fun p => tlegible (snd p)) l
              | _, _ => each legible_node (snd e)
              end
            end) m
      | _, _ => each legible_node d
      end
  end.
