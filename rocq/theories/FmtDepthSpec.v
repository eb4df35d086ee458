(** How many calls of the writer are under way at the deepest place, said on the tree and its layout. *)
From Verif Require Import Base Value Nav Fmt FmtText.
Open Scope nat_scope.

(** One for each node on the way, but the sequences and maps which a verbose container writes as
    sections of its own do not count. *)
Fixpoint calls (d : dk) : nat :=
  match d with
  | DK f _ v =>
      S match v with
        | VTuple l | VSeq l => fold_right (fun x n => Nat.max (calls x) n) 0 l
        | VCntr m =>
            fold_right (fun e n =>
              Nat.max (match f_line f, d_line (snd e), d_val (snd e) with
                       | Verbose, Verbose, (VSeq _ | VMap _) => calls (snd e) - 1
                       | _, _, _ => calls (snd e)
                       end) n) 0 m
        | VMap m => fold_right (fun e n => Nat.max (Nat.max (calls (fst e)) (calls (snd e))) n) 0 m
        | _ => 0
        end
  end.
