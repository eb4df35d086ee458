(** How deep values are nested, said without the parser. *)
From Verif Require Import Base Value.
Open Scope nat_scope.

(** the opening delimiters of a text *)
Definition opens (t : str) : nat := length (filter (fun c => N.eqb c (ch "(") || N.eqb c (ch "[") || N.eqb c (ch "{")) t).
(** the number of Kserds on the longest way from the root to a leaf *)
Fixpoint height (k : kserd) : nat :=
  match k with
  | Kserd _ v =>
      S match v with
        | VTuple l | VSeq l => fold_right (fun x n => Nat.max (height x) n) 0 l
        | VCntr m => fold_right (fun e n => Nat.max (height (snd e)) n) 0 m
        | VMap m => fold_right (fun e n => Nat.max (Nat.max (height (fst e)) (height (snd e))) n) 0 m
        | _ => 0
        end
  end.
