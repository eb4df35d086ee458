(** What the properties about debug texts are stated against. *)
From Verif Require Import Base F64 Number BTree Value ValueSpec Debug.
Open Scope N_scope.

(** What is asked of the debug text of an f64: it tells floats apart, but not one NaN
    from another, and has no line break and no closing parenthesis. *)
Definition float_debug (f : f64 -> str) : Prop :=
  (forall x y, f64_wf x = true -> f64_wf y = true -> (f x = f y <-> x = y \/ (f_is_nan x = true /\ f_is_nan y = true))) /\
  (forall x, forallb (fun c => negb (mem c [10; 41])) (f x) = true).

(** all NaNs made one *)
Definition one_nan (n : number) : number :=
  match n with Float (FNaN _ _) => Float (FNaN false 1) | _ => n end.
Fixpoint one_nans (k : kserd) : kserd :=
  let 'Kserd i v := k in
  Kserd i match v with
          | VNum n => VNum (one_nan n)
          | VTuple l => VTuple (map one_nans l)
          | VCntr m => VCntr (map (fun e => (fst e, one_nans (snd e))) m)
          | VSeq l => VSeq (map one_nans l)
          | VMap m => VMap (map (fun e => (one_nans (fst e), one_nans (snd e))) m)
          | _ => v
          end.

(** the names of fields have no spaces, and for the text over several lines no line
    breaks; names which new_cntr accepts have no spaces *)
Definition plain_names (alt : bool) : kserd -> bool :=
  k_all (fun k => match kval k with
                  | VCntr m => forallb (fun e => forallb (fun c => negb (c =? 32) && negb (alt && (c =? 10))) (fst e)) m
                  | _ => true
                  end).

(** what the text of a node shows of its value: a primitive value, or which kind of
    compound value it is *)
Definition outline (v : value kserd) : value kserd :=
  match v with
  | VNum n => VNum (one_nan n)
  | VTuple _ => VTuple []
  | VCntr _ => VCntr []
  | VSeq _ => VSeq []
  | VMap _ => VMap []
  | _ => v
  end.
