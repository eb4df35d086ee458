(** What the properties about the ends of lines are stated against. *)
From Verif Require Import Base F64 Number BTree Value ValueSpec.
Open Scope N_scope.

(** space and tab *)
Definition blank (c : char) : bool := (c =? 32) || (c =? 9).
(** the first text has no carriage return; the second is the first with blanks put in
    front of some of its line feeds, and a carriage return in front of some *)
Inductive trail : str -> str -> Prop :=
| trail_nil : trail [] []
| trail_same c t t' : c <> 13 -> trail t t' -> trail (c :: t) (c :: t')
| trail_end w e t t' : forallb blank w = true -> e = [10] \/ e = [13; 10] -> trail t t' -> trail (10 :: t) (w ++ e ++ t').

(** the text without the blanks at the ends of its lines; those after the last line
    feed stay *)
Fixpoint strip (t : str) : str :=
  match t with
  | [] => []
  | c :: t => match strip t with
              | 10 :: r => if blank c then 10 :: r else c :: 10 :: r
              | r => c :: r
              end
  end.

(** no [str] with a blank or line feed as the delimiter of a string *)
Definition no_str_blank (t : str) : Prop := forall a c b, t = a ++ s "str" ++ c :: b -> blank c = false /\ c <> 10.

(** spaces, tabs and line feeds *)
Definition white (w : str) : bool := forallb (fun c => blank c || (c =? 10)) w.
Definition ends_in_cr (t : str) : Prop := exists x, t = x ++ [13].

(** the same data; the texts in it may differ in the ends of their lines *)
Inductive trail_v (R : kserd -> kserd -> Prop) : value kserd -> value kserd -> Prop :=
| tv_unit : trail_v R VUnit VUnit
| tv_bool b : trail_v R (VBool b) (VBool b)
| tv_num n : trail_v R (VNum n) (VNum n)
| tv_str t t' : trail t t' -> trail_v R (VStr t) (VStr t')
| tv_barr b : trail_v R (VBarr b) (VBarr b)
| tv_tuple l l' : Forall2 R l l' -> trail_v R (VTuple l) (VTuple l')
| tv_cntr m m' : Forall2 (fun e f => fst e = fst f /\ R (snd e) (snd f)) m m' -> trail_v R (VCntr m) (VCntr m')
| tv_seq l l' : Forall2 R l l' -> trail_v R (VSeq l) (VSeq l')
| tv_map m m' : Forall2 (fun e f => fst e = fst f /\ R (snd e) (snd f)) m m' -> trail_v R (VMap m) (VMap m').
Inductive trail_k : kserd -> kserd -> Prop :=
| tk id v v' : trail_v trail_k v v' -> trail_k (Kserd id v) (Kserd id v').
