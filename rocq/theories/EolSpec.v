(** What the properties about line endings are stated against. *)
From Verif Require Import Base F64 Number BTree Value ValueSpec.
Open Scope N_scope.

(** the first text has no carriage return; the second is the first with some or
    none of its line feeds written as carriage return and line feed, with [all] all
    of them *)
Inductive eol (all : bool) : str -> str -> Prop :=
| eol_nil : eol all [] []
| eol_same c t t' : c <> 13 -> (all = true -> c <> 10) -> eol all t t' -> eol all (c :: t) (c :: t')
| eol_crlf t t' : eol all t t' -> eol all (10 :: t) (13 :: 10 :: t').

(** every line feed written as carriage return and line feed *)
Definition crlf (t : str) : str := flat_map (fun c => if c =? 10 then [13; 10] else [c]) t.

(** no [str] with a line feed as the delimiter of a string *)
Definition no_str_lf (t : str) : Prop := forall a b, t <> a ++ s "str" ++ 10 :: b.

(** the same data; the texts in it may differ in their line endings *)
Inductive eol_v (all : bool) (R : kserd -> kserd -> Prop) : value kserd -> value kserd -> Prop :=
| ev_unit : eol_v all R VUnit VUnit
| ev_bool b : eol_v all R (VBool b) (VBool b)
| ev_num n : eol_v all R (VNum n) (VNum n)
| ev_str t t' : eol all t t' -> eol_v all R (VStr t) (VStr t')
| ev_barr b : eol_v all R (VBarr b) (VBarr b)
| ev_tuple l l' : Forall2 R l l' -> eol_v all R (VTuple l) (VTuple l')
| ev_cntr m m' : Forall2 (fun e f => fst e = fst f /\ R (snd e) (snd f)) m m' -> eol_v all R (VCntr m) (VCntr m')
| ev_seq l l' : Forall2 R l l' -> eol_v all R (VSeq l) (VSeq l')
| ev_map m m' : Forall2 (fun e f => fst e = fst f /\ R (snd e) (snd f)) m m' -> eol_v all R (VMap m) (VMap m').
Inductive eol_k (all : bool) : kserd -> kserd -> Prop :=
| ek id v v' : eol_v all (eol_k all) v v' -> eol_k all (Kserd id v) (Kserd id v').

(** the value with every line feed of its texts, those in keys of maps excepted,
    written as carriage return and line feed *)
Fixpoint crlf_k (k : kserd) : kserd :=
  match k with
  | Kserd id v => Kserd id
      match v with
      | VStr t => VStr (crlf t)
      | VTuple l => VTuple (map crlf_k l)
      | VSeq l => VSeq (map crlf_k l)
      | VCntr m => VCntr (map (fun e => match e with (n, x) => (n, crlf_k x) end) m)
      | VMap m => VMap (map (fun e => match e with (a, x) => (a, crlf_k x) end) m)
      | _ => v
      end
  end.

(** the node is no text with a line feed *)
Definition one_line (k : kserd) : bool := match kval k with VStr t => negb (mem 10 t) | _ => true end.
(** the node is no map with such a text in a key *)
Definition one_line_keys (k : kserd) : bool :=
  match kval k with VMap m => forallb (fun e => k_all one_line (fst e)) m | _ => true end.
