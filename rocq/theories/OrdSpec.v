(** The order of Kserds, written without comparison functions (but for numbers,
    C02). *)
From Verif Require Import Base F64 Number BTree Value.
Open Scope nat_scope.

(** the first difference decides; what ends first comes first *)
Inductive lex {A} (lt eq : A -> A -> Prop) : list A -> list A -> Prop :=
| lex_end y m : lex lt eq [] (y :: m)
| lex_now x y l m : lt x y -> lex lt eq (x :: l) (y :: m)
| lex_later x y l m : eq x y -> lex lt eq l m -> lex lt eq (x :: l) (y :: m).

(** the kinds of values in ascending order *)
Definition kind (k : kserd) : nat :=
  match kval k with
  | VUnit => 0 | VBool _ => 1 | VNum _ => 2 | VStr _ => 3 | VBarr _ => 4
  | VTuple _ => 5 | VCntr _ => 6 | VSeq _ => 7 | VMap _ => 8
  end.
(** texts by Unicode scalar value, byte strings by byte *)
Definition text_before : list N -> list N -> Prop := lex N.lt eq.

Inductive before : kserd -> kserd -> Prop :=
| b_kind a b : kind a < kind b -> before a b
| b_bool a b : kval a = VBool false -> kval b = VBool true -> before a b
| b_num a b x y : kval a = VNum x -> kval b = VNum y -> num_cmp x y = Lt -> before a b
| b_str a b x y : kval a = VStr x -> kval b = VStr y -> text_before x y -> before a b
| b_barr a b x y : kval a = VBarr x -> kval b = VBarr y -> text_before x y -> before a b
| b_tuple a b l m : kval a = VTuple l -> kval b = VTuple m -> lex before alike l m -> before a b
| b_seq a b l m : kval a = VSeq l -> kval b = VSeq m -> lex before alike l m -> before a b
| b_cntr a b l m : kval a = VCntr l -> kval b = VCntr m ->
    lex (fun e f => text_before (fst e) (fst f) \/ (fst e = fst f /\ before (snd e) (snd f))) (fun e f => fst e = fst f /\ alike (snd e) (snd f)) l m -> before a b
| b_map a b l m : kval a = VMap l -> kval b = VMap m ->
    lex (fun e f => before (fst e) (fst f) \/ (alike (fst e) (fst f) /\ before (snd e) (snd f))) (fun e f => alike (fst e) (fst f) /\ alike (snd e) (snd f)) l m -> before a b
with alike : kserd -> kserd -> Prop :=
| a_unit a b : kval a = VUnit -> kval b = VUnit -> alike a b
| a_bool a b x : kval a = VBool x -> kval b = VBool x -> alike a b
| a_num a b x y : kval a = VNum x -> kval b = VNum y -> num_cmp x y = Eq -> alike a b
| a_str a b x : kval a = VStr x -> kval b = VStr x -> alike a b
| a_barr a b x : kval a = VBarr x -> kval b = VBarr x -> alike a b
| a_tuple a b l m : kval a = VTuple l -> kval b = VTuple m -> Forall2 alike l m -> alike a b
| a_seq a b l m : kval a = VSeq l -> kval b = VSeq m -> Forall2 alike l m -> alike a b
| a_cntr a b l m : kval a = VCntr l -> kval b = VCntr m -> Forall2 (fun e f => fst e = fst f /\ alike (snd e) (snd f)) l m -> alike a b
| a_map a b l m : kval a = VMap l -> kval b = VMap m -> Forall2 (fun e f => alike (fst e) (fst f) /\ alike (snd e) (snd f)) l m -> alike a b.
