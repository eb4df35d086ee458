(** What the properties of the Decoder under any [Deserialize] implementation are
    stated against (C57). *)
From Verif Require Import Base F64 F32 F32Spec Number NumberSpec BTree Value Encode Own Deser.
Open Scope N_scope.

(** errors without a text, and errors with all of it *)
Definition silent : errors unit := mkErrors unit (fun _ => tt) (fun _ _ => tt) (fun _ _ => tt).
Inductive said : Type := Said (t : str) | SaidType (u : unexp) (expected : str) | SaidLength (n : nat) (expected : str).
Definition telling : errors said := mkErrors said Said SaidType SaidLength.

(** values without parts *)
Definition leaf (v : ovalue okserd) : bool :=
  match v with OUnit | OBool _ | ONum _ | OStr _ | OBarr _ => true | _ => false end.
(** [alike_value loose R no_id v w]: the same value, with parts related by [R].  If
    [loose], a tuple with elements and a sequence are the same without an id, and so are an
    empty container and an empty map. *)
Inductive alike_value (loose : bool) (R : okserd -> okserd -> Prop) (no_id : Prop) : ovalue okserd -> ovalue okserd -> Prop :=
| like_leaf v : leaf v = true -> alike_value loose R no_id v v
| like_tuple l l' : Forall2 R l l' -> alike_value loose R no_id (OTuple l) (OTuple l')
| like_seq l l' : Forall2 R l l' -> alike_value loose R no_id (OSeq l) (OSeq l')
| like_cntr m m' : Forall2 (fun e e' => fst e = fst e' /\ R (snd e) (snd e')) m m' -> alike_value loose R no_id (OCntr m) (OCntr m')
| like_map m m' : Forall2 (fun e e' => R (fst e) (fst e') /\ R (snd e) (snd e')) m m' -> alike_value loose R no_id (OMap m) (OMap m')
| like_tuple_seq l l' : loose = true -> no_id -> l <> [] -> Forall2 R l l' -> alike_value loose R no_id (OTuple l) (OSeq l')
| like_seq_tuple l l' : loose = true -> no_id -> l <> [] -> Forall2 R l l' -> alike_value loose R no_id (OSeq l) (OTuple l')
| like_cntr_map : loose = true -> no_id -> alike_value loose R no_id (OCntr []) (OMap [])
| like_map_cntr : loose = true -> no_id -> alike_value loose R no_id (OMap []) (OCntr []).
(** the same Kserd, but for the ownership of ids *)
Inductive alike (loose : bool) : okserd -> okserd -> Prop :=
| Alike i i' v v' : option_map cow_get i = option_map cow_get i' -> alike_value loose (alike loose) (i = None) v v' ->
    alike loose (OKserd i v) (OKserd i' v').

(** what the Rust type of the argument of a visit guarantees *)
Definition visit_ok (v : visit) : bool :=
  match v with
  | VisitInt t n => in_ntype t n
  | VisitF32 x => f32_wf x
  | VisitF64 x => f64_wf x
  | _ => true
  end.
(** the numbers of the tree are numbers *)
Fixpoint o_nums (k : okserd) : bool :=
  match k with
  | OKserd _ v =>
      match v with
      | ONum n => num_wf n
      | OTuple l | OSeq l => forallb o_nums l
      | OCntr m => forallb (fun e => o_nums (snd e)) m
      | OMap m => forallb (fun e => o_nums (fst e) && o_nums (snd e)) m
      | _ => true
      end
  end.
(** the implementation [J] with other visit methods for values *)
Definition with_values {Q U Er} (J : impl Q U Er) (f : Q -> visit -> dres U Er) : impl Q U Er :=
  mkImpl (start J) f (on_some J) (on_newtype J) (on_seq J) (on_map J) (on_enum J) (seq_step J) (map_step J) (value_step J)
    (on_variant_name J) (on_field_name J).

(** ** all that deserialize_any tells *)
(** what an implementation was told: a value, Some or a newtype around something, a sequence or
    a map with the length it was said to have, a field's name, a variant *)
Inductive told : Type :=
| TVisit (v : visit) | TSome (c : told) | TNewtype (c : told)
| TSeq (hint : nat) (l : list told) | TMap (hint : nat) (l : list (told * told))
| TField (name : cow str) | TName (name : str) | TVariant (name : told) (c : option told).
(** the kinds of variants an enum's implementation can ask for *)
Inductive asked : Type := AUnit | ANewtype | ATuple (len : nat) | AStruct.
(** an implementation which keeps what it is told *)
Inductive watch_q (Er : Type) : Type :=
| WAny | WSome | WNewtype | WEnum (a : asked)
| WSeq (hint : nat) (acc : list told) | WMap (hint : nat) (acc : list (told * told)) | WKey (hint : nat) (acc : list (told * told)) (k : told)
| WFail (e : Er).
Arguments WAny {Er}. Arguments WSome {Er}. Arguments WNewtype {Er}. Arguments WEnum {Er}. Arguments WSeq {Er}. Arguments WMap {Er}. Arguments WKey {Er}. Arguments WFail {Er}.
Definition wrap {Er} (f : told -> told) (r : dres told Er) : dres told Er := match r with inr c => inr (f c) | inl e => inl e end.
Definition watch {Er} : impl (watch_q Er) told Er :=
  mkImpl
    (fun q => match q with
      | WSome => Call MAny WAny (wrap TSome)
      | WNewtype => Call MAny WAny (wrap TNewtype)
      | WEnum a => Call MEnum q (fun r => r)
      | _ => Call MAny WAny (fun r => r)
      end)
    (fun _ v => inr (TVisit v))
    (fun _ => WSome) (fun _ => WNewtype)
    (fun _ n => WSeq n []) (fun _ n => WMap n [])
    (fun q => EnumVariant WAny (fun e => inl e) (fun u =>
      match q with
      | WEnum ANewtype => VarNewtype WAny (wrap (fun c => TVariant u (Some c)))
      | WEnum (ATuple n) => VarTuple n WAny (wrap (fun c => TVariant u (Some c)))
      | WEnum AStruct => VarStruct WAny (wrap (fun c => TVariant u (Some c)))
      | _ => VarUnit (fun r => match r with inr _ => inr (TVariant u None) | inl e => inl e end)
      end))
    (fun q => match q with
      | WSeq n acc => SeqNext WAny (fun r => match r with inr c => WSeq n (acc ++ [c])%list | inl e => WFail e end) (inr (TSeq n acc))
      | WFail e => SeqReturn (inl e)
      | _ => SeqReturn (inr (TSeq 0 []))
      end)
    (fun q => match q with
      | WMap n acc => MapKey WAny (fun r => match r with inr c => WKey n acc c | inl e => WFail e end) (inr (TMap n acc))
      | WFail e => MapReturn (inl e)
      | _ => MapReturn (inr (TMap 0 []))
      end)
    (fun q => match q with
      | WKey n acc k => ValueNext WAny (fun r => match r with inr c => WMap n (acc ++ [(k, c)])%list | inl e => WFail e end)
      | q => ValueSkip q
      end)
    (fun _ name => inr (TName name))
    (fun _ name => inr (TField name)).

(** what a Kserd is told as: numbers as u64, i64 or f64 or, if these do not hold them, as u128 or i128; strings and bytes
    as they are owned; a tuple of one element with an id as Some or a newtype, the empty one with the id None as none *)
Inductive tells : okserd -> told -> Prop :=
| tells_unit i : tells (OKserd i OUnit) (TVisit VisitUnit)
| tells_bool i b : tells (OKserd i (OBool b)) (TVisit (VisitBool b))
| tells_uint i n t : t = (if ((0 <=? n) && (n <? 2 ^ 64))%Z then Tu64 else Tu128) -> tells (OKserd i (ONum (Uint n))) (TVisit (VisitInt t n))
| tells_int i n t : t = (if ((- 2 ^ 63 <=? n) && (n <? 2 ^ 63))%Z then Ti64 else Ti128) -> tells (OKserd i (ONum (Int n))) (TVisit (VisitInt t n))
| tells_float i x : tells (OKserd i (ONum (Float x))) (TVisit (VisitF64 x))
| tells_str i t : tells (OKserd i (OStr (Borrowed t))) (TVisit (VisitBorrowedStr t))
| tells_string i t : tells (OKserd i (OStr (Owned t))) (TVisit (VisitString t))
| tells_bytes i b : tells (OKserd i (OBarr (Borrowed b))) (TVisit (VisitBorrowedBytes b))
| tells_buf i b : tells (OKserd i (OBarr (Owned b))) (TVisit (VisitByteBuf b))
| tells_none i : option_map cow_get i = Some (s "None") -> tells (OKserd i (OTuple [])) (TVisit VisitNone)
| tells_some i x c : option_map cow_get i = Some (s "Some") -> tells x c -> tells (OKserd i (OTuple [x])) (TSome c)
| tells_newtype i j x c : option_map cow_get i = Some j -> j <> s "Some" -> tells x c -> tells (OKserd i (OTuple [x])) (TNewtype c)
| tells_tuple i l cs : (l = [] -> option_map cow_get i <> Some (s "None")) -> (length l = 1%nat -> i = None) ->
    Forall2 tells l cs -> tells (OKserd i (OTuple l)) (TSeq (length l) cs)
| tells_seq i l cs : Forall2 tells l cs -> tells (OKserd i (OSeq l)) (TSeq (length l) cs)
| tells_cntr i m cs : Forall2 (fun e c => fst c = TField (fst e) /\ tells (snd e) (snd c)) m cs -> tells (OKserd i (OCntr m)) (TMap (length m) cs)
| tells_map i m cs : Forall2 (fun e c => tells (fst e) (fst c) /\ tells (snd e) (snd c)) m cs -> tells (OKserd i (OMap m)) (TMap (length m) cs).
(** what a Kserd is told as to an enum's implementation which asks for a kind of variant *)
Inductive tells_variant : asked -> okserd -> told -> Prop :=
| tells_unit_variant i j v : option_map cow_get i = Some j -> v = OUnit \/ v = OTuple [] -> tells_variant AUnit (OKserd i v) (TVariant (TName j) None)
| tells_newtype_variant i j x c : option_map cow_get i = Some j -> tells x c -> tells_variant ANewtype (OKserd i (OTuple [x])) (TVariant (TName j) (Some c))
| tells_tuple_variant i j l cs : option_map cow_get i = Some j -> Forall2 tells l cs ->
    tells_variant (ATuple (length l)) (OKserd i (OTuple l)) (TVariant (TName j) (Some (TSeq (length l) cs)))
| tells_struct_variant i j m cs : option_map cow_get i = Some j -> Forall2 (fun e c => fst c = TField (fst e) /\ tells (snd e) (snd c)) m cs ->
    tells_variant AStruct (OKserd i (OCntr m)) (TVariant (TName j) (Some (TMap (length m) cs))).

(** ** a value of the wrong kind *)
(** what it is called; numbers see C57_error_number_refuted *)
Definition found (v : ovalue okserd) : option unexp :=
  match v with
  | OUnit => Some XUnit
  | OBool b => Some (XBool b)
  | ONum _ => None
  | OStr t => Some (XStr (cow_get t))
  | OBarr b => Some (XBytes (cow_get b))
  | OTuple _ => Some (XOther (s "tuple"))
  | OCntr _ => Some (XOther (s "container"))
  | OSeq _ => Some XSeq
  | OMap _ => Some XMap
  end.
(** what the method asks for, if the value is something else *)
Definition asked_for (m : method) (v : ovalue okserd) : option str :=
  match m, v with
  | MInt _, ONum _ => None
  | MInt t, _ => Some (ntype_name t)
  | MChar, OStr t => match cow_get t with [_] => None | _ => Some (s "char") end
  | MChar, _ => Some (s "char")
  | MUnitStruct, OTuple [] => None
  | MUnitStruct, _ => Some (s "unit struct")
  | _, _ => None
  end.
