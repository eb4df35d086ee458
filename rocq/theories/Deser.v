(** The Decoder (encode/decoder.rs 104-366) driven by any [Deserialize]
    implementation, not only the ones of Encode.v and Own.v.

    An implementation of [Deserialize] is generic in the deserializer: all it can do
    is to call one method of the Decoder with a visitor, which is called back with a
    value or with an access to the parts, for each of which some implementation is
    run in turn.  [impl] is a family of such implementations, visitors and programs
    working on an access, named by states of any type [Q]; so they may be recursive,
    look at errors and go on.  [U] is whatever they produce, [Er] their errors.

    Simplifications: what an implementation makes of a text which serde's own
    deserializers give it (StrDeserializer for the name of a variant,
    CowStrDeserializer for the name of a field) is any function of that text.  After
    the end of a sequence or map no more calls are made (they would give None again),
    and the value of an entry is asked for at most once, after its key (serde panics
    otherwise).  The implementations themselves do not panic. *)
From Verif Require Import Base F64 F32 Number BTree Value Encode Own.
Open Scope N_scope.

(** the methods of a Deserializer (crate serde); the names of types, fields and
    variants which are passed along are not used by the Decoder *)
Inductive method : Type :=
| MAny | MBool | MInt (t : ntype) | MF32 | MF64 | MChar | MStr | MString | MBytes | MByteBuf | MOption | MUnit
| MUnitStruct | MNewtypeStruct | MSeq | MTuple (len : nat) | MTupleStruct (len : nat) | MMap | MStruct | MEnum | MIdentifier | MIgnoredAny.
(** a call of a visitor with a value (crate serde: Visitor); [VisitInt t] is visit_u8, .., visit_i128 *)
Inductive visit : Type :=
| VisitUnit | VisitBool (b : bool) | VisitInt (t : ntype) (n : Z) | VisitF32 (x : f32) | VisitF64 (x : f64) | VisitChar (c : char)
| VisitBorrowedStr (t : str) | VisitString (t : str) | VisitBorrowedBytes (b : list N) | VisitByteBuf (b : list N) | VisitNone.
(** crate serde: Unexpected, as far as it is used *)
Inductive unexp : Type :=
| XBool (b : bool) | XUnsigned (n : Z) | XSigned (n : Z) | XFloat (x : f64) | XStr (t : str) | XBytes (b : list N) | XUnit | XSeq | XMap | XOther (t : str).
(** the errors of the Decoder: encode/decoder.rs 371-381.  serde makes a text of the arguments of
    invalid_type and invalid_length; here they are kept. *)
Record errors (Er : Type) : Type := mkErrors {
  message : str -> Er;
  invalid_type : unexp -> str -> Er;
  invalid_length : nat -> str -> Er
}.
Arguments message {Er}. Arguments invalid_type {Er}. Arguments invalid_length {Er}.

(** ** what implementations do (crate serde; not in /repo) *)
Section Impl.
Variables Q U Er : Type.
(** Result<U, Er> *)
Definition dres : Type := (Er + U)%type.
(** [deserialize]: return, or call a method with a visitor and return something made of the outcome *)
Inductive action : Type :=
| Return (r : dres)
| Call (m : method) (v : Q) (post : dres -> dres).
(** [visit_seq], from one call to the next: return, or next_element *)
Inductive seq_action : Type :=
| SeqReturn (r : dres)
| SeqNext (d : Q) (next : dres -> Q) (none : dres).
(** [visit_map]: return, or next_key *)
Inductive map_action : Type :=
| MapReturn (r : dres)
| MapKey (d : Q) (next : dres -> Q) (none : dres).
(** after a key: go on without the value, or next_value *)
Inductive value_action : Type :=
| ValueSkip (m : Q)
| ValueNext (d : Q) (next : dres -> Q).
(** [visit_enum], after the variant: return or call a method of the VariantAccess *)
Inductive variant_action : Type :=
| VarReturn (r : dres)
| VarUnit (post : (Er + unit) -> dres)
| VarNewtype (d : Q) (post : dres -> dres)
| VarTuple (len : nat) (v : Q) (post : dres -> dres)
| VarStruct (v : Q) (post : dres -> dres).
(** [visit_enum]: return, or variant_seed *)
Inductive enum_action : Type :=
| EnumReturn (r : dres)
| EnumVariant (d : Q) (err : Er -> dres) (next : U -> variant_action).
(** implementations, visitors and programs on an access; the lengths are those of size_hint *)
Record impl : Type := mkImpl {
  start : Q -> action;
  on_value : Q -> visit -> dres;
  on_some : Q -> Q;
  on_newtype : Q -> Q;
  on_seq : Q -> nat -> Q;
  on_map : Q -> nat -> Q;
  on_enum : Q -> enum_action;
  seq_step : Q -> seq_action;
  map_step : Q -> map_action;
  value_step : Q -> value_action;
  on_variant_name : Q -> str -> dres;
  on_field_name : Q -> cow str -> dres
}.
End Impl.
Arguments Return {Q U Er}. Arguments Call {Q U Er}. Arguments SeqReturn {Q U Er}. Arguments SeqNext {Q U Er}.
Arguments MapReturn {Q U Er}. Arguments MapKey {Q U Er}. Arguments ValueSkip {Q U Er}. Arguments ValueNext {Q U Er}.
Arguments VarReturn {Q U Er}. Arguments VarUnit {Q U Er}. Arguments VarNewtype {Q U Er}. Arguments VarTuple {Q U Er}. Arguments VarStruct {Q U Er}.
Arguments EnumReturn {Q U Er}. Arguments EnumVariant {Q U Er}.
Arguments mkImpl {Q U Er}. Arguments start {Q U Er}. Arguments on_value {Q U Er}. Arguments on_some {Q U Er}. Arguments on_newtype {Q U Er}.
Arguments on_seq {Q U Er}. Arguments on_map {Q U Er}. Arguments on_enum {Q U Er}. Arguments seq_step {Q U Er}. Arguments map_step {Q U Er}.
Arguments value_step {Q U Er}. Arguments on_variant_name {Q U Er}. Arguments on_field_name {Q U Er}.

(** ** the Decoder *)
(** encode/decoder.rs 350-366.  [unwrap_or_default] gives 0 for what 64 bits do not hold. *)
Definition unexp_err (v : ovalue okserd) : unexp :=
  match v with
  | OUnit => XUnit
  | OBool b => XBool b
  | ONum (Uint n) => XUnsigned (if fits64 false n then n else 0%Z)
  | ONum (Int n) => XSigned (if fits64 true n then n else 0%Z)
  | ONum (Float x) => XFloat x
  | OStr t => XStr (cow_get t)
  | OBarr b => XBytes (cow_get b)
  | OTuple _ => XOther (s "tuple")
  | OCntr _ => XOther (s "container")
  | OSeq _ => XSeq
  | OMap _ => XMap
  end.

Section Run.
Context {Q U Er : Type} (E : errors Er) (I : impl Q U Er).

(** serde's SeqDeserializer: [f] runs an implementation on an element *)
Definition run_seq (f : Q -> okserd -> dres U Er) : Q -> list okserd -> dres U Er :=
  fix go p l {struct l} :=
    match seq_step I p with
    | SeqReturn r => r
    | SeqNext d next none => match l with [] => none | x :: l => go (next (f d x)) l end
    end.
(** serde's MapDeserializer: [g] runs an implementation on a key, [f] on a value *)
Definition run_map {K} (g : Q -> K -> dres U Er) (f : Q -> okserd -> dres U Er) : Q -> list (K * okserd) -> dres U Er :=
  fix go p l {struct l} :=
    match map_step I p with
    | MapReturn r => r
    | MapKey d next none =>
        match l with
        | [] => none
        | (k, x) :: l =>
            match value_step I (next (g d k)) with
            | ValueSkip p => go p l
            | ValueNext d next => go (next (f d x)) l
            end
        end
    end.

(** a method of the Decoder, called with the visitor [v]; [f] runs an implementation on a part.
    deserialize_any encode/decoder.rs 131-183, forwarded to 184-188; integers 107-126 and 190-203; f32 and
    f64 204-215; char 217-231; unit_struct 233-242; enum 244-251; variant_seed 265-277;
    unit_variant 282-288; newtype_variant 290-307; tuple_variant 309-326; struct_variant
    328-345.  The [stringify!($t)] of 207 and 213 is outside of the macro and gives the text $t. *)
Definition decode (f : Q -> okserd -> dres U Er) (m : method) (v : Q) (k : okserd) : dres U Er :=
  match k with
  | OKserd id val =>
      match m with
      | MInt t =>
          match val with
          | ONum n =>
              match (if ntype_signed t then as_i128 n else as_u128 n) with
              | None => inl (message E (s "original number is outside integers range"))
              | Some x => if in_ntype t x then on_value I v (VisitInt t x) else inl (message E (s "out of range integral type conversion attempted"))
              end
          | x => inl (invalid_type E (unexp_err x) (ntype_name t))
          end
      | MF32 =>
          match val with
          | ONum n => on_value I v (VisitF32 (f64_to_f32 (as_f64 n)))
          | x => inl (invalid_type E (unexp_err x) (s "$t"))
          end
      | MF64 =>
          match val with
          | ONum n => on_value I v (VisitF64 (as_f64 n))
          | x => inl (invalid_type E (unexp_err x) (s "$t"))
          end
      | MChar =>
          match val with
          | OStr t => match cow_get t with [c] => on_value I v (VisitChar c) | t => inl (invalid_type E (XStr t) (s "char")) end
          | x => inl (invalid_type E (unexp_err x) (s "char"))
          end
      | MUnitStruct =>
          match val with
          | OTuple [] => on_value I v VisitUnit
          | x => inl (invalid_type E (unexp_err x) (s "unit struct"))
          end
      | MEnum =>
          match on_enum I v with
          | EnumReturn r => r
          | EnumVariant d err next =>
              match option_map cow_get id with
              | None => err (message E (s "enum but no identity is present"))
              | Some id =>
                  match on_variant_name I d id with
                  | inl e => err e
                  | inr u =>
                      match next u with
                      | VarReturn r => r
                      | VarUnit post =>
                          post (match val with
                                | OUnit | OTuple [] => inr tt
                                | x => inl (invalid_type E (unexp_err x) (s "unit enum variant"))
                                end)
                      | VarNewtype d post =>
                          post (match val with
                                | OTuple [x] => f d x
                                | OTuple l => inl (invalid_length E (length l) (s "a tuple with a single element was expected"))
                                | x => inl (invalid_type E (unexp_err x) (s "newtype enum variant"))
                                end)
                      | VarTuple len v post =>
                          post (match val with
                                | OTuple l =>
                                    if Nat.eqb (length l) len then run_seq f (on_seq I v (length l)) l
                                    else inl (invalid_length E (length l) (s "a tuple with " ++ dec_of_N (N.of_nat len) ++ s " element(s) was expected"))
                                | x => inl (invalid_type E (unexp_err x) (s "tuple enum variant"))
                                end)
                      | VarStruct v post =>
                          post (match val with
                                | OCntr m => run_map (on_field_name I) f (on_map I v (length m)) m
                                | x => inl (invalid_type E (unexp_err x) (s "struct enum variant"))
                                end)
                      end
                  end
              end
          end
      | _ => (* deserialize_any and what is forwarded to it *)
          match val with
          | OUnit => on_value I v VisitUnit
          | OBool b => on_value I v (VisitBool b)
          | ONum (Uint n) => on_value I v (VisitInt (if fits64 false n then Tu64 else Tu128) n)
          | ONum (Int n) => on_value I v (VisitInt (if fits64 true n then Ti64 else Ti128) n)
          | ONum (Float x) => on_value I v (VisitF64 x)
          | OStr (Borrowed t) => on_value I v (VisitBorrowedStr t)
          | OStr (Owned t) => on_value I v (VisitString t)
          | OBarr (Borrowed b) => on_value I v (VisitBorrowedBytes b)
          | OBarr (Owned b) => on_value I v (VisitByteBuf b)
          | OTuple l =>
              match l, option_map cow_get id with
              | [], Some i => if str_eqb i (s "None") then on_value I v VisitNone else run_seq f (on_seq I v (length l)) l
              | [x], Some i => if str_eqb i (s "Some") then f (on_some I v) x else f (on_newtype I v) x
              | _, _ => run_seq f (on_seq I v (length l)) l
              end
          | OCntr m => run_map (on_field_name I) f (on_map I v (length m)) m
          | OSeq l => run_seq f (on_seq I v (length l)) l
          | OMap m => run_map f f (on_map I v (length m)) m
          end
      end
  end.
(** [T::deserialize(Decoder(k))] for the implementation [q]: Kserd::decode, encode/mod.rs 109-111 *)
Fixpoint run (q : Q) (k : okserd) {struct k} : dres U Er :=
  match start I q with
  | Return r => r
  | Call m v post => post (decode run m v k)
  end.
End Run.

(** ** The implementations of Own.v: those of the standard types (crate serde) and of
    #[derive(Deserialize)] (not in /repo) *)
(** a value, a field (None for an unknown one), a variant, or nothing (IgnoredAny) *)
Inductive produced : Type := PData (d : data) | PField (f : option (nat * oty)) | PVariant (v : nat * oshape) | PIgnored.
(** the implementations, visitors and programs of a type (crate serde, derive; not in /repo) *)
Inductive std_q (Er : Type) : Type :=
| QTy (t : oty)                                                   (* T *)
| QSome (t : oty) | QNewtype (t : oty)                            (* T, then Some or the struct around it *)
| QFieldId (fs : list (str * oty)) | QVariantId (vs : list (str * oshape)) (* the identifiers of derive *)
| QStructVariant (fs : list (str * oty))                          (* the visitor of a struct variant *)
| QEach (ts : list oty) (w : list data -> data) (acc : list data) (* one element of each type; the last first *)
| QAll (t : oty) (acc : list data)                                (* all elements *)
| QBytes (acc : list N)
| QFirst (t : oty)                                                (* one element, of a newtype struct *)
| QEntries (kt vt : oty) (acc : list (data * data))
| QEntry (kt vt : oty) (acc : list (data * data)) (k : data)      (* with its key *)
| QFields (fs : list (str * oty)) (acc : list (nat * data))
| QFieldOf (fs : list (str * oty)) (acc : list (nat * data)) (f : option (nat * oty))
| QIgnore
| QDone (r : dres produced Er).
Arguments QTy {Er}. Arguments QSome {Er}. Arguments QNewtype {Er}. Arguments QFieldId {Er}. Arguments QVariantId {Er}. Arguments QStructVariant {Er}.
Arguments QEach {Er}. Arguments QAll {Er}. Arguments QBytes {Er}. Arguments QFirst {Er}. Arguments QEntries {Er}. Arguments QEntry {Er}.
Arguments QFields {Er}. Arguments QFieldOf {Er}. Arguments QIgnore {Er}. Arguments QDone {Er}.

Section Std.
Context {Er : Type} (E : errors Er) (D : odecls).
(** the texts of the visitors' own errors are not modelled *)
Definition std_err : dres produced Er := inl (message E []).
(** a value or an error (not in /repo) *)
Definition or_err (o : option data) : dres produced Er := match o with Some d => inr (PData d) | None => std_err end.
(** Result::map on the value (not in /repo) *)
Definition on_data (f : data -> data) (r : dres produced Er) : dres produced Er := match r with inr (PData d) => inr (PData (f d)) | r => r end.
(** [?], with the value (not in /repo) *)
Definition then_data (f : data -> std_q Er) (r : dres produced Er) : std_q Er :=
  match r with inr (PData d) => f d | inr _ => QDone std_err | inl e => QDone (inl e) end.
(** the method a type's implementation calls (crate serde, derive; not in /repo) *)
Definition std_method (t : oty) : method :=
  match t with
  | OtUnit => MUnit | OtBool => MBool | OtInt t => MInt (serde_int t) | OtF64 => MF64 | OtF32 => MF32 | OtChar => MChar
  | OtString => MString | OtStr => MStr | OtBytes => MByteBuf | OtSlice => MBytes | OtOption _ => MOption
  | OtTuple ts => MTuple (length ts) | OtVec _ => MSeq | OtMap _ _ => MMap
  | OtNamed n =>
      match D n with
      | OdUnit _ => MUnitStruct | OdNewtype _ _ => MNewtypeStruct | OdTuple _ ts => MTupleStruct (length ts) | OdStruct _ _ => MStruct | OdEnum _ => MEnum
      end
  end.
(** what a type's visitor does with a value (crate serde, derive; not in /repo) *)
Definition std_value (t : oty) (v : visit) : option data :=
  match t, v with
  | OtUnit, VisitUnit => Some DUnit
  | OtBool, VisitBool b => Some (DBool b)
  | OtInt _, VisitInt _ n => Some (DInt n)
  | OtF64, VisitF64 x => Some (DF64 x)
  | OtF32, VisitF32 x => Some (DF32 x)
  | OtChar, VisitChar c => Some (DChar c)
  | OtString, (VisitBorrowedStr t | VisitString t) => Some (DString t)
  | OtString, (VisitBorrowedBytes b | VisitByteBuf b) => option_map DString (from_utf8 b)
  | OtStr, VisitBorrowedStr t => Some (DString t)
  | OtStr, VisitBorrowedBytes b => option_map DString (from_utf8 b)
  | OtBytes, (VisitBorrowedStr t | VisitString t) => Some (DBytes (utf8 t))
  | OtBytes, (VisitBorrowedBytes b | VisitByteBuf b) => Some (DBytes b)
  | OtSlice, VisitBorrowedStr t => Some (DBytes (utf8 t))
  | OtSlice, VisitBorrowedBytes b => Some (DBytes b)
  | OtOption _, (VisitNone | VisitUnit) => Some DNone
  | OtNamed n, VisitUnit => match D n with OdUnit _ => Some DUnit | _ => None end
  | _, _ => None
  end.
(** the field identifier of derive (not in /repo) *)
Definition std_field (fs : list (str * oty)) (v : visit) : dres produced Er :=
  let bytes b := inr (PField (position b (map (fun f => (utf8 (fst f), snd f)) fs))) in
  match v with
  | VisitInt Tu64 n => inr (PField (option_map (fun f => (Z.to_nat n, snd f)) (if (n <? Z.of_nat (length fs))%Z then nth_error fs (Z.to_nat n) else None)))
  | VisitBorrowedStr t | VisitString t => inr (PField (position t fs))
  | VisitBorrowedBytes b | VisitByteBuf b => bytes b
  | _ => std_err
  end.
(** after the variant's name (derive; not in /repo) *)
Definition std_variant (u : produced) : variant_action (std_q Er) produced Er :=
  match u with
  | PVariant (i, h) =>
      match h with
      | OhUnit => VarUnit (fun r => match r with inr _ => inr (PData (DVariant i DUnit)) | inl e => inl e end)
      | OhNewtype t => VarNewtype (QTy t) (on_data (DVariant i))
      | OhTuple ts => VarTuple (length ts) (QTy (OtTuple ts)) (on_data (DVariant i))
      | OhStruct fs => VarStruct (QStructVariant fs) (on_data (DVariant i))
      end
  | _ => VarReturn std_err
  end.
(** crate serde, derive; not in /repo *)
Definition std : impl (std_q Er) produced Er := mkImpl
  (fun q => match q with
    | QTy t => Call (std_method t) q (fun r => r)
    | QSome t => Call (std_method t) (QTy t) (on_data DSome)
    | QNewtype t => Call (std_method t) (QTy t) (on_data DNewtype)
    | QFieldId _ => Call MIdentifier q (fun r => r)
    | QIgnore => Call MIgnoredAny q (fun r => r)
    | QDone r => Return r
    | _ => Return std_err
    end)
  (fun q v => match q with
    | QTy t => or_err (std_value t v)
    | QFieldId fs => std_field fs v
    | QIgnore => inr PIgnored
    | _ => std_err
    end)
  (fun q => match q with QTy (OtOption t) => QSome t | QIgnore => QIgnore | _ => QDone std_err end)
  (fun q => match q with
    | QTy (OtNamed n) => match D n with OdNewtype _ t => QNewtype t | _ => QDone std_err end
    | QIgnore => QIgnore
    | _ => QDone std_err
    end)
  (fun q _ => match q with
    | QTy OtBytes => QBytes []
    | QTy (OtTuple ts) => QEach ts DList []
    | QTy (OtVec t) => QAll t []
    | QTy (OtNamed n) =>
        match D n with
        | OdNewtype _ t => QFirst t
        | OdTuple _ ts => QEach ts DList []
        | OdStruct _ fs => QEach (map snd fs) DRecord []
        | _ => QDone std_err
        end
    | QIgnore => QIgnore
    | _ => QDone std_err
    end)
  (fun q _ => match q with
    | QTy (OtMap kt vt) => QEntries kt vt []
    | QTy (OtNamed n) => match D n with OdStruct _ fs => QFields fs [] | _ => QDone std_err end
    | QStructVariant fs => QFields fs []
    | QIgnore => QIgnore
    | _ => QDone std_err
    end)
  (fun q => match q with
    | QTy (OtNamed n) => match D n with OdEnum vs => EnumVariant (QVariantId vs) inl std_variant | _ => EnumReturn std_err end
    | _ => EnumReturn std_err
    end)
  (fun q => match q with
    | QEach [] w acc => SeqReturn (inr (PData (w (rev acc))))
    | QEach (t :: ts) w acc => SeqNext (QTy t) (then_data (fun d => QEach ts w (d :: acc))) std_err
    | QAll t acc => SeqNext (QTy t) (then_data (fun d => QAll t (d :: acc))) (inr (PData (DList (rev acc))))
    | QBytes acc =>
        SeqNext (QTy (OtInt Tu8)) (then_data (fun d => match d with DInt n => QBytes (Z.to_N n :: acc) | _ => QDone std_err end)) (inr (PData (DBytes (rev acc))))
    | QFirst t => SeqNext (QNewtype t) QDone std_err
    | QIgnore => SeqNext QIgnore (fun r => match r with inr _ => QIgnore | inl e => QDone (inl e) end) (inr PIgnored)
    | QDone r => SeqReturn r
    | _ => SeqReturn std_err
    end)
  (fun q => match q with
    | QEntries kt vt acc => MapKey (QTy kt) (then_data (QEntry kt vt acc)) (inr (PData (DMap acc)))
    | QFields fs acc =>
        MapKey (QFieldId fs) (fun r => match r with inr (PField f) => QFieldOf fs acc f | inr _ => QDone std_err | inl e => QDone (inl e) end)
          (or_err (odec_record fs (rev acc)))
    | QIgnore => MapKey QIgnore (fun r => match r with inr _ => QIgnore | inl e => QDone (inl e) end) (inr PIgnored)
    | QDone r => MapReturn r
    | _ => MapReturn std_err
    end)
  (fun q => match q with
    | QEntry kt vt acc k => ValueNext (QTy vt) (then_data (fun d => QEntries kt vt (bt_insert d_cmp k d acc)))
    | QFieldOf fs acc (Some (i, t)) => ValueNext (QTy t) (then_data (fun d => QFields fs ((i, d) :: acc)))
    | QFieldOf fs acc None => ValueNext QIgnore (fun r => match r with inr _ => QFields fs acc | inl e => QDone (inl e) end)
    | QIgnore => ValueNext QIgnore (fun r => match r with inr _ => QIgnore | inl e => QDone (inl e) end)
    | q => ValueSkip q
    end)
  (fun q t => match q with QVariantId vs => match position t vs with Some v => inr (PVariant v) | None => std_err end | _ => std_err end)
  (fun q n => match q with
    | QTy t => or_err (odec_name D t n)
    | QFieldId fs => inr (PField (position (cow_get n) fs))
    | QIgnore => inr PIgnored
    | _ => std_err
    end).
(** Result::ok (not in /repo) *)
Definition answer (r : dres produced Er) : option data := match r with inr (PData d) => Some d | _ => None end.
End Std.
