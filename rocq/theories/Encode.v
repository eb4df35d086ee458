(** Model of /repo/src/encode: the serde [Serializer] (encoder.rs) and
    [Deserializer] (decoder.rs) for Kserd.

    serde calls these through the [Serialize]/[Deserialize] implementations of a
    type.  Those are not in /repo: the ones of the standard types (crate serde)
    and the ones written by #[derive] are modelled here from serde's
    documentation ([enc], and the visitors in [dec]). *)
From Verif Require Import Base F64 F32 Number BTree Value.
Open Scope N_scope.

(** ** Rust types and their values (not in /repo) *)
(** [TyNamed n] is a struct or enum declared by the program; declarations may be
    recursive.  Arrays are tuples to serde, Box<T> is T.  [TyBytes] is a byte
    buffer which uses serialize_bytes (crate serde_bytes).  Not included:
    references, sets (sequences to serde), serde attributes. *)
Inductive ty : Type :=
| TyUnit | TyBool | TyInt (t : ntype) | TyF64 | TyF32 | TyChar | TyString | TyBytes
| TyOption (t : ty)
| TyTuple (l : list ty)
| TyVec (t : ty)
| TyMap (k v : ty)            (* BTreeMap *)
| TyNamed (n : N).
(** the forms of an enum variant (Rust; not in /repo) *)
Inductive shape : Type :=
| ShUnit                            (* V *)
| ShNewtype (t : ty)                (* V(T) *)
| ShTuple (l : list ty)             (* V() or V(T, U, ..) *)
| ShStruct (fs : list (str * ty)).  (* V { a: T, .. } *)
Inductive def : Type :=
| DefUnit (name : str)                          (* struct S; *)
| DefNewtype (name : str) (t : ty)              (* struct S(T); *)
| DefTuple (name : str) (l : list ty)           (* struct S(); struct S(T, U, ..); *)
| DefStruct (name : str) (fs : list (str * ty)) (* struct S { a: T, .. } *)
| DefEnum (vs : list (str * shape)).
(** the struct and enum declarations of a program (not in /repo) *)
Definition decls : Type := N -> def.

(** the values of Rust types (not in /repo) *)
Inductive data : Type :=
| DUnit                        (* () and unit structs *)
| DBool (b : bool) | DInt (n : Z) | DF64 (x : f64) | DF32 (x : f32) | DChar (c : char) | DString (t : str) | DBytes (b : list N)
| DNone | DSome (d : data)
| DList (l : list data)        (* tuples, Vec, the fields of tuple structs and variants *)
| DMap (m : list (data * data))
| DNewtype (d : data)
| DRecord (l : list data)      (* named fields, in the order of the declaration *)
| DVariant (i : nat) (d : data).

(** the derived Ord, which orders the keys of a BTreeMap.  f64 and f32 have no Ord. *)
Definition dtag (d : data) : N :=
  match d with
  | DUnit => 0 | DBool _ => 1 | DInt _ => 2 | DF64 _ => 3 | DF32 _ => 14 | DChar _ => 4 | DString _ => 5 | DBytes _ => 6
  | DNone => 7 | DSome _ => 8 | DList _ => 9 | DMap _ => 10 | DNewtype _ => 11 | DRecord _ => 12 | DVariant _ _ => 13
  end.
(** the derived Ord of Rust values (not in /repo) *)
Fixpoint d_cmp (a b : data) {struct a} : comparison :=
  match a, b with
  | DBool x, DBool y => bool_cmp x y
  | DInt x, DInt y => Z.compare x y
  | DChar x, DChar y => N.compare x y
  | DString x, DString y => str_cmp x y
  | DBytes x, DBytes y => bytes_cmp x y
  | DSome x, DSome y => d_cmp x y
  | DList x, DList y => list_cmp d_cmp x y
  | DMap x, DMap y => list_cmp (fun e f => match d_cmp (fst e) (fst f) with Eq => d_cmp (snd e) (snd f) | c => c end) x y
  | DNewtype x, DNewtype y => d_cmp x y
  | DRecord x, DRecord y => list_cmp d_cmp x y
  | DVariant i x, DVariant j y => match Nat.compare i j with Eq => d_cmp x y | c => c end
  | _, _ => N.compare (dtag a) (dtag b)
  end.

(** UTF-8 (Rust standard library): [str::as_bytes], [String::from_utf8] *)
Definition utf8_char (c : char) : list N :=
  if c <? 128 then [c]
  else if c <? 2048 then [192 + c / 64; 128 + c mod 64]
  else if c <? 65536 then [224 + c / 4096; 128 + c / 64 mod 64; 128 + c mod 64]
  else [240 + c / 262144; 128 + c / 4096 mod 64; 128 + c / 64 mod 64; 128 + c mod 64].
(** [str::as_bytes] (Rust standard library) *)
Definition utf8 (t : str) : list N := flat_map utf8_char t.
(** the code points a [char] can be (Rust reference) *)
Definition scalar (c : char) : bool := (c <? 55296) || ((57343 <? c) && (c <? 1114112)).
(** UTF-8 decoding without checks (Rust standard library) *)
Fixpoint utf8_scan (b : list N) : str :=
  match b with
  | [] => []
  | x :: r =>
      if x <? 128 then x :: utf8_scan r
      else if x <? 224 then
        match r with y :: r => ((x - 192) * 64 + (y - 128)) :: utf8_scan r | _ => [] end
      else if x <? 240 then
        match r with y :: z :: r => ((x - 224) * 4096 + (y - 128) * 64 + (z - 128)) :: utf8_scan r | _ => [] end
      else
        match r with y :: z :: w :: r => ((x - 240) * 262144 + (y - 128) * 4096 + (z - 128) * 64 + (w - 128)) :: utf8_scan r | _ => [] end
  end.
(** [String::from_utf8] (Rust standard library) *)
Definition from_utf8 (b : list N) : option str :=
  let t := utf8_scan b in if forallb scalar t && bytes_eqb (utf8 t) b then Some t else None.

(** ** Encoder *)
(** encode/encoder.rs 242-254.  NoKeyAvailable is for a [Serialize] which gives a map's
    value before its key; Message for one which fails itself (see Ser.v).  [EPanic] is the
    [expect] in ds/num.rs 507-509.  [EIllTyped] has no counterpart: the value is not of
    the type. *)
Inductive enc_err : Type := EInvalidId (id : str) | EPanic | EIllTyped.
(** encode/encoder.rs 242-254: Result<_, Error> *)
Definition eres (A : Type) : Type := (enc_err + A)%type.
(** [?] on it *)
Definition ebind {A B} (r : eres A) (f : A -> eres B) : eres B := match r with inl e => inl e | inr a => f a end.
(** [.map_err(Error::InvalidId)] *)
Definition e_with_id (id : str) (v : value kserd) : eres kserd :=
  match with_id id v with inl id => inl (EInvalidId id) | inr k => inr k end.

(** serde: usize and isize are serialized as 64 bit integers *)
Definition serde_int (t : ntype) : ntype := match t with Tusize => Tu64 | Tisize => Ti64 | t => t end.

(** SeqLike and TupleLike, encode/encoder.rs 276-354: elements are pushed one after the other *)
Definition enc_all (f : data -> eres kserd) : list data -> eres (list kserd) :=
  fix go l := match l with
    | [] => inr []
    | d :: l' => ebind (f d) (fun k => ebind (go l') (fun ks => inr (k :: ks)))
    end.
(** encode/encoder.rs 280-354, elements of different types *)
Definition enc_each (f : ty -> data -> eres kserd) : list ty -> list data -> eres (list kserd) :=
  fix go ts l {struct l} := match l, ts with
    | [], [] => inr []
    | d :: l', t :: ts' => ebind (f t d) (fun k => ebind (go ts' l') (fun ks => inr (k :: ks)))
    | _, _ => inl EIllTyped
    end.
(** MapLike, encode/encoder.rs 356-401 *)
Definition enc_entries (f g : data -> eres kserd) : list (data * data) -> list (kserd * kserd) -> eres (list (kserd * kserd)) :=
  fix go m acc := match m with
    | [] => inr acc
    | (d, e) :: m' => ebind (f d) (fun k => ebind (g e) (fun v => go m' (bt_insert k_cmp k v acc)))
    end.
(** CntrLike, encode/encoder.rs 403-451 *)
Definition enc_fields (f : ty -> data -> eres kserd) : list (str * ty) -> list data -> list (str * kserd) -> eres (list (str * kserd)) :=
  fix go fs l acc {struct l} := match l, fs with
    | [], [] => inr acc
    | d :: l', (n, t) :: fs' => ebind (f t d) (fun k => go fs' l' (bt_insert str_cmp n k acc))
    | _, _ => inl EIllTyped
    end.

(** [data.serialize(Encoder)], Kserd::enc (encode/mod.rs 96-98).  The Encoder's methods (encode/encoder.rs):
    bool 70-72; integers 74-112; f32 114-116; f64 118-120; char 122-127; str 129-131; bytes
    133-135; none 137-139; some 141-146; unit 148-150; unit_struct 152-154;
    unit_variant 156-158; newtype_struct 160-162; newtype_variant 164-173; seq
    175-179; tuple 181-185; tuple_struct 187-192; tuple_variant 194-205; map
    207-212; struct 214-218; struct_variant 220-230 *)
Fixpoint enc (E : decls) (t : ty) (d : data) {struct d} : eres kserd :=
  match t, d with
  | TyUnit, DUnit => inr new_unit
  | TyBool, DBool b => inr (new_bool b)
  | TyInt t, DInt n => inr (new_int (serde_int t) n)
  | TyF64, DF64 x => inr (new_f64 x)
  | TyF32, DF32 x => match f32_to_f64 x with Ret y => inr (with_id_unchk (s "f32") (VNum (Float y))) | Panic _ => inl EPanic end
  | TyChar, DChar c => inr (with_id_unchk (s "char") (VStr [c]))
  | TyString, DString t => inr (into_owned (new_str t))
  | TyBytes, DBytes b => inr (into_owned (new_barr b))
  | TyOption _, DNone => inr (with_id_unchk (s "None") (VTuple []))
  | TyOption t, DSome d => ebind (enc E t d) (fun k => inr (with_id_unchk (s "Some") (VTuple [k])))
  | TyTuple ts, DList l => ebind (enc_each (enc E) ts l) (fun ks => inr (knew (VTuple ks)))
  | TyVec t, DList l => ebind (enc_all (enc E t) l) (fun ks => inr (knew (VSeq ks)))
  | TyMap kt vt, DMap m => ebind (enc_entries (enc E kt) (enc E vt) m []) (fun m => inr (knew (VMap m)))
  | TyNamed n, d =>
      match E n, d with
      | DefUnit name, DUnit => e_with_id name (VTuple [])
      | DefNewtype name t, DNewtype d => ebind (enc E t d) (fun k => e_with_id name (VTuple [k]))
      | DefTuple name ts, DList l =>
          ebind (e_with_id name (VTuple [])) (fun _ => ebind (enc_each (enc E) ts l) (fun ks => inr (Kserd (Some name) (VTuple ks))))
      | DefStruct name fs, DRecord l =>
          ebind (e_with_id name (VCntr [])) (fun _ => ebind (enc_fields (enc E) fs l []) (fun m => inr (Kserd (Some name) (VCntr m))))
      | DefEnum vs, DVariant i d =>
          match nth_error vs i with
          | Some (name, ShUnit) => match d with DUnit => e_with_id name (VTuple []) | _ => inl EIllTyped end
          | Some (name, ShNewtype t) => ebind (enc E t d) (fun k => e_with_id name (VTuple [k]))
          | Some (name, ShTuple ts) =>
              match d with
              | DList l => ebind (e_with_id name (VTuple [])) (fun _ => ebind (enc_each (enc E) ts l) (fun ks => inr (Kserd (Some name) (VTuple ks))))
              | _ => inl EIllTyped
              end
          | Some (name, ShStruct fs) =>
              match d with
              | DRecord l => ebind (e_with_id name (VCntr [])) (fun _ => ebind (enc_fields (enc E) fs l []) (fun m => inr (Kserd (Some name) (VCntr m))))
              | _ => inl EIllTyped
              end
          | None => inl EIllTyped
          end
      | _, _ => inl EIllTyped
      end
  | _, _ => inl EIllTyped
  end.

(** ** Decoder *)
(** a serde [Visitor]: what it does with each kind of value; the error is [None]
    (error texts are not modelled) *)
Inductive num_visit : Type := U64 (n : Z) | U128 (n : Z) | I64 (n : Z) | I128 (n : Z) | VF64 (x : f64).
(** serde::de::Visitor (crate serde; not in /repo) *)
Record visitor (R : Type) : Type := mkVisitor {
  visit_unit : option R;
  visit_bool : bool -> option R;
  visit_num : num_visit -> option R;
  visit_str : str -> option R;
  visit_bytes : list N -> option R;
  visit_none : option R;
  visit_some : kserd -> option R;
  visit_newtype : kserd -> option R;
  visit_seq : list kserd -> option R;
  visit_map : list (kserd * kserd) -> option R;   (* keys are Kserds *)
  visit_fields : list (str * kserd) -> option R   (* a map access whose keys are texts *)
}.
Arguments mkVisitor {R}.
Arguments visit_unit {R}. Arguments visit_bool {R}. Arguments visit_num {R}. Arguments visit_str {R}.
Arguments visit_bytes {R}. Arguments visit_none {R}. Arguments visit_some {R}. Arguments visit_newtype {R}.
Arguments visit_seq {R}. Arguments visit_map {R}. Arguments visit_fields {R}.
(** the default of a Visitor's method: an invalid type error *)
Definition no {A R : Type} : A -> option R := fun _ => None.

(** whether [v as i64] or [v as u64] keeps a value, as serde asks (crate serde) *)
Definition fits64 (signed : bool) (n : Z) : bool := in_ntype (if signed then Ti64 else Tu64) n.
(** encode/decoder.rs 131-183.  The sequence and map accesses of serde (SeqDeserializer,
    MapDeserializer) hand out the items in order; whether all are taken is not
    checked here ([end] is not called). *)
Definition deserialize_any {R} (V : visitor R) (k : kserd) : option R :=
  match k with
  | Kserd id v =>
      match v with
      | VUnit => visit_unit V
      | VBool b => visit_bool V b
      | VNum (Uint n) => visit_num V (if fits64 false n then U64 n else U128 n)
      | VNum (Int n) => visit_num V (if fits64 true n then I64 n else I128 n)
      | VNum (Float x) => visit_num V (VF64 x)
      | VStr t => visit_str V t
      | VBarr b => visit_bytes V b
      | VTuple l =>
          match l with
          | [] => match id with
                  | Some i => if str_eqb i (s "None") then visit_none V else visit_seq V l
                  | None => visit_seq V l
                  end
          | [x] => match id with
                   | Some i => if str_eqb i (s "Some") then visit_some V x else visit_newtype V x
                   | None => visit_seq V l
                   end
          | _ => visit_seq V l
          end
      | VCntr m => visit_fields V m
      | VSeq l => visit_seq V l
      | VMap m => visit_map V m
      end
  end.

(** de_integer, decoder.rs 107-126 *)
Definition deserialize_int (t : ntype) (k : kserd) : option Z :=
  match kval k with
  | VNum n => opt_bind (if ntype_signed t then as_i128 n else as_u128 n) (fun x => if in_ntype t x then Some x else None)
  | _ => None
  end.
(** encode/decoder.rs 210-215 *)
Definition deserialize_f64 (k : kserd) : option f64 := match kval k with VNum n => Some (as_f64 n) | _ => None end.
(** encode/decoder.rs 204-209 *)
Definition deserialize_f32 (k : kserd) : option f32 := match kval k with VNum n => Some (f64_to_f32 (as_f64 n)) | _ => None end.
(** encode/decoder.rs 217-231 *)
Definition deserialize_char (k : kserd) : option char := match kval k with VStr [c] => Some c | _ => None end.
(** encode/decoder.rs 233-242 *)
Definition deserialize_unit_struct (k : kserd) : bool := match kval k with VTuple [] => true | _ => false end.
(** EnumAccess::variant_seed, decoder.rs 265-277: the id, or an error *)
Definition variant_id (k : kserd) : option str := kid k.
(** VariantAccess::unit_variant, decoder.rs 282-288 *)
Definition unit_variant (k : kserd) : bool := match kval k with VUnit | VTuple [] => true | _ => false end.

(** the place of a name in a declaration *)
Fixpoint position {A} (n : str) (l : list (str * A)) : option (nat * A) :=
  match l with
  | [] => None
  | (m, a) :: l' => if str_eqb n m then Some (O, a) else option_map (fun p => (S (fst p), snd p)) (position n l')
  end.

(** serde: [next_element] for each of the types; too few elements are an error,
    further ones are not looked at *)
Definition dec_each (f : ty -> kserd -> option data) : list ty -> list kserd -> option (list data) :=
  fix go ts l {struct l} := match ts, l with
    | [], _ => Some []
    | t :: ts', k :: l' => opt_bind (f t k) (fun d => option_map (cons d) (go ts' l'))
    | _ :: _, [] => None
    end.
(** serde SeqAccess over all elements (crate serde) *)
Definition dec_all {A} (f : kserd -> option A) : list kserd -> option (list A) :=
  fix go l := match l with
    | [] => Some []
    | k :: l' => opt_bind (f k) (fun d => option_map (cons d) (go l'))
    end.
(** the entries of a map, inserted in turn *)
Definition dec_entries (f g : kserd -> option data) : list (kserd * kserd) -> list (data * data) -> option (list (data * data)) :=
  fix go m acc := match m with
    | [] => Some acc
    | (k, v) :: m' => opt_bind (f k) (fun d => opt_bind (g v) (fun e => go m' (bt_insert d_cmp d e acc)))
    end.
(** serde MapAccess over fields (crate serde) *)
Definition dec_named (f : str -> option data) (g : kserd -> option data) : list (str * kserd) -> list (data * data) -> option (list (data * data)) :=
  fix go m acc := match m with
    | [] => Some acc
    | (k, v) :: m' => opt_bind (f k) (fun d => opt_bind (g v) (fun e => go m' (bt_insert d_cmp d e acc)))
    end.
(** the entries which belong to a field, by the field's index; the values of
    other entries are skipped (serde's IgnoredAny takes every value) *)
Definition dec_struct {K} (ident : K -> option (option (nat * ty))) (f : ty -> kserd -> option data) : list (K * kserd) -> option (list (nat * data)) :=
  fix go m := match m with
    | [] => Some []
    | (n, k) :: m' =>
        opt_bind (ident n) (fun o =>
          match o with
          | Some (i, t) => opt_bind (f t k) (fun d => option_map (cons (i, d)) (go m'))
          | None => go m'
          end)
    end.
(** derive: a field given twice is an error; an absent one as well, unless its
    type is an Option *)
Fixpoint twice (l : list (nat * data)) : bool :=
  match l with [] => false | (i, _) :: l' => existsb (fun e => Nat.eqb i (fst e)) l' || twice l' end.
(** what serde_derive puts for a missing field *)
Definition absent (t : ty) : option data := match t with TyOption _ => Some DNone | _ => None end.
(** the fields of a struct in the order of its declaration (serde_derive) *)
Fixpoint take_fields (i : nat) (fs : list (str * ty)) (l : list (nat * data)) : option (list data) :=
  match fs with
  | [] => Some []
  | (_, t) :: fs' =>
      opt_bind (match find (fun e => Nat.eqb i (fst e)) l with Some (_, d) => Some d | None => absent t end)
        (fun d => option_map (cons d) (take_fields (S i) fs' l))
  end.
(** the visit_map of a struct (serde_derive) *)
Definition dec_record (fs : list (str * ty)) (l : list (nat * data)) : option data :=
  if twice l then None else option_map DRecord (take_fields O fs l).
(** derive: the field an identifier stands for; [Some None] for an unknown one.
    A text is a name, an integer an index, bytes are the name's bytes. *)
Definition field_name (fs : list (str * ty)) (n : str) : option (option (nat * ty)) := Some (position n fs).
(** the field identifier of serde_derive *)
Definition field_visitor (fs : list (str * ty)) : visitor (option (nat * ty)) :=
  mkVisitor None no (fun v => match v with
      | U64 n => Some (option_map (fun f => (Z.to_nat n, snd f)) (if (n <? Z.of_nat (length fs))%Z then nth_error fs (Z.to_nat n) else None))
      | _ => None
      end)
    (field_name fs) (fun b => Some (position b (map (fun f => (utf8 (fst f), snd f)) fs))) None no no no no no.

(** serde: decoding a map's key from a text (CowStrDeserializer) *)
Definition dec_name (E : decls) (t : ty) (n : str) : option data :=
  match t with
  | TyString => Some (DString n)
  | TyBytes => Some (DBytes (utf8 n))
  | TyChar => match n with [c] => Some (DChar c) | _ => None end
  | TyNamed i =>
      match E i with
      | DefEnum vs => match position n vs with Some (i, ShUnit) => Some (DVariant i DUnit) | _ => None end
      | _ => None
      end
  | _ => None
  end.

(** [T::deserialize(Decoder(k))], Kserd::decode (encode/mod.rs 109-111), with serde's
    and derive's visitor for each type.  forward_to_deserialize_any, decoder.rs
    185-189; deserialize_enum 244-251; newtype_variant 290-307, tuple_variant
    309-326, struct_variant 328-345 *)
Fixpoint dec (E : decls) (t : ty) (k : kserd) {struct k} : option data :=
  match t with
  | TyUnit => deserialize_any (mkVisitor (Some DUnit) no no no no None no no no no no) k
  | TyBool => deserialize_any (mkVisitor None (fun b => Some (DBool b)) no no no None no no no no no) k
  | TyInt t => option_map DInt (deserialize_int t k)
  | TyF64 => option_map DF64 (deserialize_f64 k)
  | TyF32 => option_map DF32 (deserialize_f32 k)
  | TyChar => option_map DChar (deserialize_char k)
  | TyString => deserialize_any (mkVisitor None no no (fun t => Some (DString t)) (fun b => option_map DString (from_utf8 b)) None no no no no no) k
  | TyBytes =>
      deserialize_any (mkVisitor None no no (fun t => Some (DBytes (utf8 t))) (fun b => Some (DBytes b)) None no no
        (fun l => option_map (fun b => DBytes (map Z.to_N b)) (dec_all (deserialize_int Tu8) l)) no no) k
  | TyOption t =>
      deserialize_any (mkVisitor (Some DNone) no no no no (Some DNone) (fun x => option_map DSome (dec E t x)) no no no no) k
  | TyTuple ts =>
      deserialize_any (mkVisitor None no no no no None no no (fun l => option_map DList (dec_each (dec E) ts l)) no no) k
  | TyVec t =>
      deserialize_any (mkVisitor None no no no no None no no (fun l => option_map DList (dec_all (dec E t) l)) no no) k
  | TyMap kt vt =>
      deserialize_any (mkVisitor None no no no no None no no no
        (fun m => option_map DMap (dec_entries (dec E kt) (dec E vt) m []))
        (fun m => option_map DMap (dec_named (dec_name E kt) (dec E vt) m []))) k
  | TyNamed n =>
      match E n with
      | DefUnit _ => if deserialize_unit_struct k then Some DUnit else None
      | DefNewtype _ t =>
          deserialize_any (mkVisitor None no no no no None no (fun x => option_map DNewtype (dec E t x))
            (fun l => match l with x :: _ => option_map DNewtype (dec E t x) | [] => None end) no no) k
      | DefTuple _ ts =>
          deserialize_any (mkVisitor None no no no no None no no (fun l => option_map DList (dec_each (dec E) ts l)) no no) k
      | DefStruct _ fs =>
          deserialize_any (mkVisitor None no no no no None no no
            (fun l => option_map DRecord (dec_each (dec E) (map snd fs) l))
            (fun m => opt_bind (dec_struct (fun n => deserialize_any (field_visitor fs) n) (dec E) m) (dec_record fs))
            (fun m => opt_bind (dec_struct (field_name fs) (dec E) m) (dec_record fs))) k
      | DefEnum vs =>
          opt_bind (variant_id k) (fun id => opt_bind (position id vs) (fun p =>
            option_map (DVariant (fst p))
              match snd p with
              | ShUnit => if unit_variant k then Some DUnit else None
              | ShNewtype t => match k with Kserd _ (VTuple [x]) => dec E t x | _ => None end
              | ShTuple ts =>
                  match k with
                  | Kserd _ (VTuple l) => if Nat.eqb (length l) (length ts) then option_map DList (dec_each (dec E) ts l) else None
                  | _ => None
                  end
              | ShStruct fs =>
                  match k with
                  | Kserd _ (VCntr m) => opt_bind (dec_struct (field_name fs) (dec E) m) (dec_record fs)
                  | _ => None
                  end
              end))
      end
  end.

(** ** the value is of the type *)
Definition each_of (f : ty -> data -> bool) : list ty -> list data -> bool :=
  fix go ts l {struct l} := match l, ts with
    | [], [] => true
    | d :: l', t :: ts' => f t d && go ts' l'
    | _, _ => false
    end.
(** no float inside: needed for Ord *)
Fixpoint has_ord (d : data) : bool :=
  match d with
  | DF64 _ | DF32 _ => false
  | DSome d | DNewtype d | DVariant _ d => has_ord d
  | DList l | DRecord l => forallb has_ord l
  | DMap m => forallb (fun e => has_ord (fst e) && has_ord (snd e)) m
  | _ => true
  end.
(** the value is of the type (not in /repo) *)
Fixpoint has_type (E : decls) (t : ty) (d : data) {struct d} : bool :=
  match t, d with
  | TyUnit, DUnit | TyBool, DBool _ | TyChar, DChar _ | TyString, DString _ | TyOption _, DNone => true
  | TyInt t, DInt n => in_ntype t n
  | TyF64, DF64 x => f64_wf x
  | TyF32, DF32 x => f32_wf x
  | TyBytes, DBytes b => forallb (fun x => x <? 256) b
  | TyOption t, DSome d => has_type E t d
  | TyTuple ts, DList l => each_of (has_type E) ts l
  | TyVec t, DList l => forallb (has_type E t) l
  | TyMap kt vt, DMap m =>
      forallb (fun e => has_type E kt (fst e) && has_ord (fst e) && has_type E vt (snd e)) m && ascending d_cmp m
  | TyNamed n, d =>
      match E n, d with
      | DefUnit _, DUnit => true
      | DefNewtype _ t, DNewtype d => has_type E t d
      | DefTuple _ ts, DList l => each_of (has_type E) ts l
      | DefStruct _ fs, DRecord l => each_of (has_type E) (map snd fs) l
      | DefEnum vs, DVariant i d =>
          match nth_error vs i with
          | Some (_, ShUnit) => match d with DUnit => true | _ => false end
          | Some (_, ShNewtype t) => has_type E t d
          | Some (_, ShTuple ts) => match d with DList l => each_of (has_type E) ts l | _ => false end
          | Some (_, ShStruct fs) => match d with DRecord l => each_of (has_type E) (map snd fs) l | _ => false end
          | None => false
          end
      | _, _ => false
      end
  | _, _ => false
  end.
