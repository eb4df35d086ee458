(** Owned and borrowed data: Kserd with its clone-on-write texts and bytes, and
    the decoder with types that hold references.

    Value.v and Encode.v leave ownership out; [content] is the view they have. *)
From Verif Require Import Base F64 F32 Number BTree Value Encode Parse ParseErr.
Open Scope N_scope.

(** ** Kstr and Barr (ds/kstr.rs 11-118, ds/barr.rs 11-118) *)
(** [Cow] (Rust standard library) *)
Inductive cow (A : Type) : Type := Borrowed (a : A) | Owned (a : A).
Arguments Borrowed {A} a.
Arguments Owned {A} a.
(** as_str, as_bytes, deref, as_ref, borrow: kstr.rs 40-42, 75-93, barr.rs 41-43, 76-88.
    ==, cmp and hash are those of the contents (derive: kstr.rs 11, barr.rs 11; with a str, kstr.rs 119-123). *)
Definition cow_get {A} (c : cow A) : A := match c with Borrowed a | Owned a => a end.
(** ds/kstr.rs 70-72, barr.rs 71-73 *)
Definition cow_into_owned {A} (c : cow A) : cow A := Owned (cow_get c).
(** ds/kstr.rs 55-57, barr.rs 56-58: the data is copied if it is borrowed, then changed by the caller *)
Definition cow_to_mut {A} (f : A -> A) (c : cow A) : cow A := Owned (f (cow_get c)).
(** Cow::clone *)
Definition cow_clone {A} (c : cow A) : cow A := c.
(** [Cow::Owned] (Rust standard library) *)
Definition is_owned {A} (c : cow A) : bool := match c with Owned _ => true | Borrowed _ => false end.
(** [Cow::Borrowed] (Rust standard library) *)
Definition is_brwed {A} (c : cow A) : bool := negb (is_owned c).

(** ** Value and Kserd: val.rs 39-81, kserd.rs 44-57 *)
Inductive ovalue (K : Type) : Type :=
| OUnit
| OBool (b : bool)
| ONum (n : number)
| OStr (t : cow str)
| OBarr (bs : cow (list N))
| OTuple (l : list K)
| OCntr (m : list (cow str * K))
| OSeq (l : list K)
| OMap (m : list (K * K)).
Arguments OUnit {K}.
Arguments OBool {K} b.
Arguments ONum {K} n.
Arguments OStr {K} t.
Arguments OBarr {K} bs.
Arguments OTuple {K} l.
Arguments OCntr {K} m.
Arguments OSeq {K} l.
Arguments OMap {K} m.
(** ds/kserd.rs 44-57 *)
Inductive okserd : Type := OKserd (id : option (cow str)) (val : ovalue okserd).
(** ds/kserd.rs 278-280 *)
Definition okid (k : okserd) : option (cow str) := let 'OKserd i _ := k in i.
(** ds/kserd.rs 56 *)
Definition okval (k : okserd) : ovalue okserd := let 'OKserd _ v := k in v.

(** the Kserd of Value.v *)
Fixpoint content (k : okserd) : kserd :=
  match k with
  | OKserd id v =>
      Kserd (option_map cow_get id) (match v with
        | OUnit => VUnit | OBool b => VBool b | ONum n => VNum n | OStr t => VStr (cow_get t) | OBarr b => VBarr (cow_get b)
        | OTuple l => VTuple (map content l)
        | OCntr m => VCntr (map (fun e => (cow_get (fst e), content (snd e))) m)
        | OSeq l => VSeq (map content l)
        | OMap m => VMap (map (fun e => (content (fst e), content (snd e))) m)
        end)
  end.
(** Kstr's and Kserd's order, which the maps use *)
Definition ostr_cmp (a b : cow str) : comparison := str_cmp (cow_get a) (cow_get b).
(** ds/kserd.rs 346-350: the order does not see who owns a text *)
Definition o_cmp (a b : okserd) : comparison := k_cmp (content a) (content b).

(** every text and byte array in the tree, ids and names included *)
Fixpoint o_texts (f : forall A, cow A -> bool) (k : okserd) : bool :=
  match k with
  | OKserd id v =>
      match id with Some i => f _ i | None => true end &&
      match v with
      | OUnit | OBool _ | ONum _ => true
      | OStr t => f _ t
      | OBarr b => f _ b
      | OTuple l | OSeq l => forallb (o_texts f) l
      | OCntr m => forallb (fun e => f _ (fst e) && o_texts f (snd e)) m
      | OMap m => forallb (fun e => o_texts f (fst e) && o_texts f (snd e)) m
      end
  end.
(** nothing in the tree is borrowed *)
Definition all_owned : okserd -> bool := o_texts (@is_owned).
(** nothing in the tree is owned *)
Definition all_brwed : okserd -> bool := o_texts (@is_brwed).

(** ** into_owned, mk_brw, clone *)
(** ds/val.rs 657-693 with kserd.rs 299-307 *)
Fixpoint o_into_owned (k : okserd) : okserd :=
  match k with
  | OKserd id v =>
      OKserd (option_map cow_into_owned id) (match v with
        | OUnit => OUnit | OBool b => OBool b | ONum n => ONum n
        | OStr t => OStr (cow_into_owned t)
        | OBarr b => OBarr (cow_into_owned b)
        | OTuple l => OTuple (map o_into_owned l)
        | OCntr m => OCntr (bt_inserts ostr_cmp (map (fun e => (cow_into_owned (fst e), o_into_owned (snd e))) m))
        | OSeq l => OSeq (map o_into_owned l)
        | OMap m => OMap (bt_inserts o_cmp (map (fun e => (o_into_owned (fst e), o_into_owned (snd e))) m))
        end)
  end.
(** ds/val.rs 711-747 with kserd.rs 325-329 *)
Fixpoint o_mk_brw (k : okserd) : okserd :=
  match k with
  | OKserd id v =>
      OKserd (option_map (fun i => Borrowed (cow_get i)) id) (match v with
        | OUnit => OUnit | OBool b => OBool b | ONum n => ONum n
        | OStr t => OStr (Borrowed (cow_get t))
        | OBarr b => OBarr (Borrowed (cow_get b))
        | OTuple l => OTuple (map o_mk_brw l)
        | OCntr m => OCntr (bt_inserts ostr_cmp (map (fun e => (Borrowed (cow_get (fst e)), o_mk_brw (snd e))) m))
        | OSeq l => OSeq (map o_mk_brw l)
        | OMap m => OMap (bt_inserts o_cmp (map (fun e => (o_mk_brw (fst e), o_mk_brw (snd e))) m))
        end)
  end.
(** ds/val.rs 750-764 with kserd.rs 352-360 *)
Fixpoint o_clone (k : okserd) : okserd :=
  match k with
  | OKserd id v =>
      OKserd (option_map cow_clone id) (match v with
        | OUnit => OUnit | OBool b => OBool b | ONum n => ONum n
        | OStr t => OStr (cow_clone t)
        | OBarr b => OBarr (cow_clone b)
        | OTuple l => OTuple (map o_clone l)
        | OCntr m => OCntr (map (fun e => (cow_clone (fst e), o_clone (snd e))) m)
        | OSeq l => OSeq (map o_clone l)
        | OMap m => OMap (map (fun e => (o_clone (fst e), o_clone (snd e))) m)
        end)
  end.

(** ** what the parser and the encoder give *)
(** parse/prims.rs 44 and parse/names.rs 12, 38: texts, ids and names are
    borrowed from the input; parse/prims.rs 66: bytes are decoded and owned.
    Simplification: the ownership is put on the result of [Parse.parse]. *)
Fixpoint read_owned (k : kserd) : okserd :=
  match k with
  | Kserd id v =>
      OKserd (option_map Borrowed id) (match v with
        | VUnit => OUnit | VBool b => OBool b | VNum n => ONum n
        | VStr t => OStr (Borrowed t)
        | VBarr b => OBarr (Owned b)
        | VTuple l => OTuple (map read_owned l)
        | VCntr m => OCntr (map (fun e => (Borrowed (fst e), read_owned (snd e))) m)
        | VSeq l => OSeq (map read_owned l)
        | VMap m => OMap (map (fun e => (read_owned (fst e), read_owned (snd e))) m)
        end)
  end.
(** parse, parse/mod.rs 210-219, with the ownership *)
Definition parse_owned (txt : str) : option okserd := match parse txt with ParseOk k => Some (read_owned k) | _ => None end.
(** encode/encoder.rs 122-135: texts and bytes are owned, as are the ids of texts and
    byte arrays.  The other ids, and names, are literals of the program, borrowed
    for ever (encode/encoder.rs 152-230, 407-451).  Simplification: the ownership is put on the
    result of [enc]. *)
Definition enc_id (v : value kserd) (i : str) : cow str :=
  match v with
  | VStr _ => if str_eqb i (s "str") then Owned i else Borrowed i
  | VBarr _ => if str_eqb i (s "barr") then Owned i else Borrowed i
  | _ => Borrowed i
  end.
(** encode/encoder.rs 70-230: who owns the parts of what it gives *)
Fixpoint enc_owned (k : kserd) : okserd :=
  match k with
  | Kserd id v =>
      OKserd (option_map (enc_id v) id) (match v with
        | VUnit => OUnit | VBool b => OBool b | VNum n => ONum n
        | VStr t => OStr (Owned t)
        | VBarr b => OBarr (Owned b)
        | VTuple l => OTuple (map enc_owned l)
        | VCntr m => OCntr (map (fun e => (Borrowed (fst e), enc_owned (snd e))) m)
        | VSeq l => OSeq (map enc_owned l)
        | VMap m => OMap (map (fun e => (enc_owned (fst e), enc_owned (snd e))) m)
        end)
  end.

(** Kserd::enc, encode/mod.rs 96-98, with the ownership *)
Definition enc_kserd (E : decls) (t : ty) (d : data) : option okserd := match enc E t d with inr k => Some (enc_owned k) | inl _ => None end.

(** ** Rust types which may hold references (not in /repo) *)
(** [ty] of Encode.v with &str and &[u8] *)
Inductive oty : Type :=
| OtUnit | OtBool | OtInt (t : ntype) | OtF64 | OtF32 | OtChar | OtString | OtBytes
| OtStr                      (* &str *)
| OtSlice                    (* &[u8] *)
| OtOption (t : oty)
| OtTuple (l : list oty)
| OtVec (t : oty)
| OtMap (k v : oty)
| OtNamed (n : N).
(** as [shape] in Encode.v *)
Inductive oshape : Type :=
| OhUnit
| OhNewtype (t : oty)
| OhTuple (l : list oty)
| OhStruct (fs : list (str * oty)).
(** as [def] in Encode.v *)
Inductive odef : Type :=
| OdUnit (name : str)
| OdNewtype (name : str) (t : oty)
| OdTuple (name : str) (l : list oty)
| OdStruct (name : str) (fs : list (str * oty))
| OdEnum (vs : list (str * oshape)).
(** as [decls] in Encode.v *)
Definition odecls : Type := N -> odef.

(** the type with String for &str and a byte buffer for &[u8] *)
Fixpoint own_ty (t : oty) : ty :=
  match t with
  | OtUnit => TyUnit | OtBool => TyBool | OtInt t => TyInt t | OtF64 => TyF64 | OtF32 => TyF32 | OtChar => TyChar
  | OtString | OtStr => TyString
  | OtBytes | OtSlice => TyBytes
  | OtOption t => TyOption (own_ty t)
  | OtTuple l => TyTuple (map own_ty l)
  | OtVec t => TyVec (own_ty t)
  | OtMap k v => TyMap (own_ty k) (own_ty v)
  | OtNamed n => TyNamed n
  end.
(** as [own_ty], field by field *)
Definition own_fields (fs : list (str * oty)) : list (str * ty) := map (fun f => (fst f, own_ty (snd f))) fs.
(** as [own_ty], in a variant *)
Definition own_shape (h : oshape) : shape :=
  match h with
  | OhUnit => ShUnit | OhNewtype t => ShNewtype (own_ty t) | OhTuple l => ShTuple (map own_ty l) | OhStruct fs => ShStruct (own_fields fs)
  end.
(** as [own_ty], in a declaration *)
Definition own_def (d : odef) : def :=
  match d with
  | OdUnit n => DefUnit n | OdNewtype n t => DefNewtype n (own_ty t) | OdTuple n l => DefTuple n (map own_ty l)
  | OdStruct n fs => DefStruct n (own_fields fs) | OdEnum vs => DefEnum (map (fun v => (fst v, own_shape (snd v))) vs)
  end.
(** as [own_ty], in all declarations *)
Definition own_decls (E : odecls) : decls := fun n => own_def (E n).

(** ** Decoder, with the difference the ownership makes *)
(** a serde [Visitor].  visit_string and visit_byte_buf do what visit_str and
    visit_bytes do for the visitors here. *)
Record ovisitor (R : Type) : Type := mkOVisitor {
  ov_unit : option R;
  ov_bool : bool -> option R;
  ov_num : num_visit -> option R;
  ov_borrowed_str : str -> option R;
  ov_string : str -> option R;
  ov_borrowed_bytes : list N -> option R;
  ov_byte_buf : list N -> option R;
  ov_none : option R;
  ov_some : okserd -> option R;
  ov_newtype : okserd -> option R;
  ov_seq : list okserd -> option R;
  ov_map : list (okserd * okserd) -> option R;
  ov_fields : list (cow str * okserd) -> option R
}.
Arguments mkOVisitor {R}.
Arguments ov_unit {R}. Arguments ov_bool {R}. Arguments ov_num {R}. Arguments ov_borrowed_str {R}. Arguments ov_string {R}.
Arguments ov_borrowed_bytes {R}. Arguments ov_byte_buf {R}. Arguments ov_none {R}. Arguments ov_some {R}. Arguments ov_newtype {R}.
Arguments ov_seq {R}. Arguments ov_map {R}. Arguments ov_fields {R}.

(** encode/decoder.rs 131-183 *)
Definition o_any {R} (V : ovisitor R) (k : okserd) : option R :=
  match k with
  | OKserd id v =>
      match v with
      | OUnit => ov_unit V
      | OBool b => ov_bool V b
      | ONum (Uint n) => ov_num V (if fits64 false n then U64 n else U128 n)
      | ONum (Int n) => ov_num V (if fits64 true n then I64 n else I128 n)
      | ONum (Float x) => ov_num V (VF64 x)
      | OStr (Borrowed t) => ov_borrowed_str V t
      | OStr (Owned t) => ov_string V t
      | OBarr (Borrowed b) => ov_borrowed_bytes V b
      | OBarr (Owned b) => ov_byte_buf V b
      | OTuple l =>
          match l with
          | [] => match option_map cow_get id with
                  | Some i => if str_eqb i (s "None") then ov_none V else ov_seq V l
                  | None => ov_seq V l
                  end
          | [x] => match option_map cow_get id with
                   | Some i => if str_eqb i (s "Some") then ov_some V x else ov_newtype V x
                   | None => ov_seq V l
                   end
          | _ => ov_seq V l
          end
      | OCntr m => ov_fields V m
      | OSeq l => ov_seq V l
      | OMap m => ov_map V m
      end
  end.
(** de_integer, decoder.rs 107-126 *)
Definition o_int (t : ntype) (k : okserd) : option Z :=
  match okval k with
  | ONum n => opt_bind (if ntype_signed t then as_i128 n else as_u128 n) (fun x => if in_ntype t x then Some x else None)
  | _ => None
  end.
(** encode/decoder.rs 210-215 *)
Definition o_f64 (k : okserd) : option f64 := match okval k with ONum n => Some (as_f64 n) | _ => None end.
(** encode/decoder.rs 204-209 *)
Definition o_f32 (k : okserd) : option f32 := match okval k with ONum n => Some (f64_to_f32 (as_f64 n)) | _ => None end.
(** encode/decoder.rs 217-231: as_str, whoever owns it *)
Definition o_char (k : okserd) : option char := match okval k with OStr t => match cow_get t with [c] => Some c | _ => None end | _ => None end.
(** encode/decoder.rs 233-242 *)
Definition o_unit_struct (k : okserd) : bool := match okval k with OTuple [] => true | _ => false end.
(** encode/decoder.rs 265-277: a text borrowed from the Decoder, to serde a passing one *)
Definition o_variant_id (k : okserd) : option str := option_map cow_get (okid k).
(** encode/decoder.rs 282-288 *)
Definition o_unit_variant (k : okserd) : bool := match okval k with OUnit | OTuple [] => true | _ => false end.

(** as in Encode.v *)
Definition odec_each (f : oty -> okserd -> option data) : list oty -> list okserd -> option (list data) :=
  fix go ts l {struct l} := match ts, l with
    | [], _ => Some []
    | t :: ts', k :: l' => opt_bind (f t k) (fun d => option_map (cons d) (go ts' l'))
    | _ :: _, [] => None
    end.
(** as [dec_all] in Encode.v *)
Definition odec_all {A} (f : okserd -> option A) : list okserd -> option (list A) :=
  fix go l := match l with
    | [] => Some []
    | k :: l' => opt_bind (f k) (fun d => option_map (cons d) (go l'))
    end.
(** the entries of a map; [K] is okserd, or cow str for the fields of a container *)
Definition odec_entries {K} (f : K -> option data) (g : okserd -> option data) : list (K * okserd) -> list (data * data) -> option (list (data * data)) :=
  fix go m acc := match m with
    | [] => Some acc
    | (k, v) :: m' => opt_bind (f k) (fun d => opt_bind (g v) (fun e => go m' (bt_insert d_cmp d e acc)))
    end.
(** as [dec_struct] in Encode.v *)
Definition odec_struct {K} (ident : K -> option (option (nat * oty))) (f : oty -> okserd -> option data) : list (K * okserd) -> option (list (nat * data)) :=
  fix go m := match m with
    | [] => Some []
    | (n, k) :: m' =>
        opt_bind (ident n) (fun o =>
          match o with
          | Some (i, t) => opt_bind (f t k) (fun d => option_map (cons (i, d)) (go m'))
          | None => go m'
          end)
    end.
(** as [absent] in Encode.v *)
Definition oabsent (t : oty) : option data := match t with OtOption _ => Some DNone | _ => None end.
(** as [take_fields] in Encode.v *)
Fixpoint otake_fields (i : nat) (fs : list (str * oty)) (l : list (nat * data)) : option (list data) :=
  match fs with
  | [] => Some []
  | (_, t) :: fs' =>
      opt_bind (match find (fun e => Nat.eqb i (fst e)) l with Some (_, d) => Some d | None => oabsent t end)
        (fun d => option_map (cons d) (otake_fields (S i) fs' l))
  end.
(** as [dec_record] in Encode.v *)
Definition odec_record (fs : list (str * oty)) (l : list (nat * data)) : option data :=
  if twice l then None else option_map DRecord (otake_fields O fs l).
(** as in Encode.v, for a field name *)
Definition ofield_name (fs : list (str * oty)) (n : str) : option (option (nat * oty)) := Some (position n fs).
(** as [field_visitor] in Encode.v *)
Definition ofield_visitor (fs : list (str * oty)) : ovisitor (option (nat * oty)) :=
  let bytes b := Some (position b (map (fun f => (utf8 (fst f), snd f)) fs)) in
  mkOVisitor None no (fun v => match v with
      | U64 n => Some (option_map (fun f => (Z.to_nat n, snd f)) (if (n <? Z.of_nat (length fs))%Z then nth_error fs (Z.to_nat n) else None))
      | _ => None
      end)
    (ofield_name fs) (ofield_name fs) bytes bytes None no no no no no.
(** serde's CowStrDeserializer, which decodes the name of a field, visits a
    passing text for both kinds of text: a reference cannot be had from it *)
Definition odec_name (E : odecls) (t : oty) (n : cow str) : option data :=
  match t with
  | OtString => Some (DString (cow_get n))
  | OtBytes => Some (DBytes (utf8 (cow_get n)))
  | OtStr | OtSlice => None
  | OtChar => match cow_get n with [c] => Some (DChar c) | _ => None end
  | OtNamed i =>
      match E i with
      | OdEnum vs => match position (cow_get n) vs with Some (i, OhUnit) => Some (DVariant i DUnit) | _ => None end
      | _ => None
      end
  | _ => None
  end.

(** [T::deserialize(Decoder(k))], Kserd::decode (encode/mod.rs 109-111) *)
Fixpoint odec (E : odecls) (t : oty) (k : okserd) {struct k} : option data :=
  let text t := Some (DString t) in
  let utf b := option_map DString (from_utf8 b) in
  let tbytes t := Some (DBytes (utf8 t)) in
  let bytes b := Some (DBytes b) in
  match t with
  | OtUnit => o_any (mkOVisitor (Some DUnit) no no no no no no None no no no no no) k
  | OtBool => o_any (mkOVisitor None (fun b => Some (DBool b)) no no no no no None no no no no no) k
  | OtInt t => option_map DInt (o_int t k)
  | OtF64 => option_map DF64 (o_f64 k)
  | OtF32 => option_map DF32 (o_f32 k)
  | OtChar => option_map DChar (o_char k)
  | OtString => o_any (mkOVisitor None no no text text utf utf None no no no no no) k
  | OtStr => o_any (mkOVisitor None no no text no utf no None no no no no no) k
  | OtBytes =>
      o_any (mkOVisitor None no no tbytes tbytes bytes bytes None no no
        (fun l => option_map (fun b => DBytes (map Z.to_N b)) (odec_all (o_int Tu8) l)) no no) k
  | OtSlice => o_any (mkOVisitor None no no tbytes no bytes no None no no no no no) k
  | OtOption t =>
      o_any (mkOVisitor (Some DNone) no no no no no no (Some DNone) (fun x => option_map DSome (odec E t x)) no no no no) k
  | OtTuple ts => o_any (mkOVisitor None no no no no no no None no no (fun l => option_map DList (odec_each (odec E) ts l)) no no) k
  | OtVec t => o_any (mkOVisitor None no no no no no no None no no (fun l => option_map DList (odec_all (odec E t) l)) no no) k
  | OtMap kt vt =>
      o_any (mkOVisitor None no no no no no no None no no no
        (fun m => option_map DMap (odec_entries (odec E kt) (odec E vt) m []))
        (fun m => option_map DMap (odec_entries (odec_name E kt) (odec E vt) m []))) k
  | OtNamed n =>
      match E n with
      | OdUnit _ => if o_unit_struct k then Some DUnit else None
      | OdNewtype _ t =>
          o_any (mkOVisitor None no no no no no no None no (fun x => option_map DNewtype (odec E t x))
            (fun l => match l with x :: _ => option_map DNewtype (odec E t x) | [] => None end) no no) k
      | OdTuple _ ts => o_any (mkOVisitor None no no no no no no None no no (fun l => option_map DList (odec_each (odec E) ts l)) no no) k
      | OdStruct _ fs =>
          o_any (mkOVisitor None no no no no no no None no no
            (fun l => option_map DRecord (odec_each (odec E) (map snd fs) l))
            (fun m => opt_bind (odec_struct (fun n => o_any (ofield_visitor fs) n) (odec E) m) (odec_record fs))
            (fun m => opt_bind (odec_struct (fun n => ofield_name fs (cow_get n)) (odec E) m) (odec_record fs))) k
      | OdEnum vs =>
          opt_bind (o_variant_id k) (fun id => opt_bind (position id vs) (fun p =>
            option_map (DVariant (fst p))
              match snd p with
              | OhUnit => if o_unit_variant k then Some DUnit else None
              | OhNewtype t => match k with OKserd _ (OTuple [x]) => odec E t x | _ => None end
              | OhTuple ts =>
                  match k with
                  | OKserd _ (OTuple l) => if Nat.eqb (length l) (length ts) then option_map DList (odec_each (odec E) ts l) else None
                  | _ => None
                  end
              | OhStruct fs =>
                  match k with
                  | OKserd _ (OCntr m) => opt_bind (odec_struct (fun n => ofield_name fs (cow_get n)) (odec E) m) (odec_record fs)
                  | _ => None
                  end
              end))
      end
  end.
