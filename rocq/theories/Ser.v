(** The Encoder (encode/encoder.rs 57-451) driven by any [Serialize]
    implementation, not only the ones of Encode.v.

    An implementation of [Serialize] is generic in the serializer, so all it can
    do is to call one method of the Encoder it is given, make further calls on
    what that method returns, look at the errors, and return.  [ser] is such an
    implementation for one value: the tree of what it does next after each
    outcome.  It may go on after an error or fail by itself; it must end and
    depend on nothing but the outcomes.  Length hints are left out: they only size
    an allocation. *)
From Verif Require Import Base F64 F32 Number BTree Value Encode.
Open Scope N_scope.

(** encode/encoder.rs 242-254 *)
Inductive ser_err : Type := NoKeyAvailable | InvalidId (id : str) | Message (msg : str).
(** Result<_, Error>, or a panic (which the implementation cannot see) *)
Inductive sres (A : Type) : Type := SOk (a : A) | SErr (e : ser_err) | SPanic.
Arguments SOk {A}. Arguments SErr {A}. Arguments SPanic {A}.
(** [?] (not in /repo) *)
Definition sbind {A B} (r : sres A) (f : A -> sres B) : sres B :=
  match r with SOk a => f a | SErr e => SErr e | SPanic => SPanic end.

(** what a [Serialize] implementation does (not in /repo) *)
Inductive ser : Type :=
| SBool (b : bool) | SInt (t : ntype) (n : Z) | SF32 (x : f32) | SF64 (x : f64) | SChar (c : char)
| SStr (t : str) | SBytes (b : list N) | SCollectStr (t : str)
| SNone | SSome (p : ser) | SUnit
| SUnitStruct (name : str) | SUnitVariant (name : str)
| SNewtypeStruct (name : str) (p : ser) | SNewtypeVariant (name : str) (p : ser)
| SSeq (c : elems) | STuple (c : elems) | STupleStruct (name : str) (c : elems) | STupleVariant (name : str) (c : elems)
| SMap (c : entries)
| SStruct (name : str) (c : fields) | SStructVariant (name : str) (c : fields)
| SCustom (msg : str)                               (* fail without using the Encoder *)
| SThen (p : ser) (f : option ser_err -> option str) (* look at the outcome, perhaps fail instead *)
with elems : Type :=
| ElEnd
| ElRaise (e : ser_err)                              (* return an error *)
| ElCall (p : ser) (next : option ser_err -> elems)  (* serialize_element, serialize_field *)
with entries : Type :=
| EnEnd
| EnRaise (e : ser_err)
| EnKey (p : ser) (next : option ser_err -> entries)
| EnValue (p : ser) (next : option ser_err -> entries)
| EnEntry (p q : ser) (next : option ser_err -> entries)
with fields : Type :=
| FlEnd
| FlRaise (e : ser_err)
| FlCall (name : str) (p : ser) (next : option ser_err -> fields)
| FlSkip (name : str) (next : fields).               (* skip_field: serde's default does nothing *)

(** [Kserd::with_id(..).map_err(Error::InvalidId)], encode/encoder.rs 153, 157, 161, 171-172, 189-190, 202-203, 216, 228 *)
Definition s_with_id (id : str) (v : value kserd) : sres kserd :=
  match with_id id v with inl id => SErr (InvalidId id) | inr k => SOk k end.
(** encode/encoder.rs 284-291 *)
Definition seq_push (k : kserd) (x : kserd) : sres kserd :=
  match k with Kserd id (VSeq l) => SOk (Kserd id (VSeq (l ++ [x]))) | _ => SPanic end.
(** encode/encoder.rs 306-313, 324-331, 342-349 *)
Definition tuple_push (k : kserd) (x : kserd) : sres kserd :=
  match k with Kserd id (VTuple l) => SOk (Kserd id (VTuple (l ++ [x]))) | _ => SPanic end.
(** encode/encoder.rs 370-396, the insertions *)
Definition map_insert (k : kserd) (key v : kserd) : sres kserd :=
  match k with Kserd id (VMap m) => SOk (Kserd id (VMap (bt_insert k_cmp key v m))) | _ => SPanic end.
(** encode/encoder.rs 411-418, 434-441 *)
Definition field_insert (k : kserd) (name : str) (v : kserd) : sres kserd :=
  match k with Kserd id (VCntr m) => SOk (Kserd id (VCntr (bt_insert str_cmp name v m))) | _ => SPanic end.

(** The Encoder's methods, encode/encoder.rs: bool 70-72; integers 74-112; f32
    114-116; f64 118-120; char 122-127; str 129-131; bytes 133-135; none 137-139;
    some 141-146; unit 148-150; unit_struct 152-154; unit_variant 156-158;
    newtype_struct 160-162; newtype_variant 164-173; seq 175-179; tuple 181-185;
    tuple_struct 187-192; tuple_variant 194-205; map 207-212; struct 214-218;
    struct_variant 220-230; collect_str 232-237.
    [run_elems] is SeqLike (280-296) or TupleLike (302-354), [run_entries] is
    MapLike (361-401) with its pending key, [run_fields] is CntrLike (407-451). *)
Fixpoint run (p : ser) : sres kserd :=
  match p with
  | SBool b => SOk (new_bool b)
  | SInt t n => SOk (new_int t n)
  | SF32 x => match f32_to_f64 x with Ret y => SOk (with_id_unchk (s "f32") (VNum (Float y))) | Panic _ => SPanic end
  | SF64 x => SOk (new_f64 x)
  | SChar c => SOk (with_id_unchk (s "char") (VStr [c]))
  | SStr t => SOk (into_owned (new_str t))
  | SBytes b => SOk (into_owned (new_barr b))
  | SCollectStr t => SOk (into_owned (new_str t))
  | SNone => SOk (with_id_unchk (s "None") (VTuple []))
  | SSome p => sbind (run p) (fun k => SOk (with_id_unchk (s "Some") (VTuple [k])))
  | SUnit => SOk new_unit
  | SUnitStruct name => s_with_id name (VTuple [])
  | SUnitVariant name => s_with_id name (VTuple [])
  | SNewtypeStruct name p => sbind (run p) (fun k => s_with_id name (VTuple [k]))
  | SNewtypeVariant name p => sbind (run p) (fun k => s_with_id name (VTuple [k]))
  | SSeq c => run_elems seq_push (knew (VSeq [])) c
  | STuple c => run_elems tuple_push (knew (VTuple [])) c
  | STupleStruct name c => sbind (s_with_id name (VTuple [])) (fun k => run_elems tuple_push k c)
  | STupleVariant name c => sbind (s_with_id name (VTuple [])) (fun k => run_elems tuple_push k c)
  | SMap c => run_entries None (knew (VMap [])) c
  | SStruct name c => sbind (s_with_id name (VCntr [])) (fun k => run_fields k c)
  | SStructVariant name c => sbind (s_with_id name (VCntr [])) (fun k => run_fields k c)
  | SCustom msg => SErr (Message msg)
  | SThen p f =>
      match run p with
      | SOk k => match f None with None => SOk k | Some msg => SErr (Message msg) end
      | SErr e => match f (Some e) with None => SErr e | Some msg => SErr (Message msg) end
      | SPanic => SPanic
      end
  end
with run_elems (push : kserd -> kserd -> sres kserd) (st : kserd) (c : elems) : sres kserd :=
  match c with
  | ElEnd => SOk st
  | ElRaise e => SErr e
  | ElCall p next =>
      match sbind (run p) (push st) with
      | SOk st => run_elems push st (next None)
      | SErr e => run_elems push st (next (Some e))
      | SPanic => SPanic
      end
  end
with run_entries (key : option kserd) (st : kserd) (c : entries) : sres kserd :=
  match c with
  | EnEnd => SOk st
  | EnRaise e => SErr e
  | EnKey p next =>
      match run p with
      | SOk k => run_entries (Some k) st (next None)
      | SErr e => run_entries key st (next (Some e))
      | SPanic => SPanic
      end
  | EnValue p next =>
      match key with
      | None => run_entries None st (next (Some NoKeyAvailable))
      | Some k =>
          match sbind (run p) (map_insert st k) with
          | SOk st => run_entries None st (next None)
          | SErr e => run_entries None st (next (Some e))
          | SPanic => SPanic
          end
      end
  | EnEntry p q next =>
      match sbind (run p) (fun k => sbind (run q) (map_insert st k)) with
      | SOk st => run_entries key st (next None)
      | SErr e => run_entries key st (next (Some e))
      | SPanic => SPanic
      end
  end
with run_fields (st : kserd) (c : fields) : sres kserd :=
  match c with
  | FlEnd => SOk st
  | FlRaise e => SErr e
  | FlCall name p next =>
      match sbind (run p) (field_insert st name) with
      | SOk st => run_fields st (next None)
      | SErr e => run_fields st (next (Some e))
      | SPanic => SPanic
      end
  | FlSkip _ next => run_fields st next
  end.

(** ** Implementations which stop at the first error, as the usual ones do: one
    call after the other, each with [?], then [end] (not in /repo) *)
Fixpoint all_elems (l : list ser) : elems :=
  match l with
  | [] => ElEnd
  | p :: l => ElCall p (fun r => match r with None => all_elems l | Some e => ElRaise e end)
  end.
(** the calls on a map (not in /repo) *)
Inductive map_call : Type := Key (p : ser) | Val (p : ser) | Entry (p q : ser).
(** not in /repo *)
Fixpoint all_entries (l : list map_call) : entries :=
  match l with
  | [] => EnEnd
  | c :: l =>
      let next r := match r with None => all_entries l | Some e => EnRaise e end in
      match c with Key p => EnKey p next | Val p => EnValue p next | Entry p q => EnEntry p q next end
  end.
(** not in /repo *)
Fixpoint all_fields (l : list (str * ser)) : fields :=
  match l with
  | [] => FlEnd
  | (n, p) :: l => FlCall n p (fun r => match r with None => all_fields l | Some e => FlRaise e end)
  end.

(** ** The implementations of Encode.v: those of the standard types (crate serde)
    and of #[derive(Serialize)] (not in /repo) *)
Definition der_each (f : ty -> data -> ser) : list ty -> list data -> list ser :=
  fix go ts l {struct l} := match l, ts with d :: l, t :: ts => f t d :: go ts l | _, _ => [] end.
(** not in /repo *)
Definition der_fields (f : ty -> data -> ser) : list (str * ty) -> list data -> list (str * ser) :=
  fix go fs l {struct l} := match l, fs with d :: l, (n, t) :: fs => (n, f t d) :: go fs l | _, _ => [] end.
(** a value not of the type has no implementation: [SCustom] stands for it (not in /repo) *)
Fixpoint derive (E : decls) (t : ty) (d : data) {struct d} : ser :=
  match t, d with
  | TyUnit, DUnit => SUnit
  | TyBool, DBool b => SBool b
  | TyInt t, DInt n => SInt (serde_int t) n
  | TyF64, DF64 x => SF64 x
  | TyF32, DF32 x => SF32 x
  | TyChar, DChar c => SChar c
  | TyString, DString t => SStr t
  | TyBytes, DBytes b => SBytes b
  | TyOption _, DNone => SNone
  | TyOption t, DSome d => SSome (derive E t d)
  | TyTuple ts, DList l => STuple (all_elems (der_each (derive E) ts l))
  | TyVec t, DList l => SSeq (all_elems (map (derive E t) l))
  | TyMap kt vt, DMap m => SMap (all_entries (map (fun e => Entry (derive E kt (fst e)) (derive E vt (snd e))) m))
  | TyNamed n, d =>
      match E n, d with
      | DefUnit name, DUnit => SUnitStruct name
      | DefNewtype name t, DNewtype d => SNewtypeStruct name (derive E t d)
      | DefTuple name ts, DList l => STupleStruct name (all_elems (der_each (derive E) ts l))
      | DefStruct name fs, DRecord l => SStruct name (all_fields (der_fields (derive E) fs l))
      | DefEnum vs, DVariant i d =>
          match nth_error vs i with
          | Some (name, ShUnit) => SUnitVariant name
          | Some (name, ShNewtype t) => SNewtypeVariant name (derive E t d)
          | Some (name, ShTuple ts) => match d with DList l => STupleVariant name (all_elems (der_each (derive E) ts l)) | _ => SCustom [] end
          | Some (name, ShStruct fs) => match d with DRecord l => SStructVariant name (all_fields (der_fields (derive E) fs l)) | _ => SCustom [] end
          | None => SCustom []
          end
      | _, _ => SCustom []
      end
  | _, _ => SCustom []
  end.
