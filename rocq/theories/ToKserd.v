(** Model of /repo/src/to_kserd.rs: the provided [ToKserd] implementations. *)
From Verif Require Import Base F64 F32 Number BTree Value.
Open Scope N_scope.

(** Values of the types with a provided implementation. *)
Inductive rval : Type :=
| RInt (t : ntype) (n : Z)
| RF64 (x : f64)
| RF32 (x : f32)
| RUnit
| RBool (b : bool)
| RChar (c : char)
| RString (t : str)
| RStr (t : str)
| RTuple (l : list rval)
| RArray (l : list rval)
| RVec (l : list rval)
| RBox (v : rval)
| RSome (v : rval)
| RNone
| ROk (v : rval)
| RErr (v : rval)
| RKserd (k : kserd).

(** to_kserd.rs 91-98, and the panic of [expect] in f32_to_f64 (num.rs 507-509) *)
Inductive tokserd_err : Type :=
| TEPanic
| TEInvalidId (id : str)
| TEInvalidFieldName (e : name_error).
(** to_kserd.rs 88: Result<_, ToKserdErr>; the From impls 117-127 are its constructors;
    a Kserd (111-115) is itself *)
Definition tres (A : Type) : Type := (tokserd_err + A)%type.
(** the [?] operator *)
Definition tbind {A B} (r : tres A) (f : A -> tres B) : tres B :=
  match r with inl e => inl e | inr a => f a end.

(** the [v.push(i.into_kserd()?)] loops: left to right, first error returned *)
Definition try_all {A} (f : A -> tres kserd) : list A -> tres (list kserd) :=
  fix go l := match l with
    | [] => inr []
    | x :: l' => tbind (f x) (fun k => tbind (go l') (fun ks => inr (k :: ks)))
    end.

(** to_kserd.rs: numbers 170-186 (f32 by ds/num.rs 495-499); () 188-192; bool 194-198; char 200-207; String 221-225;
    &str 227-231; tuples 242-258; arrays 273-289; Vec 347-355; Box 359-366;
    Option 380-390; Result 392-403; Kserd 111-115 *)
Fixpoint into_kserd (v : rval) : tres kserd :=
  match v with
  | RInt t n => inr (new_int t n)
  | RF64 x => inr (new_f64 x)
  | RF32 x => match f32_to_f64 x with Ret y => inr (with_id_unchk (s "f32") (VNum (Float y))) | Panic _ => inl TEPanic end
  | RUnit => inr new_unit
  | RBool b => inr (new_bool b)
  | RChar c => inr (with_id_unchk (s "char") (VStr [c]))
  | RString t => inr (new_string t)
  | RStr t => inr (new_str t)
  | RTuple l => tbind (try_all into_kserd l) (fun ks => inr (knew (VTuple ks)))
  | RArray l => tbind (try_all into_kserd l) (fun ks => inr (with_id_unchk (s "array") (VSeq ks)))
  | RVec l => tbind (try_all into_kserd l) (fun ks => inr (with_id_unchk (s "Vec") (VSeq ks)))
  | RBox x => into_kserd x
  | RSome x => into_kserd x
  | RNone => inr (with_id_unchk (s "None") (VTuple []))
  | ROk x => tbind (into_kserd x) (fun k => inr (with_id_unchk (s "Ok") (VTuple [k])))
  | RErr x => tbind (into_kserd x) (fun k => inr (with_id_unchk (s "Err") (VTuple [k])))
  | RKserd k => inr k
  end.

(** ** Types *)
Inductive rty : Type :=
| YInt (t : ntype) | YF64 | YF32 | YUnit | YBool | YChar | YString | YStr
| YTuple (l : list rty)       (* 1 to 12 elements *)
| YArray (n : nat) (t : rty)  (* 1 to 32 elements *)
| YVec (t : rty) | YBox (t : rty) | YOption (t : rty) | YResult (t e : rty) | YKserd.

(** equality of the names of the number types; not in /repo *)
Definition ntype_eq_dec (a b : ntype) : {a = b} + {a <> b}.
Proof. decide equality. Defined.

(** the value is of the type *)
Fixpoint of_type (t : rty) (v : rval) {struct v} : bool :=
  match v, t with
  | RInt u n, YInt t => (if ntype_eq_dec u t then true else false) && in_ntype t n
  | RF64 x, YF64 => num_wf (Float x)
  | RF32 x, YF32 => f32_wf x
  | RUnit, YUnit | RBool _, YBool | RChar _, YChar | RString _, YString | RStr _, YStr => true
  | RTuple l, YTuple ts =>
      (1 <=? length l)%nat && (length l <=? 12)%nat &&
      (fix go l ts := match l, ts with
         | [], [] => true
         | x :: l', t :: ts' => of_type t x && go l' ts'
         | _, _ => false
         end) l ts
  | RArray l, YArray n t =>
      (length l =? n)%nat && (1 <=? n)%nat && (n <=? 32)%nat && forallb (of_type t) l
  | RVec l, YVec t => forallb (of_type t) l
  | RBox x, YBox t => of_type t x
  | RSome x, YOption t => of_type t x
  | RNone, YOption _ => true
  | ROk x, YResult t _ => of_type t x
  | RErr x, YResult _ t => of_type t x
  | RKserd _, YKserd => true
  | _, _ => false
  end.
