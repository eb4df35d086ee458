(** The provided conversions and serde: which types and values correspond. *)
From Verif Require Import Base F64 F32 Number BTree Value ToKserd Encode.
Open Scope N_scope.

(** ** the type as serde sees it.  Box<T> is T, an array is a tuple, a Result is
    an enum, and text is read as a String.  Kserd has no serde implementation. *)
Inductive serde_ty (E : decls) : rty -> ty -> Prop :=
| s_int t : serde_ty E (YInt t) (TyInt t)
| s_f64 : serde_ty E YF64 TyF64
| s_f32 : serde_ty E YF32 TyF32
| s_unit : serde_ty E YUnit TyUnit
| s_bool : serde_ty E YBool TyBool
| s_char : serde_ty E YChar TyChar
| s_string : serde_ty E YString TyString
| s_str : serde_ty E YStr TyString
| s_tuple ys ts : Forall2 (serde_ty E) ys ts -> serde_ty E (YTuple ys) (TyTuple ts)
| s_array n y t : serde_ty E y t -> serde_ty E (YArray n y) (TyTuple (repeat t n))
| s_vec y t : serde_ty E y t -> serde_ty E (YVec y) (TyVec t)
| s_box y t : serde_ty E y t -> serde_ty E (YBox y) t
| s_option y t : serde_ty E y t -> serde_ty E (YOption y) (TyOption t)
| s_result y z t u q : serde_ty E y t -> serde_ty E z u ->
    E q = DefEnum [(s "Ok", ShNewtype t); (s "Err", ShNewtype u)] -> serde_ty E (YResult y z) (TyNamed q).

(** ** the value as serde sees it *)
Fixpoint data_of (v : rval) : data :=
  match v with
  | RInt _ n => DInt n
  | RF64 x => DF64 x
  | RF32 x => DF32 x
  | RUnit => DUnit
  | RBool b => DBool b
  | RChar c => DChar c
  | RString t | RStr t => DString t
  | RTuple l | RArray l | RVec l => DList (map data_of l)
  | RBox v => data_of v
  | RSome v => DSome (data_of v)
  | RNone => DNone
  | ROk v => DVariant 0 (data_of v)
  | RErr v => DVariant 1 (data_of v)
  | RKserd _ => DUnit (* no serde type *)
  end.

(** ** conditions on the value *)
(** no Some in the value *)
Fixpoint no_some (v : rval) : bool :=
  match v with
  | RSome _ => false
  | RTuple l | RArray l | RVec l => forallb no_some l
  | RBox x | ROk x | RErr x => no_some x
  | _ => true
  end.
(** no array in the value *)
Fixpoint no_array (v : rval) : bool :=
  match v with
  | RArray _ => false
  | RTuple l | RVec l => forallb no_array l
  | RBox x | RSome x | ROk x | RErr x => no_array x
  | _ => true
  end.
(** no Kserd in the value *)
Fixpoint no_kserd (v : rval) : bool :=
  match v with
  | RKserd _ => false
  | RTuple l | RArray l | RVec l => forallb no_kserd l
  | RBox x | RSome x | ROk x | RErr x => no_kserd x
  | _ => true
  end.

(** ** the id of the Kserd of a value of the type *)
Inductive names_type : rty -> option str -> Prop :=
| nt_int t : names_type (YInt t) (Some (ntype_name t))
| nt_f64 : names_type YF64 (Some (s "f64"))
| nt_f32 : names_type YF32 (Some (s "f32"))
| nt_unit : names_type YUnit None
| nt_bool : names_type YBool (Some (s "bool"))
| nt_char : names_type YChar (Some (s "char"))
| nt_string : names_type YString (Some (s "String"))
| nt_str : names_type YStr (Some (s "str"))
| nt_tuple l : names_type (YTuple l) None
| nt_array n t : names_type (YArray n t) (Some (s "array"))
| nt_vec t : names_type (YVec t) (Some (s "Vec"))
| nt_box t i : names_type t i -> names_type (YBox t) i
| nt_some t i : names_type t i -> names_type (YOption t) i
| nt_none t : names_type (YOption t) (Some (s "None"))
| nt_ok t e : names_type (YResult t e) (Some (s "Ok"))
| nt_err t e : names_type (YResult t e) (Some (s "Err"))
| nt_kserd i : names_type YKserd i.
