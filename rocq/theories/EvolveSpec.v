(** Specification for C75: a value of the types of an old program, read as a value
    of the types of a new one. *)
From Verif Require Import Base F64 F32 F32Spec Number BTree Encode EncodeSpec.
From Coq Require Import Permutation.
Open Scope N_scope.

(** the elements of a tuple, place by place; elements at the end may be dropped *)
Inductive slots (R : ty -> ty -> data -> data -> Prop) : list ty -> list ty -> list data -> list data -> Prop :=
  | Sl_end ts l : slots R ts [] l []
  | Sl_next t ts u us d l e l' : R t u d e -> slots R ts us l l' -> slots R (t :: ts) (u :: us) (d :: l) (e :: l').

(** the new field [g] holds [e]: a field of that name was there before, at any place,
    or there was none and the new one is optional and empty *)
Inductive field_from (R : ty -> ty -> data -> data -> Prop) (fs : list (str * ty)) (l : list data) : str * ty -> data -> Prop :=
  | Ff_old i n t u d e : nth_error fs i = Some (n, t) -> nth_error l i = Some d -> R t u d e -> field_from R fs l (n, u) e
  | Ff_new n u : ~ In n (map fst fs) -> field_from R fs l (n, TyOption u) DNone.

(** the value [d] of the old program's type [t] is the value [e] of the new one's
    type [u]. [E] and [F] are the types the two programs declare. *)
Inductive becomes (E F : decls) : ty -> ty -> data -> data -> Prop :=
  | Be_unit : becomes E F TyUnit TyUnit DUnit DUnit
  | Be_bool b : becomes E F TyBool TyBool (DBool b) (DBool b)
  (* an integer type of another width or sign, as long as the value fits *)
  | Be_int t u n : in_ntype u n = true -> becomes E F (TyInt t) (TyInt u) (DInt n) (DInt n)
  | Be_int_f64 t n : becomes E F (TyInt t) TyF64 (DInt n) (DF64 (f_of_Z n))
  | Be_f64 x : becomes E F TyF64 TyF64 (DF64 x) (DF64 x)
  | Be_f32 x : f32_kept x -> becomes E F TyF32 TyF32 (DF32 x) (DF32 x)
  (* the f64 with the f32's shortest decimal text *)
  | Be_f32_f64 x y : f32_to_f64 x = Ret y -> becomes E F TyF32 TyF64 (DF32 x) (DF64 y)
  | Be_f64_f32 x : becomes E F TyF64 TyF32 (DF64 x) (DF32 (f64_to_f32 x))
  | Be_char c : becomes E F TyChar TyChar (DChar c) (DChar c)
  | Be_char_string c : becomes E F TyChar TyString (DChar c) (DString [c])
  | Be_string u : becomes E F TyString TyString (DString u) (DString u)
  | Be_string_bytes u : becomes E F TyString TyBytes (DString u) (DBytes (utf8 u))
  | Be_bytes b : becomes E F TyBytes TyBytes (DBytes b) (DBytes b)
  | Be_none t u : becomes E F (TyOption t) (TyOption u) DNone DNone
  | Be_some t u d e : becomes E F t u d e -> becomes E F (TyOption t) (TyOption u) (DSome d) (DSome e)
  | Be_tuple ts us l l' : slots (becomes E F) ts us l l' -> becomes E F (TyTuple ts) (TyTuple us) (DList l) (DList l')
  | Be_vec t u l l' : Forall2 (becomes E F t u) l l' -> becomes E F (TyVec t) (TyVec u) (DList l) (DList l')
  (* the new type may order the keys in another way, but they must stay distinct *)
  | Be_map kt ku vt vu m m' m'' : Forall2 (fun e f => becomes E F kt ku (fst e) (fst f) /\ becomes E F vt vu (snd e) (snd f)) m m' ->
      Permutation m' m'' -> ascending d_cmp m'' = true -> becomes E F (TyMap kt vt) (TyMap ku vu) (DMap m) (DMap m'')
  | Be_unit_struct n n' a b : E n = DefUnit a -> F n' = DefUnit b -> becomes E F (TyNamed n) (TyNamed n') DUnit DUnit
  | Be_newtype n n' a b t u d e : E n = DefNewtype a t -> F n' = DefNewtype b u -> becomes E F t u d e ->
      becomes E F (TyNamed n) (TyNamed n') (DNewtype d) (DNewtype e)
  | Be_tuple_struct n n' a b ts us l l' : E n = DefTuple a ts -> F n' = DefTuple b us -> slots (becomes E F) ts us l l' ->
      becomes E F (TyNamed n) (TyNamed n') (DList l) (DList l')
  (* fields may be moved, dropped, and added if optional; the type may be renamed *)
  | Be_struct n n' a b fs gs l l' : E n = DefStruct a fs -> F n' = DefStruct b gs -> Forall2 (field_from (becomes E F) fs l) gs l' ->
      becomes E F (TyNamed n) (TyNamed n') (DRecord l) (DRecord l')
  (* variants may be moved, added and dropped: the name of the value's must be there *)
  | Be_variant_unit n n' vs ws i j name : E n = DefEnum vs -> F n' = DefEnum ws ->
      nth_error vs i = Some (name, ShUnit) -> nth_error ws j = Some (name, ShUnit) ->
      becomes E F (TyNamed n) (TyNamed n') (DVariant i DUnit) (DVariant j DUnit)
  | Be_variant_newtype n n' vs ws i j name t u d e : E n = DefEnum vs -> F n' = DefEnum ws ->
      nth_error vs i = Some (name, ShNewtype t) -> nth_error ws j = Some (name, ShNewtype u) -> becomes E F t u d e ->
      becomes E F (TyNamed n) (TyNamed n') (DVariant i d) (DVariant j e)
  | Be_variant_tuple n n' vs ws i j name ts us l l' : E n = DefEnum vs -> F n' = DefEnum ws ->
      nth_error vs i = Some (name, ShTuple ts) -> nth_error ws j = Some (name, ShTuple us) -> length ts = length us -> slots (becomes E F) ts us l l' ->
      becomes E F (TyNamed n) (TyNamed n') (DVariant i (DList l)) (DVariant j (DList l'))
  | Be_variant_struct n n' vs ws i j name fs gs l l' : E n = DefEnum vs -> F n' = DefEnum ws ->
      nth_error vs i = Some (name, ShStruct fs) -> nth_error ws j = Some (name, ShStruct gs) -> Forall2 (field_from (becomes E F) fs l) gs l' ->
      becomes E F (TyNamed n) (TyNamed n') (DVariant i (DRecord l)) (DVariant j (DRecord l')).
