(** What the properties of encoding and decoding are stated against. *)
From Verif Require Import Base F64 F32 F32Spec Number NumberSpec BTree Value ValueSpec Encode.
Open Scope N_scope.

(** ** declarations *)
Fixpoint distinct (l : list str) : bool :=
  match l with [] => true | n :: l' => negb (existsb (str_eqb n) l') && distinct l' end.
(** a name with_id accepts; every Rust identifier is one *)
Definition id_name (n : str) : bool := forallb (fun c => negb (mem c reserved)) n.
Definition good_shape (h : shape) : bool :=
  match h with
  | ShUnit | ShNewtype _ => true
  | ShTuple l => negb (Nat.eqb (length l) 1)      (* that is ShNewtype *)
  | ShStruct fs => distinct (map fst fs)
  end.
Definition good_def (d : def) : bool :=
  match d with
  | DefUnit n => id_name n
  | DefNewtype n _ => id_name n && negb (str_eqb n (s "Some"))
  | DefTuple n l => id_name n && negb (Nat.eqb (length l) 1) && negb (Nat.eqb (length l) 0 && str_eqb n (s "None"))
  | DefStruct n fs => id_name n && distinct (map fst fs)
  | DefEnum vs => distinct (map fst vs) && forallb (fun v => id_name (fst v) && good_shape (snd v)) vs
  end.
(** what Rust guarantees (a struct or enum has distinct names, which are
    identifiers), and: no newtype struct is called Some, no empty tuple struct
    None *)
Definition good_decls (E : decls) : Prop := forall n, good_def (E n) = true.

(** the ids the encoder gives to its values; only the names matter to it *)
Definition def_ids (d : def) : list str :=
  match d with
  | DefUnit n | DefNewtype n _ | DefTuple n _ | DefStruct n _ => [n]
  | DefEnum vs => map fst vs
  end.
Definition id_decls (E : decls) : Prop := forall n, forallb id_name (def_ids (E n)) = true.

(** ** the parts of a value, with their types, itself first *)
Definition parts_each (f : ty -> data -> list (ty * data)) : list ty -> list data -> list (ty * data) :=
  fix go ts l {struct l} := match l, ts with
    | d :: l', t :: ts' => f t d ++ go ts' l'
    | _, _ => []
    end.
Fixpoint parts (E : decls) (t : ty) (d : data) {struct d} : list (ty * data) :=
  (t, d) ::
  match t, d with
  | TyOption t, DSome d => parts E t d
  | TyTuple ts, DList l => parts_each (parts E) ts l
  | TyVec t, DList l => flat_map (parts E t) l
  | TyMap kt vt, DMap m => flat_map (fun e => parts E kt (fst e) ++ parts E vt (snd e)) m
  | TyNamed n, d =>
      match E n, d with
      | DefNewtype _ t, DNewtype d => parts E t d
      | DefTuple _ ts, DList l => parts_each (parts E) ts l
      | DefStruct _ fs, DRecord l => parts_each (parts E) (map snd fs) l
      | DefEnum vs, DVariant i d =>
          match nth_error vs i with
          | Some (_, ShNewtype t) => parts E t d
          | Some (_, ShTuple ts) => match d with DList l => parts_each (parts E) ts l | _ => [] end
          | Some (_, ShStruct fs) => match d with DRecord l => parts_each (parts E) (map snd fs) l | _ => [] end
          | _ => []
          end
      | _, _ => []
      end
  | _, _ => []
  end.

(** no two keys of a map become Kserds which compare as equal *)
Definition keys_apart (E : decls) (kt : ty) (m : list (data * data)) : Prop :=
  ForallOrdPairs (fun e f => forall a b, enc E kt (fst e) = inr a -> enc E kt (fst f) = inr b -> k_cmp a b <> Eq) m.
Definition apart (E : decls) (t : ty) (d : data) : Prop :=
  forall kt vt m, In (TyMap kt vt, DMap m) (parts E t d) -> keys_apart E kt m.
(** no enum in the value *)
Fixpoint no_variant (d : data) : bool :=
  match d with
  | DVariant _ _ => false
  | DSome d | DNewtype d => no_variant d
  | DList l | DRecord l => forallb no_variant l
  | DMap m => forallb (fun e => no_variant (fst e) && no_variant (snd e)) m
  | _ => true
  end.
Definition no_enum_keys (E : decls) (t : ty) (d : data) : Prop :=
  forall kt vt m, In (TyMap kt vt, DMap m) (parts E t d) -> Forall (fun e => no_variant (fst e) = true) m.

(** ** f32 *)
(** the f32s in a value *)
Fixpoint f32s (d : data) : list f32 :=
  match d with
  | DF32 x => [x]
  | DSome d | DNewtype d | DVariant _ d => f32s d
  | DList l | DRecord l => flat_map f32s l
  | DMap m => flat_map (fun e => f32s (fst e) ++ f32s (snd e)) m
  | _ => []
  end.
(** all of them come back *)
Definition f32s_kept (d : data) : Prop := Forall f32_kept (f32s d).
(** the cast to f64 by way of the decimal text (ToKserd, C43) and the cast back
    give the same f32 *)
Definition f32_same (x : f32) : Prop := forall y, f32_to_f64 x = Ret y -> f64_to_f32 y = x.

(** ** decoding a number at an integer type *)
(** the integers of the type *)
Definition int_range (t : ntype) (r : Z) : Prop :=
  if ntype_signed t then (- 2 ^ (ntype_bits t - 1) <= r < 2 ^ (ntype_bits t - 1))%Z else (0 <= r < 2 ^ ntype_bits t)%Z.
(** the number is this integer, a float up to 1e-10; below zero it is of no
    unsigned type *)
Definition is_integer (t : ntype) (n : number) (r : Z) : Prop :=
  match n with
  | Uint k | Int k => r = k
  | Float x => f_is_finite x = true /\ (Z.abs (fval x - r * scale) < fval f_1em10)%Z /\ (ntype_signed t = false -> (0 <= fval x)%Z)
  end.
(** the types below 128 bits, and numbers a 128 bit type does not saturate at *)
Definition no_saturation (t : ntype) (n : number) : Prop :=
  (ntype_bits t < 128)%Z \/ match n with Float x => (- 2 ^ 127 * scale <= fval x <= ((if ntype_signed t then 2 ^ 127 else 2 ^ 128) - 1) * scale)%Z | _ => True end.
