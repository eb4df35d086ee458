(** Model of /repo/src/ds/num.rs. *)
From Verif Require Import Base F64.
Open Scope Z_scope.

(** num.rs 97-103 *)
Inductive number : Type :=
| Uint (n : Z)   (* u128 *)
| Int (n : Z)    (* i128 *)
| Float (x : f64).

(** values representable in the Rust types *)
Definition num_wf (n : number) : bool :=
  match n with
  | Uint n => (0 <=? n) && (n <=? u128_max)
  | Int n => (i128_min <=? n) && (n <=? i128_max)
  | Float x => f64_wf x
  end.

(** [TryInto] between u128 and i128 *)
Definition to_u128 (n : Z) : option Z := if (0 <=? n) && (n <=? u128_max) then Some n else None.
(** [TryInto<i128>] (Rust standard library), used in ds/num.rs 174-189, 277-339 *)
Definition to_i128 (n : Z) : option Z := if (i128_min <=? n) && (n <=? i128_max) then Some n else None.

(** num.rs 138-153.  [r - x] is computed exactly here; the f64 subtraction is
    exact too ([round_sub_exact] in NumberProps2.v). *)
Definition as_u128 (n : number) : option Z :=
  match n with
  | Uint x => Some x
  | Int x => to_u128 x
  | Float x =>
      if f_is_finite x && (0 <=? fval x) then
        let r := f_round x in
        let y := Z.abs (r * scale - fval x) in
        if y <? fval f_1em10 then Some (sat_u128 r) else None
      else None
  end.

(** num.rs 174-189 *)
Definition as_i128 (n : number) : option Z :=
  match n with
  | Uint x => to_i128 x
  | Int x => Some x
  | Float x =>
      if f_is_finite x then
        let r := f_round x in
        let y := Z.abs (r * scale - fval x) in
        if y <? fval f_1em10 then Some (sat_i128 r) else None
      else None
  end.

(** num.rs 204-210 *)
Definition as_f64 (n : number) : f64 :=
  match n with
  | Uint x => f_of_Z x
  | Int x => f_of_Z x
  | Float x => x
  end.

(** [{}] of an integer (Rust standard library), used in ds/num.rs 213-221 *)
Definition Z_display (n : Z) : str :=
  if n <? 0 then 45%N :: dec_of_N (Z.to_N (- n)) else dec_of_N (Z.to_N n).

(** num.rs 213-221 *)
Definition num_display (n : number) : str :=
  match n with
  | Uint x => Z_display x
  | Int x => Z_display x
  | Float x => f_display x
  end.

(** num.rs 223-252.  lexical_core's OCAML_STRING integer format: decimal
    digits with '_' separators, checked range.  Which placements of '_' the
    crate accepts is not modelled: all '_' are skipped. *)
Definition num_from_str (t : str) : option number :=
  match t with
  | [] => None
  | c :: r =>
      let neg := (c =? 45)%N in
      let body := if neg then r else t in
      let valid_int := forallb (fun b => is_digit b || (b =? 95)%N) body in
      if negb valid_int then option_map Float (f_parse t)
      else
        let ds := filter is_digit body in
        match ds with
        | [] => None
        | _ =>
            let n := Z.of_N (N_of_dec ds) in
            if neg then option_map Int (to_i128 (- n))
            else option_map Uint (to_u128 n)
        end
  end.

(** num.rs 254-258: the bits fed to the hasher *)
Definition num_hash_bits (n : number) : Z := f_bits (as_f64 n).

(** num.rs 356-371 *)
Definition cmp_float_to_float (l r : f64) : comparison :=
  match f_partial_cmp l r with
  | Some o => o
  | None => if f_is_nan l then (if f_is_nan r then Eq else Gt) else Lt
  end.

(** num.rs 277-296 *)
Definition num_eqb (a b : number) : bool :=
  match a, b with
  | Uint l, Uint r => l =? r
  | Int l, Int r => l =? r
  | Float l, Float r => match cmp_float_to_float l r with Eq => true | _ => false end
  | Uint l, Int _ => match as_u128 b with Some r => l =? r | None => false end
  | Uint l, Float _ => match as_u128 b with Some r => l =? r | None => false end
  | Int l, Uint _ => match as_i128 b with Some r => l =? r | None => false end
  | Int l, Float _ => match as_i128 b with Some r => l =? r | None => false end
  | Float l, Uint _ => f_eq l (as_f64 b)
  | Float l, Int _ => f_eq l (as_f64 b)
  end.

(** num.rs 373-379 *)
Definition cmp_uint_to_int (l r : Z) : comparison :=
  match to_u128 r with
  | Some r => l ?= r
  | None => Gt
  end.

(** the match of num.rs 391-398 and 412-419; [unreachable!] is [Panic] *)
Definition cmp_bounds (fl ce rhs : Z) : res comparison :=
  match fl ?= rhs, ce ?= rhs with
  | Lt, Lt => Ret Lt
  | Lt, Eq => Ret Lt
  | Eq, Eq => Ret Eq
  | Eq, Gt => Ret Gt
  | Gt, Gt => Ret Gt
  | _, _ => Panic (s "logical error since bounded to floor and ceil")
  end.

(** num.rs 381-400, with float_bounds_uint 433-435 *)
Definition cmp_float_to_uint (l : f64) (r : Z) : res comparison :=
  if f_sign l then Ret Lt
  else if f_is_inf l || f_is_nan l then Ret Gt
  else cmp_bounds (sat_u128 (f_floor l)) (sat_u128 (f_ceil l)) r.

(** num.rs 402-421, with float_bounds_int 438-440 *)
Definition cmp_float_to_int (l : f64) (r : Z) : res comparison :=
  if f_sign l && f_is_inf l then Ret Lt
  else if f_is_inf l || f_is_nan l then Ret Gt
  else cmp_bounds (sat_i128 (f_floor l)) (sat_i128 (f_ceil l)) r.

(** num.rs 423-429 *)
Definition rev_ordering (c : comparison) : comparison :=
  match c with Gt => Lt | Eq => Eq | Lt => Gt end.
(** a map over code which may panic; not in /repo *)
Definition rmap {A B} (f : A -> B) (r : res A) : res B :=
  match r with Ret a => Ret (f a) | Panic m => Panic m end.

(** num.rs 320-339 *)
Definition num_cmp_res (a b : number) : res comparison :=
  match a, b with
  | Uint l, Uint r => Ret (l ?= r)
  | Int l, Int r => Ret (l ?= r)
  | Float l, Float r => Ret (cmp_float_to_float l r)
  | Uint l, Int r => Ret (cmp_uint_to_int l r)
  | Int l, Uint r => Ret (rev_ordering (cmp_uint_to_int r l))
  | Float l, Uint r => cmp_float_to_uint l r
  | Uint l, Float r => rmap rev_ordering (cmp_float_to_uint r l)
  | Float l, Int r => cmp_float_to_int l r
  | Int l, Float r => rmap rev_ordering (cmp_float_to_int r l)
  end.

(** [cmp] as the rest of the model uses it: [num_cmp_res] never panics on f64
    and 128 bit operands ([num_cmp_no_panic] in NumberProps.v), the default is
    never used there. *)
Definition num_cmp (a b : number) : comparison :=
  match num_cmp_res a b with Ret c => c | Panic _ => Eq end.

(** num.rs 468-505: conversions of the Rust number types; the type's name is
    [NumberType::identity] (447-466).  f32 goes through its decimal text
    (507-509); the f32 type itself is not modelled. *)
Inductive ntype := Tusize | Tu8 | Tu16 | Tu32 | Tu64 | Tu128
                 | Tisize | Ti8 | Ti16 | Ti32 | Ti64 | Ti128.
(** ds/num.rs 468-493: fr_uint and fr_int *)
Definition ntype_signed (t : ntype) : bool :=
  match t with Tisize | Ti8 | Ti16 | Ti32 | Ti64 | Ti128 => true | _ => false end.
(** usize and isize are 64 bit here *)
Definition ntype_bits (t : ntype) : Z :=
  match t with
  | Tusize | Tu64 | Tisize | Ti64 => 64
  | Tu8 | Ti8 => 8 | Tu16 | Ti16 => 16 | Tu32 | Ti32 => 32 | Tu128 | Ti128 => 128
  end.
(** [T::MIN] (Rust standard library) *)
Definition ntype_min (t : ntype) : Z := if ntype_signed t then - 2 ^ (ntype_bits t - 1) else 0.
(** [T::MAX] (Rust standard library) *)
Definition ntype_max (t : ntype) : Z :=
  if ntype_signed t then 2 ^ (ntype_bits t - 1) - 1 else 2 ^ (ntype_bits t) - 1.
(** the values a Rust integer type has *)
Definition in_ntype (t : ntype) (n : Z) : bool := (ntype_min t <=? n) && (n <=? ntype_max t).
(** ds/num.rs 468-493: From for the integer types *)
Definition num_of_int (t : ntype) (n : Z) : number :=
  if ntype_signed t then Int n else Uint n.
(** ds/num.rs 452-466: NumberType::identity *)
Definition ntype_name (t : ntype) : str :=
  s (match t with
     | Tusize => "usize" | Tu8 => "u8" | Tu16 => "u16" | Tu32 => "u32" | Tu64 => "u64" | Tu128 => "u128"
     | Tisize => "isize" | Ti8 => "i8" | Ti16 => "i16" | Ti32 => "i32" | Ti64 => "i64" | Ti128 => "i128"
     end)%string.
