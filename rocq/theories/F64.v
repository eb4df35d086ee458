(** IEEE binary64 as used by kserd.

    A finite float is an integer multiple of 2^-1074; [fval] is that integer, so
    that comparison, floor, ceil and round are exact integer operations. *)
From Verif Require Import Base.
Open Scope Z_scope.

(** NaN carries sign and payload (for the hash), infinities a sign, finite
    floats sign, mantissa and exponent: (-1)^s * m * 2^e. *)
Inductive f64 : Type :=
| FNaN (sg : bool) (payload : N)
| FInf (sg : bool)
| FFin (sg : bool) (m : Z) (e : Z).

(** The representations which are bit patterns of an f64. *)
Definition f64_wf (x : f64) : bool :=
  match x with
  | FNaN _ p => ((1 <=? p) && (p <? 2 ^ 52))%N
  | FInf _ => true
  | FFin _ m e =>
      (0 <=? m) && (m <? 2 ^ 53) && (-1074 <=? e) && (e <=? 971)
      && ((2 ^ 52 <=? m) || (e =? -1074))
  end.

(** 2^1074: one, in units of the smallest subnormal *)
Definition scale : Z := 2 ^ 1074.

(** the value of a finite float in units of 2^-1074 (IEEE 754; not in /repo) *)
Definition fval (x : f64) : Z :=
  match x with
  | FFin sg m e => (if sg then -1 else 1) * (m * 2 ^ (e + 1074))
  | _ => 0
  end.

(** [f64::is_nan] (Rust standard library), used in ds/num.rs 356-421 *)
Definition f_is_nan (x : f64) : bool := match x with FNaN _ _ => true | _ => false end.
(** [f64::is_infinite] (Rust standard library), used in ds/num.rs 356-421 *)
Definition f_is_inf (x : f64) : bool := match x with FInf _ => true | _ => false end.
(** [f64::is_finite] (Rust standard library) *)
Definition f_is_finite (x : f64) : bool := match x with FFin _ _ _ => true | _ => false end.
(** [f64::is_sign_negative] looks at the sign bit, also of NaN and zero *)
Definition f_sign (x : f64) : bool :=
  match x with FNaN sg _ => sg | FInf sg => sg | FFin sg _ _ => sg end.

(** [f64::partial_cmp] *)
Definition f_partial_cmp (a b : f64) : option comparison :=
  match a, b with
  | FNaN _ _, _ => None
  | _, FNaN _ _ => None
  | FInf sa, FInf sb =>
      Some (match sa, sb with
            | true, false => Lt | false, true => Gt | _, _ => Eq end)
  | FInf sa, FFin _ _ _ => Some (if sa then Lt else Gt)
  | FFin _ _ _, FInf sb => Some (if sb then Gt else Lt)
  | FFin _ _ _, FFin _ _ _ => Some (fval a ?= fval b)
  end.
(** [f64 == f64] *)
Definition f_eq (a b : f64) : bool :=
  match f_partial_cmp a b with Some Eq => true | _ => false end.

(** [x.floor()] and [x.ceil()] of a finite float, as the integer they are
    (floor and ceil of a float are representable, so no rounding happens). *)
Definition f_floor (x : f64) : Z := fval x / scale.
(** [f64::ceil] (Rust standard library), used in ds/num.rs 433-440 *)
Definition f_ceil (x : f64) : Z := - ((- fval x) / scale).
(** [x.round()]: half away from zero *)
Definition f_round (x : f64) : Z :=
  let v := fval x in
  Z.sgn v * ((2 * Z.abs v + scale) / (2 * scale)).

(** [as u128] / [as i128] of an integral value: saturating *)
Definition u128_max : Z := 2 ^ 128 - 1.
(** [i128::MAX] (Rust standard library) *)
Definition i128_max : Z := 2 ^ 127 - 1.
(** [i128::MIN] (Rust standard library) *)
Definition i128_min : Z := - 2 ^ 127.
(** what a saturating cast does *)
Definition clamp (lo hi v : Z) : Z := if v <? lo then lo else if hi <? v then hi else v.
(** [f as u128] of an integral value (Rust reference), used in ds/num.rs 138-153, 433-435 *)
Definition sat_u128 : Z -> Z := clamp 0 u128_max.
(** [f as i128] of an integral value (Rust reference), used in ds/num.rs 174-189, 438-440 *)
Definition sat_i128 : Z -> Z := clamp i128_min i128_max.

(** the f64 nearest to 1e-10: 0x1.b7cdfd9d7bdbbp-34 *)
Definition f_1em10 : f64 := FFin false 7737125245533627 (-86).

(** ** Rounding *)

(** p/q rounded to an integer, ties to even (p >= 0, q > 0) *)
Definition div_even (p q : Z) : Z :=
  let d := p / q in
  let r := p mod q in
  match 2 * r ?= q with
  | Lt => d
  | Gt => d + 1
  | Eq => if Z.even d then d else d + 1
  end.

(** floor (log2 (p/q)) for p, q > 0 *)
Definition log2_frac (p q : Z) : Z :=
  let l := Z.log2 p - Z.log2 q in
  if q * 2 ^ (Z.max 0 l) <=? p * 2 ^ (Z.max 0 (- l)) then l else l - 1.

(** p/q > 0 rounded to nearest f64, ties to even, overflow to infinity *)
Definition rne_pos (sg : bool) (p q : Z) : f64 :=
  let e := Z.max (-1074) (log2_frac p q - 52) in
  let m := div_even (p * 2 ^ (Z.max 0 (- e))) (q * 2 ^ (Z.max 0 e)) in
  let '(m, e) := if m =? 2 ^ 53 then (2 ^ 52, e + 1) else (m, e) in
  if 971 <? e then FInf sg else FFin sg m e.

(** p/q rounded to nearest, zero included (IEEE 754) *)
Definition rne (sg : bool) (p q : Z) : f64 :=
  if p =? 0 then FFin sg 0 (-1074) else rne_pos sg p q.

(** [n as f64] for an integer *)
Definition f_of_Z (n : Z) : f64 := rne (n <? 0) (Z.abs n) 1.

(** d * 10^t rounded to f64: value of a decimal literal *)
Definition f_of_dec (sg : bool) (d t : Z) : f64 :=
  rne sg (d * 10 ^ (Z.max 0 t)) (10 ^ (Z.max 0 (- t))).

(** [f64::to_bits] *)
Definition f_bits (x : f64) : Z :=
  match x with
  | FNaN sg p => (if sg then 2 ^ 63 else 0) + 2047 * 2 ^ 52 + Z.of_N p
  | FInf sg => (if sg then 2 ^ 63 else 0) + 2047 * 2 ^ 52
  | FFin sg m e =>
      (if sg then 2 ^ 63 else 0)
      + (if m <? 2 ^ 52 then m else (e + 1075) * 2 ^ 52 + (m - 2 ^ 52))
  end.

(** structural equality of bit patterns *)
Definition f64_same (a b : f64) : bool :=
  match a, b with
  | FNaN sa pa, FNaN sb pb => Bool.eqb sa sb && (pa =? pb)%N
  | FInf sa, FInf sb => Bool.eqb sa sb
  | FFin sa ma ea, FFin sb mb eb => Bool.eqb sa sb && (ma =? mb) && (ea =? eb)
  | _, _ => false
  end.

(** ** Printing: [{}] of f64 (Rust std: shortest digits which read back, printed
    positionally; "NaN", "inf", "-inf"; integral values without a point). *)

(** the exact decimal expansion: m * 2^e = D * 10^T *)
Definition exact_dec (m e : Z) : Z * Z :=
  if 0 <=? e then (m * 2 ^ e, 0) else (m * 5 ^ (- e), e).

(** fewest digits: drop [j] digits of D, largest [j] first; accept the
    truncated or incremented candidate if it reads back to [x]; when both do,
    the closer one (tie: upwards). *)
Fixpoint shortest (x : f64) (d t : Z) (j : nat) : Z * Z :=
  match j with
  | O => (d, t)
  | S j' =>
      let jz := Z.of_nat j in
      let p := 10 ^ jz in
      let lo := d / p in
      let okl := f64_same (f_of_dec (f_sign x) lo (t + jz)) x in
      let okh := f64_same (f_of_dec (f_sign x) (lo + 1) (t + jz)) x in
      if okl && (negb okh || (d - lo * p <? (lo + 1) * p - d)) then (lo, t + jz)
      else if okh then (lo + 1, t + jz)
      else shortest x d t j'
  end.

(** strip trailing zeros *)
Fixpoint strip0 (fuel : nat) (d t : Z) : Z * Z :=
  match fuel with
  | O => (d, t)
  | S f => if (d mod 10 =? 0) && negb (d =? 0) then strip0 f (d / 10) (t + 1) else (d, t)
  end.

(** n zeros *)
Definition zeros (n : Z) : str := repeat 48%N (Z.to_nat n).

(** positional rendering of d * 10^t *)
Definition positional (d t : Z) : str :=
  let ds := dec_of_N (Z.to_N d) in
  let len := Z.of_nat (length ds) in
  if 0 <=? t then ds ++ zeros t
  else if - t <? len then
    firstn (Z.to_nat (len + t)) ds ++ s "." ++ skipn (Z.to_nat (len + t)) ds
  else s "0." ++ zeros (- t - len) ++ ds.

(** [{}] of f64 (Rust standard library), used in ds/num.rs 213-221 *)
Definition f_display (x : f64) : str :=
  match x with
  | FNaN _ _ => s "NaN"
  | FInf sg => if sg then s "-inf" else s "inf"
  | FFin sg m e =>
      (if sg then s "-" else []) ++
      (if m =? 0 then s "0"
       else
         let '(d, t) := exact_dec m e in
         let nd := length (dec_of_N (Z.to_N d)) in
         let '(d, t) := shortest x d t (nd - 1) in
         let '(d, t) := strip0 nd d t in
         positional d t)
  end.

(** ** Reading: fast_float 0.2 [parse::<f64>] on the whole text: optional sign,
    digits with optional point (at least one digit), optional exponent; or
    case-insensitive inf, infinity, nan with optional sign.  The result is the
    correctly rounded value (that is fast_float's contract; the crate is not in
    /repo). *)
Definition lower (c : char) : char := if ((65 <=? c) && (c <=? 90))%N then (c + 32)%N else c.

(** the NaN which parsing gives; its sign and payload are an assumption (DESIGN.md) *)
Definition nan : f64 := FNaN false (2 ^ 51)%N.

(** optional leading '-' or '+' *)
Definition split_sign (t : str) : bool * str :=
  match t with
  | c :: r => if (c =? 45)%N then (true, r) else if (c =? 43)%N then (false, r) else (false, t)
  | [] => (false, t)
  end.

(** the special values of fast_float, compared without case (ds/num.rs 241) *)
Definition parse_special (t : str) : option f64 :=
  let '(sg, r) := split_sign t in
  let r := map lower r in
  if str_eqb r (s "nan") then Some (FNaN sg (2 ^ 51)%N)
  else if str_eqb r (s "inf") || str_eqb r (s "infinity") then Some (FInf sg)
  else None.

(** the exponent part of a float (fast_float) *)
Definition parse_exp (t : str) : option Z :=
  match t with
  | [] => Some 0
  | c :: r =>
      if ((c =? 101) || (c =? 69))%N then
        let '(neg, ds) := split_sign r in
        match ds with
        | [] => None
        | _ => if forallb is_digit ds
               then Some ((if neg then -1 else 1) * Z.of_N (N_of_dec ds))
               else None
        end
      else None
  end.

(** [fast_float::parse], called in ds/num.rs 241 *)
Definition f_parse (t : str) : option f64 :=
  let '(sg, r) := split_sign t in
  let '(ip, r) := take_while is_digit r in
  let '(fp, r) := match r with
                  | c :: r' => if (c =? 46)%N then take_while is_digit r' else ([], r)
                  | [] => ([], r)
                  end in
  match ip ++ fp with
  | [] => parse_special t
  | ds => match parse_exp r with
          | Some x => Some (f_of_dec sg (Z.of_N (N_of_dec ds)) (x - Z.of_nat (length fp)))
          | None => None
          end
  end.
