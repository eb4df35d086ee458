(** IEEE binary32, for the conversions between f32 and Number.

    As [f64] (F64.v), with 24 bits of mantissa and exponents from -149 to 104. *)
From Verif Require Import Base F64.
Open Scope Z_scope.

(** IEEE binary32 (Rust; not in /repo) *)
Inductive f32 : Type :=
| GNaN (sg : bool) (payload : N)
| GInf (sg : bool)
| GFin (sg : bool) (m : Z) (e : Z).

(** the representations which are bit patterns of an f32 *)
Definition f32_wf (x : f32) : bool :=
  match x with
  | GNaN _ p => ((1 <=? p) && (p <? 2 ^ 23))%N
  | GInf _ => true
  | GFin _ m e =>
      (0 <=? m) && (m <? 2 ^ 24) && (-149 <=? e) && (e <=? 104)
      && ((2 ^ 23 <=? m) || (e =? -149))
  end.

(** the value of a finite one, in units of 2^-1074 like [fval] *)
Definition gval (x : f32) : Z :=
  match x with
  | GFin sg m e => (if sg then -1 else 1) * (m * 2 ^ (e + 1074))
  | _ => 0
  end.

(** the sign bit *)
Definition g_sign (x : f32) : bool := match x with GNaN sg _ => sg | GInf sg => sg | GFin sg _ _ => sg end.

(** the same bits, any two NaN alike *)
Definition f32_same (a b : f32) : bool :=
  match a, b with
  | GNaN sa pa, GNaN sb pb => Bool.eqb sa sb && (pa =? pb)%N
  | GInf sa, GInf sb => Bool.eqb sa sb
  | GFin sa ma ea, GFin sb mb eb => Bool.eqb sa sb && (ma =? mb) && (ea =? eb)
  | _, _ => false
  end.

(** p/q > 0 rounded to the nearest f32, ties to even, overflow to infinity *)
Definition rne32_pos (sg : bool) (p q : Z) : f32 :=
  let e := Z.max (-149) (log2_frac p q - 23) in
  let m := div_even (p * 2 ^ (Z.max 0 (- e))) (q * 2 ^ (Z.max 0 e)) in
  let '(m, e) := if m =? 2 ^ 24 then (2 ^ 23, e + 1) else (m, e) in
  if 104 <? e then GInf sg else GFin sg m e.
(** p/q rounded to the nearest f32, zero included (IEEE 754) *)
Definition rne32 (sg : bool) (p q : Z) : f32 := if p =? 0 then GFin sg 0 (-149) else rne32_pos sg p q.

(** d * 10^t rounded to f32 *)
Definition g_of_dec (sg : bool) (d t : Z) : f32 := rne32 sg (d * 10 ^ (Z.max 0 t)) (10 ^ (Z.max 0 (- t))).

(** [{}] of f32 (Rust std): as [shortest] and [f_display], with what reads back as an f32 *)
Fixpoint g_shortest (x : f32) (d t : Z) (j : nat) : Z * Z :=
  match j with
  | O => (d, t)
  | S j' =>
      let jz := Z.of_nat j in
      let p := 10 ^ jz in
      let lo := d / p in
      let okl := f32_same (g_of_dec (g_sign x) lo (t + jz)) x in
      let okh := f32_same (g_of_dec (g_sign x) (lo + 1) (t + jz)) x in
      if okl && (negb okh || (d - lo * p <? (lo + 1) * p - d)) then (lo, t + jz)
      else if okh then (lo + 1, t + jz)
      else g_shortest x d t j'
  end.
(** [{}] of f32 (Rust standard library), used in ds/num.rs 507-509 *)
Definition g_display (x : f32) : str :=
  match x with
  | GNaN _ _ => s "NaN"
  | GInf sg => if sg then s "-inf" else s "inf"
  | GFin sg m e =>
      (if sg then s "-" else []) ++
      (if m =? 0 then s "0"
       else
         let '(d, t) := exact_dec m e in
         let nd := length (dec_of_N (Z.to_N d)) in
         let '(d, t) := g_shortest x d t (nd - 1) in
         let '(d, t) := strip0 nd d t in
         positional d t)
  end.

(** f32_to_f64, num.rs 507-509: printed and read (std's [parse::<f64>], which is
    [f_parse] on these texts) *)
Definition f32_to_f64 (x : f32) : res f64 :=
  match f_parse (g_display x) with Some y => Ret y | None => Panic (s "shouldn't fail") end.

(** [x as f32] (Rust: round to nearest, ties to even; of a NaN the upper bits of
    the payload are kept, and it is made quiet) *)
Definition f64_to_f32 (x : f64) : f32 :=
  match x with
  | FNaN sg p => GNaN sg (N.lor (2 ^ 22) (p / 2 ^ 29))%N
  | FInf sg => GInf sg
  | FFin sg m e => rne32 sg (m * 2 ^ (e + 1074)) scale
  end.
