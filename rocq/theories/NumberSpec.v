(** What the number properties are stated against: the mathematical value of a
    Number, in units of 2^-1074 so that it is an integer for every float. *)
From Verif Require Import Base F64 Number.
Open Scope Z_scope.

(** -inf < finite values < +inf < NaN *)
Inductive xval : Type := XNegInf | XFin (v : Z) | XPosInf | XNaN.

Definition xcmp (a b : xval) : comparison :=
  match a, b with
  | XNegInf, XNegInf => Eq | XNegInf, _ => Lt | _, XNegInf => Gt
  | XFin u, XFin v => u ?= v
  | XFin _, _ => Lt | _, XFin _ => Gt
  | XPosInf, XPosInf => Eq | XPosInf, _ => Lt | _, XPosInf => Gt
  | XNaN, XNaN => Eq
  end.

Definition f_xval (x : f64) : xval :=
  match x with
  | FNaN _ _ => XNaN
  | FInf true => XNegInf
  | FInf false => XPosInf
  | FFin _ _ _ => XFin (fval x)
  end.

Definition num_val (n : number) : xval :=
  match n with
  | Uint k => XFin (k * scale)
  | Int k => XFin (k * scale)
  | Float x => f_xval x
  end.

(** ordinary: in its Rust type, and a float is no -0.0, no sign-negative NaN,
    and within the i128 range (so casts do not saturate) or infinite *)
Definition ordinary (n : number) : bool :=
  num_wf n &&
  match n with
  | Float (FNaN sg _) => negb sg
  | Float (FInf _) => true
  | Float (FFin sg m e) =>
      negb (sg && (m =? 0))
      && (i128_min * scale <=? fval (FFin sg m e)) && (fval (FFin sg m e) <? 2 ^ 127 * scale)
  | _ => true
  end.

(** exact: ordinary, and a finite float is an integer below 2^53 in magnitude
    or at least 1e-10 away from every integer *)
Definition exact (n : number) : bool :=
  ordinary n &&
  match n with
  | Float (FFin sg m e) =>
      let v := fval (FFin sg m e) in
      ((v mod scale =? 0) && (Z.abs v <? 2 ^ 53 * scale))
      || ((fval f_1em10 <=? v mod scale) && (v mod scale <=? scale - fval f_1em10))
  | _ => true
  end.

(** neither NaN nor -0.0 *)
Definition hashable (n : number) : bool :=
  num_wf n && match n with
  | Float (FNaN _ _) => false
  | Float (FFin sg m _) => negb (sg && (m =? 0))
  | _ => true
  end.

(** integer text: digits and underscores after an optional minus *)
Definition int_text (t : str) : bool :=
  forallb (fun c => is_digit c || (c =? 95)%N) (match t with c :: r => if (c =? 45)%N then r else t | [] => t end).
(** the digits of such a text spell this natural number, first digit first *)
Fixpoint spells (ds : str) (acc : Z) : Z :=
  match ds with
  | [] => acc
  | c :: r => if is_digit c then spells r (acc * 10 + (Z.of_N c - 48)) else spells r acc
  end.
Definition has_digit (t : str) : bool := existsb is_digit t.

(** the binary64 format of IEEE 754: the float which 64 bits stand for *)
Definition binary64 (b : Z) : f64 :=
  let sg := b / 2 ^ 63 =? 1 in
  let e := b / 2 ^ 52 mod 2 ^ 11 in
  let m := b mod 2 ^ 52 in
  if e =? 2047 then (if m =? 0 then FInf sg else FNaN sg (Z.to_N m))
  else if e =? 0 then FFin sg m (-1074)
  else FFin sg (2 ^ 52 + m) (e - 1075).
