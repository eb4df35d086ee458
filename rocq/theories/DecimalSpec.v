(** What decimal texts are and what it means to round one (C56). *)
From Verif Require Import Base F64 Number NumberSpec.
Open Scope Z_scope.

(** an optional sign *)
Definition sign_text (sg : bool) (t : str) : Prop :=
  (t = s "-" /\ sg = true) \/ ((t = s "+" \/ t = []) /\ sg = false).
Definition digits (t : str) : Prop := Forall (fun c => 48 <= c <= 57)%N t.
(** nothing, or e and an integer *)
Inductive exponent_text : str -> Z -> Prop :=
| NoExponent : exponent_text [] 0
| Exponent c sign sg ds : c = ch "e" \/ c = ch "E" -> sign_text sg sign -> digits ds -> ds <> [] ->
    exponent_text (c :: sign ++ ds) ((if sg then -1 else 1) * spells ds 0).
(** [decimal t sg m x]: [t] is a decimal and stands for m * 10^x, negative iff [sg] *)
Inductive decimal : str -> bool -> Z -> Z -> Prop :=
| Decimal sign sg ip frac fp ex x :
    sign_text sg sign -> digits ip -> (frac = [] /\ fp = []) \/ frac = ch "." :: fp -> digits fp ->
    ip ++ fp <> [] -> exponent_text ex x ->
    decimal (sign ++ ip ++ frac ++ ex) sg (spells (ip ++ fp) 0) (x - Z.of_nat (length fp)).
(** the word [l] (of lower case letters) in any case *)
Definition word (l t : str) : Prop := Forall2 (fun c d => d = c \/ d + 32 = c)%N l t.
(** nan, inf and infinity *)
Definition special (t : str) (x : f64) : Prop :=
  exists sign sg w, t = sign ++ w /\ sign_text sg sign /\
    ((word (s "nan") w /\ exists p, x = FNaN sg p) \/ ((word (s "inf") w \/ word (s "infinity") w) /\ x = FInf sg)).

(** m * 10^x as a fraction *)
Definition numer (m x : Z) : Z := m * 10 ^ Z.max 0 x.
Definition denom (x : Z) : Z := 10 ^ Z.max 0 (- x).
(** halfway between the largest float and the first power of two which is none *)
Definition overflow : Z := (2 ^ 54 - 1) * 2 ^ 970.
(** [rounds sg p q x]: [x] is (-1)^sg * p/q rounded as IEEE 754 says: to nearest, ties
    to even, to infinity from [overflow] on; a zero has the sign *)
Definition rounds (sg : bool) (p q : Z) (x : f64) : Prop :=
  match x with
  | FNaN _ _ => False
  | FInf sg' => sg' = sg /\ overflow * q <= p
  | FFin sg' m e =>
      sg' = sg /\ f64_wf x = true /\ p < overflow * q /\
      let v := (if sg then -1 else 1) * p * scale in
      forall y, f64_wf y = true -> f_is_finite y = true ->
        Z.abs (fval x * q - v) <= Z.abs (fval y * q - v) /\
        (Z.abs (fval x * q - v) = Z.abs (fval y * q - v) -> fval y <> fval x -> Z.even m = true)
  end.

(** [n] digits are enough to write [m], but for zeros at the end *)
Definition fits (m : Z) (n : nat) : Prop := exists d k, m = d * 10 ^ k /\ 0 <= k /\ 0 <= d < 10 ^ Z.of_nat n.
(** m * 10^x is at least as near to |[f]| as n * 10^y; [K] makes all of them integers *)
Definition nearer (f : f64) (m x n y : Z) : Prop :=
  forall K, 0 <= K -> 0 <= x + K -> 0 <= y + K ->
    Z.abs (m * 10 ^ (x + K) * scale - Z.abs (fval f) * 10 ^ K) <= Z.abs (n * 10 ^ (y + K) * scale - Z.abs (fval f) * 10 ^ K).
