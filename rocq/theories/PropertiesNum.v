(** Property theorems C01-C08: Number (/repo/src/ds/num.rs).
    Specification vocabulary: NumberSpec.v. *)
From Verif Require Import Base F64 Number NumberSpec NumberProps NumberProps2 NumberProps3.
Open Scope Z_scope.

(** * C01  cmp never panics, is antisymmetric and reflexive, for all numbers
    (no well-formedness needed). *)
Theorem C01_cmp_total_antisymmetric : forall a b : number,
  (exists c, num_cmp_res a b = Ret c) /\
  num_cmp b a = CompOpp (num_cmp a b) /\
  num_cmp a a = Eq.
Proof. exact (fun a b => conj (num_cmp_no_panic a b) (conj (num_cmp_antisym a b) (num_cmp_refl a))). Qed.
Print Assumptions C01_cmp_total_antisymmetric.

Example C01_case : num_cmp_res (Float (FFin true 1 (-1074))) (Int (-1)) = Ret Gt
  /\ num_cmp_res (Uint u128_max) (Float (FNaN false 1%N)) = Ret Lt.
Proof. vm_compute. auto. Qed.

(** * C02  on ordinary numbers cmp is the order of the values. *)
Theorem C02_cmp_is_numeric_order : forall a b,
  ordinary a = true -> ordinary b = true ->
  num_cmp_res a b = Ret (xcmp (num_val a) (num_val b)).
Proof.
  exact (fun a b Ha Hb => eq_trans (num_cmp_res_ret a b) (f_equal Ret (num_cmp_val a b Ha Hb))).
Qed.
Print Assumptions C02_cmp_is_numeric_order.

Theorem C02_cmp_transitive : forall a b c,
  ordinary a = true -> ordinary b = true -> ordinary c = true ->
  num_cmp a b <> Gt -> num_cmp b c <> Gt ->
  num_cmp a c <> Gt /\ (num_cmp a c = Eq -> num_cmp a b = Eq /\ num_cmp b c = Eq).
Proof. exact num_cmp_trans_le. Qed.
Print Assumptions C02_cmp_transitive.

Definition f3_14 : f64 := FFin false 7070651414971679 (-51).
Example C02_case :
  ordinary (Float f3_14) = true /\ ordinary (Uint 3) = true /\ ordinary (Int (-4)) = true
  /\ ordinary (Float (FInf true)) = true /\ ordinary (Float (FNaN false 1%N)) = true
  /\ num_cmp (Float f3_14) (Uint 3) = Gt /\ num_cmp (Float f3_14) (Int 4) = Lt.
Proof. vm_compute. repeat split. Qed.

(** Outside of the ordinary numbers: *)
(** 1e300 is Equal to u128::MAX and to u128::MAX - ... as Float 2^128: two
    different floats are both Equal to the same Uint (saturating casts). *)
Theorem C02_transitive_refuted : exists a b c,
  num_wf a = true /\ num_wf b = true /\ num_wf c = true /\
  num_cmp a b = Eq /\ num_cmp b c = Eq /\ num_cmp a c = Lt.
Proof.
  exists (Float (FFin false (2 ^ 52) 76)), (Uint u128_max), (Float (FFin false (2 ^ 52) 900)).
  vm_compute. repeat split.
Qed.
Print Assumptions C02_transitive_refuted.

(** -0.0 is below Uint 0 but not below Int 0, and a sign-negative NaN is below
    Uint and above Int: a cycle. *)
Theorem C02_negative_zero_refuted : exists a b,
  num_wf a = true /\ num_wf b = true /\ num_eqb a b = true /\ num_eqb b a = true /\
  num_val a = num_val b /\ num_cmp a b = Lt.
Proof. exists (Float (FFin true 0 (-1074))), (Uint 0). vm_compute. repeat split. Qed.
Print Assumptions C02_negative_zero_refuted.
Theorem C02_nan_cycle_refuted : exists a b c,
  num_wf a = true /\ num_wf b = true /\ num_wf c = true /\
  num_cmp a b = Lt /\ num_cmp b c = Lt /\ num_cmp c a = Lt.
Proof. exists (Float (FNaN true 1%N)), (Uint 0), (Int 1). vm_compute. repeat split. Qed.
Print Assumptions C02_nan_cycle_refuted.

(** * C03  equality *)
Theorem C03_eq_reflexive : forall a, num_eqb a a = true.
Proof. exact num_eqb_refl. Qed.
Print Assumptions C03_eq_reflexive.

Theorem C03_eq_is_value_equality : forall a b,
  exact a = true -> exact b = true ->
  (num_eqb a b = true <-> num_val a = num_val b) /\
  (num_eqb a b = true <-> num_cmp a b = Eq).
Proof. exact num_eqb_iff. Qed.
Print Assumptions C03_eq_is_value_equality.

Example C03_case :
  exact (Float f3_14) = true /\ exact (Float (FFin false (2 ^ 52) (-52))) = true
  /\ exact (Uint u128_max) = true /\ exact (Int i128_min) = true
  /\ num_eqb (Int 1) (Float (FFin false (2 ^ 52) (-52))) = true.
Proof. vm_compute. repeat split. Qed.

(** Uint 3 == Float (3 + 5e-11) but not the other way round, and cmp says they
    differ. *)
Theorem C03_symmetric_refuted : exists a b,
  ordinary a = true /\ ordinary b = true /\
  num_eqb a b = true /\ num_eqb b a = false /\ num_cmp a b = Lt.
Proof. exists (Uint 3), (Float (FFin false (6755399441055744 + 112590) (-51))). vm_compute. repeat split. Qed.
Print Assumptions C03_symmetric_refuted.
(** Float 2^53 == Uint (2^53 + 1) although their values differ *)
Theorem C03_large_refuted : exists a b,
  ordinary a = true /\ ordinary b = true /\
  num_eqb a b = true /\ num_val a <> num_val b.
Proof. exists (Float (FFin false (2 ^ 52) 1)), (Uint (2 ^ 53 + 1)). vm_compute. repeat split. discriminate. Qed.
Print Assumptions C03_large_refuted.

(** * C04  float to integer: succeeds exactly within the tolerance, and gives the
    nearest integer clamped to the target type *)
Theorem C04_as_u128 : forall n r, num_wf n = true ->
  (as_u128 n = Some r <->
   match n with
   | Uint k => r = k
   | Int k => 0 <= k /\ r = k
   | Float x => f_is_finite x = true /\ 0 <= fval x /\
       exists k, Z.abs (fval x - k * scale) < fval f_1em10 /\ r = Z.max 0 (Z.min u128_max k)
   end).
Proof. exact as_u128_spec. Qed.
Print Assumptions C04_as_u128.

Theorem C04_as_i128 : forall n r, num_wf n = true ->
  (as_i128 n = Some r <->
   match n with
   | Uint k => k <= i128_max /\ r = k
   | Int k => r = k
   | Float x => f_is_finite x = true /\
       exists k, Z.abs (fval x - k * scale) < fval f_1em10 /\ r = Z.max i128_min (Z.min i128_max k)
   end).
Proof. exact as_i128_spec. Qed.
Print Assumptions C04_as_i128.

(** the tolerance test's f64 subtraction is exact: its result is an f64 *)
Theorem C04_difference_is_exact : forall x, f64_wf x = true -> f_is_finite x = true ->
  exists y, f64_wf y = true /\ f_is_finite y = true /\ fval y = Z.abs (f_round x * scale - fval x).
Proof. exact round_sub_exact. Qed.
Print Assumptions C04_difference_is_exact.

Example C04_case :
  as_u128 (Float (FFin false (6755399441055744 + 112590) (-51))) = Some 3
  /\ as_u128 (Float f3_14) = None
  /\ as_i128 (Float (FFin true (2 ^ 52) 900)) = Some i128_min
  /\ as_u128 (Int (-1)) = None.
Proof. vm_compute. repeat split. Qed.

(** * C05  integer to float: nearest, ties to even, exact up to 2^53, monotone *)
Theorem C05_as_f64_correctly_rounded : forall n k, num_wf n = true -> (n = Uint k \/ n = Int k) ->
  exists sg m e,
    as_f64 n = FFin sg m e /\ f64_wf (as_f64 n) = true /\
    (forall y, f64_wf y = true -> f_is_finite y = true ->
       Z.abs (fval (as_f64 n) - k * scale) <= Z.abs (fval y - k * scale) /\
       (Z.abs (fval (as_f64 n) - k * scale) = Z.abs (fval y - k * scale) ->
        fval y <> fval (as_f64 n) -> Z.even m = true)) /\
    (Z.abs k <= 2 ^ 53 -> fval (as_f64 n) = k * scale).
Proof. exact as_f64_spec. Qed.
Print Assumptions C05_as_f64_correctly_rounded.

Theorem C05_as_f64_monotone : forall a b i j, num_wf a = true -> num_wf b = true ->
  (a = Uint i \/ a = Int i) -> (b = Uint j \/ b = Int j) -> i <= j ->
  fval (as_f64 a) <= fval (as_f64 b).
Proof. exact as_f64_mono. Qed.
Print Assumptions C05_as_f64_monotone.

Example C05_case : (* halfway: 2^53 + 1 goes to the even 2^53, 2^53 + 3 to 2^53 + 4 *)
  as_f64 (Uint (2 ^ 53 + 1)) = FFin false (2 ^ 52) 1
  /\ as_f64 (Int (- (2 ^ 53 + 3))) = FFin true (2 ^ 52 + 2) 1
  /\ as_f64 (Uint u128_max) = FFin false (2 ^ 52) 76.
Proof. vm_compute. repeat split. Qed.

(** * C06  text round trip *)
Theorem C06_number_text_round_trip : forall n, num_wf n = true ->
  match n with
  | Uint k => num_from_str (num_display n) = Some (Uint k)
  | Int k => num_from_str (num_display n) = Some (if k <? 0 then Int k else Uint k)
  | Float (FNaN _ _) => exists p, num_from_str (num_display n) = Some (Float (FNaN false p))
  | Float (FInf _) => num_from_str (num_display n) = Some n
  | Float (FFin sg m e) =>
      let x := FFin sg m e in
      (* a fraction: the very same float *)
      (fval x mod scale <> 0 -> num_from_str (num_display n) = Some n)
      (* an integer up to 2^53: exactly that integer *)
      /\ (forall k, fval x = k * scale -> Z.abs k <= 2 ^ 53 ->
            num_from_str (num_display n) = Some (if sg then Int k else Uint k))
      (* up to 2^127 something is read back, *)
      /\ (Z.abs (fval x) < 2 ^ 127 * scale -> exists n', num_from_str (num_display n) = Some n')
      (* and whatever is read back, its as_f64 is the float printed *)
      /\ (forall n', num_from_str (num_display n) = Some n' -> f_eq (as_f64 n') x = true)
  end.
Proof. exact text_round_trip. Qed.
Print Assumptions C06_number_text_round_trip.

Example C06_case :
  num_display (Float f3_14) = s "3.14" /\
  num_from_str (s "3.14") = Some (Float f3_14) /\
  num_display (Int (-42)) = s "-42" /\
  num_display (Float (FFin false (2 ^ 52) (-55))) = s "0.125".
Proof. vm_compute. repeat split. Qed.

(** 2^128 as float is printed as an integer which does not parse *)
Theorem C06_large_float_refuted : exists x, f64_wf x = true /\ f_is_finite x = true /\
  num_from_str (num_display (Float x)) = None.
Proof. exists (FFin false (2 ^ 52) 76). vm_compute. repeat split. Qed.
Print Assumptions C06_large_float_refuted.
(** 1e23 comes back as an integer of another value *)
Theorem C06_value_refuted : exists x n, f64_wf x = true /\ f_is_finite x = true /\
  num_from_str (num_display (Float x)) = Some n /\ num_val n <> num_val (Float x).
Proof.
  exists (FFin false 5960464477539062 24), (Uint (10 ^ 23)). vm_compute. repeat split. discriminate.
Qed.
Print Assumptions C06_value_refuted.

(** * C07  parsed numbers are in range and exact *)
Theorem C07_integer_text : forall t, int_text t = true ->
  num_from_str t =
  if has_digit t then
    match t with
    | c :: r => if (c =? 45)%N then
                  (if spells r 0 <=? 2 ^ 127 then Some (Int (- spells r 0)) else None)
                else (if spells t 0 <=? 2 ^ 128 - 1 then Some (Uint (spells t 0)) else None)
    | [] => None
    end
  else None.
Proof. exact from_str_int_text. Qed.
Print Assumptions C07_integer_text.

Theorem C07_parsed_in_range : forall t n, num_from_str t = Some n ->
  num_wf n = true /\ (int_text t = false -> exists x, n = Float x).
Proof. exact (fun t n H => conj (num_from_str_wf t n H) (fun E => from_str_not_int_text t n E H)). Qed.
Print Assumptions C07_parsed_in_range.

Example C07_case :
  num_from_str (s "340282366920938463463374607431768211456") = None
  /\ num_from_str (s "340282366920938463463374607431768211455") = Some (Uint u128_max)
  /\ num_from_str (s "-170141183460469231731687303715884105729") = None
  /\ num_from_str (s "-170141183460469231731687303715884105728") = Some (Int i128_min)
  /\ num_from_str (s "1_000") = Some (Uint 1000)
  /\ num_from_str (s "-") = None.
Proof. vm_compute. repeat split. Qed.

(** * C08  equal numbers hash equally *)
Theorem C08_equal_values_hash_equally : forall a b,
  hashable a = true -> hashable b = true ->
  num_val a = num_val b -> num_hash_bits a = num_hash_bits b.
Proof. exact hash_same. Qed.
Print Assumptions C08_equal_values_hash_equally.

(** on exact numbers: the Hash/Eq contract *)
Theorem C08_hash_eq_contract : forall a b,
  exact a = true -> exact b = true -> hashable a = true -> hashable b = true ->
  num_eqb a b = true -> num_hash_bits a = num_hash_bits b.
Proof. exact hash_eq_contract. Qed.
Print Assumptions C08_hash_eq_contract.

(** the hash input is the IEEE 754 representation of as_f64, so it tells floats apart *)
Theorem C08_hash_is_binary64 : forall n, num_wf n = true ->
  0 <= num_hash_bits n < 2 ^ 64 /\ binary64 (num_hash_bits n) = as_f64 n.
Proof. exact hash_layout. Qed.
Print Assumptions C08_hash_is_binary64.

Example C08_bits : num_hash_bits (Int (-3)) = 0xC008000000000000 /\ num_wf (Int (-3)) = true
  /\ binary64 0x3FB999999999999A = FFin false 7205759403792794 (-56).
Proof. vm_compute. repeat split. Qed.
Example C08_case : num_hash_bits (Uint 3) = num_hash_bits (Float (FFin false (3 * 2 ^ 51) (-51)))
  /\ hashable (Float (FFin false (3 * 2 ^ 51) (-51))) = true
  /\ num_val (Uint 3) = num_val (Float (FFin false (3 * 2 ^ 51) (-51))).
Proof. vm_compute. repeat split. Qed.

(** -0.0 == 0 but the hashes differ *)
Theorem C08_negative_zero_refuted : exists a b, num_wf a = true /\ num_wf b = true /\
  num_eqb a b = true /\ num_eqb b a = true /\ num_hash_bits a <> num_hash_bits b.
Proof. exists (Float (FFin true 0 (-1074))), (Uint 0). vm_compute. repeat split. discriminate. Qed.
Print Assumptions C08_negative_zero_refuted.
(** two NaNs are == but may hash differently *)
Theorem C08_nan_refuted : exists a b, num_wf a = true /\ num_wf b = true /\
  num_eqb a b = true /\ num_hash_bits a <> num_hash_bits b.
Proof. exists (Float (FNaN true 1%N)), (Float (FNaN false 1%N)). vm_compute. repeat split. discriminate. Qed.
Print Assumptions C08_nan_refuted.
