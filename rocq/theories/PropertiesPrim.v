(** Property C58: a Number beside Rust's own numbers. *)
From Verif Require Import Base F64 Number NumberSpec F32 F32Spec NumPrim NumPrimProps.
Open Scope Z_scope.

(** * C58  comparing a Number with a Rust number *)
(** [number == x] and [number.partial_cmp(&x)] return for every x of the 14 types,
    and the order is never [None] *)
Theorem C58_total : forall n p, prim_wf p = true ->
  exists b c, num_eq_prim n p = Ret b /\ num_cmp_prim n p = Ret (Some c).
Proof. exact prim_total. Qed.
Print Assumptions C58_total.

(** [Number::from(x) == x] for every x, a NaN too *)
Theorem C58_self : forall n p, num_of_prim p = Ret n ->
  num_eq_prim n p = Ret true /\ num_cmp_prim n p = Ret (Some Eq).
Proof. exact prim_self. Qed.
Print Assumptions C58_self.

(** two integers, of any two of the integer types: as integers *)
Theorem C58_int : forall n i t k, num_wf n = true -> n = Uint i \/ n = Int i -> in_ntype t k = true ->
  num_eq_prim n (PInt t k) = Ret (i =? k) /\ num_cmp_prim n (PInt t k) = Ret (Some (i ?= k)).
Proof. exact prim_int. Qed.
Print Assumptions C58_int.

(** a float and an integer which has an f64: equal exactly when they have the same value *)
Theorem C58_float_int : forall x t k, f64_wf x = true -> in_ntype t k = true -> Z.abs k <= 2 ^ 53 ->
  num_eq_prim (Float x) (PInt t k) = Ret (f_is_finite x && (fval x =? k * scale)).
Proof. exact prim_float_int. Qed.
Print Assumptions C58_float_int.
(** and in the order of their values, for the floats of C02 *)
Theorem C58_float_int_order : forall x t k, ordinary (Float x) = true -> in_ntype t k = true ->
  num_cmp_prim (Float x) (PInt t k) = Ret (Some (xcmp (f_xval x) (XFin (k * scale)))).
Proof. exact prim_float_int_cmp. Qed.
Print Assumptions C58_float_int_order.

(** an integer and an f64: equal exactly when the float is within 1e-10 of the
    integer (of one beyond the integer's range, clamped) and not below 0 for a Uint *)
Theorem C58_int_float : forall n i x, num_wf n = true -> n = Uint i \/ n = Int i -> f64_wf x = true ->
  (num_eq_prim n (PF64 x) = Ret true <->
   f_is_finite x = true /\
   exists k, Z.abs (fval x - k * scale) < fval f_1em10 /\
     match n with
     | Uint _ => 0 <= fval x /\ i = Z.max 0 (Z.min u128_max k)
     | _ => i = Z.max i128_min (Z.min i128_max k)
     end).
Proof. exact prim_near. Qed.
Print Assumptions C58_int_float.

(** two f64s: in the order of their values, with every NaN the same and the largest *)
Theorem C58_f64 : forall x y,
  num_eq_prim (Float x) (PF64 y) = Ret (match xcmp (f_xval x) (f_xval y) with Eq => true | _ => false end) /\
  num_cmp_prim (Float x) (PF64 y) = Ret (Some (xcmp (f_xval x) (f_xval y))).
Proof. exact prim_float_float. Qed.
Print Assumptions C58_f64.

(** the Number of an f32 and an f32: as the two f32s compare, though neither is compared by its own value *)
Theorem C58_f32 : forall x x' n, f32_wf x = true -> f32_wf x' = true -> g_is_finite x = true -> g_is_finite x' = true ->
  num_of_prim (PF32 x) = Ret n ->
  num_eq_prim n (PF32 x') = Ret (gval x =? gval x') /\ num_cmp_prim n (PF32 x') = Ret (Some (gval x ?= gval x')).
Proof. exact f32_cmp. Qed.
Print Assumptions C58_f32.
(** so are the Numbers of two f32s beside each other *)
Theorem C58_f32_order : forall x x' y y', f32_wf x = true -> f32_wf x' = true -> g_is_finite x = true -> g_is_finite x' = true ->
  f32_to_f64 x = Ret y -> f32_to_f64 x' = Ret y' -> (fval y ?= fval y') = (gval x ?= gval x').
Proof. exact f32_order. Qed.
Print Assumptions C58_f32_order.

Definition f3_14 : f64 := FFin false 7070651414971679 (-51).
Definition g3_14 : f32 := GFin false 13170115 (-22).
Example C58_case : prim_wf (PInt Tu8 255) = true /\ prim_wf (PInt Ti128 i128_min) = true /\ prim_wf (PF32 g3_14) = true /\
  prim_wf (PInt Tu8 256) = false /\
  num_of_prim (PF32 g3_14) = Ret (Float f3_14) /\ num_eq_prim (Float f3_14) (PF32 g3_14) = Ret true /\
  num_cmp_prim (Float f3_14) (PF32 (GFin false 13170116 (-22))) = Ret (Some Lt) /\
  num_eq_prim (Int 255) (PInt Tu8 255) = Ret true /\ num_cmp_prim (Uint 7) (PInt Ti8 (-1)) = Ret (Some Gt) /\
  num_eq_prim (Float (FFin true 0 (-1074))) (PInt Ti16 0) = Ret true /\ num_eq_prim (Float (FInf false)) (PInt Tu64 5) = Ret false /\
  ordinary (Float f3_14) = true /\ num_cmp_prim (Float f3_14) (PInt Tusize 3) = Ret (Some Gt) /\
  num_eq_prim (Uint 3) (PF64 f3_14) = Ret false /\ num_cmp_prim (Int 3) (PF64 (FNaN false 1)) = Ret (Some Lt).
Proof. vm_compute. repeat split. Qed.

(** Number::from(3.140000104904175f64) == 3.14f32 is false, although the two floats have the same value *)
Theorem C58_f32_value_refuted : exists x y, f64_wf y = true /\ f32_wf x = true /\ fval y = gval x /\
  num_eq_prim (Float y) (PF32 x) = Ret false /\ num_cmp_prim (Float y) (PF32 x) = Ret (Some Gt).
Proof. exists g3_14, (FFin false (13170115 * 2 ^ 29) (-51)). vm_compute. repeat split. Qed.
Print Assumptions C58_f32_value_refuted.
(** Number::from(NAN) == NAN is true, where NAN == NAN is not *)
Theorem C58_nan_refuted : exists x, f64_wf x = true /\ f_eq x x = false /\ num_eq_prim (Float x) (PF64 x) = Ret true.
Proof. exists (FNaN false (2 ^ 51)). vm_compute. repeat split. Qed.
Print Assumptions C58_nan_refuted.
(** Number::from(3u8) == x does not mean Number::from(x) == 3u8, nor that neither is below the other *)
Theorem C58_tolerance_refuted : exists k x, in_ntype Tu8 k = true /\ f64_wf x = true /\
  num_eq_prim (num_of_int Tu8 k) (PF64 x) = Ret true /\
  num_eq_prim (Float x) (PInt Tu8 k) = Ret false /\ num_cmp_prim (num_of_int Tu8 k) (PF64 x) = Ret (Some Lt).
Proof. exists 3, (FFin false (6755399441055744 + 112590) (-51)). vm_compute. repeat split. Qed.
Print Assumptions C58_tolerance_refuted.
