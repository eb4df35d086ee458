(** Property C43: f32 numbers. *)
From Verif Require Import Base F64 Number NumberSpec Value Encode EncodeSpec F32 F32Spec F32Props F32Props2 F32Props3.
Open Scope Z_scope.

(** * C43  f32 to Number and back *)
(** [Number::from(x)] does not panic; the f64 is finite, infinite or NaN as [x] is *)
Theorem C43_total : forall x, f32_wf x = true -> exists y, f32_to_f64 x = Ret y /\ f64_wf y = true /\
  match x, y with GFin _ _ _, FFin _ _ _ => True | GInf sg, FInf sg' => sg = sg' | GNaN _ _, FNaN _ _ => True | _, _ => False end.
Proof. exact f32_kind. Qed.
Print Assumptions C43_total.
(** and [as f32] gives [x] back, unless the f64 is half way to another f32 *)
Theorem C43_round_trip : forall x y, f32_wf x = true -> f32_kept x -> f32_to_f64 x = Ret y -> f64_to_f32 y = x.
Proof. exact f32_back. Qed.
Print Assumptions C43_round_trip.
(** the f64 is within half of the distance to the next f32: nothing finite is further off *)
Theorem C43_near : forall x y z, f32_wf x = true -> g_is_finite x = true -> f32_to_f64 x = Ret y ->
  f32_wf z = true -> g_is_finite z = true -> Z.abs (fval y - gval x) <= Z.abs (fval y - gval z).
Proof. exact f32_near. Qed.
Print Assumptions C43_near.
(** [Number::from(x)] is printed as [x] is *)
Theorem C43_same_text : forall x y, f32_wf x = true -> f32_to_f64 x = Ret y -> num_display (Float y) = g_display x.
Proof. exact f32_text. Qed.
Print Assumptions C43_same_text.

(** 3.14 as an f32: the f64 is 3.14, not the 3.140000104904175 which [as f64] gives *)
(** no two f32s become the same Number, apart from the bits of a NaN *)
Theorem C43_distinct : forall x x' y, f32_wf x = true -> f32_wf x' = true -> (forall sg p, x <> GNaN sg p) ->
  f32_to_f64 x = Ret y -> f32_to_f64 x' = Ret y -> x = x'.
Proof. exact f32_distinct. Qed.
Print Assumptions C43_distinct.

Example C43_case : f32_wf (GFin false 13170115 (-22)) = true /\ f32_to_f64 (GFin false 13170115 (-22)) = Ret (FFin false 7070651414971679 (-51)) /\
  g_display (GFin false 13170115 (-22)) = s "3.14" /\ f_parse (s "3.14") = Some (FFin false 7070651414971679 (-51)) /\
  f_display (FFin false (13170115 * 2 ^ 29) (-51)) = s "3.140000104904175" /\ f32_kept (GFin false 13170115 (-22)).
Proof.
  repeat (split; [vm_compute; reflexivity|]). intros y H. replace (f32_to_f64 _) with (Ret (FFin false 7070651414971679 (-51))) in H by (vm_compute; reflexivity).
  injection H as <-. intros (z & W & G & NE & B). destruct z as [| |sg k f]; [discriminate G|discriminate G|]. cbn [fval gval] in B.
  assert (F0 : -149 <= f /\ 0 <= k < 2 ^ 24) by (unfold f32_wf in W; lia).
  (* an f32 from 2 on is a multiple of 2^-22, and 2 * y - x is not *)
  assert (F1 : -22 <= f).
  { destruct (Z.le_gt_cases (-22) f) as [C|C]; [exact C|exfalso]. assert (2 ^ (f + 1074) <= 2 ^ (-23 + 1074)) by (apply Z.pow_le_mono_r; lia).
    pose proof (Z.pow_nonneg 2 (f + 1074)). assert (k * 2 ^ (f + 1074) <= 2 ^ 24 * 2 ^ (-23 + 1074)) by (apply Z.mul_le_mono_nonneg; lia).
    set (w := k * 2 ^ (f + 1074)) in *. assert (0 <= w) by (apply Z.mul_nonneg_nonneg; lia). clearbody w.
    assert (BIG : 2 ^ 24 * 2 ^ (-23 + 1074) < 2 * (1 * (7070651414971679 * 2 ^ (-51 + 1074))) - 1 * (13170115 * 2 ^ (-22 + 1074))) by reflexivity.
    clear - B H1 H2 BIG. set (U := 2 ^ (-23 + 1074)) in *. set (a := 7070651414971679 * 2 ^ (-51 + 1074)) in *. set (b := 13170115 * 2 ^ (-22 + 1074)) in *. clearbody U a b. destruct sg; lia. }
  assert (M : ((if sg then -1 else 1) * (k * 2 ^ (f + 1074))) mod 2 ^ 1052 = 0).
  { replace (f + 1074) with (f + 22 + 1052) by lia. rewrite Z.pow_add_r by lia. rewrite !Z.mul_assoc. apply Z.mod_mul. discriminate. }
  revert M. replace ((if sg then -1 else 1) * (k * 2 ^ (f + 1074))) with (2 * (1 * (7070651414971679 * 2 ^ (-51 + 1074))) - 1 * (13170115 * 2 ^ (-22 + 1074))) by lia.
  vm_compute. discriminate.
Qed.

(** without the condition it does not: 7.038531e-26 (bits 0x15ae43fd) comes back as
    its successor, through Number and through an encoded Kserd *)
Theorem C43_refuted : exists x y x', f32_wf x = true /\ f32_to_f64 x = Ret y /\ f64_to_f32 y = x' /\ gval x' <> gval x /\
  (forall E, exists k, enc E TyF32 (DF32 x) = inr k /\ dec E TyF32 k = Some (DF32 x')).
Proof.
  exists (GFin false 11420669 (-107)), (FFin false 6131425250115584 (-136)), (GFin false 11420670 (-107)).
  split; [reflexivity|]. split; [vm_compute; reflexivity|]. split; [vm_compute; reflexivity|]. split; [vm_compute; discriminate|].
  intros E. exists (Kserd (Some (s "f32")) (VNum (Float (FFin false 6131425250115584 (-136))))). split; vm_compute; reflexivity.
Qed.
Print Assumptions C43_refuted.
(** the sign of a NaN is lost *)
Theorem C43_nan_refuted : exists x y, f32_wf x = true /\ f32_to_f64 x = Ret y /\ g_sign (f64_to_f32 y) <> g_sign x.
Proof. exists (GNaN true (2 ^ 22)), (FNaN false (2 ^ 51)). split; [reflexivity|]. split; [vm_compute; reflexivity|]. discriminate. Qed.
Print Assumptions C43_nan_refuted.
