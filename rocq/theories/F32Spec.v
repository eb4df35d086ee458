(** What the properties of f32 are stated against. *)
From Verif Require Import Base F64 F32.
Open Scope Z_scope.

Definition g_is_finite (x : f32) : bool := match x with GFin _ _ _ => true | _ => false end.

(** [y] is exactly half way between [x] and another f32 *)
Definition between (x : f32) (y : f64) : Prop :=
  exists z, f32_wf z = true /\ g_is_finite z = true /\ gval z <> gval x /\ 2 * fval y = gval x + gval z.

(** not a NaN (whose sign and payload are lost), and the f64 with the same
    decimal text is not exactly half way between it and another f32 *)
Definition f32_kept (x : f32) : Prop :=
  match x with
  | GNaN _ _ => False
  | GInf _ => True
  | GFin _ _ _ => forall y, f32_to_f64 x = Ret y -> ~ between x y
  end.
