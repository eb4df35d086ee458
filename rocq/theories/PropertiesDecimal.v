(** Property theorems about decimal texts (C56). *)
From Verif Require Import Base F64 Number NumberSpec DecimalSpec DecimalProps DecimalProps2.
Open Scope Z_scope.

(** * C56  decimal texts are read as the nearest float and floats are written shortest *)
(** every decimal is read, as the float nearest to it *)
Theorem C56_read_decimal : forall t sg m x, int_text t = false -> decimal t sg m x ->
  exists f, num_from_str t = Some (Float f) /\ rounds sg (numer m x) (denom x) f.
Proof. exact read_decimal. Qed.
Print Assumptions C56_read_decimal.

(** nan, inf and infinity are read in any case and with any sign *)
Theorem C56_read_special : forall t x, special t x -> exists y, num_from_str t = Some (Float y) /\ special t y.
Proof. exact read_special. Qed.
Print Assumptions C56_read_special.

(** and nothing else is *)
Theorem C56_read_only : forall t n, int_text t = false -> num_from_str t = Some n ->
  exists x, n = Float x /\ (special t x \/ exists sg m e, decimal t sg m e /\ rounds sg (numer m e) (denom e) x).
Proof. exact read_only. Qed.
Print Assumptions C56_read_only.

(** no text which reads as [x] has fewer digits than the one written; of those with as
    many, none is nearer to [x] *)
Theorem C56_shortest : forall x, f64_wf x = true -> f_is_finite x = true -> fval x <> 0 ->
  exists d t, decimal (num_display (Float x)) (f_sign x) d t /\
    forall w sg M T, decimal w sg M T -> num_from_str w = Some (Float x) ->
      (forall k, fits M k -> fits d k) /\ ((forall k, fits d k -> fits M k) -> nearer x d t M T).
Proof. exact display_shortest. Qed.
Print Assumptions C56_shortest.

Example C56_decimal_case : decimal (s "-1.5e-3") true 15 (-4).
Proof.
  apply (Decimal (s "-") true (s "1") (s ".5") (s "5") (s "e-3") (-3)).
  - now left.
  - repeat constructor; discriminate.
  - now right.
  - repeat constructor; discriminate.
  - discriminate.
  - apply (Exponent (ch "e") (s "-") true (s "3")); [now left|now left|repeat constructor; discriminate|discriminate].
Qed.
Example C56_special_case : special (s "-iNf") (FInf true).
Proof.
  exists (s "-"), true, (s "iNf"). split; [reflexivity|]. split; [now left|]. right. split; [|reflexivity]. left.
  repeat constructor; (now left) || (now right).
Qed.
Example C56_case :
  int_text (s "-1.5e-3") = false
  /\ num_from_str (s "-1.5e-3") = Some (Float (FFin true 6917529027641082 (-62)))
  /\ num_from_str (s ".5") = Some (Float (FFin false (2 ^ 52) (-53)))
  /\ num_from_str (s "5.") = Some (Float (FFin false (5 * 2 ^ 50) (-50)))
  /\ num_from_str (s ".") = None
  /\ num_from_str (s "1e") = None
  /\ num_from_str (s "1e400") = Some (Float (FInf false))
  /\ num_from_str (s "-1e-400") = Some (Float (FFin true 0 (-1074)))
  /\ num_from_str (s "-iNf") = Some (Float (FInf true))
  (* a tie: 2^53 + 1 is halfway between 2^53 and 2^53 + 2 *)
  /\ num_from_str (s "9007199254740993.0") = Some (Float (FFin false (2 ^ 52) 1))
  /\ num_from_str (s "9007199254740995.0") = Some (Float (FFin false (2 ^ 52 + 2) 1))
  /\ num_display (Float (FFin false 7205759403792794 (-56))) = s "0.1"
  /\ f64_wf (FFin false 7205759403792794 (-56)) = true.
Proof. vm_compute. repeat split. Qed.

(** the tolerance of C04 is the float nearest to 1e-10 *)
Theorem C04_tolerance : rounds false 1 (10 ^ 10) f_1em10.
Proof. exact tolerance. Qed.
Print Assumptions C04_tolerance.
