(** How deep parsing recurses (C62).
    [parse_within limit] (ParseDepth.v) is the parser with at most [limit] calls of the functions which read values
    (kserd_nested, kserd_delimited) under way at any time; it gives [ParseFuel] when it would need one more. *)
From Verif Require Import Base F64 Number Value Nom Parse ParseErr ParseDepth DepthSpec DepthProps DepthProps2 DepthProps3.
Open Scope nat_scope.

(** A limit which is not reached changes nothing. *)
Theorem C62_limit : forall limit t, parse_within limit t = parse t \/ parse_within limit t = ParseFuel.
Proof. exact within_or_fuel. Qed.
Print Assumptions C62_limit.
Example C62_limit_case : parse_within 4 (s "a = ([1])") = parse (s "a = ([1])") /\ parse_within 3 (s "a = ([1])") = ParseFuel /\ parse_within 3 (s "a = (1]") = parse (s "a = (1]").
Proof. repeat split; vm_compute; reflexivity. Qed.

(** No text, accepted or not, makes the recursion deeper than the number of its opening delimiters and two. *)
Theorem C62_bound : forall limit t, opens t + 2 <= limit -> parse_within limit t = parse t.
Proof. intros limit t H. apply within_enough. now rewrite Nat.add_comm in H. Qed.
Print Assumptions C62_bound.
Example C62_bound_case : opens (s "a = ([1, {2: 3}])") = 3 /\ parse_within 5 (s "a = ([1, {2: 3}])") = parse (s "a = ([1, {2: 3}])").
Proof. split; vm_compute; reflexivity. Qed.

(** A value which is nested deeply is not read without deep recursion. *)
Theorem C62_needed : forall limit t k, parse_within limit t = ParseOk k -> height k <= 2 * limit.
Proof. exact within_height. Qed.
Print Assumptions C62_needed.
Example C62_needed_case : exists k, parse_within 6 (s "[[a]]
    [[b]]
    ([1])") = ParseOk k /\ height k = 7.
Proof. eexists. split; vm_compute; reflexivity. Qed.

(** The bound is reached: [n] brackets inside each other. *)
Theorem C62_tight : forall n, 0 < n -> exists k, height k = S n /\
  forall limit, parse_within limit (s "(" ++ repeat (ch "[") n ++ repeat (ch "]") n ++ s ")") =
    if Nat.ltb limit (opens (s "(" ++ repeat (ch "[") n ++ repeat (ch "]") n ++ s ")") + 2) then ParseFuel else ParseOk k.
Proof. exact needed_tight. Qed.
Print Assumptions C62_tight.

(** Refuted: some depth of recursion is enough for every text.  Whatever the size of the stack, a short text
    which is accepted needs more. *)
Theorem C62_constant_refuted : forall limit, exists t k, length t = 2 * limit + 4 /\ parse t = ParseOk k /\ parse_within limit t = ParseFuel.
Proof. exact no_limit. Qed.
Print Assumptions C62_constant_refuted.
