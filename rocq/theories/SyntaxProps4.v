(** The syntax and the parser agree; the syntax is not ambiguous. *)
From Verif Require Import Base F64 Number BTree Value Nom Parse ParseErr ParseSpec PropertiesParse Grammar VGrammar Format Syntax SyntaxProps2 SyntaxProps3.

Theorem parse_iff src k : parse src = ParseOk k <-> syntax src k.
Proof. split; [apply parse_syntax|apply syntax_parse]. Qed.
Theorem syntax_unique src k k' : syntax src k -> syntax src k' -> k = k'.
Proof. intros H H'. apply parse_iff in H, H'. congruence. Qed.
Theorem value_unique m t r k t' r' k' : t ++ r = t' ++ r' -> value_at m t r k -> value_at m t' r' k' -> t = t' /\ k = k'.
Proof.
  intros E H H'. set (n := S (length (t ++ r))).
  assert (A : kserd_delimited n m (t ++ r) = POk r k) by (apply value_at_takes; [exact H|unfold n; rewrite app_length; lia]).
  assert (B : kserd_delimited n m (t' ++ r') = POk r' k') by (apply value_at_takes; [exact H'|unfold n; rewrite E, app_length; lia]).
  rewrite E, B in A. injection A as -> ->. split; [|reflexivity]. now apply app_inv_tail in E.
Qed.
Theorem reject_iff src : (exists e, parse src = ParseErr e) <-> forall k, ~ syntax src k.
Proof.
  split.
  - intros [e H] k K. apply parse_iff in K. congruence.
  - intros H. destruct (C17_parse_total src) as [[k K]|E]; [|exact E]. apply parse_iff in K. elim (H k K).
Qed.
