(** Exactly which texts are accepted: C47. *)
From Verif Require Import Base F64 Number BTree Value Nom Parse ParseErr ParseSpec Grammar VGrammar Format Syntax SyntaxProps3 SyntaxProps4.

(** C47: a text is accepted as a value if and only if the syntax says so. *)
Theorem C47_exact src k : parse src = ParseOk k <-> syntax src k.
Proof. exact (parse_iff src k). Qed.
Print Assumptions C47_exact.

(** a text is rejected, with an error, if and only if it stands for no value *)
Theorem C47_rejects src : (exists e, parse src = ParseErr e) <-> forall k, ~ syntax src k.
Proof. exact (reject_iff src). Qed.
Print Assumptions C47_rejects.

(** the syntax is not ambiguous: a text stands for one value at most *)
Theorem C47_unambiguous src k k' : syntax src k -> syntax src k' -> k = k'.
Proof. exact (syntax_unique src k k'). Qed.
Print Assumptions C47_unambiguous.

(** nor are its values: the text of a value in front of a given text is one only,
    so that where a value ends does not depend on how one looks at the text *)
Theorem C47_values m t r k t' r' k' : t ++ r = t' ++ r' -> value_at m t r k -> value_at m t' r' k' -> t = t' /\ k = k'.
Proof. exact (value_unique m t r k t' r' k'). Qed.
Print Assumptions C47_values.

(** non-vacuity: a text in the verbose layout, one in the concise layout, and
    texts which stand for nothing *)
Definition verbose_text : str :=
  s ":order" ++ [10%N] ++ s "id = 3" ++ [10%N] ++ s "[[items]]" ++ [10%N] ++ s "    name = ""nut""" ++ [10%N] ++
  s "[[items]]" ++ [10%N] ++ s "    name = ""bolt""" ++ [10%N] ++ s "[[tags]]" ++ [10%N] ++ s """a"": [1, 2.5, <x> true]" ++ [10%N].
Example verbose_syntax : exists k, syntax verbose_text k /\ match kval k with VCntr m => map fst m = [s "id"; s "items"; s "tags"] | _ => False end.
Proof. eexists. split; [apply C47_exact; vm_compute; reflexivity|reflexivity]. Qed.
Example concise_syntax : exists k, syntax (s "id [" ++ [10%N] ++ s "  1 (a = true)" ++ [10%N] ++ s "] ") k /\ kid k = Some (s "id").
Proof. eexists. split; [apply C47_exact; vm_compute; reflexivity|reflexivity]. Qed.
Example no_syntax : Forall (fun src => forall k, ~ syntax src k) [[]; s "1 2"; s "(1, 2"; s "<1a> 2"; s "[1,]"; s "(a = 1, b)"; s "a"].
Proof. repeat constructor; apply C47_rejects; eexists; vm_compute; reflexivity. Qed.
