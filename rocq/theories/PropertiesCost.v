(** Property C61: how often the parser begins to read a value. *)
From Verif Require Import Base F64 Number BTree Value ValueSpec Nom Parse ParseErr ParseSpec FmtVectors ParseCost CostSpec CostProps CostProps2 CostProps3 CostProps4 CostProps5 ParseWork WorkProps WorkProps4.
Open Scope nat_scope.
Open Scope list_scope.

(** * C61  how much work the parser does: the number of times it begins to read a value
    while it reads a text *)
(** any text, accepted or not: what is more than quadratic comes from the opening braces
    alone *)
Theorem C61_bound : forall t, parse_readings t <= 3 * (2 * length t + 1) ^ 2 * 2 ^ braces t.
Proof. exact document_cost. Qed.
Print Assumptions C61_bound.
Theorem C61_no_brace : forall t, ~ In (ch "{") t -> parse_readings t <= 3 * (2 * length t + 1) ^ 2.
Proof. exact no_brace_cost. Qed.
Print Assumptions C61_no_brace.
(** an accepted text with no two opening brackets in a row: linear, whatever the braces *)
Theorem C61_accepted : forall t v, parse t = ParseOk v -> ~ doubled t -> parse_readings t <= 2 * length t.
Proof. exact accepted_plain. Qed.
Print Assumptions C61_accepted.
(** an accepted text of which a primitive, tuple, sequence or map was read: linear *)
Theorem C61_delimited : forall t v, parse t = ParseOk v -> (forall m, kval v <> VCntr m) -> parse_readings t < 2 * length t.
Proof. exact accepted_delimited. Qed.
Print Assumptions C61_delimited.

(** a verbose document with maps in maps; each value and each key is read once, and a reading fails in the empty sequence *)
Definition tree : str := s ":order" ++ 10%N :: s "id = {1: {2: 3}, 4: []}" ++ 10%N :: s "[sub]" ++ 10%N :: s "    x = (1, [2, 3])".
Example C61_accepted_case : exists v, parse tree = ParseOk v /\ ~ doubled tree /\ braces tree = 2 /\ parse_readings tree = 13 /\ length tree = 56.
Proof.
  eexists. split; [vm_compute; reflexivity|]. split; [|split; [reflexivity|split; [vm_compute; reflexivity|reflexivity]]].
  intros (p & q & E). apply (f_equal double_check) in E. rewrite double_check_doubled in E. discriminate.
Qed.
Definition lists : str := s "[{1: 2, 3: {4: 5}}, [[6]], (7, 8)]".
Example C61_delimited_case : exists v, parse lists = ParseOk v /\ (forall m, kval v <> VCntr m) /\ doubled lists /\ parse_readings lists = 14.
Proof. eexists. split; [vm_compute; reflexivity|]. split; [discriminate|]. split; [|vm_compute; reflexivity]. now exists (s "[{1: 2, 3: {4: 5}}, "), (s "6]], (7, 8)]"). Qed.
Example C61_no_brace_case : ~ In (ch "{") (s "[[a]]" ++ 10%N :: s "[1, 2, (3") /\ parse_readings (s "[[a]]" ++ 10%N :: s "[1, 2, (3") = 10.
Proof. split; [vm_compute; intuition discriminate|vm_compute; reflexivity]. Qed.

(** rejected texts: each further opening brace doubles the work *)
Theorem C61_rejected_refuted : forall n, exists t, length t = S n /\ parse_readings t = 2 ^ S (S n) - 1 /\ (exists e, parse t = ParseErr e).
Proof. exact rejected_exponential. Qed.
Print Assumptions C61_rejected_refuted.
(** and so in accepted ones, when two opening brackets come before *)
Theorem C61_accepted_refuted : forall n, exists t v, length t = 21 + n /\ parse t = ParseOk v /\ 2 ^ S n <= parse_readings t.
Proof. intros n. exists (crafted n), (crafted_value n). split; [apply crafted_length|]. split; [apply crafted_parse|apply crafted_costs]. Qed.
Print Assumptions C61_accepted_refuted.

(** the parser which counts what it does while it reads: its result is that of the parser, and
    the values it counts are those of the theorems above *)
Theorem C61_counting : forall t, fst (parse_counting t) = parse t /\ values (snd (parse_counting t)) = parse_readings t.
Proof. intros t. split; [apply counting_parses|apply counting_readings]. Qed.
Print Assumptions C61_counting.
(** the characters it looks at: for each value it begins no more than a fixed number of
    passes over the text, and no more than a fixed number for each character of the text *)
Theorem C61_chars : forall t, chars (snd (parse_counting t)) <= 72 * (S (length t) * values (snd (parse_counting t))) + 124 * (S (length t) * (2 * length t + 1)).
Proof. exact chars_by_values. Qed.
Print Assumptions C61_chars.
(** any text *)
Theorem C61_chars_bound : forall t, chars (snd (parse_counting t)) <= 340 * (S (length t) * (2 * length t + 1) ^ 2 * 2 ^ braces t).
Proof. exact chars_any. Qed.
Print Assumptions C61_chars_bound.
(** an accepted text with no two opening brackets in a row, whatever the braces: quadratic *)
Theorem C61_chars_accepted : forall t v, parse t = ParseOk v -> ~ doubled t -> chars (snd (parse_counting t)) <= 400 * S (length t) ^ 2.
Proof. exact chars_accepted. Qed.
Print Assumptions C61_chars_accepted.
(** an accepted text of which a primitive, tuple, sequence or map was read: quadratic *)
Theorem C61_chars_delimited : forall t v, parse t = ParseOk v -> (forall m, kval v <> VCntr m) -> chars (snd (parse_counting t)) <= 400 * S (length t) ^ 2.
Proof. exact chars_delimited. Qed.
Print Assumptions C61_chars_delimited.
(** what is counted for the document above, and for a text which is rejected *)
Example C61_chars_case : snd (parse_counting tree) = Work 13 551 /\ snd (parse_counting (s "{{{{")) = Work 31 914.
Proof. split; vm_compute; reflexivity. Qed.
