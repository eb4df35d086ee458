(** What is accepted: C46. *)
From Verif Require Import Base F64 Number BTree Value NavSpec FmtSpec Nom Parse ParseErr Grammar VGrammar Format FormatProps FormatProps2.

(** C46: a text which is accepted is, from its first to its last character, a text
    of the format for the value it is read as. *)
Theorem C46_format src k : parse src = ParseOk k -> format src k.
Proof. exact (parse_format src k). Qed.
Print Assumptions C46_format.

(** every id, string and field name of the value stands in the text, letter for letter *)
Theorem C46_words src k x u : parse src = ParseOk k -> In x (preorder k) -> In u (texts_of x) ->
  exists before after, src = before ++ u ++ after.
Proof. exact (parse_words src k x u). Qed.
Print Assumptions C46_words.

(** the value has no more nodes than the text has characters *)
Theorem C46_size src k : parse src = ParseOk k -> (length (preorder k) <= length src)%nat.
Proof. exact (parse_size src k). Qed.
Print Assumptions C46_size.

(** nothing keeps the fields of a verbose container apart: a field may start right
    after the value of the one before it, on the same line *)
Theorem C46_separator_refuted :
  exists src a b k, src = a ++ b /\ last a (ch " ") = ch "e" /\ hd (ch " ") b = ch "b" /\
    parse src = ParseOk k /\ exists x y, kval k = VCntr [(s "a", x); (s "b", y)].
Proof.
  exists (s "a = trueb = 1"), (s "a = true"), (s "b = 1").
  eexists. split; [reflexivity|]. split; [reflexivity|]. split; [reflexivity|]. split; [vm_compute; reflexivity|]. do 2 eexists. reflexivity.
Qed.
Print Assumptions C46_separator_refuted.

(** non-vacuity *)
Definition source : str :=
  s ":order" ++ [10%N] ++ s "id = 3" ++ [10%N] ++ s "[[items]]" ++ [10%N] ++ s "    name = ""nut""" ++ [10%N] ++
  s "[[items]]" ++ [10%N] ++ s "    name = ""bolt""" ++ [10%N] ++ s "[[tags]]" ++ [10%N] ++ s """a"": [1, 2.5, <x> true]" ++ [10%N].
Example source_accepted : exists k, parse source = ParseOk k /\ length (preorder k) = 13%nat /\ length source = 102%nat.
Proof. eexists. split; [vm_compute; reflexivity|]. split; reflexivity. Qed.
Example source_format : exists k, format source k.
Proof. destruct source_accepted as (k & H & _). exists k. exact (C46_format _ _ H). Qed.
(** some texts are of no value: there is an item after the last value, a bracket
    is missing, an id starts with a digit *)
Example no_format : Forall (fun src => exists e, parse src = ParseErr e) [s "1 2"; s "(1, 2"; s "<1a> 2"; s "[1,]"; s "(a = 1, b)"].
Proof. repeat constructor; eexists; vm_compute; reflexivity. Qed.
