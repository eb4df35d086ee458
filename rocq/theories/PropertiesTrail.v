(** Property C74: blanks at the ends of lines. *)
From Verif Require Import Base F64 Number BTree Value ValueSpec Nom Parse ParseErr ParseSpec VGrammar EolSpec TrailSpec TrailProps TrailProps2 TrailProps3 TrailProps4.
Open Scope N_scope.
Open Scope list_scope.

(** * C74  blanks, or a carriage return, put before line feeds of a document do not
    change what is read *)
(** what is read has the same shape, ids, names, keys, numbers and bytes; the texts in
    it stand as they were written *)
Theorem C74_read : forall t t' v, trail t t' -> no_str_blank t -> parse t = ParseOk v -> k_all one_line_keys v = true ->
  exists v', parse t' = ParseOk v' /\ trail_k v v'.
Proof. exact trail_parse. Qed.
Print Assumptions C74_read.
(** and when they are taken away *)
Theorem C74_back : forall t t' v', trail t t' -> no_str_blank t -> parse t' = ParseOk v' -> k_all one_line_keys v' = true ->
  exists v, parse t = ParseOk v /\ trail_k v v'.
Proof. exact trail_parse_back. Qed.
Print Assumptions C74_back.
(** a value in which no text has a line feed is the very same *)
Theorem C74_same : forall t t' v, trail t t' -> no_str_blank t -> k_all one_line v = true -> (parse t = ParseOk v <-> parse t' = ParseOk v).
Proof. exact trail_parse_same. Qed.
Print Assumptions C74_same.
(** the blanks at the ends of all lines taken away, as many editors do *)
Theorem C74_stripped : forall t v, mem 13 t = false -> no_str_blank t -> k_all one_line v = true -> (parse (strip t) = ParseOk v <-> parse t = ParseOk v).
Proof. exact strip_parse. Qed.
Print Assumptions C74_stripped.
(** rejected with the blanks if and only if without *)
Theorem C74_rejected : forall t t', trail t t' -> no_str_blank t -> ((exists e, parse t = ParseErr e) <-> (exists e, parse t' = ParseErr e)).
Proof. exact trail_rejected. Qed.
Print Assumptions C74_rejected.
(** blanks and blank lines at the end of a document *)
Theorem C74_end : forall t k w, white w = true -> ~ ends_in_cr t -> parse t = ParseOk k -> parse (t ++ w) = ParseOk k.
Proof. exact white_end. Qed.
Print Assumptions C74_end.
(** blanks at its start; when it is in the verbose layout also blank lines *)
Theorem C74_front : forall t k w, white w = true -> mem 10 w = false \/ verbose_first t = true -> parse t = ParseOk k -> parse (w ++ t) = ParseOk k.
Proof. exact white_front. Qed.
Print Assumptions C74_front.

(** a document in all three layouts *)
Definition doc : str := s ":order" ++ 10 :: s "id = 3" ++ 10 :: s "[[tags]]" ++ 10 :: s """a"": [" ++ 10 :: s "  1" ++ 10 :: s "  str#one#" ++ 10 :: s "]" ++ 10 :: s "[at]" ++ 10 :: s "    x = (1, 2)" ++ [10].
Definition doc' : str := s ":order  " ++ 10 :: s "id = 3	 " ++ 13 :: 10 :: s "[[tags]] " ++ 10 :: s """a"": [   " ++ 10 :: s "  1 " ++ 10 :: s "  str#one# " ++ 13 :: 10 :: s "]" ++ 10 :: s "[at] " ++ 10 :: s "    x = (1, 2) " ++ [10].
Example C74_case : trail doc doc' /\ no_str_blank doc /\ exists v, parse doc = ParseOk v /\ k_all one_line v = true.
Proof.
  split.
  - unfold doc, doc'. cbn.
    repeat (first [apply trail_nil | apply trail_same; [discriminate|]
      | lazymatch goal with |- trail (10 :: ?t) ?u => first
          [ lazymatch u with ?a :: 10 :: ?r => apply (trail_end [a] [10] t r); [reflexivity|auto|] end
          | lazymatch u with ?a :: ?b :: 10 :: ?r => apply (trail_end [a; b] [10] t r); [reflexivity|auto|] end
          | lazymatch u with ?a :: ?b :: ?c :: 10 :: ?r => apply (trail_end [a; b; c] [10] t r); [reflexivity|auto|] end
          | lazymatch u with ?a :: 13 :: 10 :: ?r => apply (trail_end [a] [13; 10] t r); [reflexivity|auto|] end
          | lazymatch u with ?a :: ?b :: 13 :: 10 :: ?r => apply (trail_end [a; b] [13; 10] t r); [reflexivity|auto|] end ] end ]).
  - split; [apply no_str_blank_check; vm_compute; reflexivity|]. eexists. split; vm_compute; reflexivity.
Qed.
Example C74_stripped_case : exists t v, strip t <> t /\ mem 13 t = false /\ no_str_blank t /\ k_all one_line v = true /\ parse t = ParseOk v.
Proof.
  exists (s "a = [  " ++ 10 :: s "  1 " ++ 10 :: s "] " ++ 10 :: s "b = 2 "). eexists. split; [vm_compute; discriminate|]. split; [reflexivity|].
  split; [apply no_str_blank_check; vm_compute; reflexivity|]. split; [|vm_compute; reflexivity]. vm_compute. reflexivity.
Qed.
Example C74_end_case : exists t k, ~ ends_in_cr t /\ parse t = ParseOk k /\ verbose_first t = true /\ t <> [].
Proof. exists (s "[at]" ++ 10 :: s "    x = 1"). eexists. split; [intros (x & E); apply (f_equal (fun l => List.last l 0)) in E; rewrite last_last in E; discriminate E|]. split; [vm_compute; reflexivity|]. split; [reflexivity|discriminate]. Qed.

(** a [str] at the end of a line takes the first blank for the delimiter of the string *)
Theorem C74_delimiter_refuted : exists t t' v e, trail t t' /\ parse t = ParseOk v /\ k_all one_line v = true /\ parse t' = ParseErr e.
Proof.
  exists (s "a = str" ++ 10 :: s "one" ++ [10]), (s "a = str" ++ [32] ++ [10] ++ s "one" ++ [10]). do 2 eexists. split.
  - cbn. do 7 (apply trail_same; [discriminate|]). apply (trail_end [32] [10]); [reflexivity|auto|]. repeat (apply trail_same; [discriminate|]). constructor.
  - split; [vm_compute; reflexivity|]. split; vm_compute; reflexivity.
Qed.
Print Assumptions C74_delimiter_refuted.
(** the blanks in front of a line feed inside a text are part of the text *)
Theorem C74_text_refuted : exists t v v', mem 13 t = false /\ no_str_blank t /\ parse t = ParseOk v /\ parse (strip t) = ParseOk v' /\
  kval v = VStr (s "one " ++ 10 :: s "two") /\ kval v' = VStr (s "one" ++ 10 :: s "two").
Proof.
  exists (s """one " ++ 10 :: s "two"""). do 2 eexists. split; [reflexivity|]. split; [apply no_str_blank_check; vm_compute; reflexivity|].
  split; [vm_compute; reflexivity|]. split; [vm_compute; reflexivity|]. split; reflexivity.
Qed.
Print Assumptions C74_text_refuted.
(** a blank line in front of a document which is not in the verbose layout is an error *)
Theorem C74_front_refuted : exists t k e, parse t = ParseOk k /\ parse (10 :: t) = ParseErr e.
Proof. exists (s "[1, 2]"). do 2 eexists. split; vm_compute; reflexivity. Qed.
Print Assumptions C74_front_refuted.
(** so is a carriage return at the end of a verbose document, though not of another *)
Theorem C74_cr_refuted : exists t k e t' k', parse t = ParseOk k /\ parse (t ++ [13]) = ParseErr e /\ parse t' = ParseOk k' /\ parse (t' ++ [13]) = ParseOk k'.
Proof. exists (s "a = 1"). do 2 eexists. exists (s "(a = 1)"). eexists. split; [vm_compute; reflexivity|]. split; [vm_compute; reflexivity|]. split; vm_compute; reflexivity. Qed.
Print Assumptions C74_cr_refuted.
