(** Property theorem C69. *)
From Verif Require Import Base F64 Number BTree Value Nom Parse ParseErr Grammar VGrammar PasteSpec PasteProps PasteProps2.
Open Scope N_scope.

(** * C69  texts put together.  Texts which stand for values can be put on lines
    of their own between brackets, with or without an id in front: the result is
    the text of a sequence, of a tuple, of a map or of a container with those
    values, in that order.  No text has to be changed to do so.
    [stands t k]: [t] is read as [k], is not in the verbose layout and does not
    end in a space.  [apart]: no line which ends in a word ([inf], [NaN], [true])
    is followed by one which starts with a bracket. *)
Theorem C69_seq : forall (id : option str) (ts : list str) (ks : list kserd),
  id_fits id -> Forall2 stands ts ks -> apart (map (fun t => (t, t)) ts) = true ->
  parse (block id "[" (lines ts) "]") = ParseOk (Kserd id (VSeq ks)).
Proof. exact paste_seq. Qed.
Print Assumptions C69_seq.
Theorem C69_tuple : forall (id : option str) (ts : list str) (ks : list kserd),
  id_fits id -> Forall2 stands ts ks -> apart (map (fun t => (t, t)) ts) = true ->
  parse (block id "(" (lines ts) ")") = ParseOk (Kserd id (VTuple ks)).
Proof. exact paste_tuple. Qed.
Print Assumptions C69_tuple.
Theorem C69_map : forall (id : option str) (es : list (str * str)) (ks : list (kserd * kserd)),
  id_fits id -> entries_stand es ks -> apart es = true ->
  parse (block id "{" (entry_lines es) "}") = ParseOk (Kserd id (VMap (map_of ks))).
Proof. exact paste_map. Qed.
Print Assumptions C69_map.
Theorem C69_cntr : forall (id : option str) (fs : list (str * str)) (ks : list (str * kserd)),
  id_fits id -> fields_stand fs ks -> fs <> [] ->
  parse (block id "(" (field_lines fs) ")") = ParseOk (Kserd id (VCntr (fields_of ks))).
Proof. exact paste_cntr. Qed.
Print Assumptions C69_cntr.
(** and the same without brackets *)
Theorem C69_verbose : forall (id : option str) (fs : list (str * str)) (ks : list (str * kserd)),
  id_reads id -> fields_stand fs ks -> fs <> [] ->
  parse (id_line id ++ field_lines fs) = ParseOk (Kserd id (VCntr (fields_of ks))).
Proof. exact paste_verbose. Qed.
Print Assumptions C69_verbose.

(** ** the conditions are met *)
Definition num (z : Z) : kserd := Kserd None (VNum (Uint z)).
Definition t1 : str := s "Id [
    1
    <f> -2
]".
Definition k1 : kserd := Kserd (Some (s "Id")) (VSeq [num 1; Kserd (Some (s "f")) (VNum (Int (-2)))]).
Definition t2 : str := s "(a = true, b = {1: str'x'})".
Definition k2 : kserd := Kserd None (VCntr [(s "a", Kserd None (VBool true)); (s "b", Kserd None (VMap [(num 1, Kserd None (VStr (s "x")))]))]).
Definition t3 : str := s "  <f> inf".
Definition k3 : kserd := Kserd (Some (s "f")) (VNum (Float (FInf false))).
Lemma stands_1 : stands t1 k1. Proof. split; [vm_compute; reflexivity|]. split; [vm_compute; reflexivity|]. exists (removelast t1), (ch "]"). split; vm_compute; reflexivity. Qed.
Lemma stands_2 : stands t2 k2. Proof. split; [vm_compute; reflexivity|]. split; [vm_compute; reflexivity|]. exists (removelast t2), (ch ")"). split; vm_compute; reflexivity. Qed.
Lemma stands_3 : stands t3 k3. Proof. split; [vm_compute; reflexivity|]. split; [vm_compute; reflexivity|]. exists (removelast t3), (ch "f"). split; vm_compute; reflexivity. Qed.
Example C69_case : Forall2 stands [t1; t3; t2] [k1; k3; k2] /\ apart (map (fun t => (t, t)) [t1; t3; t2]) = true /\ id_fits (Some (s "Big")) /\
  entries_stand [(t1, t2); (t3, t1)] [(k1, k2); (k3, k1)] /\ apart [(t1, t2); (t3, t1)] = true /\
  fields_stand [(s "x", t3); (s "y", t1); (s "x", t2)] [(s "x", k3); (s "y", k1); (s "x", k2)] /\ id_reads (Some (s "Big")).
Proof.
  pose proof stands_1 as S1. pose proof stands_2 as S2. pose proof stands_3 as S3.
  split; [do 3 (apply Forall2_cons; [assumption|]); constructor|]. split; [vm_compute; reflexivity|]. split; [vm_compute; reflexivity|].
  split; [do 2 (apply Forall2_cons; [cbn [fst snd]; auto|]); constructor|]. split; [vm_compute; reflexivity|].
  split; [do 3 (apply Forall2_cons; [cbn [fst snd]; split; [split; [discriminate|reflexivity]|auto]|]); constructor|]. vm_compute. reflexivity.
Qed.

(** ** where it fails: a word is taken for the id of the bracket on the next line,
    and the text is rejected *)
Definition inf : kserd := Kserd None (VNum (Float (FInf false))).
Theorem C69_word_refuted : exists ts ks e, Forall2 stands ts ks /\ parse (block None "[" (lines ts) "]") = ParseErr e.
Proof.
  exists [s "inf"; s "[1]"], [inf; Kserd None (VSeq [num 1])]. eexists. split; [|vm_compute; reflexivity].
  apply Forall2_cons; [|apply Forall2_cons; [|constructor]]; (split; [vm_compute; reflexivity|split; [vm_compute; reflexivity|]]).
  - exists (s "in"), (ch "f"). split; vm_compute; reflexivity.
  - exists (s "[1"), (ch "]"). split; vm_compute; reflexivity.
Qed.
Print Assumptions C69_word_refuted.
(** and a text in the verbose layout cannot be put between brackets: what follows
    it is read as part of it, or it is rejected *)
Theorem C69_verbose_text_refuted : exists t k e, parse t = ParseOk k /\ parse (block None "[" (lines [t; t]) "]") = ParseErr e.
Proof. exists (s "a = 1
b = 2"). do 2 eexists. split; vm_compute; reflexivity. Qed.
Print Assumptions C69_verbose_text_refuted.
