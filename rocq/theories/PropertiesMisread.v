(** Property C78: what is accepted is what was written. *)
From Verif Require Import Base F64 Number NumberSpec BTree Value ValueSpec Nav NavSpec Nom Parse ParseErr Fmt Formatter FmtVectors FmtText FmtSpec Grammar RtSpec VSpec PropertiesRt MisreadSpec MisreadProps6 MisreadProps7 LegibleSpec MisreadSpec2 MisreadProps9 MisreadProps10.
Open Scope nat_scope.

(** * C78  the text of a value is refused or read as that value *)
(** Whatever was done to the formatter, as long as no line is verbose: when the
    text is read at all, the result is what the text shows. Nothing is asked of
    numbers, of neighbours, of what strings contain or of how the text begins. *)
Theorem C78_never_misread : forall k fm t k', reachable k fm -> (forall i, line_of fm i <> Some Verbose) ->
  clear (deco (fm_fmts fm) 0 k) = true ->
  fm_write fm [] = LRet t -> parse t = ParseOk k' -> k' = norm (deco (fm_fmts fm) 0 k).
Proof. exact never_misread. Qed.
Print Assumptions C78_never_misread.
(** the text is always written, and there is no third outcome *)
Theorem C78_refused_or_right : forall k fm, reachable k fm -> (forall i, line_of fm i <> Some Verbose) ->
  clear (deco (fm_fmts fm) 0 k) = true ->
  exists t, fm_write fm [] = LRet t /\ ((exists e, parse t = ParseErr e) \/ parse t = ParseOk (norm (deco (fm_fmts fm) 0 k))).
Proof. exact refused_or_right. Qed.
Print Assumptions C78_refused_or_right.
(** what is read equals the value itself *)
Theorem C78_equal : forall k fm t k', reachable k fm -> (forall i, line_of fm i <> Some Verbose) -> k_sorted k = true ->
  clear (deco (fm_fmts fm) 0 k) = true -> each faithful_node (deco (fm_fmts fm) 0 k) = true ->
  fm_write fm [] = LRet t -> parse t = ParseOk k' -> k_eqb k' k = true.
Proof. exact never_unequal. Qed.
Print Assumptions C78_equal.
(** [as_str_with_config], with conditions on the value alone *)
Theorem C78_as_str : forall k cfg t k', (is_cntr k = false \/ width_limit cfg = None) -> k_all clear_value k = true ->
  (id_on_tuples cfg = true \/ forall x, In x (preorder k) -> match kval x with VTuple _ => kid x = None | _ => True end) ->
  k_sorted k = true -> k_all whole_value k = true ->
  as_str_with_config k cfg = LRet t -> parse t = ParseOk k' -> k_eqb k' k = true.
Proof. exact as_str_never_misread. Qed.
Print Assumptions C78_as_str.

(** values which meet the conditions: refused ones, none of which is [text_safe], and one which is read *)
Definition plain_flags (w : option nat) : config := mkConfig false true true true true w.
Definition meets (k : kserd) (w : option nat) : Prop :=
  k_typed k = true /\ k_sorted k = true /\ k_all clear_value k = true /\ k_all whole_value k = true /\ (is_cntr k = false \/ w = None).
Example C78_case_refused :
  Forall (fun e => meets (fst e) (snd e) /\ is_rejected (outcome (as_str_with_config (fst e) (plain_flags (snd e)))))
    [ (sq [sq [i32 1]; sq [i32 2]], None);
      (sq [knew (VBool true)], Some 80);
      (sq [fl "inf"; sq [i32 1]], Some 5);
      (mp [(tup [st "='"""; i32 1], i32 1)], Some 80) ]%string.
Proof. repeat (apply Forall_cons; [vm_compute; auto 10|]). apply Forall_nil. Qed.
(** a formatter with a concise line, of a tree with a number whose text is no number, a
    unit with an id and an empty container *)
Definition odd : kserd := cn [("big", fl "1e39"); ("unit", id_ "U" new_unit); ("none", cn [])]%string.
Example C78_case_formatter : exists fm, reachable odd fm /\ map f_line (fm_fmts fm) = [Concise; Inline; Inline; Inline] /\
  clear (deco (fm_fmts fm) 0 odd) = true /\ text_safe (deco (fm_fmts fm) 0 odd) = false /\ is_rejected (outcome (fm_write fm [])).
Proof.
  destruct (run odd [OpLine Concise 0]) as [fm| |] eqn:E; [|vm_compute in E; discriminate|vm_compute in E; discriminate].
  exists fm. split; [eexists; exact E|]. vm_compute in E. injection E as <-. vm_compute. auto 10.
Qed.
Example C78_case_read : meets seq1 (Some 60) /\ is_read (fun k' => k_eqb k' seq1) (outcome (as_str_with_config seq1 (plain_flags (Some 60)))).
Proof. vm_compute. auto 10. Qed.

(** ** containers with a line for each field *)
(** the same when the outermost container has a line for each field, as it gets when it
    does not fit the width; [vnorm] is [norm] but for an id in a line of its own *)
Theorem C78_fields : forall k fm t k', reachable k fm -> (forall i, 0 < i -> line_of fm i <> Some Verbose) -> k_sorted k = true ->
  clear (deco (fm_fmts fm) 0 k) = true ->
  fm_write fm [] = LRet t -> parse t = ParseOk k' -> k' = vnorm (deco (fm_fmts fm) 0 k).
Proof. exact never_misread_fields. Qed.
Print Assumptions C78_fields.
Theorem C78_fields_refused_or_right : forall k fm, reachable k fm -> (forall i, 0 < i -> line_of fm i <> Some Verbose) -> k_sorted k = true ->
  clear (deco (fm_fmts fm) 0 k) = true ->
  exists t, fm_write fm [] = LRet t /\ ((exists e, parse t = ParseErr e) \/ parse t = ParseOk (vnorm (deco (fm_fmts fm) 0 k))).
Proof. exact refused_or_right_fields. Qed.
Print Assumptions C78_fields_refused_or_right.
Theorem C78_fields_equal : forall k fm t k', reachable k fm -> (forall i, 0 < i -> line_of fm i <> Some Verbose) -> k_sorted k = true ->
  clear (deco (fm_fmts fm) 0 k) = true -> each faithful_node (deco (fm_fmts fm) 0 k) = true ->
  fm_write fm [] = LRet t -> parse t = ParseOk k' -> k_eqb k' k = true.
Proof. exact never_unequal_fields. Qed.
Print Assumptions C78_fields_equal.
(** [as_str_with_config] with any width, for records of primitives and tuples *)
Theorem C78_records : forall k cfg t k', flat_record k = true -> k_all clear_value k = true ->
  (id_on_tuples cfg = true \/ forall x, In x (preorder k) -> match kval x with VTuple _ => kid x = None | _ => True end) ->
  k_sorted k = true -> k_all whole_value k = true ->
  as_str_with_config k cfg = LRet t -> parse t = ParseOk k' -> k_eqb k' k = true.
Proof. exact as_str_record_never_misread. Qed.
Print Assumptions C78_records.

(** a record in lines which is read, and one which is refused: its tuple has a string
    in it which holds both quotes and begins with '=' *)
Definition record (x : kserd) : kserd := id_ "Rec" (cn [("a", i32 7); ("b", x); ("c", st "text")])%string.
Definition record_ok (k : kserd) : bool := flat_record k && k_all clear_value k && k_all whole_value k && k_sorted k.
Example C78_case_records :
  record_ok (record (tup [i32 1; fl "inf"])) = true /\ record_ok (record (tup [st "=a' """])) = true /\
  as_str_with_config (record (tup [i32 1; fl "inf"])) (plain_flags (Some 10)) = LRet (s ":Rec
a = 7
b = (
        1
        inf
    )
c = ""text""
") /\
  is_read (fun k' => k_eqb k' (record (tup [i32 1; fl "inf"]))) (outcome (as_str_with_config (record (tup [i32 1; fl "inf"])) (plain_flags (Some 10)))) /\
  is_rejected (outcome (as_str_with_config (record (tup [st "=a' """])) (plain_flags (Some 24)))).
Proof. vm_compute. auto 10. Qed.
Example C78_case_fields : exists fm, reachable (record (sq [i32 1])) fm /\ map f_line (fm_fmts fm) = [Verbose; Inline; Inline; Inline; Inline] /\
  (forall i, 0 < i -> line_of fm i <> Some Verbose) /\ clear (deco (fm_fmts fm) 0 (record (sq [i32 1]))) = true /\ each faithful_node (deco (fm_fmts fm) 0 (record (sq [i32 1]))) = true.
Proof.
  destruct (run (record (sq [i32 1])) [OpLine Verbose 0; OpLine Inline 2]) as [fm| |] eqn:E; [|vm_compute in E; discriminate|vm_compute in E; discriminate].
  exists fm. split; [eexists; exact E|]. vm_compute in E. injection E as <-. split; [vm_compute; reflexivity|]. split; [|split; vm_compute; reflexivity].
  intros [|[|[|[|[|[|i]]]]]] Hi; try lia; discriminate.
Qed.

(** ** every layout *)
(** the same with titles for the fields which are containers, sequences and maps, whatever
    was done to the formatter: [vclear] (MisreadSpec2.v) asks that the first line of a container shows
    what it is, that the elements of a sequence below titles are not taken for
    containers and that maps stand below titles in the outermost container only *)
Theorem C78_titles : forall k fm t k', reachable k fm -> k_sorted k = true ->
  clear (deco (fm_fmts fm) 0 k) = true -> vclear true true (deco (fm_fmts fm) 0 k) = true ->
  fm_write fm [] = LRet t -> parse t = ParseOk k' -> k' = vnorm (deco (fm_fmts fm) 0 k).
Proof. exact never_misread_titles. Qed.
Print Assumptions C78_titles.
Theorem C78_titles_refused_or_right : forall k fm, reachable k fm -> k_sorted k = true ->
  clear (deco (fm_fmts fm) 0 k) = true -> vclear true true (deco (fm_fmts fm) 0 k) = true ->
  exists t, fm_write fm [] = LRet t /\ ((exists e, parse t = ParseErr e) \/ parse t = ParseOk (vnorm (deco (fm_fmts fm) 0 k))).
Proof. exact refused_or_right_titles. Qed.
Print Assumptions C78_titles_refused_or_right.
Theorem C78_titles_equal : forall k fm t k', reachable k fm -> k_sorted k = true ->
  clear (deco (fm_fmts fm) 0 k) = true -> vclear true true (deco (fm_fmts fm) 0 k) = true -> each faithful_node (deco (fm_fmts fm) 0 k) = true ->
  fm_write fm [] = LRet t -> parse t = ParseOk k' -> k_eqb k' k = true.
Proof. exact never_unequal_titles. Qed.
Print Assumptions C78_titles_equal.
(** [as_str_with_config] with any width, with conditions on the value alone *)
Theorem C78_any_width : forall k cfg t k', told_apart (id_on_containers cfg) k = true -> k_all clear_value k = true ->
  (id_on_tuples cfg = true \/ forall x, In x (preorder k) -> match kval x with VTuple _ => kid x = None | _ => True end) ->
  k_sorted k = true -> k_all whole_value k = true ->
  as_str_with_config k cfg = LRet t -> parse t = ParseOk k' -> k_eqb k' k = true.
Proof. exact as_str_never_misread_any. Qed.
Print Assumptions C78_any_width.

(** a plan with a section, entries and elements, which is read with one step and refused with another *)
Definition plan (x : kserd) : kserd :=
  id_ "Plan" (cn [("head", id_ "Head" (cn [("tag", tup [st "a=b"; st "c"])]));
                  ("marks", mp [(st "k", cn [("x", i32 1)]); (st "m", tup [fl "NaN"])]);
                  ("steps", sq [cn [("at", i32 1); ("what", x)]; tup [i32 2; i32 3]])])%string.
Definition plan_ok (k : kserd) : bool := told_apart true k && k_all clear_value k && k_all whole_value k && k_sorted k.
Example C78_case_any_width :
  plan_ok (plan (st "go")) = true /\ plan_ok (plan (tup [st "=a' """])) = true /\
  as_str_with_config (plan (st "go")) (plain_flags (Some 10)) = LRet (s ":Plan

[head:Head]
    tag = (
              ""a=b""
              ""c""
          )

[[marks]]
""k"":
    x = 1

[[marks]]
""m"": (
         NaN
     )

[[steps]]
    at = 1
    what = ""go""

[[steps]]
(2, 3)
") /\
  is_read (fun k' => k_eqb k' (plan (st "go"))) (outcome (as_str_with_config (plan (st "go")) (plain_flags (Some 10)))) /\
  is_rejected (outcome (as_str_with_config (plan (tup [st "=a' """])) (plain_flags (Some 10)))).
Proof. vm_compute. auto 10. Qed.
Definition plan_lines : list repr := [Verbose; Verbose; Concise; Inline; Inline; Verbose; Inline; Verbose; Inline; Inline; Concise; Inline; Verbose; Verbose; Inline; Inline; Concise; Inline; Inline].
Example C78_case_titles : exists fm, reachable (plan (fl "inf")) fm /\ map f_line (fm_fmts fm) = plan_lines /\
  clear (deco (fm_fmts fm) 0 (plan (fl "inf"))) = true /\ vclear true true (deco (fm_fmts fm) 0 (plan (fl "inf"))) = true /\ each faithful_node (deco (fm_fmts fm) 0 (plan (fl "inf"))) = true /\
  is_read (fun k' => k_eqb k' (plan (fl "inf"))) (outcome (fm_write fm [])).
Proof.
  destruct (run (plan (fl "inf")) [OpLine Verbose 0; OpLine Verbose 1; OpLine Verbose 5; OpLine Verbose 12; OpLine Verbose 13]) as [fm| |] eqn:E; [|vm_compute in E; discriminate|vm_compute in E; discriminate].
  exists fm. split; [eexists; exact E|]. vm_compute in E. injection E as <-. vm_compute. auto 10.
Qed.

(** ** without the conditions a text is accepted and read as another value *)
(** a map in a container in a container: it is read as a field of the outermost container, and
    the one it stands in is left without fields *)
Theorem C78_nested_map_refuted :
  Forall (fun k => k_all clear_value k = true /\ k_all whole_value k = true /\ k_sorted k = true /\
      is_read (fun k' => negb (k_eqb k' k)) (outcome (as_str_with_config k (plain_flags (Some 10)))))
    [ cn [("a", cn [("m", mp [(st "k", i32 1); (st "l", i32 2)])])];
      cn [("a", sq [cn [("m", mp [(st "k", i32 1); (st "l", i32 2)])]])] ]%string.
Proof. repeat (apply Forall_cons; [vm_compute; auto 10|]). apply Forall_nil. Qed.
Print Assumptions C78_nested_map_refuted.
(** an id which is a boolean or a number stands on its own in a concise list: two elements are read instead of one *)
Definition elements (k : kserd) : nat := match kval k with VSeq l => length l | _ => 0 end.
Theorem C78_ids_refuted :
  Forall (fun k => k_typed k = true /\ k_sorted k = true /\ elements k = 1 /\
      is_read (fun k' => Nat.eqb (elements k') 2) (outcome (as_str_with_config k (mkConfig true true true true true (Some 2)))))
    [ sq [id_ "true" (sq [])]; sq [id_ "1" (sq [])] ]%string.
Proof. repeat (apply Forall_cons; [vm_compute; auto 10|]). apply Forall_nil. Qed.
Print Assumptions C78_ids_refuted.
(** what a string contains is read as data: with quotes, backtick and number sign used up
    the string is delimited by '=', and its text decides where it ends. The
    tuple of one string followed by a list is read as three elements, the first a
    container with the field [str] *)
Definition sneaky : kserd := sq [tup [st "1) str_'""#`"]; id_ "a_" (sq [i32 1])]%string.
Theorem C78_injection_refuted : k_typed sneaky = true /\ k_sorted sneaky = true /\ elements sneaky = 2 /\
  is_read (fun k' => Nat.eqb (elements k') 3 && match kval k' with VSeq (x :: _) => k_eqb x (cn [("str", i32 1)]) | _ => false end)%string
    (outcome (as_str_with_config sneaky (plain_flags (Some 24)))).
Proof. vm_compute. auto 10. Qed.
Print Assumptions C78_injection_refuted.
