(** Property C22: the verbose layout; and C38 for all layouts. *)
From Verif Require Import Base F64 Number NumberSpec BTree Value ValueSpec Nav NavSpec Nom Parse ParseErr Fmt Formatter FmtVectors FmtText FmtSpec Grammar VGrammar RtSpec VSpec VGrammarProps2 VRtProps4 VRtProps5 VRtProps6 PropertiesRt StuckSpec StuckProps2.
Open Scope nat_scope.

(** * C22  what is read *)
(** the parser reads every text of the verbose grammar as the container it
    stands for; the grammar leaves open blanks, blank lines, tabs or spaces as
    indents, the order of the items and whether they are repeated *)
Theorem C22_document : forall t k, vdocument t k -> parse t = ParseOk k.
Proof. exact vdocument_parses. Qed.
Print Assumptions C22_document.
(** of the entries of a map with equal keys the last one counts *)
Theorem C22_last_entry : forall name l, entries_of name l <> [] -> Forall (fun e => k_exact (fst (snd e)) = true /\ no_empty_cntr (fst (snd e)) = true) (entries_of name l) ->
  exists id m, value_of name l = Kserd id (VMap m) /\ strictly_sorted k_cmp m = true /\
  forall k, k_exact k = true /\ no_empty_cntr k = true -> option_map snd (find (fun e => k_eqb k (fst e)) m) =
    last_some (map (fun e => if k_eqb k (fst (snd e)) then Some (snd (snd e)) else None) (entries_of name l)).
Proof. exact last_entry. Qed.
Print Assumptions C22_last_entry.

(** * C22  format, parse, get the value back *)
(** what is read back, exactly; here and below the layout of the formatter is
    any mix of inline, concise and verbose *)
Theorem C22_layouts : forall k fm, reachable k fm -> k_sorted k = true -> vsafe true 0 (deco (fm_fmts fm) 0 k) = true ->
  exists t, fm_write fm [] = LRet t /\ parse t = ParseOk (vnorm (deco (fm_fmts fm) 0 k)).
Proof. exact any_parses. Qed.
Print Assumptions C22_layouts.
(** it equals the value *)
Theorem C22_equal : forall k fm, reachable k fm -> k_sorted k = true -> vsafe true 0 (deco (fm_fmts fm) 0 k) = true ->
  each faithful_node (deco (fm_fmts fm) 0 k) = true ->
  exists t k', fm_write fm [] = LRet t /\ parse t = ParseOk k' /\ k_eqb k' k = true.
Proof. exact any_equal. Qed.
Print Assumptions C22_equal.
(** it is the very same value *)
Theorem C22_literal : forall k fm, reachable k fm -> k_sorted k = true -> vsafe true 0 (deco (fm_fmts fm) 0 k) = true ->
  each faithful_node (deco (fm_fmts fm) 0 k) = true -> each vliteral_node (deco (fm_fmts fm) 0 k) = true ->
  exists t, fm_write fm [] = LRet t /\ parse t = ParseOk k.
Proof. exact any_literal. Qed.
Print Assumptions C22_literal.
(** with conditions on the value alone: every layout is read back *)
Theorem C22_simple : forall ids k fm, reachable k fm -> k_sorted k = true -> simple_tree k = true -> vsimple ids k = true ->
  tuple_ids_shown (deco (fm_fmts fm) 0 k) = true -> (ids = true -> cntr_ids_shown (deco (fm_fmts fm) 0 k) = true) ->
  exists t k', fm_write fm [] = LRet t /\ parse t = ParseOk k' /\ k_eqb k' k = true.
Proof. exact simple_round_trip. Qed.
Print Assumptions C22_simple.
(** so [as_str_with_config] and parse round trip, whatever the width limit *)
Theorem C22_as_str : forall k cfg, simple_tree k = true -> vsimple (id_on_containers cfg) k = true -> k_sorted k = true -> ~ stuck cfg k ->
  (id_on_tuples cfg = true \/ forall x, In x (preorder k) -> match kval x with VTuple _ => kid x = None | _ => True end) ->
  exists t k', as_str_with_config k cfg = LRet t /\ parse t = ParseOk k' /\ k_eqb k' k = true.
Proof. exact as_str_any. Qed.
Print Assumptions C22_as_str.

(** a tree of containers, sequences, maps and tuples which meets the conditions,
    and its text with every node as verbose as it can be *)
Definition tree3 : kserd :=
  cn [("a", cn [("s", id_ "string" (st "hi: there"))]);
      ("b", sq [cn [("x", i32 1); ("y", sq [i32 1; cn [("z", fl "2.5")]])]; tup [i32 1; i32 2]; new_unit]);
      ("c", id_ "C" (cn [("m", sq [cn [("q", tup [i32 1; sq [i32 2]])]])]));
      ("e", mp [(i32 1, cn [("x", sq [i32 1])]); (st "k", sq [i32 2; sq [i32 1]])])]%string.
Example C22_case : simple_tree tree3 = true /\ vsimple true tree3 = true /\ k_sorted tree3 = true /\
  show tree3 (Some 0) = LRet (s "
[a]
    s = ""hi: there""

[[b]]
    x = 1

    [[y]]
    1

    [[y]]
        z = 2.5

[[b]]
(
    1
    2
)

[[b]]
()

[c:C]

    [[m]]
        q = (
                1
                [
                    2
                ]
            )

[[e]]
1:

    [[x]]
    1

[[e]]
""k"":
[
        2
        [
            1
        ]
    ]
").
Proof. vm_compute. auto. Qed.
Example C22_case_keys : ~ stuck (width (Some 0)) tree3 /\ id_on_tuples (width (Some 0)) = true.
Proof.
  split; [|reflexivity]. eapply returned_free. vm_compute. reflexivity.
Qed.
(** a list as a key, in a map which is itself a section, with room for the list *)
Definition tree_key : kserd := cn [("m", mp [(st "a", mp [(sq [i32 1; i32 2], st "a longer string")])])]%string.
Example C22_case_list_key : simple_tree tree_key = true /\ vsimple true tree_key = true /\ k_sorted tree_key = true /\ ~ stuck (width (Some 12)) tree_key /\
  show tree_key (Some 12) = LRet (s "
[[m]]
""a"":
{
        [1, 2]: ""a longer string""
    }
").
Proof. do 3 (split; [vm_compute; reflexivity|]). split; [eapply returned_free; vm_compute; reflexivity|]. vm_compute. reflexivity. Qed.
(** the conditions of the exact theorems *)
Definition tree4 : kserd :=
  id_ "Doc" (cn [("in", id_ "Vec" (cn [("p", id_ "pt" (tup [knew (VNum (Uint 1)); new_unit])); ("q", i32 (-7))]));
                 ("list", sq [fl "2.5"; cn [("w", st "x = 1")]]);
                 ("map", mp [(st "k 'x'", knew (VBarr [0; 255; 7]%N)); (st "l", cn [("v", sq [])])])])%string.
Example C22_literal_case : exists fm, reachable tree4 fm /\ k_sorted tree4 = true /\ map f_line (fm_fmts fm) =
    [Verbose; Verbose; Concise; Inline; Inline; Inline; Verbose; Inline; Verbose; Inline; Verbose; Inline; Inline; Inline; Concise; Inline] /\
  vsafe true 0 (deco (fm_fmts fm) 0 tree4) = true /\ each faithful_node (deco (fm_fmts fm) 0 tree4) = true /\ each vliteral_node (deco (fm_fmts fm) 0 tree4) = true.
Proof.
  destruct (run tree4 [OpLine Verbose 0; OpLine Concise 14]) as [fm| |] eqn:E; [|vm_compute in E; discriminate|vm_compute in E; discriminate].
  exists fm. split; [eexists; exact E|]. vm_compute in E. injection E as <-. vm_compute. auto.
Qed.
(** repeated names, blank lines, tabs and spaces *)
Example C22_document_case : is_read (fun k => k_eqb k (id_ "M" (cn [("a", mp [(i32 1, i32 3); (i32 2, cn [("b", i32 4)])]); ("z", i32 9)]))%string)
  (Some (parse (s "z = 1

[[ a ]]
1: 2
  :M
[[a:N]]
2:
	b = 4

[[a]]
1   :  3
 z =9"))).
Proof. vm_compute. auto. Qed.

(** ** values whose verbose text is not read back, or is read as another value *)
Theorem C22_rejected_refuted :
  Forall (fun k => k_typed k = true /\ k_sorted k = true /\ is_rejected (outcome (show k (Some 0))) /\ is_read (fun k' => k_eqb k' k) (outcome (show k None)))
    [ cn [("a", sq [cn [("string", st "hi: there")]])];                       (* the first field of an element is taken for a key *)
      cn [("a", id_ "X" (cn [("b", i32 1)]))];                                (* [a:X] in the first line *)
      cn [("b", mp [(tup [i32 1; i32 1], i32 2)])];                           (* a key of more than one line *)
      cn [("b", sq [sq [cn [("a", i32 1)]]; sq [i32 2]]); ("c", i32 1)];      (* a verbose container in a sequence in a sequence *)
      cn [("a", mp [(i32 1, sq [cn [("x", i32 1)]])])];                       (* or in a sequence in a map *)
      cn [("a", fl "inf"); ("b", cn [("x", i32 1)])];                         (* inf before a title *)
      cn [("a", cn [("x", fl "inf")]); ("b", cn [("x", i32 1)])] ]%string.
Proof. repeat (apply Forall_cons; [vm_compute; auto|]). apply Forall_nil. Qed.
Print Assumptions C22_rejected_refuted.
(** a map in a nested container is not indented: it is read as a field of the
    outermost one *)
Theorem C22_other_value_refuted : exists k, simple_tree k = true /\ k_sorted k = true /\
  is_read (fun k' => negb (k_eqb k' k)) (outcome (show k (Some 0))) /\ is_read (fun k' => k_eqb k' k) (outcome (show k None)).
Proof. exists (cn [("a", cn [("b", mp [(i32 1, i32 2)])]); ("c", i32 1)])%string. vm_compute. auto. Qed.
Print Assumptions C22_other_value_refuted.
(** the id of a sequence or map in the verbose layout is lost *)
Theorem C22_id_refuted : exists k, simple_tree k = true /\ vsimple true k = true /\ k_sorted k = true /\
  is_read (fun k' => match kval k', kval k with VCntr ((_, x') :: _), VCntr ((_, x) :: _) =>
    negb (match kid x', kid x with None, None => true | Some i, Some j => str_eqb i j | _, _ => false end) | _, _ => false end)
    (outcome (as_str_with_config k (mkConfig true true true true true (Some 0)))).
Proof. exists (cn [("a", id_ "List" (sq [i32 1; i32 2]))])%string. vm_compute. auto. Qed.
Print Assumptions C22_id_refuted.

(** * C38  for all layouts *)
Theorem C38_all_layouts_agree : forall k fm1 fm2, k_sorted k = true ->
  (reachable k fm1 /\ vsafe true 0 (deco (fm_fmts fm1) 0 k) = true /\ each faithful_node (deco (fm_fmts fm1) 0 k) = true) ->
  (reachable k fm2 /\ vsafe true 0 (deco (fm_fmts fm2) 0 k) = true /\ each faithful_node (deco (fm_fmts fm2) 0 k) = true) ->
  exists t1 t2 k1 k2, fm_write fm1 [] = LRet t1 /\ fm_write fm2 [] = LRet t2 /\ parse t1 = ParseOk k1 /\ parse t2 = ParseOk k2 /\ k_eqb k1 k2 = true.
Proof. exact any_agree. Qed.
Print Assumptions C38_all_layouts_agree.
Theorem C38_all_as_str : forall k cfg1 cfg2, simple_tree k = true -> k_sorted k = true ->
  (forall cfg, cfg = cfg1 \/ cfg = cfg2 -> vsimple (id_on_containers cfg) k = true /\ ~ stuck cfg k /\
    (id_on_tuples cfg = true \/ forall x, In x (preorder k) -> match kval x with VTuple _ => kid x = None | _ => True end)) ->
  exists t1 t2 k1 k2, as_str_with_config k cfg1 = LRet t1 /\ as_str_with_config k cfg2 = LRet t2 /\
    parse t1 = ParseOk k1 /\ parse t2 = ParseOk k2 /\ k_eqb k1 k2 = true.
Proof. exact as_str_any_agree. Qed.
Print Assumptions C38_all_as_str.
