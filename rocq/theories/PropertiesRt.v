(** Properties C20, C21, C37 and C38: format, parse, get the value back. *)
From Verif Require Import Base F64 Number NumberSpec BTree Value ValueSpec Nav NavSpec Nom Parse ParseErr Fmt Formatter FmtVectors FmtText FmtSpec Grammar RtSpec RtProps7.
Open Scope nat_scope.

(** * C20  all inline *)
(** what is read back, exactly *)
Theorem C20_inline : forall k fm, reachable k fm -> (forall i, i < nav_len (fm_nav fm) -> line_of fm i = Some Inline) ->
  text_safe (deco (fm_fmts fm) 0 k) = true ->
  exists t, fm_write fm [] = LRet t /\ parse t = ParseOk (norm (deco (fm_fmts fm) 0 k)).
Proof. exact inline_parses. Qed.
Print Assumptions C20_inline.
(** without a width limit [as_str_with_config] is all inline; for a simple
    value what is read back equals the value whatever the id flags, unless the ids of
    tuples are hidden *)
Theorem C20_as_str : forall k cfg, width_limit cfg = None -> simple_tree k = true -> k_sorted k = true ->
  (id_on_tuples cfg = true \/ forall x, In x (preorder k) -> match kval x with VTuple _ => kid x = None | _ => True end) ->
  exists t k', as_str_with_config k cfg = LRet t /\ parse t = ParseOk k' /\ k_eqb k' k = true.
Proof. exact (fun k cfg W => as_str_simple k cfg (or_intror W)). Qed.
Print Assumptions C20_as_str.

Definition tree1 : kserd :=
  id_ "Doc" (cn [("list", id_ "Vec" (sq [i32 (-3); fl "2.5"; id_ "pt" (tup [i32 1; new_unit])]));
                 ("map", mp [(st "k 'x'", knew (VBarr [0; 255; 7]%N)); (tup [i32 1], sq []); (cn [("q", st "say ""hi"" = 1")], knew (VBool true))]);
                 ("str", id_ "String" (st "a=b, [c]"))])%string.
Example C20_case : simple_tree tree1 = true /\ k_sorted tree1 = true /\ k_typed tree1 = true /\
  as_str_with_config tree1 (mkConfig true true true true true None) =
  LRet (s "Doc (list = Vec [<i32> -3, <f64> 2.5, pt(<i32> 1, ())], map = { <str> ""k 'x'"": b91'T|#A', (<i32> 1): [], (q = <str> str'say ""hi"" = 1'): true }, str = <String> ""a=b, [c]"")").
Proof. vm_compute. auto. Qed.

(** * C21  any mix of inline and concise *)
Theorem C21_layouts : forall k fm, reachable k fm -> (forall i, line_of fm i <> Some Verbose) ->
  text_safe (deco (fm_fmts fm) 0 k) = true ->
  exists t, fm_write fm [] = LRet t /\ parse t = ParseOk (norm (deco (fm_fmts fm) 0 k)).
Proof. exact layout_parses. Qed.
Print Assumptions C21_layouts.
(** it equals the value *)
Theorem C21_equal : forall k fm, reachable k fm -> (forall i, line_of fm i <> Some Verbose) -> k_sorted k = true ->
  text_safe (deco (fm_fmts fm) 0 k) = true -> each faithful_node (deco (fm_fmts fm) 0 k) = true ->
  exists t k', fm_write fm [] = LRet t /\ parse t = ParseOk k' /\ k_eqb k' k = true.
Proof. exact layout_equal. Qed.
Print Assumptions C21_equal.
(** it is the very same value, ids and kinds of number included *)
Theorem C21_literal : forall k fm, reachable k fm -> (forall i, line_of fm i <> Some Verbose) -> k_sorted k = true ->
  text_safe (deco (fm_fmts fm) 0 k) = true -> each faithful_node (deco (fm_fmts fm) 0 k) = true ->
  each literal_node (deco (fm_fmts fm) 0 k) = true ->
  exists t, fm_write fm [] = LRet t /\ parse t = ParseOk k.
Proof. exact layout_literal. Qed.
Print Assumptions C21_literal.
(** with a condition on the value alone *)
Theorem C21_simple : forall k fm, reachable k fm -> (forall i, line_of fm i <> Some Verbose) -> k_sorted k = true ->
  simple_tree k = true -> tuple_ids_shown (deco (fm_fmts fm) 0 k) = true ->
  exists t k', fm_write fm [] = LRet t /\ parse t = ParseOk k' /\ k_eqb k' k = true.
Proof. exact layout_simple. Qed.
Print Assumptions C21_simple.
(** a formatter for a value which is not a container never has a verbose node *)
Theorem C21_not_container : forall k fm, reachable k fm -> is_cntr k = false -> forall i, line_of fm i <> Some Verbose.
Proof. exact root_not_verbose. Qed.
Print Assumptions C21_not_container.
(** so [as_str_with_config] and parse round trip for every width limit *)
Theorem C21_as_str : forall k cfg, is_cntr k = false -> simple_tree k = true -> k_sorted k = true ->
  (id_on_tuples cfg = true \/ forall x, In x (preorder k) -> match kval x with VTuple _ => kid x = None | _ => True end) ->
  exists t k', as_str_with_config k cfg = LRet t /\ parse t = ParseOk k' /\ k_eqb k' k = true.
Proof. exact (fun k cfg C => as_str_simple k cfg (or_introl C)). Qed.
Print Assumptions C21_as_str.

Definition seq1 : kserd := sq [tree1; st "it's"; tup [sq [i32 1]; sq [i32 2; fl "0.5"]]].
Example C21_case : is_cntr seq1 = false /\ simple_tree seq1 = true /\ k_sorted seq1 = true /\
  show seq1 (Some 60) = LRet (s "[
    Doc (
        list = [-3, 2.5, pt(1, ())]
        map = {
                  ""k 'x'"": b91'T|#A'
                  (1): []
                  (q = str'say ""hi"" = 1'): true
              }
        str = ""a=b, [c]""
    )
    ""it's""
    ([1], [2, 0.5])
]").
Proof. vm_compute. auto. Qed.
(** the conditions of the exact theorems, met by a formatter with inline and
    concise nodes *)
Definition tree2 : kserd :=
  id_ "Doc" (cn [("list", id_ "Vec" (sq [i32 (-3); fl "2.5"; id_ "pt" (tup [knew (VNum (Uint 1)); new_unit])]));
                 ("map", mp [(st "k 'x'", knew (VBarr [0; 255; 7]%N)); (tup [id_ "i" (knew (VNum (Uint 12)))], sq [])])])%string.
Example C21_literal_case : exists fm, reachable tree2 fm /\ map f_line (fm_fmts fm) =
    [Concise; Inline; Inline; Inline; Inline; Inline; Inline; Concise; Inline; Inline; Concise; Inline; Inline] /\ k_sorted tree2 = true /\
  text_safe (deco (fm_fmts fm) 0 tree2) = true /\ each faithful_node (deco (fm_fmts fm) 0 tree2) = true /\ each literal_node (deco (fm_fmts fm) 0 tree2) = true.
Proof.
  destruct (run tree2 [OpLine Concise 0; OpLine Inline 1]) as [fm| |] eqn:E; [|vm_compute in E; discriminate|vm_compute in E; discriminate].
  exists fm. split; [eexists; exact E|]. vm_compute in E. injection E as <-. vm_compute. auto.
Qed.

(** ** values whose text is not read back *)
Definition outcome (t : lres str) : option parse_result := match t with LRet t => Some (parse t) | _ => None end.
Definition is_rejected (o : option parse_result) : Prop := match o with Some (ParseErr _) => True | _ => False end.
Definition is_read (p : kserd -> bool) (o : option parse_result) : Prop := match o with Some (ParseOk k) => p k = true | _ => False end.
(** [as_str] writes a text which the parser rejects *)
Theorem C21_rejected_refuted :
  Forall (fun k => k_typed k = true /\ k_sorted k = true /\ is_rejected (outcome (as_str k)))
    [ sq [sq [i32 1]; sq [i32 2]];                      (* [[1], [2]] looks like the verbose layout *)
      sq [knew (VBool true)];                           (* [true] as well *)
      sq [fl "inf"];                                    (* [inf] as well *)
      id_ "trueish" (cn [("a", i32 1)]);                (* trueish (a = 1): read as a boolean *)
      tup [st "='"""; i32 1];                           (* str#...# in a tuple: taken for a container *)
      st "'""#`=|*^!%~&_\/:<>" ]%string.                (* str(...( : taken for a tuple *)
Proof. repeat (apply Forall_cons; [vm_compute; auto|]). apply Forall_nil. Qed.
Print Assumptions C21_rejected_refuted.
(** or one which it reads as another value: a unit with an id, an empty tuple,
    an empty container *)
Theorem C21_other_value_refuted :
  Forall (fun k => k_typed k = true /\ k_sorted k = true /\ is_read (fun k' => negb (k_eqb k' k)) (outcome (as_str k)))
    [ id_ "U" new_unit; tup []; cn []; sq [tup []; i32 1] ]%string.
Proof. repeat (apply Forall_cons; [vm_compute; auto|]). apply Forall_nil. Qed.
Print Assumptions C21_other_value_refuted.
(** a bare [inf] or [NaN] before a bracket in a concise list is taken for its id;
    the same value inline is read back *)
Theorem C21_bare_number_refuted : exists k, is_rejected (outcome (show k (Some 5))) /\ is_read (fun k' => k_eqb k' k) (outcome (show k None)).
Proof. exists (sq [fl "inf"; sq [i32 1]])%string. vm_compute. auto. Qed.
Print Assumptions C21_bare_number_refuted.
(** hiding the ids of tuples breaks the text *)
Theorem C20_hidden_tuple_refuted : exists k, simple_tree k = true /\ k_sorted k = true /\
  is_rejected (outcome (as_str_with_config k (mkConfig false false false false false None))).
Proof. exists (sq [id_ "T" (tup [i32 1]); i32 2])%string. vm_compute. auto. Qed.
Print Assumptions C20_hidden_tuple_refuted.

(** * C37  blanks do not matter *)
(** every text which the grammar gives to a value is read as the value; the
    grammar leaves open how many spaces and tabs stand around delimiters *)
Theorem C37_document : forall t k, document t k -> parse t = ParseOk k.
Proof. exact document_parses. Qed.
Print Assumptions C37_document.
Theorem C37_blanks : forall t t' k, document t k -> document t' k -> parse t = parse t'.
Proof. exact (fun t t' k H H' => eq_trans (document_parses t k H) (eq_sym (document_parses t' k H'))). Qed.
Print Assumptions C37_blanks.
(** the text of a formatter is among them *)
Theorem C37_formatted : forall k fm, reachable k fm -> (forall i, line_of fm i <> Some Verbose) ->
  text_safe (deco (fm_fmts fm) 0 k) = true ->
  exists t, fm_write fm [] = LRet t /\ document t (norm (deco (fm_fmts fm) 0 k)).
Proof. exact layout_document. Qed.
Print Assumptions C37_formatted.
(** a text stands for one value *)
Theorem C37_unambiguous : forall t k k', document t k -> document t k' -> k = k'.
Proof. exact document_unique. Qed.
Print Assumptions C37_unambiguous.

Example C37_case : parse (s "  id	 [1 ,   2,(a=   true ) ]  ") = parse (s "id [1, 2, (a = true)]") /\
  is_read (fun _ => true) (Some (parse (s "id [1, 2, (a = true)]"))).
Proof. vm_compute. auto. Qed.
(** a grammar text with blanks for a value *)
Example C37_document_case : forall w1 w2 w3 w4, blanks w1 -> blanks w2 -> blanks w3 -> blanks w4 ->
  document ([] ++ (s "v" ++ w1 ++ s "[" ++ (w2 ++ s "12" ++ w3 ++ s "," ++ w4 ++ s "true" ++ []) ++ s "]") ++ [])
    (Kserd (Some (s "v")) (VSeq [knew (VNum (Uint 12)); knew (VBool true)])).
Proof.
  intros w1 w2 w3 w4 B1 B2 B3 B4. apply (Document [] _ [] _ false); [reflexivity| |reflexivity|].
  - change (s "v" ++ w1 ++ s "[" ++ (w2 ++ s "12" ++ w3 ++ s "," ++ w4 ++ s "true" ++ []) ++ s "]") with
      ((s "v" ++ w1) ++ s "[" ++ (w2 ++ s "12" ++ w3 ++ s "," ++ w4 ++ s "true" ++ []) ++ s "]").
    apply (R_seq false (Some (s "v")) w1 (w2 ++ s "12" ++ w3 ++ s "," ++ w4 ++ s "true" ++ [])); [split; [exact B1|reflexivity]|].
    apply (IL_first _ w2 (s "12") _ false); [exact B2| |].
    + apply (R_plain true (s "12")); [constructor; vm_compute; reflexivity|intros d r H; discriminate H].
    + apply (IM_next _ w3 w4 (s "true") _ false []); [exact B3|exact B4| |constructor; reflexivity].
      apply (R_plain true (s "true")); [constructor|intros d r H; discriminate H].
  - rewrite app_nil_r. unfold verbose_start. cbn [s app].
    assert (A : forall w r, blanks w -> assigns (w ++ r) = assigns r).
    { induction w as [|c w IH]; intros r H; [reflexivity|]. unfold blanks in *. cbn [forallb] in H. apply andb_true_iff in H as [H1 H2]. cbn [app assigns]. rewrite (IH r H2).
      assert (H3 : c = 32%N \/ c = 9%N). { unfold blank, mem in H1. cbn [existsb] in H1. apply orb_true_iff in H1 as [H1|H1]; [left; now apply N.eqb_eq in H1|]. apply orb_true_iff in H1 as [H1|H1]; [right; now apply N.eqb_eq in H1|discriminate]. }
      destruct H3 as [-> | ->]; reflexivity. }
    change (false || assigns (s "v" ++ w1 ++ s "[" ++ (w2 ++ s "12" ++ w3 ++ s "," ++ w4 ++ s "true" ++ []) ++ s "]") || false = false).
    change (assigns (w1 ++ s "[" ++ (w2 ++ s "12" ++ w3 ++ s "," ++ w4 ++ s "true" ++ []) ++ s "]") || false = false).
    rewrite A by exact B1. change (assigns ((w2 ++ s "12" ++ w3 ++ s "," ++ w4 ++ s "true" ++ []) ++ s "]") || false = false).
    rewrite <- !app_assoc. rewrite A by exact B2. change (assigns (w3 ++ s "," ++ w4 ++ s "true" ++ [] ++ s "]") || false = false).
    rewrite A by exact B3. change (assigns (w4 ++ s "true" ++ [] ++ s "]") || false = false). rewrite A by exact B4. reflexivity.
Qed.
(** a trailing comma is rejected *)
Theorem C37_trailing_comma_refuted : Forall (fun t => is_rejected (Some (parse t))) [s "[1, 2,]"; s "(1,)"; s "(a = 1, )"; s "{ 1: 2, }"].
Proof. repeat (apply Forall_cons; [vm_compute; auto|]). apply Forall_nil. Qed.
Print Assumptions C37_trailing_comma_refuted.

(** * C38  formatters which differ in their id flags (or layouts) are read as
    equal values *)
Theorem C38_layouts_agree : forall k fm1 fm2, k_sorted k = true ->
  (reachable k fm1 /\ (forall i, line_of fm1 i <> Some Verbose) /\ text_safe (deco (fm_fmts fm1) 0 k) = true /\ each faithful_node (deco (fm_fmts fm1) 0 k) = true) ->
  (reachable k fm2 /\ (forall i, line_of fm2 i <> Some Verbose) /\ text_safe (deco (fm_fmts fm2) 0 k) = true /\ each faithful_node (deco (fm_fmts fm2) 0 k) = true) ->
  exists t1 t2 k1 k2, fm_write fm1 [] = LRet t1 /\ fm_write fm2 [] = LRet t2 /\ parse t1 = ParseOk k1 /\ parse t2 = ParseOk k2 /\ k_eqb k1 k2 = true.
Proof. exact layouts_agree. Qed.
Print Assumptions C38_layouts_agree.
Theorem C38_as_str : forall k cfg1 cfg2, simple_tree k = true -> k_sorted k = true ->
  (forall cfg, cfg = cfg1 \/ cfg = cfg2 -> (is_cntr k = false \/ width_limit cfg = None) /\
    (id_on_tuples cfg = true \/ forall x, In x (preorder k) -> match kval x with VTuple _ => kid x = None | _ => True end)) ->
  exists t1 t2 k1 k2, as_str_with_config k cfg1 = LRet t1 /\ as_str_with_config k cfg2 = LRet t2 /\
    parse t1 = ParseOk k1 /\ parse t2 = ParseOk k2 /\ k_eqb k1 k2 = true.
Proof. exact as_str_agree. Qed.
Print Assumptions C38_as_str.

Example C38_case : simple_tree tree1 = true /\ k_sorted tree1 = true /\
  as_str_with_config tree1 (mkConfig false true false false false None) =
  LRet (s "(list = [-3, 2.5, pt(1, ())], map = { ""k 'x'"": b91'T|#A', (1): [], (q = str'say ""hi"" = 1'): true }, str = ""a=b, [c]"")").
Proof. vm_compute. auto. Qed.
