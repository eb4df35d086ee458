(** Property C69, second part: documents with a line for each field, one after another. *)
From Verif Require Import Base F64 Number BTree Value ValueSpec Nav NavSpec Nom Parse ParseErr Fmt Formatter FmtVectors FmtText FmtSpec Grammar RtSpec VSpec MisreadSpec LegibleSpec MisreadSpec2 AppendSpec AppendProps.
Open Scope nat_scope.

(** A document which was written with a line for each field can be appended to another: the
    text is read as the container with the fields of both.  The names have to be different and
    the second document has no id.  Only when the first ends in a bare [inf] or [NaN] and the
    second begins with a title is the text refused. *)
Theorem C69_append : forall k1 fm1 t1 id l1 k2 fm2 t2 l2, line_document k1 fm1 t1 -> line_document k2 fm2 t2 ->
  parse t1 = ParseOk (Kserd id (VCntr l1)) -> parse t2 = ParseOk (Kserd None (VCntr l2)) -> NoDup (map fst (l1 ++ l2)) ->
  if ends_bare (deco (fm_fmts fm1) 0 k1) && Grammar.opens t2 then exists e, parse (t1 ++ t2) = ParseErr e
  else parse (t1 ++ t2) = ParseOk (Kserd id (VCntr (fields_of (l1 ++ l2)))).
Proof. exact written_append. Qed.
Print Assumptions C69_append.

(** cases on both sides *)
Definition bare : config := mkConfig false false false false false None.
Definition by_lines (k : kserd) (lines : list nat) : lres formatter := run k (OpConfig bare :: map (OpLine Verbose) lines).
Definition doc1 : kserd := cn [("m", i32 1); ("p", cn [("x", fl "inf")])]%string.
Definition doc2 : kserd := cn [("a", sq [st "one"; st "two"]); ("q", i32 2)]%string.
Definition doc3 : kserd := cn [("a", i32 7); ("b", mp [(i32 1, i32 2)])]%string.
Definition line_doc_b (k : kserd) (fm : formatter) : bool :=
  k_sorted k && clear (deco (fm_fmts fm) 0 k) && vclear true true (deco (fm_fmts fm) 0 k) &&
  match line_of fm 0 with Some Verbose => true | _ => false end.
Definition text_of (k : kserd) (lines : list nat) : str := match by_lines k lines with LRet fm => match fm_write fm [] with LRet t => t | _ => [] end | _ => [] end.
Lemma line_doc k lines fm : by_lines k lines = LRet fm -> line_doc_b k fm = true -> (exists t, fm_write fm [] = LRet t) -> line_document k fm (text_of k lines).
Proof.
  intros E H [t W]. unfold line_doc_b in H. rewrite !andb_true_iff in H. destruct H as [[[H1 H2] H3] H4]. split; [eexists; exact E|]. split; [exact H1|]. split; [exact H2|]. split; [exact H3|]. split; [destruct (line_of fm 0) as [[]|]; (discriminate || reflexivity)|].
  unfold text_of. now rewrite E, W.
Qed.
Definition read_names (t : str) : option (list str) := match parse t with ParseOk (Kserd _ (VCntr l)) => Some (map fst l) | _ => None end.
Example C69_append_case : exists fm1 fm2 fm3, line_document doc1 fm1 (text_of doc1 [0; 2]) /\ line_document doc2 fm2 (text_of doc2 [0; 1]) /\ line_document doc3 fm3 (text_of doc3 [0; 2]) /\
  ends_bare (deco (fm_fmts fm1) 0 doc1) = true /\ ends_bare (deco (fm_fmts fm2) 0 doc2) = false /\
  Grammar.opens (text_of doc2 [0; 1]) = true /\ Grammar.opens (text_of doc3 [0; 2]) = false /\ Grammar.opens (text_of doc1 [0; 2]) = false /\
  read_names (text_of doc1 [0; 2]) = Some [s "m"; s "p"] /\ read_names (text_of doc2 [0; 1]) = Some [s "a"; s "q"] /\ read_names (text_of doc3 [0; 2]) = Some [s "a"; s "b"] /\
  read_names (text_of doc1 [0; 2] ++ text_of doc3 [0; 2]) = Some [s "a"; s "b"; s "m"; s "p"] /\
  read_names (text_of doc2 [0; 1] ++ text_of doc1 [0; 2]) = Some [s "a"; s "m"; s "p"; s "q"] /\
  read_names (text_of doc1 [0; 2] ++ text_of doc2 [0; 1]) = None.
Proof.
  destruct (by_lines doc1 [0; 2]) as [fm1| |] eqn:E1; [|vm_compute in E1; discriminate..]. destruct (by_lines doc2 [0; 1]) as [fm2| |] eqn:E2; [|vm_compute in E2; discriminate..]. destruct (by_lines doc3 [0; 2]) as [fm3| |] eqn:E3; [|vm_compute in E3; discriminate..].
  exists fm1, fm2, fm3. pose proof (line_doc _ _ _ E1) as D1. pose proof (line_doc _ _ _ E2) as D2. pose proof (line_doc _ _ _ E3) as D3.
  vm_compute in E1. injection E1 as <-. vm_compute in E2. injection E2 as <-. vm_compute in E3. injection E3 as <-.
  split; [apply D1; [vm_compute; reflexivity|eexists; vm_compute; reflexivity]|]. split; [apply D2; [vm_compute; reflexivity|eexists; vm_compute; reflexivity]|]. split; [apply D3; [vm_compute; reflexivity|eexists; vm_compute; reflexivity]|].
  vm_compute. auto 20.
Qed.
(** the same name in both: of fields the last counts, elements are gathered *)
Theorem C69_same_name_refuted : exists k1 fm1 t1 l1 k2 fm2 t2 l2, line_document k1 fm1 t1 /\ line_document k2 fm2 t2 /\
  parse t1 = ParseOk (Kserd None (VCntr l1)) /\ parse t2 = ParseOk (Kserd None (VCntr l2)) /\
  ends_bare (deco (fm_fmts fm1) 0 k1) = false /\ parse (t1 ++ t2) <> ParseOk (Kserd None (VCntr (fields_of (l1 ++ l2)))).
Proof.
  destruct (by_lines doc2 [0; 1]) as [fm2| |] eqn:E2; [|vm_compute in E2; discriminate..]. pose proof (line_doc _ _ _ E2) as D2. vm_compute in E2. injection E2 as <-.
  assert (L : line_document doc2 _ (text_of doc2 [0; 1])) by (apply D2; [vm_compute; reflexivity|eexists; vm_compute; reflexivity]).
  do 8 eexists. split; [exact L|]. split; [exact L|]. split; [vm_compute; reflexivity|]. split; [vm_compute; reflexivity|]. split; [vm_compute; reflexivity|]. vm_compute. discriminate.
Qed.
Print Assumptions C69_same_name_refuted.
