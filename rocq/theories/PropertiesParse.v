(** Properties C17-C19 of the parser. *)
From Verif Require Import Base BTree Value ValueSpec Nom Parse ParseErr ParseSpec ParseProps ParseErrProps ParseErrProps2.
Open Scope nat_scope.

(** * C17  parsing is total: no panic and, as the recursion in the model is
    bounded by the length of the input, no nesting deeper than that *)
Theorem C17_parse_total : forall src,
  (exists k, parse src = ParseOk k) \/ (exists e, parse src = ParseErr e).
Proof.
  exact (fun src => match parse_total src with
    | or_introl (ex_intro _ k (conj H _)) => or_introl (ex_intro _ k H)
    | or_intror H => or_intror H end).
Qed.
Print Assumptions C17_parse_total.

Example C17_case :
  (exists k, parse (s "Foo (a = [1, 2], b = { <x> ""y"": -inf })") = ParseOk k)
  /\ (exists e, parse (s "((((((((((") = ParseErr e)
  /\ (exists e, parse (s "<") = ParseErr e).
Proof. vm_compute. repeat split; eexists; reflexivity. Qed.

(** * C18  parsed values are well formed *)
Theorem C18_parsed_well_formed : forall src k, parse src = ParseOk k -> k_parsed k = true.
Proof. exact parse_wf. Qed.
Print Assumptions C18_parsed_well_formed.

Example C18_case : exists k, parse (s ":Root
b = 2
[a:Sub]
    c = <id> ""x""") = ParseOk k.
Proof. eexists. vm_compute. reflexivity. Qed.

(** the grammar accepts field names which new_cntr rejects *)
Theorem C18_field_names_refuted : exists src m, parse src = ParseOk (Kserd None (VCntr m)) /\
  exists e, new_cntr m = inl e.
Proof. exists (s "( 1a = 2 )"). eexists. split; [vm_compute; reflexivity|]. eexists. vm_compute. reflexivity. Qed.
Print Assumptions C18_field_names_refuted.

(** a map whose keys hold no numbers is in order; with numbers it need not be *)
Example C18_map_case : exists m, parse (s "{ ""b"": 1, ""a"": 2, (): 3, ""b"": 4 }") = ParseOk (Kserd None (VMap m)) /\
  forallb (fun e => no_numbers (fst e)) m = true /\ length m = 3.
Proof. eexists. split; [vm_compute; reflexivity|]. vm_compute. split; reflexivity. Qed.
Theorem C18_map_order_refuted : exists src m, parse src = ParseOk (Kserd None (VMap m)) /\
  strictly_sorted k_cmp m = false.
Proof.
  exists (s "{ 1e300: 1, 340282366920938463463374607431768211455: 2 }"). eexists. split; [vm_compute; reflexivity|].
  vm_compute. reflexivity.
Qed.
Print Assumptions C18_map_order_refuted.

(** there are ids which with_id takes, and names which new_cntr takes, and which are
    read from no text *)
Theorem C18_never_read_refuted :
  (exists id, with_id id VUnit = inr (Kserd (Some id) VUnit) /\ forall src k, parse src = ParseOk k -> k_all (fun n => negb (has_id id n)) k = true) /\
  (exists name, new_cntr [(name, new_unit)] = inr (VCntr [(name, new_unit)]) /\ forall src k, parse src = ParseOk k -> k_all (fun n => negb (has_field name n)) k = true).
Proof. exact (conj (ex_intro _ (s "a:b") (conj eq_refl (id_not_read (s "a:b") eq_refl))) (ex_intro _ (s "a.b") (conj eq_refl (field_not_read (s "a.b") eq_refl)))). Qed.
Print Assumptions C18_never_read_refuted.

(** * C19  parse errors point into the input *)
Theorem C19_error_traces : forall src e, parse src = ParseErr e ->
  0 < e_len e /\
  (forall i, i < e_len e ->
     exists p q k t, src = p ++ q /\ nth_error (errs e) i = Some (bytes p, k) /\
       e_get e i = Ret (Some t) /\ describes src p k t) /\
  (forall i, e_len e <= i -> e_get e i = Ret None).
Proof. exact error_traces. Qed.
Print Assumptions C19_error_traces.

Theorem C19_iter_and_backtrace : forall src e, parse src = ParseErr e ->
  (exists l, e_iter e = Ret l /\ length l = e_len e /\ forall i, e_get e i = Ret (nth_error l i)) /\
  (exists t, backtrace e = Ret t).
Proof. exact iter_and_backtrace. Qed.
Print Assumptions C19_iter_and_backtrace.

(** the backtrace shows the traces, numbered, with an empty line between them; the
    column being in bytes (C19_error_traces), so is the place of the caret *)
Theorem C19_backtrace_text : forall src e l, parse src = ParseErr e -> e_iter e = Ret l ->
  backtrace e = Ret (paragraphs (numbered 0 l)).
Proof. exact backtrace_text. Qed.
Print Assumptions C19_backtrace_text.
(** the traces go from the place of the error outwards: none is further on in the
    text than those before it *)
Theorem C19_order : forall src e i j t t', parse src = ParseErr e -> i < j -> e_get e i = Ret (Some t) -> e_get e j = Ret (Some t') ->
  t_line t' < t_line t \/ (t_line t' = t_line t /\ t_col t' <= t_col t).
Proof. exact error_order. Qed.
Print Assumptions C19_order.
(** for a document which begins with a bracket the last one is about this bracket: it
    says what it was taken to open and stands right after it.  The other reason for
    which such a document is rejected is text after the closing bracket. *)
Theorem C19_outermost : forall c t e, c = ch "(" \/ c = ch "{" -> parse (c :: t) = ParseErr e ->
  (exists p tr, e_len e = 1 /\ e_get e 0 = Ret (Some tr) /\ describes (c :: t) p (ENom NkEof) tr) \/
  (exists x tr, In x (enclosing c) /\ e_get e (e_len e - 1) = Ret (Some tr) /\ t_msg tr = s "in " ++ x /\
    located (c :: t) [c] (t_line tr) (t_col tr) (t_linestr tr)).
Proof. exact outermost. Qed.
Print Assumptions C19_outermost.
Example C19_outermost_case :
  match parse (s "(a = 1, b = [1, {2}])") with
  | ParseErr e => match e_iter e with Ret l => map (fun t => (t_col t, t_msg t)) l | _ => [] end
  | _ => []
  end = [(15, s "expected ']', found ','"); (14, s "in inline sequence"); (9, s "in name-kserd key value pair");
           (2, s "in comma separated kserdstr-kserd pair"); (2, s "in inline container")] /\
  match parse (s "(1) 2") with
  | ParseErr e => match e_iter e with Ret l => map (fun t => (t_col t, t_msg t)) l | _ => [] end
  | _ => []
  end = [(5, s "in Eof")].
Proof. vm_compute. auto. Qed.
(** so it is not under the character it is about when others before it take more
    than a byte *)
Theorem C19_caret_refuted : exists src e t c, parse src = ParseErr e /\ e_get e 0 = Ret (Some t) /\
  t_msg t = s "expected ')', found '" ++ [c] ++ s "'" /\ nth_error (t_linestr t) (t_col t - 1) <> Some c.
Proof.
  exists (s "(" ++ [34; 233; 34] ++ s ", ?)")%N. do 2 eexists. exists (ch ","). split; [vm_compute; reflexivity|]. split; [vm_compute; reflexivity|].
  vm_compute. split; [reflexivity|discriminate].
Qed.
Print Assumptions C19_caret_refuted.

(** two byte characters before the place, a "\r\n" line ending, and the end of
    a text which ends with a line feed *)
Example C19_case :
  match parse (s "(" ++ [34; 233; 34] ++ s ", ?" ++ [13; 10] ++ s ")")%N with
  | ParseErr e => match e_get e 0 with Ret (Some t) => Some (t_line t, t_col t, t_linestr t, t_msg t) | _ => None end
  | _ => None
  end = Some (1, 6, s "(" ++ [34; 233; 34]%N ++ s ", ?", s "expected ')', found ','")
  /\ match parse (s "(" ++ [10])%N with
  | ParseErr e => match e_get e 0 with Ret (Some t) => Some (t_line t, t_col t, t_linestr t) | _ => None end
  | _ => None
  end = Some (1, 3, s "(").
Proof. vm_compute. repeat split. Qed.
