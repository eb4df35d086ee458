(** The order in which fields, entries and sections are written does not
    matter (C64). *)
From Coq Require Import Permutation.
From Verif Require Import Base F64 Number BTree Value BaseProps ValueSpec Nom Parse ParseErr Grammar VGrammar OrderSpec OrderProps.
Open Scope N_scope.

(** Containers on one line: fields with different names, in any order. *)
Theorem C64_fields : forall fs gs, fs <> [] -> (forall f, In f fs -> good_field true f) -> NoDup (map fst fs) -> Permutation fs gs ->
  exists k, parse (inline_cntr fs) = ParseOk k /\ parse (inline_cntr gs) = ParseOk k.
Proof. exact inline_order_parse. Qed.
Print Assumptions C64_fields.
Definition c64_fields : list (str * str) := [(s "a", s "1"); (s "b", s """x"""); (s "c", s "true")].
Example C64_fields_case : (forall f, In f c64_fields -> good_field true f) /\ NoDup (map fst c64_fields) /\
  inline_cntr c64_fields = s "(a = 1, b = ""x"", c = true)" /\ inline_cntr (rev c64_fields) = s "(c = true, b = ""x"", a = 1)".
Proof.
  split; [|split; [|split; reflexivity]].
  - intros f [<-|[<-|[<-|[]]]]; (split; [discriminate|split; [reflexivity|eexists; eexists; apply R_plain; [|intros d r X; discriminate X]]]).
    + apply (T_num (s "1") (Uint 1)); reflexivity.
    + apply (T_str (s "x")); reflexivity.
    + apply T_true.
  - cbn [map fst c64_fields]. repeat constructor; cbn; intuition discriminate.
Qed.
(** The same with a field to a line. *)
Theorem C64_lines : forall fs gs, fs <> [] -> (forall f, In f fs -> good_field false f) -> NoDup (map fst fs) -> Permutation fs gs ->
  exists k, parse (concise_cntr fs) = ParseOk k /\ parse (concise_cntr gs) = ParseOk k.
Proof. exact concise_order_parse. Qed.
Print Assumptions C64_lines.
Example C64_lines_case : (forall f, In f c64_fields -> good_field false f) /\
  concise_cntr c64_fields = s "(" ++ [10] ++ s "    a = 1" ++ [10] ++ s "    b = ""x""" ++ [10] ++ s "    c = true" ++ [10] ++ s ")".
Proof.
  split; [|reflexivity]. intros f [<-|[<-|[<-|[]]]]; (split; [discriminate|split; [reflexivity|eexists; eexists; apply R_plain; [|intros d r X; discriminate X]]]).
  - apply (T_num (s "1") (Uint 1)); reflexivity.
  - apply (T_str (s "x")); reflexivity.
  - apply T_true.
Qed.

(** Of fields with the same name the last counts; what stood before has no
    influence. *)
Theorem C64_last : forall pre f fs, In (fst f) (map fst fs) -> (forall g, In g (pre ++ f :: fs) -> good_field true g) ->
  exists k, parse (inline_cntr (pre ++ f :: fs)) = ParseOk k /\ parse (inline_cntr (pre ++ fs)) = ParseOk k.
Proof. exact inline_again. Qed.
Print Assumptions C64_last.
Example C64_last_case : parse (s "(a = 1, b = 2, a = 3)") = parse (s "(b = 2, a = 3)") /\ parse (s "(a = 1, b = 2, a = 3)") <> parse (s "(a = 1, b = 2)").
Proof. split; vm_compute; [reflexivity|discriminate]. Qed.

(** Maps: entries with different keys, in any order. *)
Theorem C64_entries : forall es es', (forall e, In e es -> good_entry e) -> ForallOrdPairs different es -> Permutation es es' ->
  exists k, parse (inline_map es) = ParseOk k /\ parse (inline_map es') = ParseOk k.
Proof. exact map_order_parse. Qed.
Print Assumptions C64_entries.
Definition c64_entries : list (str * str) := [(s "true", s "1"); (s """x""", s "1"); (s "5", s "true")].
Example C64_entries_case : (forall e, In e c64_entries -> good_entry e) /\ ForallOrdPairs different c64_entries /\
  inline_map c64_entries = s "{true: 1, ""x"": 1, 5: true}".
Proof.
  assert (U : forall t k k', verbose_start t = false -> parse t = ParseOk k' -> key_of t k -> k = k') by exact key_unique.
  split; [|split; [|reflexivity]].
  - intros f [<-|[<-|[<-|[]]]]; (split; [eexists; (split; [eexists; apply R_plain; [|intros d r X; discriminate X]|])|eexists; eexists; apply R_plain; [|intros d r X; discriminate X]]).
    + apply T_true.
    + split; reflexivity.
    + apply (T_num (s "1") (Uint 1)); reflexivity.
    + apply (T_str (s "x")); reflexivity.
    + split; reflexivity.
    + apply (T_num (s "1") (Uint 1)); reflexivity.
    + apply (T_num (s "5") (Uint 5)); reflexivity.
    + split; reflexivity.
    + apply T_true.
  - assert (A : forall k, key_of (s "true") k -> k = Kserd None (VBool true)) by (intros k; apply U; vm_compute; reflexivity).
    assert (B : forall k, key_of (s """x""") k -> k = Kserd None (VStr (s "x"))) by (intros k; apply U; vm_compute; reflexivity).
    assert (C : forall k, key_of (s "5") k -> k = Kserd None (VNum (Uint 5))) by (intros k; apply U; vm_compute; reflexivity).
    repeat constructor; intros k k' H H'; cbn [fst] in H, H'; first [apply A in H | apply B in H | apply C in H]; first [apply A in H' | apply B in H' | apply C in H']; subst; reflexivity.
Qed.
(** Keys must not be equal: [1] and [1.0] are. *)
Theorem C64_equal_keys_refuted : parse (s "{1: 2, 1.0: 3}") <> parse (s "{1.0: 3, 1: 2}").
Proof. vm_compute. discriminate. Qed.
Print Assumptions C64_equal_keys_refuted.

(** Documents in the verbose layout: fields [name = value], sections [[name]],
    elements and entries [[[name]]] and the id [:id] of the document in any
    order, as long as those with the same name keep theirs. *)
Theorem C64_sections : forall l l', (forall e, In e l -> good_item e) -> (forall e, In e l' -> good_item e) ->
  same_but_order (map snd l) (map snd l') -> verbose_first (verbose_doc l) = true -> verbose_first (verbose_doc l') = true ->
  exists k, parse (verbose_doc l) = ParseOk k /\ parse (verbose_doc l') = ParseOk k.
Proof. exact items_order. Qed.
Print Assumptions C64_sections.
(** Different names: any order. *)
Theorem C64_sections_distinct : forall l l', (forall e, In e l -> good_item e) -> Permutation l l' ->
  (forall name, length (filter (about name) (map snd l)) <= 1)%nat -> verbose_first (verbose_doc l) = true -> verbose_first (verbose_doc l') = true ->
  exists k, parse (verbose_doc l) = ParseOk k /\ parse (verbose_doc l') = ParseOk k.
Proof. exact items_perm. Qed.
Print Assumptions C64_sections_distinct.
Definition c64_one : kserd := Kserd None (VNum (Uint 1)).
Definition c64_items : list (str * item) :=
  [(s ":Doc", It_id (s "Doc")); (s "a = 1", It_field (s "a") c64_one);
   (s "[[b]]" ++ [10] ++ s "1", It_elem None (s "b") c64_one); (s "[[b]]" ++ [10] ++ s "true", It_elem None (s "b") (Kserd None (VBool true)))].
Definition c64_items' : list (str * item) :=
  [(s "[[b]]" ++ [10] ++ s "1", It_elem None (s "b") c64_one); (s "a = 1", It_field (s "a") c64_one);
   (s "[[b]]" ++ [10] ++ s "true", It_elem None (s "b") (Kserd None (VBool true))); (s ":Doc", It_id (s "Doc"))].
Example C64_sections_case : (forall e, In e c64_items -> good_item e) /\ (forall e, In e c64_items' -> good_item e) /\
  same_but_order (map snd c64_items) (map snd c64_items') /\ verbose_first (verbose_doc c64_items) = true /\ verbose_first (verbose_doc c64_items') = true.
Proof.
  assert (R1 : reads false (s "1") c64_one false).
  { apply (R_plain false (s "1") (VNum (Uint 1))); [apply T_num; reflexivity|intros d r X; discriminate X]. }
  assert (RT : reads false (s "true") (Kserd None (VBool true)) false).
  { apply (R_plain false (s "true") (VBool true)); [apply T_true|intros d r X; discriminate X]. }
  assert (T : title (s "b") (s "b") None).
  { apply (Title [] (s "b") []); [reflexivity|discriminate|reflexivity|reflexivity]. }
  assert (G : forall e, In e c64_items -> good_item e).
  { intros e [<-|[<-|[<-|[<-|[]]]]]; exists false; cbn [fst snd].
    - apply (I_id O [] (s "Doc")); reflexivity.
    - apply I_field. apply (Field _ (s "a") (s " ") (s " ") (s "1")); [discriminate|reflexivity|reflexivity|reflexivity|exact R1].
    - apply (I_elem O (s "b") (s "b") None [] [10] (s "1") c64_one false false); [exact T|reflexivity|now left| |discriminate].
      apply (B_plain 1 [] (s "1")); [reflexivity|exact R1|]. intros r H. apply (word_line (s "1")); [discriminate|reflexivity|exact H].
    - apply (I_elem O (s "b") (s "b") None [] [10] (s "true") (Kserd None (VBool true)) false false); [exact T|reflexivity|now left| |discriminate].
      apply (B_plain 1 [] (s "true")); [reflexivity|exact RT|]. intros r H. apply (word_line (s "true")); [discriminate|reflexivity|exact H]. }
  split; [exact G|]. split; [|repeat split; try reflexivity].
  - intros e [<-|[<-|[<-|[<-|[]]]]]; apply G; cbn [In c64_items]; tauto.
  - intros [n|]; [|reflexivity]. cbn [c64_items c64_items' map snd filter about]. destruct (str_eqb (s "a") n) eqn:A, (str_eqb (s "b") n) eqn:B; try reflexivity.
    apply str_eqb_eq in A. apply str_eqb_eq in B. subst n. discriminate B.
Qed.
(** The first item must show the layout: a section with an id does not. *)
Theorem C64_first_refuted : exists a b k e, parse (a ++ [10] ++ b) = ParseOk k /\ parse (b ++ [10] ++ a) = ParseErr e.
Proof. exists (s "a = 1"), (s "[b:X]" ++ [10] ++ s "    c = 1"). eexists. eexists. split; vm_compute; reflexivity. Qed.
Print Assumptions C64_first_refuted.
(** [inf] and [NaN] must not be followed by a bracket, even on the next line. *)
Theorem C64_bare_refuted : exists a b k e, parse (b ++ [10] ++ a) = ParseOk k /\ parse (a ++ [10] ++ b) = ParseErr e /\ a = s "a = inf".
Proof. exists (s "a = inf"), (s "[b]" ++ [10] ++ s "    c = 1"). eexists. eexists. repeat split; vm_compute; reflexivity. Qed.
Print Assumptions C64_bare_refuted.
