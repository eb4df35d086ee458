(** Property C79: exactly which texts are accepted. *)
From Verif Require Import Base F64 Number NumberSpec BTree Value ValueSpec Nav NavSpec Nom Parse ParseErr Fmt Formatter FmtVectors FmtText FmtSpec Grammar RtSpec PropertiesRt MisreadSpec LegibleSpec VSpec LegibleProps3 LegibleProps4 MisreadSpec2 LegibleSpec2 LegibleProps7.
Open Scope nat_scope.

(** * C79  whether a text is accepted can be told from the value and its layout *)
(** Whatever was done to the formatter, as long as no line is verbose: the text
    is read, as what it shows, when the tree is [legible], and refused otherwise. *)
Theorem C79_decided : forall k fm, reachable k fm -> (forall i, line_of fm i <> Some Verbose) ->
  clear (deco (fm_fmts fm) 0 k) = true ->
  exists t, fm_write fm [] = LRet t /\
    if legible (deco (fm_fmts fm) 0 k) then parse t = ParseOk (norm (deco (fm_fmts fm) 0 k)) else exists e, parse t = ParseErr e.
Proof. exact decided. Qed.
Print Assumptions C79_decided.
Theorem C79_accepted_iff : forall k fm t, reachable k fm -> (forall i, line_of fm i <> Some Verbose) ->
  clear (deco (fm_fmts fm) 0 k) = true -> fm_write fm [] = LRet t ->
  ((exists k', parse t = ParseOk k') <-> legible (deco (fm_fmts fm) 0 k) = true).
Proof. exact accepted_iff. Qed.
Print Assumptions C79_accepted_iff.
(** the same when the outermost container has a line for each field: then only the
    fields decide *)
Theorem C79_fields_decided : forall k fm, reachable k fm -> (forall i, 0 < i -> line_of fm i <> Some Verbose) -> k_sorted k = true ->
  clear (deco (fm_fmts fm) 0 k) = true ->
  exists t, fm_write fm [] = LRet t /\
    if vlegible (deco (fm_fmts fm) 0 k) then parse t = ParseOk (vnorm (deco (fm_fmts fm) 0 k)) else exists e, parse t = ParseErr e.
Proof. exact decided_fields. Qed.
Print Assumptions C79_fields_decided.

(** and when fields stand below titles: [vclear] (MisreadSpec2.v) is the condition under which
    such documents are refused or right, [tlegible] (LegibleSpec2.v) tells which of the two *)
Theorem C79_titles_decided : forall k fm, reachable k fm -> k_sorted k = true ->
  clear (deco (fm_fmts fm) 0 k) = true -> vclear true true (deco (fm_fmts fm) 0 k) = true ->
  exists t, fm_write fm [] = LRet t /\
    if (let d := deco (fm_fmts fm) 0 k in if verbose_cntr d then tlegible d else legible d)
    then parse t = ParseOk (vnorm (deco (fm_fmts fm) 0 k)) else exists e, parse t = ParseErr e.
Proof. exact decided_titles. Qed.
Print Assumptions C79_titles_decided.
Theorem C79_titles_accepted_iff : forall k fm t, reachable k fm -> k_sorted k = true ->
  clear (deco (fm_fmts fm) 0 k) = true -> vclear true true (deco (fm_fmts fm) 0 k) = true -> verbose_cntr (deco (fm_fmts fm) 0 k) = true ->
  fm_write fm [] = LRet t -> ((exists k', parse t = ParseOk k') <-> tlegible (deco (fm_fmts fm) 0 k) = true).
Proof. exact accepted_iff_titles. Qed.
Print Assumptions C79_titles_accepted_iff.

(** cases for each condition, on both sides: (clear, legible, accepted) *)
Definition verdict (k : kserd) (lines : list nat) : option (bool * bool * bool) :=
  match run k (OpConfig (mkConfig false false false false false None) :: map (OpLine Concise) lines) with
  | LRet fm => Some (clear (deco (fm_fmts fm) 0 k), legible (deco (fm_fmts fm) 0 k),
                     match fm_write fm [] with LRet t => match parse t with ParseOk _ => true | _ => false end | _ => false end)
  | _ => None
  end.
(** strings with both quotes in them are delimited by another character, and
    what they contain decides *)
Definition equals : kserd := st "'""=".
Definition sign_first : kserd := st "=a' """.
Example C79_case_accepted :
  Forall (fun e => verdict (fst e) (snd e) = Some (true, true, true))
    [ (sq [fl "inf"; sq [i32 1]], []);
      (sq [fl "inf"; i32 1], [0]);
      (tup [i32 1; equals], []);
      (tup [st "("; st "="], []);
      (tup [i32 1; sign_first], [0]);
      (tup [sq [i32 1; sign_first]], [0; 1]);
      (sq [knew (VBool true); knew (VBool false)], []);
      (sq [knew (VBool true)], [0]);
      (sq [sq [i32 1]], [0]);
      (mp [(fl "inf", sq [i32 1])], [0]);
      (cn [("a", sign_first)], []) ]%string.
Proof. repeat (apply Forall_cons; [vm_compute; reflexivity|]). apply Forall_nil. Qed.
Example C79_case_refused :
  Forall (fun e => verdict (fst e) (snd e) = Some (true, false, false))
    [ (fl "1e39", []);                                     (* no number in the parser's syntax *)
      (sq [fl "inf"; sq [i32 1]], [0]);                    (* a bracket on the line below inf *)
      (mp [(i32 1, fl "inf"); (sq [], i32 1)], [0]);
      (tup [sign_first], []);                              (* '=' behind the bracket of a tuple *)
      (tup [i32 1; sign_first], []);
      (tup [sign_first; i32 1], [0]);
      (tup [sq [i32 1; sign_first]], []);
      (sign_first, []);                                    (* '=' in the first line of the document *)
      (sq [sign_first], []);
      (sq [sq []], []);                                    (* the document begins with two brackets *)
      (sq [knew (VBool true)], []);                        (* or with a word in brackets *)
      (sq [fl "NaN"], []) ]%string.
Proof. repeat (apply Forall_cons; [vm_compute; reflexivity|]). apply Forall_nil. Qed.
(** containers with a line for each field: (clear, legible, accepted) *)
Definition verdict_lines (k : kserd) : option (bool * bool * bool) :=
  match run k [OpConfig (mkConfig false false false false false None); OpLine Verbose 0] with
  | LRet fm => Some (clear (deco (fm_fmts fm) 0 k), vlegible (deco (fm_fmts fm) 0 k),
                     match fm_write fm [] with LRet t => match parse t with ParseOk _ => true | _ => false end | _ => false end)
  | _ => None
  end.
Example C79_case_fields :
  Forall (fun e => verdict_lines (fst e) = Some (true, snd e, snd e))
    [ (cn [("a", fl "inf"); ("b", sq [i32 1])], true);
      (cn [("a", sign_first); ("b", sq [knew (VBool true)])], true);
      (cn [("a", i32 1); ("b", tup [sign_first])], false);
      (cn [("a", fl "1e39")], false) ]%string.
Proof. repeat (apply Forall_cons; [vm_compute; reflexivity|]). apply Forall_nil. Qed.
(** documents with titles, with the lines which are verbose: (clear, legible, accepted) *)
Definition verdict_titles (k : kserd) (lines : list nat) : option (bool * bool * bool) :=
  match run k (OpConfig (mkConfig false false false false false None) :: map (OpLine Verbose) lines) with
  | LRet fm => let d := deco (fm_fmts fm) 0 k in
      Some (clear d && vclear true true d && verbose_cntr d && k_sorted k, tlegible d,
            match fm_write fm [] with LRet t => match parse t with ParseOk _ => true | _ => false end | _ => false end)
  | _ => None
  end.
Example C79_case_titles :
  Forall (fun e => verdict_titles (fst (fst e)) (snd (fst e)) = Some (true, snd e, snd e))
    [ (cn [("a", fl "inf"); ("b", i32 1)], [0], true);
      (cn [("a", fl "inf"); ("b", cn [("x", i32 1)])], [0; 2], false);               (* a title below inf *)
      (cn [("a", fl "inf"); ("b", cn [("x", i32 1)])], [0], true);                   (* the same in one line *)
      (cn [("a", i32 1); ("b", cn [("x", fl "inf")])], [0; 2], true);
      (cn [("a", cn [("x", fl "inf")]); ("b", cn [("y", i32 1)])], [0; 1; 3], false);
      (cn [("a", cn [("x", fl "inf")]); ("b", i32 1)], [0; 1], true);
      (cn [("a", sq [fl "NaN"; i32 1])], [0; 1], false);                             (* below an element *)
      (cn [("a", sq [i32 1; fl "NaN"]); ("b", i32 1)], [0; 1], true);
      (cn [("a", sq [cn [("x", fl "NaN")]; cn [("x", i32 1)]])], [0; 1; 2; 4], false);
      (cn [("a", sq [cn [("x", i32 1)]; cn [("x", fl "NaN")]])], [0; 1; 2; 4], true);
      (cn [("a", mp [(i32 1, fl "inf"); (i32 2, i32 1)])], [0; 1], false);           (* below an entry *)
      (cn [("a", mp [(i32 1, i32 1); (i32 2, fl "inf")])], [0; 1], true);
      (cn [("a", mp [(i32 1, cn [("x", fl "inf")]); (i32 2, cn [("x", i32 1)])])], [0; 1; 3; 6], false);
      (cn [("a", cn [("x", tup [sign_first])])], [0; 1], false) ]%string.
Proof. repeat (apply Forall_cons; [vm_compute; reflexivity|]). apply Forall_nil. Qed.
