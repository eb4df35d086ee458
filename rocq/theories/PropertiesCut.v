(** Property C68: incomplete texts, and texts with something added. *)
From Verif Require Import Base F64 Number BTree Value Nom Parse ParseErr ParseSpec Grammar VGrammar Nav NavSpec Fmt Formatter FmtVectors FmtText FmtSpec LayoutSpec RtSpec CutSpec CutProps CutProps2 CutProps3 ValueSpec MisreadSpec MisreadSpec2 CutProps4.
Open Scope N_scope.

(** The beginning of a text which is accepted and does not start like the verbose
    layout is rejected, as long as something other than spaces is missing. But for
    numbers; and, for a value in brackets with an id, but for beginnings which do
    not reach the bracket. *)
Theorem C68_cut : forall p q k, parse (p ++ q) = ParseOk k -> verbose_first (p ++ q) = false -> ~ spaces q -> is_number k = false ->
  in_brackets k = false \/ kid k = None \/ has_bracket p = true -> exists e, parse p = ParseErr e.
Proof. exact cut_rejected. Qed.
Print Assumptions C68_cut.
(** and if it is accepted: either nothing is missing, or both are numbers with the
    same id, or it is part of the id before the bracket *)
Theorem C68_readings : forall p q k k', parse p = ParseOk k' -> parse (p ++ q) = ParseOk k -> verbose_first (p ++ q) = false ->
  (spaces q /\ k' = k) \/
  (exists n n', kval k = VNum n /\ kval k' = VNum n' /\ kid k = kid k') \/
  (exists i w1 w x y, kid k = Some i /\ in_brackets k = true /\ blanks w1 /\ blanks w /\ p = w1 ++ x /\ i ++ w = x ++ y).
Proof. exact cut_text. Qed.
Print Assumptions C68_readings.
(** what a formatter writes in any mix of inline and concise layouts: no part of it
    is read as a value *)
Theorem C68_written : forall k fm t, reachable k fm -> (forall i, line_of fm i <> Some Verbose) -> text_safe (deco (fm_fmts fm) 0 k) = true -> is_number k = false ->
  fm_write fm [] = LRet t -> forall p q, t = p ++ q -> q <> [] ->
  kid k = None \/ (in_brackets k = false /\ kval k <> VUnit) \/ has_bracket p = true -> exists e, parse p = ParseErr e.
Proof. exact written_cut. Qed.
Print Assumptions C68_written.
(** to a text in brackets which is accepted nothing but spaces can be added; so two
    of them after each other are rejected *)
Theorem C68_added : forall p q k k', parse p = ParseOk k' -> verbose_first p = false -> in_brackets k' = true -> parse (p ++ q) = ParseOk k -> spaces q /\ k = k'.
Proof. exact nothing_added. Qed.
Print Assumptions C68_added.
(** in the verbose layout a file which breaks off between two fields of the outermost
    container is always read, without the fields which are missing *)
Theorem C68_truncated : forall k fm t id l, reachable k fm -> k_sorted k = true ->
  clear (deco (fm_fmts fm) 0 k) = true -> vclear true true (deco (fm_fmts fm) 0 k) = true -> line_of fm 0 = Some Verbose ->
  fm_write fm [] = LRet t -> parse t = ParseOk (Kserd id (VCntr l)) ->
  forall j, (0 < j)%nat -> exists t1 t2, t = t1 ++ t2 /\ parse t1 = ParseOk (Kserd id (VCntr (firstn j l))).
Proof. exact written_short. Qed.
Print Assumptions C68_truncated.

Definition text1 : str := s "id [" ++ [10] ++ s "  1 (a = true)" ++ [10] ++ s "]".
Example C68_cut_case : exists k, parse (firstn 10 text1 ++ skipn 10 text1) = ParseOk k /\ verbose_first text1 = false /\ ~ spaces (skipn 10 text1) /\ is_number k = false /\ has_bracket (firstn 10 text1) = true.
Proof. eexists. split; [vm_compute; reflexivity|]. split; [reflexivity|]. split; [discriminate|]. split; reflexivity. Qed.
Definition doc : kserd := tup [sq [i32 1; i32 20]; st "it's"].
Example C68_written_case : exists fm t, reachable doc fm /\ (forall i, line_of fm i <> Some Verbose) /\ text_safe (deco (fm_fmts fm) 0 doc) = true /\ is_number doc = false /\ fm_write fm [] = LRet t /\ kid doc = None /\ length t = 65%nat.
Proof.
  do 2 eexists. split; [exists []; vm_compute; reflexivity|]. split; [|split; [vm_compute; reflexivity|split; [reflexivity|split; [vm_compute; reflexivity|split; reflexivity]]]].
  intros [|[|[|[|[|i]]]]]; try discriminate. unfold line_of. cbn. destruct i; discriminate.
Qed.
Example C68_added_case : exists k, parse text1 = ParseOk k /\ verbose_first text1 = false /\ in_brackets k = true /\ parse (text1 ++ [10; 32; 10]) = ParseOk k.
Proof. eexists. split; [vm_compute; reflexivity|]. split; [reflexivity|]. split; reflexivity. Qed.
Definition settings : kserd := cn [("a", i32 1); ("b", cn [("x", fl "inf")]); ("c", i32 2); ("d", sq [st "one"; st "two"]); ("e", mp [(st "k", i32 3)])]%string.
Example C68_truncated_case : exists fm t l, reachable settings fm /\ k_sorted settings = true /\
  clear (deco (fm_fmts fm) 0 settings) = true /\ vclear true true (deco (fm_fmts fm) 0 settings) = true /\ line_of fm 0 = Some Verbose /\
  map (line_of fm) [2; 5; 8]%nat = [Some Verbose; Some Verbose; Some Verbose] /\
  fm_write fm [] = LRet t /\ parse t = ParseOk (Kserd None (VCntr l)) /\ length l = 5%nat /\
  parse (firstn 47 t) = ParseOk (Kserd None (VCntr (firstn 3 l))).
Proof.
  destruct (run settings (map (OpLine Verbose) [0; 2; 5; 8]%nat)) as [fm| |] eqn:E; [|vm_compute in E; discriminate|vm_compute in E; discriminate].
  do 3 eexists. split; [eexists; exact E|]. vm_compute in E. injection E as <-. do 5 (split; [vm_compute; reflexivity|]). split; [vm_compute; reflexivity|]. split; [vm_compute; reflexivity|]. split; vm_compute; reflexivity.
Qed.

(** what is not so *)
Definition accepted (t : str) : bool := match parse t with ParseOk _ => true | _ => false end.
Definition bracket_kind (t : str) : bool := match parse t with ParseOk k => in_brackets k | _ => false end.
(** numbers *)
Theorem C68_number_refuted : exists p q, accepted (p ++ q) = true /\ ~ spaces q /\ verbose_first (p ++ q) = false /\ accepted p = true.
Proof. exists (s "1"), (s "2"). repeat split; try reflexivity. discriminate. Qed.
(** ids which begin like a number or like a string: [inf [1]], [str1one1 [1]] *)
Theorem C68_id_refuted : Forall (fun x => bracket_kind (fst x ++ snd x) = true /\ verbose_first (fst x ++ snd x) = false /\ accepted (fst x) = true /\ bracket_kind (fst x) = false)
  [(s "inf", s " [1]"); (s "str1one1", s " [1]"); (s "NaN", s "-(1, 2)")].
Proof. repeat constructor; vm_compute; reflexivity. Qed.
(** the verbose layout: what is missing at the end is not noticed, not even in the
    middle of a number; and the first line can be taken for a number *)
Theorem C68_verbose_refuted : Forall (fun x => bracket_kind (fst x ++ snd x) = true /\ verbose_first (fst x ++ snd x) = true /\ accepted (fst x) = true)
  [(s "a = 1" ++ [10], s "b = 2" ++ [10]); (s "a = 1", s "2" ++ [10]); (s "[[a]]" ++ [10] ++ s "1" ++ [10], s "[[a]]" ++ [10] ++ s "2" ++ [10]); (s "12", s " = 3")].
Proof. repeat constructor; vm_compute; reflexivity. Qed.
