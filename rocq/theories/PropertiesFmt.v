(** Properties C15, C16, C23-C28 and C39 of the writers and the Formatter. *)
From Verif Require Import Base F64 Number BTree Value ValueSpec Base91 Nav NavSpec Nom Parse ParseErr ParseProps Fmt Formatter FmtVectors FmtText FmtSpec FmtProps FmtProps2 FormatterProps FormatterProps2 FormatterProps3 FormatterProps4 FmtPanic RtProps StuckSpec StuckProps2.
Open Scope nat_scope.

(** * C15  [b91'...'] parses back to the bytes, whatever follows *)
Theorem C15_literal : forall buf b rest, forallb (fun x => x <? 256)%N b = true ->
  exists t, fmt_byte_array buf b false None = buf ++ t /\ barr (t ++ rest) = POk rest b.
Proof.
  exact (fun buf b rest H => ex_intro _ (s "b91'" ++ b91_encode b ++ s "'")
    (conj eq_refl (eq_trans (f_equal barr (eq_trans (eq_sym (app_assoc (s "b91'") _ rest)) (f_equal (app (s "b91'")) (eq_sym (app_assoc (b91_encode b) _ rest))))) (barr_literal b rest H)))).
Qed.
Print Assumptions C15_literal.

Example C15_literal_case : barr (s "b91'""NS@6eg?)&x*Gk6:d=zLA8[|'])" ) = POk (s "])") (b91_decode (s """NS@6eg?)&x*Gk6:d=zLA8[|")).
Proof. vm_compute. reflexivity. Qed.

(** * C16  the text of a string parses back to the string, whatever follows *)
Theorem C16_string_text : forall buf t, str_ok (Kserd None (VStr t)) = true ->
  exists u, fmt_str buf t false None = LRet (buf ++ u) /\ forall rest, pstring (u ++ rest) = POk rest t.
Proof. exact string_text. Qed.
Print Assumptions C16_string_text.

Theorem C16_no_delimiter_panics : forall buf t print id, str_ok (Kserd None (VStr t)) = false ->
  fmt_str buf t print id = LPanic.
Proof. exact string_panics. Qed.
Print Assumptions C16_no_delimiter_panics.

Example C16_case :
  str_ok (Kserd None (VStr (s "say ""hi"" it's #1"))) = true /\
  fmt_str [] (s "say ""hi"" it's #1") false None = LRet (s "str`say ""hi"" it's #1`") /\
  str_ok (Kserd None (VStr (s "x()<>:/\_&~%!^*|=`#'"""))) = false.
Proof. vm_compute. auto. Qed.

(** * C23  formatting does not panic *)
Theorem C23_new : forall k, exists fm, fm_new k = LRet fm /\ reachable k fm.
Proof. exact new_returns. Qed.
Print Assumptions C23_new.
Theorem C23_request : forall k fm r i, reachable k fm -> exists x, fm_request r fm i = LRet x.
Proof. exact request_returns. Qed.
Print Assumptions C23_request.
Theorem C23_apply_config : forall k fm cfg, reachable k fm -> solvable k cfg ->
  exists fm', apply_config fm cfg = LRet fm' /\ reachable k fm'.
Proof. exact config_returns. Qed.
Print Assumptions C23_apply_config.
Theorem C23_write : forall k fm buf, reachable k fm -> strings_ok k -> exists t, fm_write fm buf = LRet t.
Proof. exact write_returns. Qed.
Print Assumptions C23_write.
Theorem C23_as_str : forall k cfg, strings_ok k -> ~ stuck cfg k -> exists t, as_str_with_config k cfg = LRet t.
Proof. exact as_str_free. Qed.
Print Assumptions C23_as_str.
(** the only reason for which writing panics, whatever the layout *)
Theorem C23_write_exact : forall k fm buf, reachable k fm -> (fm_write fm buf = LPanic <-> ~ strings_ok k).
Proof. exact write_panics_exactly. Qed.
Print Assumptions C23_write_exact.
(** the only reason for which [apply_config] on a new formatter panics *)
Theorem C23_config_exact : forall k cfg fm, fm_new k = LRet fm -> (apply_config fm cfg = LPanic <-> stuck cfg k).
Proof. exact config_panics. Qed.
Print Assumptions C23_config_exact.
Theorem C23_as_str_exact : forall k cfg, as_str_with_config k cfg = LPanic <-> stuck cfg k \/ ~ strings_ok k.
Proof. exact as_str_panics. Qed.
Print Assumptions C23_as_str_exact.
Theorem C23_as_str_only : forall k cfg t, as_str_with_config k cfg = LRet t -> strings_ok k.
Proof. exact as_str_only. Qed.
Print Assumptions C23_as_str_only.
(** a string deep inside: below a key of a map in a sequence *)
Definition bad_string : kserd := st "x()<>:/\_&~%!^*|=`#'""".
Example C23_exact_case :
  let k := sq [mp [(sq [bad_string], i32 1)]] in
  solvable k (width (Some 10)) /\ ~ strings_ok k /\ as_str_with_config k (width (Some 10)) = LPanic.
Proof.
  split; [right; left; reflexivity|]. split; [|vm_compute; reflexivity].
  intros H. apply (proj1 (Forall_forall _ _)) with (x := bad_string) in H; [discriminate H|vm_compute; auto 10].
Qed.

Example C23_case : forall n, strings_ok c1 /\ solvable c1 (width (Some n)) /\ strings_ok m1 /\ solvable m1 (width (Some n)).
Proof.
  intros n. split; [vm_compute; repeat constructor|]. split; [|split; [vm_compute; repeat constructor|right; left; reflexivity]].
  left. intros x Hx. vm_compute in Hx. repeat (destruct Hx as [<-|Hx]; [vm_compute; repeat constructor|]). destruct Hx.
Qed.

(** a map whose key is a long container, inside a container: [as_str] panics *)
Definition long_key : kserd :=
  cn [("a", mp [(cn [("b", st "xxxxxxxxxxxxxxxxxxxxxxxxxxxxxxxxxxxxxxxxxxxxxxxxxxxxxxxxxxxxxxxxxxxxxxxxxxxxxxxx")], i32 1)])]%string.
Theorem C23_refuted : exists k, k_typed k = true /\ k_sorted k = true /\ strings_ok k /\ as_str k = LPanic.
Proof. exists long_key. split; [vm_compute; reflexivity|]. split; [vm_compute; reflexivity|]. split; [vm_compute; repeat constructor|]. vm_compute. reflexivity. Qed.
Print Assumptions C23_refuted.
(** it is stuck: the map is a section at column 0 *)
Example C23_stuck_case : stuck (width (Some 60)) long_key.
Proof.
  exists 0, None. do 3 eexists. split; [eapply (s_entry _ _ 0 long_key); [apply s_root; vm_compute; reflexivity|apply e_field; left; reflexivity|vm_compute; reflexivity|vm_compute; reflexivity]|].
  split; [left; reflexivity|]. split; vm_compute; reflexivity.
Qed.
(** so is a list which is a key of a map which is a value of a map; with room for
    the list it is not *)
Definition deep_key : kserd := cn [("m", mp [(st "a", mp [(sq [i32 1; i32 2], st "a longer string")])])]%string.
Example C23_stuck_deep_case : stuck (width (Some 8)) deep_key /\ ~ stuck (width (Some 9)) deep_key /\ ~ solvable deep_key (width (Some 9)) /\ strings_ok deep_key.
Proof.
  split; [apply config_panics with (fm := match fm_new deep_key with LRet f => f | _ => mkFmtr [] [] end); vm_compute; reflexivity|].
  split; [eapply returned_free; vm_compute; reflexivity|]. split; [|vm_compute; repeat constructor].
  intros [H|[H|H]]; [|discriminate H|discriminate H].
  specialize (H (mp [(sq [i32 1; i32 2], st "a longer string")]) ltac:(vm_compute; auto 10)). inversion H. discriminate.
Qed.

(** * C24  inline output is a single line *)
Theorem C24_single_line : forall k fm t, reachable k fm -> k_typed k = true -> strings_ok k ->
  (forall i, i < nav_len (fm_nav fm) -> line_of fm i = Some Inline) ->
  (forall x u, In x (preorder k) -> In u (texts_of x) -> ~ In 10%N u) ->
  fm_write fm [] = LRet t -> ~ In 10%N t.
Proof. exact inline_single_line. Qed.
Print Assumptions C24_single_line.

Example C24_case : exists fm t, reachable c1 fm /\ map f_line (fm_fmts fm) = repeat Inline 8 /\ fm_write fm [] = LRet t /\ length t = 79.
Proof.
  destruct (run c1 [OpLine Inline 0]) as [fm| |] eqn:E; [|vm_compute in E; discriminate|vm_compute in E; discriminate].
  exists fm. eexists. split; [exists [OpLine Inline 0]; exact E|]. vm_compute in E. injection E as <-.
  split; [vm_compute; reflexivity|]. split; [vm_compute; reflexivity|]. vm_compute. reflexivity.
Qed.

(** * C25  the representation invariant *)
Theorem C25_invariant : forall k fm, reachable k fm -> repr_invariant k fm.
Proof. exact reachable_invariant. Qed.
Print Assumptions C25_invariant.

Example C25_case : exists fm, reachable c1 fm /\ map f_line (fm_fmts fm) = [Concise; Inline; Concise; Inline; Inline; Inline; Inline; Inline].
Proof.
  destruct (run c1 [OpLine Inline 5; OpLine Verbose 1; OpLine Concise 0; OpId 3 false]) as [fm| |] eqn:E; [|vm_compute in E; discriminate|vm_compute in E; discriminate].
  exists fm. split; [eexists; exact E|]. vm_compute in E. injection E as <-. vm_compute. reflexivity.
Qed.

(** * C26  requests *)
Theorem C26_request : forall k fm r i, reachable k fm ->
  exists fm' res, fm_request r fm i = LRet (fm', res) /\ fm_nav fm' = fm_nav fm /\ map f_id (fm_fmts fm') = map f_id (fm_fmts fm) /\
    (res = None <-> exists n, nav_get (fm_nav fm) i = Some n /\ allowed fm n r) /\
    match res with
    | None => exists n, nav_get (fm_nav fm) i = Some n /\ lowered fm fm' i (tree_size n) r
    | Some e => fm' = fm /\ error_means k fm i r e
    end.
Proof. exact request_spec. Qed.
Print Assumptions C26_request.
(** the methods which make a request *)
Theorem C26_methods : forall k fm m r i, In (m, r) [(fm_inline, Inline); (fm_concise, Concise); (fm_verbose, Verbose)] -> reachable k fm ->
  exists fm' res, m fm i = LRet (fm', res) /\
    (res = None <-> exists n, nav_get (fm_nav fm) i = Some n /\ allowed fm n r) /\
    match res with
    | None => exists n, nav_get (fm_nav fm) i = Some n /\ lowered fm fm' i (tree_size n) r
    | Some e => fm' = fm /\ error_means k fm i r e
    end.
Proof. exact methods_spec. Qed.
Print Assumptions C26_methods.
Theorem C26_id : forall k fm i w, reachable k fm ->
  let '(fm', res) := fm_id fm i w in
  fm_nav fm' = fm_nav fm /\ (forall j, line_of fm' j = line_of fm j) /\
  (res = None <-> i < nav_len (fm_nav fm)) /\ (res <> None -> res = Some IdxOutOfBounds /\ fm' = fm) /\
  (res = None -> forall j, option_map f_id (nth_error (fm_fmts fm') j) =
     if j =? i then Some w else option_map f_id (nth_error (fm_fmts fm) j)).
Proof. exact id_spec. Qed.
Print Assumptions C26_id.

Example C26_case :
  lines c1 = LRet [Verbose; Inline; Concise; Inline; Inline; Verbose; Inline; Inline] /\
  lines_after c1 [(Verbose, 2); (Concise, 5); (Inline, 8); (Concise, 0); (Verbose, 5)] =
    LRet ([Concise; Inline; Concise; Inline; Inline; Concise; Inline; Inline],
          [Some (RequestTooHigh Concise Verbose); None; Some IdxOutOfBounds; None; Some ParentIsConcise]).
Proof. vm_compute. auto. Qed.

(** * C27  writing appends to the buffer *)
Theorem C27_appends : forall k fm, reachable k fm -> strings_ok k ->
  exists t, forall buf, fm_write fm buf = LRet ((if hidden_tuple k fm then removelast buf else buf) ++ t).
Proof. exact write_appends. Qed.
Print Assumptions C27_appends.

(** the id of the tuple is hidden: the last character of the buffer is lost *)
Theorem C27_prefix_refuted : exists k fm buf t, reachable k fm /\ fm_write fm buf = LRet t /\ forall u, t <> buf ++ u.
Proof.
  destruct (run (id_ "T" (tup [i32 1])) [OpId 0 false]) as [fm| |] eqn:E; [|vm_compute in E; discriminate|vm_compute in E; discriminate].
  exists (id_ "T" (tup [i32 1])), fm, (s "x"), (s "(
    <i32> 1
)"). split; [eexists; exact E|]. vm_compute in E. injection E as <-. split; [vm_compute; reflexivity|]. intros u H. discriminate H.
Qed.
Print Assumptions C27_prefix_refuted.
(** and inside an inline list the opening bracket is lost *)
Theorem C27_bracket_refuted : exists k cfg, as_str_with_config k cfg = LRet (s "(1), 2]").
Proof. exists (sq [id_ "T" (tup [i32 1]); i32 2]), (mkConfig false false false false false None). vm_compute. reflexivity. Qed.
Print Assumptions C27_bracket_refuted.

Example C27_case : exists fm, reachable c1 fm /\ strings_ok c1 /\ hidden_tuple c1 fm = false.
Proof. destruct (new_returns c1) as (fm & E & R). exists fm. split; [exact R|]. split; [vm_compute; repeat constructor|reflexivity]. Qed.

(** * C28  estimated and printed width *)
Theorem C28_width : forall k cfg t, width_limit cfg = None -> Forall (fun x => plain_node cfg x = true) (preorder k) ->
  as_str_with_config k cfg = LRet t ->
  exists nv ws w, nav_new k = LRet nv /\ inline_widths nv cfg = LRet ws /\ nth_error ws 0 = Some w /\
    length t + total (overestimate cfg) k = w + total underestimate k.
Proof. exact width_formula. Qed.
Print Assumptions C28_width.
Theorem C28_exact : forall k cfg t, width_limit cfg = None ->
  Forall (fun x => plain_node cfg x = true /\ overestimate cfg x = 0 /\ underestimate x = 0) (preorder k) ->
  as_str_with_config k cfg = LRet t ->
  exists nv ws, nav_new k = LRet nv /\ inline_widths nv cfg = LRet ws /\ nth_error ws 0 = Some (length t).
Proof. exact width_exact. Qed.
Print Assumptions C28_exact.
(** the estimate of a node is that of the document which consists of it *)
Theorem C28_nodes : forall k cfg nv ws n, nav_new k = LRet nv -> inline_widths nv cfg = LRet ws -> In n nv ->
  exists nv' ws', nav_new (n_kserd n) = LRet nv' /\ inline_widths nv' cfg = LRet ws' /\
    nth_error ws (n_idx n) = nth_error ws' 0 /\ nth_error ws' 0 <> None.
Proof. exact width_nodes. Qed.
Print Assumptions C28_nodes.
Example C28_nodes_case : exists nv ws n, nav_new (sq [st "abc"; tup [i32 1; i32 2]]) = LRet nv /\ inline_widths nv (width None) = LRet ws /\ In n nv /\
  n_kserd n = tup [i32 1; i32 2] /\ nth_error ws (n_idx n) = Some 6 /\ show (n_kserd n) None = LRet (s "(1, 2)").
Proof.
  eexists. eexists. eexists. split; [vm_compute; reflexivity|]. split; [vm_compute; reflexivity|]. split; [right; right; left; reflexivity|]. split; [reflexivity|split; vm_compute; reflexivity].
Qed.

Example C28_case : let k := cn [("a", sq [i32 1; st "abc"; fl "-2.5"]); ("b", tup [new_unit; new_bool true])]%string in
  Forall (fun x => plain_node (width None) x = true /\ overestimate (width None) x = 0 /\ underestimate x = 0) (preorder k) /\
  show k None = LRet (s "(a = [1, ""abc"", -2.5], b = ((), true))").
Proof. split; [apply plain_exact_check|]; vm_compute; reflexivity. Qed.
(** every kind of difference at once *)
Definition c28 : kserd := mp [(id_ "U" new_unit, tup [knew (VStr (s "it's ""a"" " ++ [9; 956; 128640]%N)); knew (VBarr [1; 2; 3]%N); id_ "T" (tup [new_bool false])])].
Example C28_width_case : let cfg := mkConfig true true true true true None in
  Forall (fun x => plain_node cfg x = true) (preorder c28) /\
  total (overestimate cfg) c28 = (3 + 4 + 6 + 8) + (3 + 13) + 1 /\ total underestimate c28 = 2 + 2 + 3 + 9 /\
  as_str_with_config c28 cfg = LRet (s "{ U(): (str#it's ""a"" " ++ [9; 956; 128640]%N ++ s "#, b91'6FYA', T(<bool> false)) }").
Proof. split; [apply plain_check; vm_compute; reflexivity|]. vm_compute. repeat split. Qed.

(** estimated and printed width where they differ: a map, a named unit, a named
    tuple, ids on primitives, a byte array, a tab *)
Definition estimate (k : kserd) (cfg : config) : lres (option nat * nat) :=
  dl nv <- nav_new k ; dl ws <- inline_widths nv cfg ; dl t <- as_str_with_config k (no_limit cfg) ; LRet (nth_error ws 0, length t).
Theorem C28_refuted :
  estimate (mp [(i32 1, i32 2)]) config_default = LRet (Some 6, 8) /\
  estimate (id_ "U" new_unit) config_default = LRet (Some 1, 3) /\
  estimate (id_ "T" (tup [])) config_default = LRet (Some 4, 3) /\
  estimate (knew (VBool true)) (mkConfig true true true true true None) = LRet (Some 7, 4) /\
  estimate (knew (VBarr [1; 2; 3]%N)) config_default = LRet (Some 13, 9) /\
  estimate (knew (VStr [9%N])) config_default = LRet (Some 4, 3).
Proof. vm_compute. repeat split. Qed.
Print Assumptions C28_refuted.

(** * C39  apply_config *)
(** the id flags are those of the configuration, by kind *)
Theorem C39_id_flags : forall k fm cfg fm', reachable k fm -> apply_config fm cfg = LRet fm' ->
  fm_nav fm' = fm_nav fm /\
  forall n, In n (fm_nav fm) -> option_map f_id (nth_error (fm_fmts fm') (n_idx n)) = Some (flag cfg (kval (n_kserd n))).
Proof. exact config_flags. Qed.
Print Assumptions C39_id_flags.
(** no width limit: everything is inline, whatever the formatter was before *)
Theorem C39_no_limit : forall k fm cfg fm', reachable k fm -> width_limit cfg = None -> apply_config fm cfg = LRet fm' ->
  forall i, i < nav_len (fm_nav fm) -> line_of fm' i = Some Inline.
Proof. exact config_no_limit. Qed.
Print Assumptions C39_no_limit.
(** both estimates of the root fit: as if there were no limit *)
Theorem C39_fits : forall k cfg lim nv ws cs, width_limit cfg = Some lim ->
  nav_new k = LRet nv -> inline_widths nv cfg = LRet ws -> concise_widths nv cfg ws = LRet cs ->
  (forall w, nth_error ws 0 = Some w -> w <= lim) -> (forall w, nth_error cs 0 = Some w -> w <= lim) ->
  forall fm, reachable k fm -> apply_config fm cfg = apply_config fm (no_limit cfg).
Proof. exact config_fits. Qed.
Print Assumptions C39_fits.
Example C39_fits_case : let cfg := width (Some 12) in let k := sq [i32 1; tup [i32 2; new_unit]] in
  exists nv ws cs, width_limit cfg = Some 12 /\ nav_new k = LRet nv /\ inline_widths nv cfg = LRet ws /\ concise_widths nv cfg ws = LRet cs /\
  nth_error ws 0 = Some 12 /\ nth_error cs 0 = Some 10.
Proof.
  cbn zeta. do 3 eexists. split; [reflexivity|]. split; [vm_compute; reflexivity|]. split; [vm_compute; reflexivity|]. split; [vm_compute; reflexivity|].
  split; vm_compute; reflexivity.
Qed.
(** the inline text fits but the concise estimate does not: the list is not
    written inline *)
Theorem C39_fitting_is_inline_refuted : exists k lim t t', show k None = LRet t /\ length t <= lim /\ show k (Some lim) = LRet t' /\ t' <> t.
Proof.
  exists (sq [i32 1]), 3, (s "[1]"), (s "[
    1
]"). split; [vm_compute; reflexivity|]. split; [cbn; lia|]. split; [vm_compute; reflexivity|]. discriminate.
Qed.
Print Assumptions C39_fitting_is_inline_refuted.

Example C39_case : show c1 (Some 49) = show c1 None /\ show c1 (Some 48) <> show c1 None.
Proof. split; [vm_compute; reflexivity|vm_compute; discriminate]. Qed.
