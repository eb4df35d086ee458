(** How deep formatting recurses (C77).
    [as_str_within limit], [apply_within limit] and [write_within limit] (FmtDepth.v) are as_str_with_config,
    Formatter::apply_config and writing a formatter's text with at most [limit] calls of a recursive function under way
    at any time; they give [LFuel] when they would need one more.  [height k] (DepthSpec.v) is the number of values on the
    longest way down in [k]; [calls d] (FmtDepthSpec.v) is the same for a value with its layout [d], without the
    sequences and maps which a container writes as sections of its own. *)
From Verif Require Import Base F64 Number Value Nom Parse ParseErr Nav Fmt FmtText Formatter FmtSpec FormatterProps4 FmtVectors FmtDepth DepthSpec FmtDepthSpec DepthProps3 FmtDepthProps3.
From Coq Require Import Lia.
Open Scope nat_scope.

(** Making the text of a value recurses exactly as deep as the value is nested, whatever the configuration. *)
Theorem C77_as_str : forall limit k cfg, as_str_within limit k cfg = if limit <? height k then LFuel else as_str_with_config k cfg.
Proof. exact as_str_exact. Qed.
Print Assumptions C77_as_str.
Example C77_as_str_case : let k := cn [("a", sq [tup [i32 1]; i32 2]); ("b", mp [(st "x", i32 3)])]%string in
  height k = 4 /\ as_str_within 3 k (width (Some 0)) = LFuel /\ as_str_within 4 k (width (Some 0)) = show k (Some 0) /\ show k (Some 0) <> LFuel.
Proof. split; [reflexivity|]. split; [vm_compute; reflexivity|]. split; [vm_compute; reflexivity|]. vm_compute. intros H. discriminate H. Qed.

(** So does applying a configuration to a formatter, whatever was done to it before. *)
Theorem C77_apply : forall limit k fm cfg, reachable k fm -> apply_within limit fm cfg = if limit <? height k then LFuel else apply_config fm cfg.
Proof. exact apply_exact. Qed.
Print Assumptions C77_apply.

(** Writing the text of a formatter needs one call for each value on the way which is not a sequence or map that
    stands as a section of its container. *)
Theorem C77_write : forall limit k fm buf, reachable k fm -> strings_ok k ->
  write_within limit fm buf = if limit <? calls (deco (fm_fmts fm) 0 k) then LFuel else fm_write fm buf.
Proof. exact write_exact. Qed.
Print Assumptions C77_write.
Theorem C77_write_enough : forall limit k fm buf, reachable k fm -> calls (deco (fm_fmts fm) 0 k) <= limit -> write_within limit fm buf = fm_write fm buf.
Proof. exact write_enough. Qed.
Print Assumptions C77_write_enough.
Theorem C77_write_needs : forall limit k fm buf t, reachable k fm -> write_within limit fm buf = LRet t -> calls (deco (fm_fmts fm) 0 k) <= limit.
Proof. exact write_needs. Qed.
Print Assumptions C77_write_needs.
(** That is the depth of the value, or down to half of it. *)
Theorem C77_bounds : forall k fm, reachable k fm -> calls (deco (fm_fmts fm) 0 k) <= height k <= 2 * calls (deco (fm_fmts fm) 0 k).
Proof. exact calls_bounds. Qed.
Print Assumptions C77_bounds.
(** a container with a sequence of containers, inline and with sections *)
Definition nested : kserd := cn [("a", sq [cn [("b", sq [i32 1])]])]%string.
Example C77_write_case : exists inl ver, reachable nested inl /\ reachable nested ver /\ strings_ok nested /\ height nested = 5 /\
  calls (deco (fm_fmts inl) 0 nested) = 5 /\ calls (deco (fm_fmts ver) 0 nested) = 3 /\
  write_within 4 inl [] = LFuel /\ write_within 5 inl [] = LRet (s "(a = [(b = [1])])") /\
  write_within 2 ver [] = LFuel /\ write_within 3 ver [] = LRet (s "
[[a]]

    [[b]]
    1
").
Proof.
  destruct (run nested [OpConfig (width None)]) as [inl| |] eqn:E1; [|vm_compute in E1; discriminate E1|vm_compute in E1; discriminate E1].
  destruct (run nested [OpConfig (width (Some 0))]) as [ver| |] eqn:E2; [|vm_compute in E2; discriminate E2|vm_compute in E2; discriminate E2].
  exists inl, ver. split; [eexists; exact E1|]. split; [eexists; exact E2|]. vm_compute in E1. injection E1 as <-. vm_compute in E2. injection E2 as <-.
  split; [repeat constructor|]. repeat split; vm_compute; reflexivity.
Qed.

(** A value which was read from a text is written again with a recursion of at most twice the opening delimiters of
    the text and four. *)
Theorem C77_parsed : forall t k cfg limit, parse t = ParseOk k -> 2 * (opens t + 2) <= limit -> as_str_within limit k cfg = as_str_with_config k cfg.
Proof. exact as_str_parsed. Qed.
Print Assumptions C77_parsed.
Example C77_parsed_case : exists k, parse (s "a = [1, (2)]") = ParseOk k /\ opens (s "a = [1, (2)]") = 2 /\ as_str_within 8 k (width (Some 40)) = LRet (s "(a = [1, (2)])").
Proof. eexists. split; [vm_compute; reflexivity|]. split; vm_compute; reflexivity. Qed.

(** Refuted: some depth of recursion is enough for every value.  Whatever the size of the stack, and with every
    configuration, the value of a short text which is accepted needs more. *)
Theorem C77_constant_refuted : forall limit cfg, exists t k out, length t = 2 * limit + 4 /\ parse t = ParseOk k /\
  as_str_with_config k cfg = LRet out /\ as_str_within limit k cfg = LFuel.
Proof. exact no_limit_writes. Qed.
Print Assumptions C77_constant_refuted.
