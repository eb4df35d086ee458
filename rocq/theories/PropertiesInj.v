(** The text determines the value (C63). *)
From Verif Require Import Base F64 Number NumberSpec BTree Value ValueSpec Nav NavSpec Nom Parse ParseErr Fmt Formatter FmtVectors FmtText FmtSpec Grammar VGrammar RtSpec VSpec TextSpec Encode EncodeSpec InjSpec InjProps PropertiesRt PropertiesVerbose.
Open Scope nat_scope.

(** Two values which have the same text, in any layouts, are equal: values which
    are not equal have different texts. *)
Theorem C63_layouts : forall k1 fm1 k2 fm2 t, written k1 fm1 t -> written k2 fm2 t -> k_eqb k1 k2 = true.
Proof. exact text_one. Qed.
Print Assumptions C63_layouts.
(** Where ids and numbers are kept as well they are the very same. *)
Theorem C63_literal : forall k1 fm1 k2 fm2 t, written k1 fm1 t -> each vliteral_node (deco (fm_fmts fm1) 0 k1) = true ->
  written k2 fm2 t -> each vliteral_node (deco (fm_fmts fm2) 0 k2) = true -> k1 = k2.
Proof. exact text_same. Qed.
Print Assumptions C63_literal.
Example C63_literal_case : exists fm t, written tree4 fm t /\ each vliteral_node (deco (fm_fmts fm) 0 tree4) = true.
Proof.
  destruct (run tree4 [OpLine Verbose 0; OpLine Concise 14]) as [fm| |] eqn:E; [|vm_compute in E; discriminate|vm_compute in E; discriminate].
  exists fm. eexists. unfold written. split; [split; [eexists; exact E|]|]; vm_compute in E; injection E as <-; [|reflexivity].
  split; [reflexivity|split; [vm_compute; reflexivity|split; [vm_compute; reflexivity|vm_compute; reflexivity]]].
Qed.
(** [as_str_with_config], with any two configurations. *)
Theorem C63_as_str : forall k1 cfg1 k2 cfg2 t, plain_enough k1 cfg1 -> plain_enough k2 cfg2 ->
  as_str_with_config k1 cfg1 = LRet t -> as_str_with_config k2 cfg2 = LRet t -> k_eqb k1 k2 = true.
Proof. exact as_str_one. Qed.
Print Assumptions C63_as_str.
Example C63_as_str_case : plain_enough tree3 (width (Some 0)).
Proof.
  destruct C22_case as (A & B & C & _). destruct C22_case_keys as (D & F). repeat (split; [assumption|]). now left.
Qed.
(** Two Rust values of a type whose encodings have the same text are the same. *)
Theorem C63_data : forall E t d1 d2 k1 k2 fm1 fm2 text, good_decls E ->
  has_type E t d1 = true -> f32s_kept d1 -> EncodeSpec.apart E t d1 -> enc E t d1 = inr k1 ->
  reachable k1 fm1 -> vsafe true 0 (deco (fm_fmts fm1) 0 k1) = true -> each kept_node (deco (fm_fmts fm1) 0 k1) = true -> fm_write fm1 [] = LRet text ->
  has_type E t d2 = true -> f32s_kept d2 -> EncodeSpec.apart E t d2 -> enc E t d2 = inr k2 ->
  reachable k2 fm2 -> vsafe true 0 (deco (fm_fmts fm2) 0 k2) = true -> each kept_node (deco (fm_fmts fm2) 0 k2) = true -> fm_write fm2 [] = LRet text ->
  d1 = d2.
Proof. exact data_one. Qed.
Print Assumptions C63_data.
(** (the hypotheses are those of C34_layouts, which C34_layouts_case meets) *)

(** Without the conditions it is false: a unit has the text [()], and so has a
    tuple without elements, which is not equal to it. *)
Theorem C63_empty_refuted : exists k1 k2, k_typed k1 && k_typed k2 = true /\
  k_eqb k1 k2 = false /\ as_str k1 = LRet (s "()") /\ as_str k2 = LRet (s "()").
Proof. exists new_unit, (tup []). repeat split; vm_compute; reflexivity. Qed.
Print Assumptions C63_empty_refuted.
(** Nor does equality determine the text: ids are written but not compared. *)
Theorem C63_converse_refuted : exists k1 k2, k_eqb k1 k2 = true /\ as_str k1 = LRet (s "A (x = 1)") /\ as_str k2 = LRet (s "(x = 1)").
Proof. exists (id_ "A" (cn [("x", i32 1)]))%string, (cn [("x", i32 1)])%string. vm_compute. auto. Qed.
Print Assumptions C63_converse_refuted.
