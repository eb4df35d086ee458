(** Property C71: editing one value in a written text edits the value. *)
From Verif Require Import Base F64 Number BTree Value ValueSpec Nom Parse ParseErr ParseVectors Nav NavSpec Fmt FmtText Formatter FmtVectors FmtSpec RtSpec VSpec Mutate MutateSpec LocalSpec EditProps.
Open Scope nat_scope.

(** a text in whatever layout, with the text of one leaf replaced by that of another,
    is the text of the edited value in the same layout *)
Theorem C71_layout_kept : forall x y p k k' fm t, edited x y p k k' -> leaf x = true -> leaf y = true -> str_ok y = true ->
  reachable k fm -> fm_write fm [] = LRet t ->
  exists fm' ids tx ty before after, reachable k' fm' /\ fm_fmts fm' = fm_fmts fm /\ own_text ids x tx /\ own_text ids y ty /\
    t = before ++ tx ++ after /\ fm_write fm' [] = LRet (before ++ ty ++ after).
Proof. exact edit_text. Qed.
Print Assumptions C71_layout_kept.
(** and is read as the edited value, under the conditions of C22_simple on it *)
Theorem C71_reads : forall ids x y p k k' fm t, edited x y p k k' -> leaf x = true -> leaf y = true ->
  reachable k fm -> fm_write fm [] = LRet t ->
  k_sorted k' = true -> simple_tree k' = true -> vsimple ids k' = true -> tuple_ids_shown (deco (fm_fmts fm) 0 k) = true ->
  (ids = true -> cntr_ids_shown (deco (fm_fmts fm) 0 k) = true) -> str_ok y = true ->
  exists b tx ty before after r, own_text b x tx /\ own_text b y ty /\ t = before ++ tx ++ after /\
    parse (before ++ ty ++ after) = ParseOk r /\ k_eqb r k' = true.
Proof. exact edit_reads. Qed.
Print Assumptions C71_reads.
Theorem C71_as_str : forall x y p k k' cfg t, edited x y p k k' -> leaf x = true -> leaf y = true -> as_str_with_config k cfg = LRet t ->
  k_sorted k' = true -> simple_tree k' = true -> vsimple (id_on_containers cfg) k' = true -> str_ok y = true ->
  (id_on_tuples cfg = true \/ forall z, In z (preorder k) -> match kval z with VTuple _ => kid z = None | _ => True end) ->
  exists b tx ty before after r, own_text b x tx /\ own_text b y ty /\ t = before ++ tx ++ after /\
    parse (before ++ ty ++ after) = ParseOk r /\ k_eqb r k' = true.
Proof. exact edit_as_str. Qed.
Print Assumptions C71_as_str.

(** the case: a port in a nested section, made longer than the width limit would allow on its line *)
Definition doc (x : kserd) : kserd :=
  cn [("name", st "demo"); ("server", cn [("host", st "localhost"); ("ports", sq [i32 80; x; i32 8080]); ("tls", knew (VBool true))])]%string.
Definition y1 : kserd := st "a much longer text than the number it replaces: it's 443".
Definition before1 : str := s "name = ""demo""

[server]
    host = ""localhost""
    ports = [80, ".
Definition after1 : str := s ", 8080]
    tls = true
".
Example C71_case : edited (i32 443) y1 [1; 1; 1] (doc (i32 443)) (doc y1) /\ leaf (i32 443) = true /\ leaf y1 = true /\ str_ok y1 = true /\
  k_sorted (doc y1) = true /\ simple_tree (doc y1) = true /\ vsimple true (doc y1) = true /\
  as_str_with_config (doc (i32 443)) (width (Some 30)) = LRet (before1 ++ s "443" ++ after1) /\
  (exists r, parse (before1 ++ s """a much longer text than the number it replaces: it's 443""" ++ after1) = ParseOk r /\ k_eqb r (doc y1) = true) /\
  as_str_with_config (doc y1) (width (Some 30)) <> LRet (before1 ++ s """a much longer text than the number it replaces: it's 443""" ++ after1).
Proof.
  split; [|split; [reflexivity|split; [reflexivity|split; [vm_compute; reflexivity|split; [vm_compute; reflexivity|split; [vm_compute; reflexivity|split; [vm_compute; reflexivity|split; [vm_compute; reflexivity|split; [eexists; split; [vm_compute; reflexivity|vm_compute; reflexivity]|vm_compute; discriminate]]]]]]]]].
  apply (Edited_below _ _ 1 [1; 1] _ _ (cn [("host", st "localhost"); ("ports", sq [i32 80; i32 443; i32 8080]); ("tls", knew (VBool true))])%string (cn [("host", st "localhost"); ("ports", sq [i32 80; y1; i32 8080]); ("tls", knew (VBool true))])%string).
  { apply (One_field None [(s "name", st "demo")] [] (s "server")). }
  apply (Edited_below _ _ 1 [1] _ _ (sq [i32 80; i32 443; i32 8080]) (sq [i32 80; y1; i32 8080])).
  { apply (One_field None [(s "host", st "localhost")] [(s "tls", knew (VBool true))] (s "ports")). }
  apply (Edited_below _ _ 1 [] _ _ (i32 443) y1); [|constructor]. apply (One_seq None [i32 80] [i32 8080]).
Qed.

(** without the conditions: the text of a tuple is read back, but not after its first
    string is replaced by a number, because of an '=' in the second *)
Theorem C71_tuple_refuted : exists x y p k k' before after, edited x y p k k' /\ leaf x = true /\ leaf y = true /\
  own_text false x (s """a""") /\ own_text false y (s "1") /\
  as_str k = LRet (before ++ s """a""" ++ after) /\ (exists r, parse (before ++ s """a""" ++ after) = ParseOk r /\ k_eqb r k = true) /\
  exists e, parse (before ++ s "1" ++ after) = ParseErr e.
Proof.
  exists (st "a"), (i32 1), [0], (tup [st "a"; st "='"""]), (tup [i32 1; st "='"""]), (s "("), (s ", str#='""#)").
  split. { apply (Edited_below _ _ 0 [] _ _ (st "a") (i32 1)); [|constructor]. apply (One_tuple None [] [st "='"""]). }
  split; [reflexivity|]. split; [reflexivity|].
  split; [eexists; split; [vm_compute; reflexivity|vm_compute; reflexivity]|]. split; [eexists; split; [vm_compute; reflexivity|vm_compute; reflexivity]|].
  split; [vm_compute; reflexivity|]. split; [eexists; split; [vm_compute; reflexivity|vm_compute; reflexivity]|]. eexists. vm_compute. reflexivity.
Qed.
Print Assumptions C71_tuple_refuted.
