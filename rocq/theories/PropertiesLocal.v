(** Property C70: a change of one value stays where it is. *)
From Verif Require Import Base F64 Number BTree Value Nav NavSpec Fmt Formatter FmtVectors FmtSpec Mutate MutateSpec LocalSpec LocalProps3.
Open Scope nat_scope.

(** two values which differ in one leaf, written in the same layout: the texts differ in
    the text of the leaf and nowhere else *)
Theorem C70_same_layout : forall x y p k k' fm fm' t, edited x y p k k' -> leaf x = true -> leaf y = true -> str_ok y = true ->
  reachable k fm -> reachable k' fm' -> fm_fmts fm' = fm_fmts fm -> fm_write fm [] = LRet t ->
  exists ids tx ty before after, own_text ids x tx /\ own_text ids y ty /\
    t = before ++ tx ++ after /\ fm_write fm' [] = LRet (before ++ ty ++ after).
Proof. exact local_change. Qed.
Print Assumptions C70_same_layout.
(** the layout is the same after the same calls, if the leaves take the same room or
    there is no width limit *)
Theorem C70_layout : forall x y, leaf x = true -> leaf y = true -> forall p k k', edited x y p k k' -> forall ops fm,
  (forall cfg, In (OpConfig cfg) ops -> width_limit cfg <> None -> room cfg x = room cfg y) ->
  run k ops = LRet fm -> exists fm', run k' ops = LRet fm' /\ fm_fmts fm' = fm_fmts fm.
Proof. exact same_run. Qed.
Print Assumptions C70_layout.
Theorem C70_same_calls : forall x y p k k' ops fm t, edited x y p k k' -> leaf x = true -> leaf y = true -> str_ok y = true ->
  (forall cfg, In (OpConfig cfg) ops -> width_limit cfg <> None -> room cfg x = room cfg y) ->
  run k ops = LRet fm -> fm_write fm [] = LRet t ->
  exists fm' ids tx ty before after, run k' ops = LRet fm' /\ own_text ids x tx /\ own_text ids y ty /\
    t = before ++ tx ++ after /\ fm_write fm' [] = LRet (before ++ ty ++ after).
Proof. exact local_history. Qed.
Print Assumptions C70_same_calls.
Theorem C70_as_str : forall x y p k k' cfg t, edited x y p k k' -> leaf x = true -> leaf y = true -> str_ok y = true ->
  width_limit cfg = None \/ room cfg x = room cfg y -> as_str_with_config k cfg = LRet t ->
  exists ids tx ty before after, own_text ids x tx /\ own_text ids y ty /\
    t = before ++ tx ++ after /\ as_str_with_config k' cfg = LRet (before ++ ty ++ after).
Proof. exact local_text. Qed.
Print Assumptions C70_as_str.
(** leaves without line breaks: all lines but one are the same *)
Theorem C70_one_line : forall x y p k k' ops fm t, edited x y p k k' -> leaf x = true -> leaf y = true -> str_ok y = true ->
  (forall cfg, In (OpConfig cfg) ops -> width_limit cfg <> None -> room cfg x = room cfg y) ->
  run k ops = LRet fm -> fm_write fm [] = LRet t -> (forall ids u, own_text ids x u \/ own_text ids y u -> no_break u) ->
  exists fm' above lx ly below, run k' ops = LRet fm' /\ whole_lines above below /\ no_break lx /\ no_break ly /\
    t = above ++ lx ++ below /\ fm_write fm' [] = LRet (above ++ ly ++ below).
Proof. exact one_line. Qed.
Print Assumptions C70_one_line.

(** the case: a number inside a tuple inside a list of sections, a string in its place *)
Definition doc (x : kserd) : kserd := cn [("a", i32 1); ("b", sq [cn [("c", tup [i32 2; x; i32 3])]; cn [("d", i32 4)]])]%string.
Example C70_case : edited (i32 77) (st "") [1; 0; 0; 1] (doc (i32 77)) (doc (st "")) /\
  leaf (i32 77) = true /\ leaf (st "") = true /\ str_ok (st "") = true /\
  room (width (Some 14)) (i32 77) = room (width (Some 14)) (st "") /\
  (exists t t', as_str_with_config (doc (i32 77)) (width (Some 14)) = LRet (t ++ s "77" ++ t') /\ as_str_with_config (doc (st "")) (width (Some 14)) = LRet (t ++ s """""" ++ t') /\
     In 10%N t /\ In 10%N t' /\ own_text false (i32 77) (s "77") /\ own_text false (st "") (s """""")).
Proof.
  split; [|split; [reflexivity|split; [reflexivity|split; [reflexivity|split; [reflexivity|]]]]].
  - apply (Edited_below _ _ 1 [0; 0; 1] _ _ (sq [cn [("c", tup [i32 2; i32 77; i32 3])]; cn [("d", i32 4)]])%string (sq [cn [("c", tup [i32 2; st ""; i32 3])]; cn [("d", i32 4)]])%string).
    { apply (One_field None [(s "a", i32 1)] [] (s "b")). }
    apply (Edited_below _ _ 0 [0; 1] _ _ (cn [("c", tup [i32 2; i32 77; i32 3])])%string (cn [("c", tup [i32 2; st ""; i32 3])])%string).
    { apply (One_seq None [] [cn [("d", i32 4)]]%string). }
    apply (Edited_below _ _ 0 [1] _ _ (tup [i32 2; i32 77; i32 3]) (tup [i32 2; st ""; i32 3])).
    { apply (One_field None [] [] (s "c")). }
    apply (Edited_below _ _ 1 [] _ _ (i32 77) (st "")); [|constructor]. apply (One_tuple None [i32 2] [i32 3]).
  - exists (s "a = 1

[[b]]
    c = (2, "), (s ", 3)

[[b]]
(d = 4)
").
    split; [vm_compute; reflexivity|]. split; [vm_compute; reflexivity|]. split; [cbn; auto 20|]. split; [cbn; auto 20|].
    split; eexists; (split; [vm_compute; reflexivity|vm_compute; reflexivity]).
Qed.

(** with a width limit a longer leaf can change the layout of everything around it *)
Theorem C70_width_refuted : exists x y p k k' t t', edited x y p k k' /\ leaf x = true /\ leaf y = true /\
  as_str_with_config k (width (Some 9)) = LRet t /\ as_str_with_config k' (width (Some 9)) = LRet t' /\
  own_text false x (s "9") /\ own_text false y (s "10") /\ no_break t /\ ~ no_break t'.
Proof.
  exists (i32 9), (i32 10), [0], (sq [i32 9; i32 2; i32 3]), (sq [i32 10; i32 2; i32 3]). do 2 eexists.
  split. { apply (Edited_below _ _ 0 [] _ _ (i32 9) (i32 10)); [|constructor]. apply (One_seq None [] [i32 2; i32 3]). }
  split; [reflexivity|]. split; [reflexivity|]. split; [vm_compute; reflexivity|]. split; [vm_compute; reflexivity|].
  split; [eexists; split; [vm_compute; reflexivity|vm_compute; reflexivity]|]. split; [eexists; split; [vm_compute; reflexivity|vm_compute; reflexivity]|].
  split; unfold no_break.
  - intros H. repeat (destruct H as [H|H]; [discriminate H|]). exact H.
  - intros H. apply H. right; left; reflexivity.
Qed.
Print Assumptions C70_width_refuted.
