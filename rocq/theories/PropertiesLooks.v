(** Properties C49 and C50: what the text of a value depends on, and writing
    again what has been read. *)
From Verif Require Import Base F64 Number NumberSpec BTree Value ValueSpec Nav NavSpec Nom Parse ParseErr Fmt Formatter FmtVectors FmtText FmtSpec Grammar RtSpec VSpec TextSpec LooksSpec LooksProps2 LooksProps3 PropertiesRt StuckSpec StuckProps2 MisreadSpec LegibleSpec MisreadSpec2 LooksProps4.
Open Scope string_scope.
Open Scope nat_scope.

(** * C49  what is not shown has no influence *)
(** the text depends on nothing but the kinds, names and contents, the texts of
    the numbers and the ids which the configuration shows *)
Theorem C49_hidden : forall cfg k k', looks cfg k k' -> as_str_with_config k cfg = as_str_with_config k' cfg.
Proof. exact looks_text. Qed.
Print Assumptions C49_hidden.

Definition fl (z : Z) : kserd := knew (VNum (Float (f_of_Z z))).
Example C49_case : looks (width (Some 30)) (id_ "Point" (cn [("x", id_ "f32" (fl 3)); ("y", id_ "List" (sq [id_ "i8" (knew (VNum (Int 5))); id_ "Long" (knew (VStr (s "a long string")))]))]))
    (id_ "Point" (cn [("x", knew (VNum (Uint 3))); ("y", sq [knew (VNum (Uint 5)); id_ "str" (knew (VStr (s "a long string")))])])) /\
  show (id_ "Point" (cn [("x", knew (VNum (Uint 3))); ("y", sq [knew (VNum (Uint 5)); id_ "str" (knew (VStr (s "a long string")))])])) (Some 30) = LRet (s "Point (
    x = 3
    y = [5, ""a long string""]
)").
Proof.
  split; [|vm_compute; reflexivity]. vm_compute. constructor; [reflexivity|]. repeat constructor.
Qed.
(** an id of a tuple which is not shown has an influence *)
Theorem C49_hidden_tuple_refuted : exists cfg i l, id_on_tuples cfg = false /\
  as_str_with_config (sq [Kserd (Some i) (VTuple l)]) cfg <> as_str_with_config (sq [Kserd None (VTuple l)]) cfg.
Proof.
  exists (mkConfig false false true false false None), (s "T"), [knew (VBool true)]. split; [reflexivity|]. vm_compute. discriminate.
Qed.
Print Assumptions C49_hidden_tuple_refuted.

(** * C50  what has been read is written as it was *)
(** in the inline and concise layouts *)
Theorem C50_as_str : forall k cfg, is_cntr k = false \/ width_limit cfg = None -> stable_value k -> tuple_ids_seen cfg k ->
  exists t k', as_str_with_config k cfg = LRet t /\ parse t = ParseOk k' /\ as_str_with_config k' cfg = LRet t.
Proof. exact as_str_twice. Qed.
Print Assumptions C50_as_str.
(** in any layout *)
Theorem C50_layouts : forall k cfg, vsimple (id_on_containers cfg) k = true -> ~ stuck cfg k -> stable_value k -> tuple_ids_seen cfg k ->
  (forall x, In x (preorder k) -> no_title_ids cfg x) ->
  exists t k', as_str_with_config k cfg = LRet t /\ parse t = ParseOk k' /\ as_str_with_config k' cfg = LRet t.
Proof. exact as_str_any_twice. Qed.
Print Assumptions C50_layouts.
(** whatever is accepted is written again as it was, under the conditions of C78: nothing is
    asked of the strings in it, nor of what stands beside what *)
Theorem C50_accepted : forall k cfg t k', told_apart (id_on_containers cfg) k = true -> k_all clear_value k = true -> k_all whole_value k = true ->
  k_sorted k = true -> k_typed k = true -> k_all no_neg_zero k = true -> tuple_ids_seen cfg k -> (forall x, In x (preorder k) -> no_title_ids cfg x) ->
  as_str_with_config k cfg = LRet t -> parse t = ParseOk k' ->
  as_str_with_config k' cfg = LRet t /\ forall w, as_str_with_config k' (with_width cfg w) = as_str_with_config k (with_width cfg w).
Proof. exact accepted_twice. Qed.
Print Assumptions C50_accepted.
Definition c50_quotes : kserd := cn [("a", sq [knew (VStr (s "it's a ""=""")); knew (VNum (Float (FInf false)))]); ("b", knew (VNum (Int 5)))].
Example C50_accepted_case : readable_tree c50_quotes = false /\ told_apart true c50_quotes = true /\ k_all clear_value c50_quotes = true /\ k_all whole_value c50_quotes = true /\
  k_sorted c50_quotes = true /\ k_typed c50_quotes = true /\ k_all no_neg_zero c50_quotes = true /\ tuple_ids_seen (width (Some 20)) c50_quotes /\
  (forall x, In x (preorder c50_quotes) -> no_title_ids (width (Some 20)) x) /\
  exists t k', as_str_with_config c50_quotes (width (Some 20)) = LRet t /\ parse t = ParseOk k'.
Proof.
  do 7 (split; [vm_compute; reflexivity|]). split; [now left|]. split;
    [|assert (Q : match as_str_with_config c50_quotes (width (Some 20)) with LRet t => match parse t with ParseOk _ => true | _ => false end | _ => false end = true) by (vm_compute; reflexivity);
      destruct (as_str_with_config c50_quotes (width (Some 20))) as [t| |]; try discriminate; destruct (parse t) as [k'| | |] eqn:P; try discriminate; now exists t, k'].
  intros x Hx. unfold no_title_ids. destruct (kval x); try exact Logic.I; now left.
Qed.
(** with another width limit, what has been read is written as what was written
    first would be *)
Theorem C50_other_width : forall k cfg, is_cntr k = false \/ width_limit cfg = None -> stable_value k -> tuple_ids_seen cfg k ->
  exists t k', as_str_with_config k cfg = LRet t /\ parse t = ParseOk k' /\
    forall w, as_str_with_config k' (with_width cfg w) = as_str_with_config k (with_width cfg w).
Proof. exact as_str_twice_wide. Qed.
Print Assumptions C50_other_width.
Theorem C50_layouts_other_width : forall k cfg, vsimple (id_on_containers cfg) k = true -> ~ stuck cfg k -> stable_value k -> tuple_ids_seen cfg k ->
  (forall x, In x (preorder k) -> no_title_ids cfg x) ->
  exists t k', as_str_with_config k cfg = LRet t /\ parse t = ParseOk k' /\
    forall w, as_str_with_config k' (with_width cfg w) = as_str_with_config k (with_width cfg w).
Proof. exact as_str_any_twice_wide. Qed.
Print Assumptions C50_layouts_other_width.

Definition c50_value : kserd := id_ "Point" (cn [("x", id_ "f32" (fl 3)); ("y", id_ "List" (sq [id_ "i8" (knew (VNum (Int 5))); id_ "P" (cn [("z", id_ "str" (knew (VStr (s "a long string"))))])]))]).
Example C50_case : vsimple true c50_value = true /\ ~ stuck (width (Some 20)) c50_value /\ stable_value c50_value /\ tuple_ids_seen (width (Some 20)) c50_value /\
  (forall x, In x (preorder c50_value) -> no_title_ids (width (Some 20)) x) /\
  show c50_value (Some 20) = LRet (s ":Point
x = 3

[[y]]
5

[[y]]
    :P
    z = ""a long string""
").
Proof.
  split; [vm_compute; reflexivity|]. split; [eapply returned_free; vm_compute; reflexivity|]. split; [vm_compute; repeat (split; [reflexivity|]); reflexivity|]. split; [now left|].
  split; [|vm_compute; reflexivity]. intros x Hx. unfold no_title_ids. destruct (kval x); try exact Logic.I; now left.
Qed.
(** what is written, read and written once more *)
Definition again (k : kserd) (cfg : config) : lres str :=
  match as_str_with_config k cfg with LRet t => match parse t with ParseOk k' => as_str_with_config k' cfg | _ => LFuel end | e => e end.
(** -0.0 is written as -0, which is read as 0 *)
Theorem C50_negative_zero_refuted : exists k cfg, readable_tree k = true /\ k_sorted k = true /\ k_typed k = true /\ key_numbers k = true /\ tuple_ids_seen cfg k /\
  as_str_with_config k cfg = LRet (s "-0") /\ again k cfg = LRet (s "0").
Proof. exists (knew (VNum (Float (FFin true 0 (-1074))))), (width None). repeat (split; [vm_compute; reflexivity|]). split; [now left|]. split; vm_compute; reflexivity. Qed.
Print Assumptions C50_negative_zero_refuted.
(** the id of a sequence is lost below a title; without it there is room for the
    sequence in one line *)
Theorem C50_title_id_refuted : exists k cfg, stable_value k /\ tuple_ids_seen cfg k /\ vsimple (id_on_containers cfg) k = true /\ ~ stuck cfg k /\
  as_str_with_config k cfg = LRet (s "
[[a]]
1

[[a]]
2
") /\ again k cfg = LRet (s "a = [
        1
        2
    ]
").
Proof.
  exists (cn [("a", id_ "List" (sq [knew (VNum (Uint 1)); knew (VNum (Uint 2))]))]), (mkConfig false true true true true (Some 9)).
  split; [vm_compute; repeat (split; [reflexivity|]); reflexivity|]. split; [now left|]. split; [vm_compute; reflexivity|]. split; [eapply returned_free; vm_compute; reflexivity|]. split; vm_compute; reflexivity.
Qed.
Print Assumptions C50_title_id_refuted.
