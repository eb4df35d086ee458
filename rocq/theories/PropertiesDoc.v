(** Property C51: rewriting a document. *)
From Verif Require Import Base F64 Number NumberSpec BTree Value ValueSpec Nav NavSpec Nom Parse ParseErr ParseSpec Fmt Formatter FmtVectors FmtText FmtSpec Grammar RtSpec VSpec TextSpec LooksSpec DocSpec DocProps PropertiesRt StuckSpec StuckProps2 LegibleSpec MisreadSpec MisreadSpec2 DocSpec2 DocProps2.
Open Scope string_scope.
Open Scope nat_scope.

(** * C51  whatever text a value has been read from, however it was laid out, its
    new text is read as an equal value; and from then on the text changes no more,
    whichever width limits follow *)
(** in the inline and concise layouts *)
Theorem C51_rewrite : forall src k cfg, parse src = ParseOk k -> document k -> tuple_ids_seen cfg k ->
  is_cntr k = false \/ width_limit cfg = None ->
  exists t k', as_str_with_config k cfg = LRet t /\ parse t = ParseOk k' /\ k_eqb k' k = true /\
    forall w, as_str_with_config k' (with_width cfg w) = as_str_with_config k (with_width cfg w).
Proof. exact rewrite_simple. Qed.
Print Assumptions C51_rewrite.
(** in any layout *)
Theorem C51_rewrite_layouts : forall src k cfg, parse src = ParseOk k -> document k -> tuple_ids_seen cfg k ->
  vsimple (id_on_containers cfg) k = true -> ~ stuck cfg k -> (forall x, In x (preorder k) -> no_title_ids cfg x) ->
  exists t k', as_str_with_config k cfg = LRet t /\ parse t = ParseOk k' /\ k_eqb k' k = true /\
    forall w, as_str_with_config k' (with_width cfg w) = as_str_with_config k (with_width cfg w).
Proof. exact rewrite_any. Qed.
Print Assumptions C51_rewrite_layouts.

Definition c51_source : str := s "P (
  y = [ 1 ,  -2.50   ,<P>3 ]
     map = { ""b"" : 1,  ""a"" : ( 2, <Q> ""three"" ) }

 x= true
 )".
Definition c51_value : kserd := match parse c51_source with ParseOk k => k | _ => knew VUnit end.
Example C51_case : parse c51_source = ParseOk c51_value /\ document c51_value /\ tuple_ids_seen (width (Some 25)) c51_value /\
  vsimple true c51_value = true /\ ~ stuck (width (Some 25)) c51_value /\
  (forall x, In x (preorder c51_value) -> no_title_ids (width (Some 25)) x) /\
  show c51_value (Some 25) = LRet (s ":P

[[map]]
""a"": (2, ""three"")
[[map]]
""b"": 1
x = true
y = [1, -2.5, 3]
") /\ show c51_value None = LRet (s "P (map = { ""a"": (2, ""three""), ""b"": 1 }, x = true, y = [1, -2.5, 3])").
Proof.
  split; [vm_compute; reflexivity|]. split; [split; vm_compute; reflexivity|]. split; [now left|]. split; [vm_compute; reflexivity|].
  split; [eapply returned_free; vm_compute; reflexivity|].
  split; [|split; vm_compute; reflexivity]. intros x Hx. unfold no_title_ids. destruct (kval x); try exact Logic.I; now left.
Qed.

(** with inf, NaN and strings of any kind in it: the new text is refused, or it is read as
    an equal value and changes no more; there is no other outcome *)
Theorem C51_refused_or_kept : forall src k cfg, parse src = ParseOk k -> k_all lasting_node k = true -> told_apart (id_on_containers cfg) k = true -> tuple_ids_seen cfg k ->
  ~ stuck cfg k -> (forall x, In x (preorder k) -> no_title_ids cfg x) ->
  exists t, as_str_with_config k cfg = LRet t /\
    ((exists e, parse t = ParseErr e) \/
     exists k', parse t = ParseOk k' /\ k_eqb k' k = true /\ forall w, as_str_with_config k' (with_width cfg w) = as_str_with_config k (with_width cfg w)).
Proof. exact rewrite_accepted. Qed.
Print Assumptions C51_refused_or_kept.

Definition c51_strict : str := s "limit = inf
note = str#it's a ""x = y""#
x = [ 1, inf , 2 ]".
Definition c51_read (t : str) : kserd := match parse t with ParseOk k => k | _ => knew VUnit end.
(** one document of each kind: kept, although no [document]; and refused *)
Example C51_refused_or_kept_case :
  Forall (fun t => parse t = ParseOk (c51_read t) /\ k_all lasting_node (c51_read t) = true /\ told_apart true (c51_read t) = true /\ tuple_ids_seen (width (Some 25)) (c51_read t) /\
      ~ stuck (width (Some 25)) (c51_read t) /\ (forall x, In x (preorder (c51_read t)) -> no_title_ids (width (Some 25)) x)) [c51_strict; s "Seq [true]"] /\
  k_all document_node (c51_read c51_strict) = false /\ is_read (fun _ => true) (outcome (as_str_with_config (c51_read c51_strict) (width (Some 25)))) /\
  is_rejected (outcome (as_str_with_config (c51_read (s "Seq [true]")) (width (Some 25)))).
Proof.
  split; [|vm_compute; auto].
  repeat (apply Forall_cons; [do 3 (split; [vm_compute; reflexivity|]); split; [now left|]; split; [eapply returned_free; vm_compute; reflexivity|];
    intros x Hx; unfold no_title_ids; destruct (kval x); try exact Logic.I; now left|]). apply Forall_nil.
Qed.

(** what [document] leaves out *)
(** a number read from an exponent is written with all its digits, which are no
    number in the grammar *)
Theorem C51_rejected_refuted : exists src k, parse src = ParseOk k /\ simple_root k = true /\ is_rejected (outcome (as_str k)).
Proof. exists (s "1e39"). eexists. split; [vm_compute; reflexivity|]. vm_compute. split; [reflexivity|exact Logic.I]. Qed.
Print Assumptions C51_rejected_refuted.
(** a sequence which could be read because of its id cannot be read without *)
Theorem C51_hidden_id_refuted : exists src k, parse src = ParseOk k /\ k_all document_node k = true /\ is_rejected (outcome (as_str k)).
Proof. exists (s "Seq [true]"). eexists. split; [vm_compute; reflexivity|]. vm_compute. split; [reflexivity|exact Logic.I]. Qed.
Print Assumptions C51_hidden_id_refuted.
(** a container without fields is written as a unit *)
Theorem C51_other_value_refuted : exists src k, parse src = ParseOk k /\ simple_root k = true /\
  is_read (fun k' => negb (k_eqb k' k)) (outcome (as_str k)).
Proof.
  exists (s "[a]
b = 1"). eexists. split; [vm_compute; reflexivity|]. vm_compute. split; reflexivity.
Qed.
Print Assumptions C51_other_value_refuted.
(** one which has an id is written as an empty tuple, which is read as that and
    then written in another way *)
Theorem C51_unstable_refuted : exists src k k', parse src = ParseOk k /\ simple_root k = true /\
  as_str k = LRet (s "Foo ()") /\ parse (s "Foo ()") = ParseOk k' /\ as_str k' = LRet (s "Foo()").
Proof. exists (s ":Foo"). do 2 eexists. split; [vm_compute; reflexivity|]. split; [reflexivity|]. split; [vm_compute; reflexivity|]. split; [vm_compute; reflexivity|]. vm_compute. reflexivity. Qed.
Print Assumptions C51_unstable_refuted.
