(** C66: histories of a Formatter. What a later call leaves of an earlier one. *)
From Verif Require Import Base F64 Number BTree Value Nav NavSpec Fmt FmtSpec FmtText FmtVectors Formatter LayoutSpec HistorySpec HistoryProps HistoryProps2 EditProps.
Open Scope nat_scope.

(** applying a configuration a second time changes nothing *)
Theorem C66_again : forall k fm cfg fm', reachable k fm -> apply_config fm cfg = LRet fm' -> apply_config fm' cfg = LRet fm'.
Proof. exact config_again. Qed.
Print Assumptions C66_again.

(** the form of the root after [apply_config], whatever was done before: what its
    widths ask for if a root can have it, else what it was *)
Theorem C66_root : forall k cfg fm fm', reachable k fm -> apply_config fm cfg = LRet fm' ->
  forall was, line_of fm 0 = Some was ->
    line_of fm' 0 = Some (becomes (wants cfg 0 k) (kind_max k) (if seq_or_map k then Concise else Verbose) was).
Proof. exact root_becomes. Qed.
Print Assumptions C66_root.

(** the form of an entry of a value which has a line for each entry, whatever was
    done before: what its widths ask for at its column if its kind and its parent
    allow it, else what it was, no larger than its parent *)
Theorem C66_entry : forall k cfg fm fm', reachable k fm -> apply_config fm cfg = LRet fm' ->
  forall p n rp c x was, child fm' p n -> line_of fm' (n_idx p) = Some rp -> rp <> Inline -> block cfg fm' p c -> within cfg fm' p n x ->
    line_of fm (n_idx n) = Some was ->
    line_of fm' (n_idx n) =
    Some (becomes (asked cfg (match rp with Verbose => c + x - 4 | _ => c + x end) (n_kserd p) (n_kserd n)) (kind_max (n_kserd n)) rp was).
Proof. exact entry_becomes. Qed.
Print Assumptions C66_entry.

(** requests on unrelated nodes can be made in either order: the same answers and
    the same formatter *)
Theorem C66_commute : forall k fm i j r q, reachable k fm -> unrelated (fm_nav fm) i j ->
  exists fm1 fm2 fm3 e1 e2,
    fm_request r fm i = LRet (fm1, e1) /\ fm_request q fm1 j = LRet (fm3, e2) /\
    fm_request q fm j = LRet (fm2, e2) /\ fm_request r fm2 i = LRet (fm3, e1).
Proof. exact commute. Qed.
Print Assumptions C66_commute.

(** a request for a form which is not larger makes up for the one before it, on the same node *)
Theorem C66_last : forall k fm i r q, reachable k fm -> repr_le q r ->
  exists fm1 e1, fm_request r fm i = LRet (fm1, e1) /\ fm_request q fm1 i = fm_request q fm i.
Proof. exact smaller_last. Qed.
Print Assumptions C66_last.

(** writing the id and requesting a form do not meet; calls of [id] for different
    nodes do not meet; of two for one node the last counts; [apply_config] undoes all *)
Theorem C66_ids : forall k fm i j r v w cfg, reachable k fm ->
  (exists fm1 e, fm_request r fm i = LRet (fm1, e) /\ fm_request r (fst (fm_id fm j v)) i = LRet (fst (fm_id fm1 j v), e)) /\
  (i <> j -> fst (fm_id (fst (fm_id fm i v)) j w) = fst (fm_id (fst (fm_id fm j w)) i v)) /\
  fst (fm_id (fst (fm_id fm i v)) i w) = fst (fm_id fm i w) /\
  apply_config (fst (fm_id fm j v)) cfg = apply_config fm cfg.
Proof.
  intros k fm i j r v w cfg R. split; [exact (ids_apart k fm i r j v R)|]. split; [exact (ids_commute fm i j v w)|]. split; [exact (ids_last fm i v w)|exact (ids_forgotten k fm cfg j v R)].
Qed.
Print Assumptions C66_ids.

(** the document of the cases *)
Definition doc : kserd := cn [("a", tup [i32 111; i32 222; i32 333]); ("b", sq [tup [i32 1; i32 2]; st "123456789"])]%string.
Definition made (ops : list op) : formatter := match run doc ops with LRet f => f | _ => mkFmtr [] [] end.
(** the forms of its nodes after the operations *)
Definition forms (ops : list op) : list repr := map f_line (fm_fmts (made ops)).
Lemma made_reachable ops : run doc ops = LRet (made ops) -> reachable doc (made ops).
Proof. intros E. now exists ops. Qed.
Definition nth_node (i : nat) : node := nth i (fm_nav (made [])) (mkNode doc 0 None None None [] []).

(** all on one line, then at most 10 wide: the tuple of [a] stays on one line, for
    the third form is asked of it and it can not have that *)
Definition before : formatter := made [OpConfig (width None)].
Definition behind : formatter := made [OpConfig (width None); OpConfig (width (Some 10))].
Example C66_case : let cfg := width (Some 10) in
  reachable doc before /\ apply_config before cfg = LRet behind /\ solvable doc cfg /\
  line_of before 0 = Some Inline /\ line_of behind 0 = Some Verbose /\
  child behind (nth_node 0) (nth_node 1) /\ line_of behind (n_idx (nth_node 0)) = Some Verbose /\
  block cfg behind (nth_node 0) 0 /\ within cfg behind (nth_node 0) (nth_node 1) 8 /\
  asked cfg 4 (n_kserd (nth_node 0)) (n_kserd (nth_node 1)) = Verbose /\ kind_max (n_kserd (nth_node 1)) = Concise /\
  line_of before (n_idx (nth_node 1)) = Some Inline /\ line_of behind (n_idx (nth_node 1)) = Some Inline.
Proof.
  cbn zeta. split; [apply made_reachable; vm_compute; reflexivity|]. split; [vm_compute; reflexivity|].
  split; [left; intros x Hx; vm_compute in Hx; repeat (destruct Hx as [<-|Hx]; [vm_compute; repeat constructor|]); destruct Hx|].
  split; [vm_compute; reflexivity|]. split; [vm_compute; reflexivity|]. split; [split; [vm_compute; auto|vm_compute; reflexivity]|].
  split; [vm_compute; reflexivity|]. split; [apply b_root; [vm_compute; auto|vm_compute; reflexivity]|].
  split; [eapply (w_field _ _ _ _ _ (s "a")); vm_compute; reflexivity|]. repeat split; vm_compute; reflexivity.
Qed.
(** the two entries of the document are unrelated, and what is asked of one succeeds and of the other fails *)
Example C66_commute_case : unrelated (fm_nav (made [])) 1 5 /\
  (exists fm', fm_request Inline (made []) 5 = LRet (fm', None)) /\ (exists fm' e, fm_request Verbose (made []) 1 = LRet (fm', Some e)) /\
  forms [OpLine Inline 5; OpLine Inline 1] = [Verbose; Inline; Inline; Inline; Inline; Inline; Inline; Inline; Inline; Inline].
Proof.
  split; [exists (nth_node 1), (nth_node 5); split; [vm_compute; reflexivity|]; split; [vm_compute; reflexivity|left; vm_compute; repeat constructor]|].
  split; [eexists; vm_compute; reflexivity|]. split; [do 2 eexists; vm_compute; reflexivity|vm_compute; reflexivity].
Qed.
(** on related nodes the order matters *)
Example C66_commute_needs : forms [OpLine Inline 0; OpLine Verbose 0; OpLine Concise 5] <> forms [OpLine Inline 0; OpLine Concise 5; OpLine Verbose 0].
Proof. vm_compute. discriminate. Qed.

(** Refuted: a later larger request makes up for a smaller one. The entries stay on one line. *)
Theorem C66_restore_refuted : exists k fm fm1 fm2, reachable k fm /\ line_of fm 0 = Some Verbose /\
  fm_request Inline fm 0 = LRet (fm1, None) /\ fm_request Verbose fm1 0 = LRet (fm2, None) /\
  line_of fm 1 = Some Concise /\ line_of fm2 1 = Some Inline /\ line_of fm 5 = Some Verbose /\ line_of fm2 5 = Some Inline.
Proof.
  exists doc, (made []). do 2 eexists. split; [apply made_reachable; vm_compute; reflexivity|]. split; [vm_compute; reflexivity|].
  split; [vm_compute; reflexivity|]. split; [vm_compute; reflexivity|]. repeat split; vm_compute; reflexivity.
Qed.
Print Assumptions C66_restore_refuted.

(** Refuted: what [apply_config] makes depends on the value and the configuration
    alone. After another configuration the text can be a different one. *)
Theorem C66_history_refuted : exists k cfg cfg' fm0 fm1 fm2 fm3 t1 t3, fm_new k = LRet fm0 /\ apply_config fm0 cfg = LRet fm1 /\
  apply_config fm0 cfg' = LRet fm2 /\ apply_config fm2 cfg = LRet fm3 /\ fm_write fm1 [] = LRet t1 /\ fm_write fm3 [] = LRet t3 /\ t1 <> t3.
Proof.
  exists doc, (width (Some 10)), (width None), (made []), (made [OpConfig (width (Some 10))]), before, behind. do 2 eexists.
  split; [vm_compute; reflexivity|]. split; [vm_compute; reflexivity|]. split; [vm_compute; reflexivity|]. split; [vm_compute; reflexivity|].
  split; [vm_compute; reflexivity|]. split; [vm_compute; reflexivity|]. vm_compute. discriminate.
Qed.
Print Assumptions C66_history_refuted.

(** Refuted: a larger limit never takes more lines. Verbose, the fields start at
    column 0 and the tuple fits on its line; concise, they are 4 to the right and it does not. *)
Theorem C66_wider_refuted : exists k w w' t t', w < w' /\ show k (Some w) = LRet t /\ show k (Some w') = LRet t' /\ lines_of t < lines_of t'.
Proof.
  exists (cn [("a", tup [i32 111; i32 222; i32 333]); ("bb", st "123456789")]%string), 19, 20. do 2 eexists.
  split; [repeat constructor|]. split; [vm_compute; reflexivity|]. split; [vm_compute; reflexivity|]. apply Nat.ltb_lt. vm_compute. reflexivity.
Qed.
Print Assumptions C66_wider_refuted.

(** whatever apply_config does can be had from calls of id, inline, concise and verbose *)
Theorem C66_calls_only : forall k fm, reachable k fm -> exists ops,
  Forall (fun o => match o with OpConfig _ => False | _ => True end) ops /\ run k ops = LRet fm.
Proof. exact calls_only. Qed.
Print Assumptions C66_calls_only.
