(** Property C80: how many nodes are looked at when a value is laid out. *)
From Verif Require Import Base F64 Number BTree Value ValueSpec Nav NavSpec Fmt Formatter FmtSpec FmtWork NavProps NavProps2 FmtWorkProps FmtWorkProps2 FmtWorkProps3 FmtWorkProps4.
From Verif Require Import Nom Parse ParseErr.
From Verif Require FormatProps2.
Open Scope nat_scope.
Open Scope list_scope.

(** * C80  how much work it is to lay out a value: the number of times a node is looked at *)
(** the layout which counts gives the results of the layout *)
Theorem C80_counting : forall k fm cfg i r,
  fst (c_layout k cfg) = (dl fm <- fm_new k ; apply_config fm cfg) /\
  fst (c_apply_config fm cfg) = apply_config fm cfg /\
  fst (c_request_repr (fm_nav fm) (fm_fmts fm) i r) = request_repr (fm_nav fm) (fm_fmts fm) i r.
Proof. intros k fm cfg i r. exact (conj (counted_layout k cfg) (conj (counted_config fm cfg) (e_request (fm_nav fm) (fm_fmts fm) i r))). Qed.
Print Assumptions C80_counting.

(** a new Formatter and a configuration: quadratic in the number of values, whatever the
    value and whatever the limit *)
Theorem C80_layout : forall k cfg, snd (c_layout k cfg) <= 6 * (length (preorder k) + 2) ^ 2.
Proof. intros k cfg. rewrite preorder_length. exact (layout_work k cfg). Qed.
Print Assumptions C80_layout.
(** a text which was read and is laid out again: quadratic in its length *)
Theorem C80_parsed : forall src k cfg, parse src = ParseOk k -> snd (c_layout k cfg) <= 6 * (length src + 2) ^ 2.
Proof. intros src k cfg P. rewrite C80_layout. apply Nat.mul_le_mono_l, Nat.pow_le_mono_l. pose proof (FormatProps2.parse_size src k P). lia. Qed.
Print Assumptions C80_parsed.
(** a configuration on a Formatter after any history *)
Theorem C80_config : forall k fm cfg, reachable k fm ->
  snd (c_apply_config fm cfg) <= 4 * length (preorder k) ^ 2 + 17 * length (preorder k) + 2.
Proof. intros k fm cfg. rewrite preorder_length. exact (config_work k fm cfg). Qed.
Print Assumptions C80_config.
(** one request for a form: linear *)
Theorem C80_request : forall k fm i r, reachable k fm ->
  snd (c_request_repr (fm_nav fm) (fm_fmts fm) i r) <= 2 + 2 * length (preorder k).
Proof. intros k fm i r. rewrite preorder_length. exact (request_work k fm i r). Qed.
Print Assumptions C80_request.
(** the widths of all values, on one line and on several: linear, each is worked out once *)
Theorem C80_widths : forall k nv cfg inw, nav_new k = LRet nv -> inline_widths nv cfg = LRet inw ->
  snd (c_inline_widths nv cfg) <= 3 * length (preorder k) /\ snd (c_concise_widths nv cfg inw) <= 3 * length (preorder k).
Proof.
  intros k nv cfg inw N W. rewrite nav_new_full in N. injection N as <-. rewrite preorder_length, <- full_length.
  split; [apply w_inline|now apply w_concise].
Qed.
Print Assumptions C80_widths.

(** the fields of a container which is not on one line are each looked for from the first on *)
Theorem C80_fields : forall k fm cfg fm' m, reachable k fm -> kval k = VCntr m -> apply_config fm cfg = LRet fm' ->
  line_of fm' 0 <> Some Inline -> length m * length m <= 2 * snd (c_apply_config fm cfg).
Proof. exact fields_work. Qed.
Print Assumptions C80_fields.
(** so the work is not linear, with any limit, even if nothing is nested *)
Theorem C80_linear_refuted : forall c cfg lim, width_limit cfg = Some lim ->
  exists id m, k_sorted (Kserd id (VCntr m)) = true /\ Forall (fun e => snd e = Kserd None VUnit) m /\
    c * length (preorder (Kserd id (VCntr m))) < snd (c_layout (Kserd id (VCntr m)) cfg).
Proof.
  intros c cfg lim W. destruct (flat_work c cfg lim W) as (n & _ & H). unfold flat in H. eexists None, _. split; [exact (flat_sorted n)|].
  split; [|rewrite preorder_length; exact H]. apply Forall_forall. intros e He. apply in_map_iff in He as (i & <- & _). reflexivity.
Qed.
Print Assumptions C80_linear_refuted.

(** containers, a map and a sequence in one another; 13 values *)
Definition unit_ := Kserd None VUnit.
Definition nest : kserd := Kserd (Some (s "Outer")) (VCntr [
  (s "aaaa", Kserd None (VSeq [Kserd None (VCntr [(s "x", unit_); (s "y", unit_)]); unit_]));
  (s "bbbb", Kserd None (VMap [(Kserd None (VBool false), unit_); (Kserd None (VBool true), Kserd None (VTuple [unit_; unit_]))]))]).
Definition narrow : config := mkConfig false true true false false (Some 12).
Example C80_layout_case : length (preorder nest) = 13 /\ snd (c_layout nest narrow) = 261 /\
  exists fm, fst (c_layout nest narrow) = LRet fm /\ line_of fm 0 = Some Verbose /\ line_of fm 2 = Some Verbose /\ line_of fm 10 = Some Concise.
Proof. split; [reflexivity|]. split; [vm_compute; reflexivity|]. eexists. split; [vm_compute; reflexivity|]. repeat split; reflexivity. Qed.
Example C80_request_case : exists fm, reachable nest fm /\ snd (c_request_repr (fm_nav fm) (fm_fmts fm) 1 Concise) = 10.
Proof. eexists. split; [exists []; vm_compute; reflexivity|vm_compute; reflexivity]. Qed.
Example C80_widths_case : exists nv inw, nav_new nest = LRet nv /\ inline_widths nv narrow = LRet inw /\ snd (c_inline_widths nv narrow) = 38 /\ snd (c_concise_widths nv narrow inw) = 38.
Proof. eexists _, _. split; [vm_compute; reflexivity|]. split; [vm_compute; reflexivity|]. split; vm_compute; reflexivity. Qed.
Example C80_fields_case : exists fm fm', reachable (flat 20) fm /\ apply_config fm narrow = LRet fm' /\ line_of fm' 0 = Some Verbose /\ snd (c_apply_config fm narrow) = 537.
Proof. eexists _, _. split; [exists []; vm_compute; reflexivity|]. split; [vm_compute; reflexivity|]. split; vm_compute; reflexivity. Qed.
Example C80_parsed_case : exists k, parse (s "(a = [1, 2], b = { 1: () })") = ParseOk k /\ snd (c_layout k narrow) = 136.
Proof. eexists. split; [vm_compute; reflexivity|]. vm_compute. reflexivity. Qed.
