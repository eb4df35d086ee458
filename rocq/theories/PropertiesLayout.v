(** Property C45: the layout [apply_config] chooses. *)
From Verif Require Import Base F64 Number BTree Value ValueSpec Nav NavSpec Fmt Formatter FmtVectors FmtText FmtSpec LayoutSpec LayoutProps5 LayoutProps7.
Open Scope nat_scope.

(** [Formatter::new]: every value has the largest form its kind, its place (a
    key is at most concise) and its parent allow; lists and maps at the root are
    at most concise *)
Theorem C45_new : forall k fm, fm_new k = LRet fm ->
  line_of fm 0 = Some (if seq_or_map k then repr_min (kind_max k) Concise else kind_max k) /\
  forall p n rp, child fm p n -> line_of fm (n_idx p) = Some rp ->
    line_of fm (n_idx n) = Some (repr_least (kind_max (n_kserd n)) (if is_key n then Concise else Verbose) rp).
Proof. exact new_forms. Qed.
Print Assumptions C45_new.

(** the form of the root after [apply_config]: what its widths ask for, no larger
    than a root can have *)
Theorem C45_root : forall k cfg fm fm', fm_new k = LRet fm -> apply_config fm cfg = LRet fm' ->
  line_of fm' 0 = Some (repr_least (wants cfg 0 k) (kind_max k) (if seq_or_map k then Concise else Verbose)).
Proof. exact root_form. Qed.
Print Assumptions C45_root.

(** the form of an entry of a value which has a line for each entry: what its
    widths ask for at its column, no larger than its kind and its parent allow *)
Theorem C45_entry : forall k cfg fm fm', fm_new k = LRet fm -> apply_config fm cfg = LRet fm' ->
  forall p n rp c x, child fm' p n -> line_of fm' (n_idx p) = Some rp -> rp <> Inline -> block cfg fm' p c -> within cfg fm' p n x ->
    line_of fm' (n_idx n) =
    Some (repr_least (asked cfg (match rp with Verbose => c + x - 4 | _ => c + x end) (n_kserd p) (n_kserd n)) (kind_max (n_kserd n)) rp).
Proof. exact entry_form. Qed.
Print Assumptions C45_entry.

(** a container in a verbose list is never concise *)
Theorem C45_sections : forall k cfg fm fm', fm_new k = LRet fm -> apply_config fm cfg = LRet fm' ->
  forall p n, child fm' p n -> is_cntr (n_kserd n) = true -> (exists l, kval (n_kserd p) = VSeq l) -> line_of fm' (n_idx p) = Some Verbose ->
    line_of fm' (n_idx n) <> Some Concise.
Proof. exact seq_containers. Qed.
Print Assumptions C45_sections.
Definition list_of_cntr : kserd := cn [("b", sq [cn [("c", tup [i32 111; i32 222])]; i32 1])]%string.
Example C45_sections_case : exists fm fm' p n, fm_new list_of_cntr = LRet fm /\ apply_config fm (width (Some 0)) = LRet fm' /\ child fm' p n /\
  is_cntr (n_kserd n) = true /\ (exists l, kval (n_kserd p) = VSeq l) /\ line_of fm' (n_idx p) = Some Verbose.
Proof.
  do 4 eexists. split; [vm_compute; reflexivity|]. split; [vm_compute; reflexivity|].
  split; [split; [right; right; left; reflexivity|vm_compute; reflexivity]|]. split; [reflexivity|]. split; [eexists; reflexivity|vm_compute; reflexivity].
Qed.

(** limit 0: every value keeps the largest form *)
Theorem C45_zero : forall k cfg fm fm', fm_new k = LRet fm -> apply_config fm cfg = LRet fm' ->
  width_limit cfg = Some 0 -> forall i, line_of fm' i = line_of fm i.
Proof. exact zero_limit. Qed.
Print Assumptions C45_zero.

(** If the concise estimate of the document is within the limit (and the keys of
    maps are single tokens or empty), no line is longer than the limit and the
    characters the estimates leave out. *)
Theorem C45_width : forall k cfg lim t, width_limit cfg = Some lim -> concise_est cfg k <= lim ->
  key_nodes_ok (fun key => repr_eqb (kind_max key) Inline) k -> strings_ok k ->
  as_str_with_config k cfg = LRet t -> Forall (fun w => w <= lim + total slack k) (line_lengths 0 t).
Proof. exact concise_lines. Qed.
Print Assumptions C45_width.

(** [as_str] with the default configuration: ids of tuples and containers only; on
    one line if and only if both estimates of the document are at most 60, or it can
    not be on several *)
Theorem C45_default : forall k t, as_str k = LRet t ->
  let d := mkConfig false true true false false (Some 60) in
  exists fm, fm_write fm [] = LRet t /\ nav_new k = LRet (fm_nav fm) /\
    (line_of fm 0 = Some Inline <-> kind_max k = Inline \/ inline_est d k <= 60 /\ concise_est d k <= 60) /\
    forall n, In n (fm_nav fm) -> option_map f_id (nth_error (fm_fmts fm) (n_idx n)) =
      Some (match kval (n_kserd n) with VTuple _ | VCntr _ => true | _ => false end).
Proof. exact default_config. Qed.
Print Assumptions C45_default.

(** ** cases *)
Example C45_default_case :
  let k n := sq [Kserd (Some (s "Id")) (VStr (repeat 97%N n)); id_ "T" (tup [])] in
  as_str (k 50) = LRet (s "[""" ++ repeat 97%N 50 ++ s """, T()]") /\
  as_str (k 51) = LRet (s "[
    """ ++ repeat 97%N 51 ++ s """
    T()
]").
Proof. vm_compute. split; reflexivity. Qed.
Definition formats (k : kserd) (w : option nat) : lres (list repr) :=
  dl fm <- fm_new k ; dl fm' <- apply_config fm (width w) ; LRet (map f_line (fm_fmts fm')).
Definition w0 : kserd := cn [("a", cn [("b", sq [cn [("c", tup [i32 111; i32 222])]])]); ("d", mp [(st "key", sq [i32 1; i32 2])])]%string.
Example C45_new_case : exists fm, fm_new w0 = LRet fm /\
  map f_line (fm_fmts fm) = [Verbose; Verbose; Verbose; Verbose; Concise; Inline; Inline; Verbose; Inline; Verbose; Inline; Inline].
Proof. eexists. split; vm_compute; reflexivity. Qed.
(** keys are at most concise *)
Example C45_new_keys_case : exists fm, fm_new (cn [("m", mp [(sq [i32 1], sq [i32 2])])]%string) = LRet fm /\
  map f_line (fm_fmts fm) = [Verbose; Verbose; Concise; Inline; Verbose; Inline].
Proof. eexists. split; vm_compute; reflexivity. Qed.
Example C45_case : solvable w0 (width (Some 20)) /\
  formats w0 (Some 0) = LRet [Verbose; Verbose; Verbose; Verbose; Concise; Inline; Inline; Verbose; Inline; Verbose; Inline; Inline] /\
  formats w0 (Some 12) = LRet [Verbose; Verbose; Verbose; Verbose; Concise; Inline; Inline; Verbose; Inline; Concise; Inline; Inline] /\
  formats w0 (Some 20) = LRet [Verbose; Verbose; Verbose; Inline; Inline; Inline; Inline; Inline; Inline; Inline; Inline; Inline] /\
  formats w0 (Some 50) = LRet [Concise; Inline; Inline; Inline; Inline; Inline; Inline; Inline; Inline; Inline; Inline; Inline].
Proof.
  split; [|repeat split; vm_compute; reflexivity]. left. intros x Hx. vm_compute in Hx.
  repeat (destruct Hx as [<-|Hx]; [vm_compute; repeat constructor|]). destruct Hx.
Qed.
(** the conditions of [C45_entry]: the list [b] of the section [a], at column 4 *)
Definition got (x : lres formatter) : formatter := match x with LRet fm => fm | _ => mkFmtr [] [] end.
Definition w0_new : formatter := Eval vm_compute in got (fm_new w0).
Definition w0_20 : formatter := Eval vm_compute in got (apply_config w0_new (width (Some 20))).
Definition w0_node (i : nat) : node := nth i (fm_nav w0_20) (mkNode w0 0 None None None [] []).
Example C45_entry_case : let cfg := width (Some 20) in
  fm_new w0 = LRet w0_new /\ apply_config w0_new cfg = LRet w0_20 /\ child w0_20 (w0_node 1) (w0_node 2) /\
  line_of w0_20 (n_idx (w0_node 1)) = Some Verbose /\ block cfg w0_20 (w0_node 1) 4 /\ within cfg w0_20 (w0_node 1) (w0_node 2) 8 /\
  asked cfg 8 (n_kserd (w0_node 1)) (n_kserd (w0_node 2)) = Verbose /\ line_of w0_20 (n_idx (w0_node 2)) = Some Verbose.
Proof.
  split; [vm_compute; reflexivity|]. split; [vm_compute; reflexivity|]. split; [split; [vm_compute; auto|vm_compute; reflexivity]|].
  split; [vm_compute; reflexivity|]. split.
  - apply (b_section _ _ (w0_node 0) _ 0); [split; [vm_compute; auto|vm_compute; reflexivity]|vm_compute; reflexivity..|]. apply b_root; [vm_compute; auto|vm_compute; reflexivity].
  - split; [|split; vm_compute; reflexivity]. eapply (w_field _ _ _ _ _ (s "b")); vm_compute; reflexivity.
Qed.

(** a concise document with nothing left out, and its lines; and one where the
    inner blanks of a map make a line longer than the limit *)
Example C45_width_case :
  let k := cn [("a", tup [i32 111; st "abc"; sq [i32 1; i32 2]]); ("b", mp [])]%string in
  let k' := sq [i32 1; mp [(i32 1, i32 2); (i32 3, i32 4)]] in
  concise_est (width (Some 18)) k = 17 /\ total slack k = 1 /\ key_nodes_ok (fun key => repr_eqb (kind_max key) Inline) k /\ strings_ok k /\
  match show k (Some 18) with LRet t => line_lengths 0 t | _ => [] end = [1; 9; 15; 17; 18; 9; 10; 1] /\
  total slack k' = 2 /\ concise_est (width (Some 16)) k' <= 16 /\
  match show k' (Some 16) with LRet t => line_lengths 0 t | _ => [] end = [1; 5; 18; 1].
Proof.
  cbn zeta. split; [vm_compute; reflexivity|]. split; [vm_compute; reflexivity|]. split.
  { intros x Hx. vm_compute in Hx. repeat (destruct Hx as [<-|Hx]; [vm_compute; repeat constructor|]). destruct Hx. }
  split; [vm_compute; repeat constructor|]. split; [vm_compute; reflexivity|]. split; [vm_compute; reflexivity|]. split; [apply Nat.leb_le; vm_compute; reflexivity|vm_compute; reflexivity].
Qed.

(** ** the columns are not those of the text: the column of a concise value which
    is a field of a verbose container, and that of the containers of a verbose list,
    is taken as less than it is, so that a line can be too long although a concise
    form would not *)
Theorem C45_limit_refuted :
  too_long (cn [("longname", tup [tup [i32 111; i32 222; i32 333]]); ("z", st "123456789012345678")]%string) (width (Some 25)) 25 2 Concise /\
  too_long (cn [("s", sq [cn [("k", tup [i32 111; i32 222; i32 333])]])]%string) (width (Some 20)) 20 3 Concise.
Proof. split; eapply too_long_check; vm_compute; reflexivity. Qed.
Print Assumptions C45_limit_refuted.
