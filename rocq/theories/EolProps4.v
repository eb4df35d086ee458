(** Line endings: texts of the formatter. *)
From Verif Require Import Base BaseProps F64 Number BTree Value ValueSpec Nom Parse ParseErr ParseSpec Nav NavSpec Fmt Formatter FmtText FmtSpec FormatterProps FormatterProps2 FormatterProps3 LocalProps3 RtSpec RtProps7 VSpec VRtProps5 EolSpec EolProps EolProps2 EolProps3.
Open Scope N_scope.

Theorem crlf_written k cfg t : simple_tree k = true -> vsimple (id_on_containers cfg) k = true -> k_sorted k = true ->
  (id_on_tuples cfg = true \/ forall x, In x (preorder k) -> match kval x with VTuple _ => kid x = None | _ => True end) ->
  as_str_with_config k cfg = LRet t -> mem 13 t = false -> no_str_lf t -> k_all one_line k = true ->
  exists r, parse (crlf t) = ParseOk r /\ parse t = ParseOk r /\ k_eqb r k = true.
Proof.
  intros S V K T A M NS F. unfold as_str_with_config in A. destruct (fm_new k) as [f0| |] eqn:E0; cbn [lbind] in A; try discriminate.
  destruct (apply_config f0 cfg) as [fm| |] eqn:E1; cbn [lbind] in A; try discriminate.
  assert (R0 : reachable k f0) by (exists []; unfold run; now rewrite E0).
  destruct (simple_round_trip (id_on_containers cfg) k fm (reach_step k f0 (OpConfig cfg) fm R0 E1) K S V (config_tuples k f0 cfg fm R0 E1 T) (config_cntrs k f0 cfg fm R0 E1)) as (t' & r & W & P & Q).
  rewrite W in A. injection A as ->. exists r. split; [|now split].
  apply (@eol_parse_same false t (crlf t) r); [|exact NS|exact P|exact (eqb_flat r k F Q)].
  now apply crlf_eol.
Qed.
