(** Editing a written text: apply_config is a list of calls, so that the layout of a text can be had for
    the edited value as well. *)
From Verif Require Import Base BaseProps F64 Number BTree Value ValueSpec ValueProps Base91 Nom Parse ParseErr Nav NavSpec NavProps NavProps2 Fmt FmtText FmtProps FmtProps2 FmtSpec Formatter FormatterProps FormatterProps2 FormatterProps3 FormatterProps4 RtSpec RtProps2 RtProps7 VSpec VRtProps5 Mutate MutateSpec LayoutSpec SizeProps2 LocalSpec LocalProps LocalProps2 LocalProps3.
Open Scope nat_scope.

Definition no_config (o : op) : Prop := match o with OpConfig _ => False | _ => True end.

Lemma lfold_app {A B} (f : B -> A -> lres B) l m : forall b, lfold f (l ++ m) b = (dl c <- lfold f l b ; lfold f m c).
Proof. induction l as [|a l IH]; intros b; cbn [app lfold lbind]; [reflexivity|]. destruct (f b a); cbn [lbind]; auto. Qed.
Lemma update_len {A} (l : list A) f : forall i, length (update l i f) = length l.
Proof. induction l as [|a l IH]; intros [|i]; cbn [update length]; auto. Qed.
Lemma id_calls nv cfg l : forall fmts fmts', (forall i, In i l -> i < length fmts) ->
  lfold (fun fmts i => dl n <- lunwrap (nav_get nv i) ; LRet (update fmts i (fun f => mkFmt (id_flag cfg (node_val nv n)) (f_line f)))) l fmts = LRet fmts' ->
  exists ops, Forall no_config ops /\ lfold apply_op ops (mkFmtr nv fmts) = LRet (mkFmtr nv fmts').
Proof.
  induction l as [|i l IH]; intros fmts fmts' H A; cbn [lfold] in A.
  - injection A as <-. exists []. now split.
  - destruct (nav_get nv i) as [n|]; cbn [lunwrap lbind] in A; try discriminate.
    apply IH in A as (ops & F & A). 2:{ intros j Hj. rewrite update_len. apply H. now right. }
    exists (OpId i (id_flag cfg (node_val nv n)) :: ops). split; [constructor; [exact Logic.I|exact F]|].
    cbn [lfold apply_op]. unfold fm_id. cbn [fm_nav fm_fmts]. rewrite (proj2 (Nat.ltb_lt i (length fmts)) (H i (or_introl eq_refl))). cbn [fst lbind]. exact A.
Qed.
Lemma line_calls nv cfg inw con l : forall fmts fmts', lfold (apply_node nv cfg inw con) l fmts = LRet fmts' ->
  exists ops, Forall no_config ops /\ lfold apply_op ops (mkFmtr nv fmts) = LRet (mkFmtr nv fmts').
Proof.
  induction l as [|i l IH]; intros fmts fmts' A; cbn [lfold] in A.
  - injection A as <-. exists []. now split.
  - destruct (apply_node nv cfg inw con fmts i) as [f1| |] eqn:E; cbn [lbind] in A; try discriminate.
    destruct (IH _ _ A) as (ops & F & A'). unfold apply_node in E.
    destruct (lunwrap (nav_get nv i)) as [c| |]; cbn [lbind] in E; try discriminate.
    destruct (calculate_offset nv c fmts inw) as [off| |]; cbn [lbind] in E; try discriminate.
    destruct (min_line_repr i _ inw con) as [r| |]; cbn [lbind] in E; try discriminate.
    destruct (lunwrap (node_parent nv c)) as [p| |]; cbn [lbind] in E; try discriminate.
    set (r' := match r with Concise => _ | _ => _ end) in E. clearbody r'.
    exists (OpLine r' i :: ops). split; [constructor; [exact Logic.I|exact F]|]. cbn [lfold apply_op]. unfold fm_request. cbn [fm_nav fm_fmts].
    destruct (request_repr nv fmts i r') as [[g e]| |]; cbn [lbind fst] in *; try discriminate. injection E as ->. exact A'.
Qed.
(** apply_config does what some calls of id, inline, concise and verbose do *)
Theorem config_calls k fm cfg fm' : reachable k fm -> apply_config fm cfg = LRet fm' ->
  exists ops, Forall no_config ops /\ lfold apply_op ops fm = LRet fm'.
Proof.
  intros R A. pose proof (reachable_finv k fm R) as [N [LN _]]. destruct fm as [nv fmts]. cbn [fm_nav fm_fmts] in *.
  unfold apply_config in A. cbn [fm_nav fm_fmts] in A. unfold apply_ids in A.
  destruct (lfold _ (seq 0 (nav_len nv)) fmts) as [f1| |] eqn:E1; cbn [lbind] in A; try discriminate.
  destruct (lunwrap (nav_root nv)) as [root| |]; cbn [lbind] in A; try discriminate.
  destruct (inline_widths nv cfg) as [inw| |]; cbn [lbind] in A; try discriminate.
  destruct (concise_widths nv cfg inw) as [con| |]; cbn [lbind] in A; try discriminate.
  destruct (min_line_repr 0 (width_limit cfg) inw con) as [r| |]; cbn [lbind] in A; try discriminate.
  destruct (descendants_breadth nv root) as [ds| |]; cbn [lbind] in A; try discriminate.
  destruct (request_repr nv f1 0 r) as [[f2 e]| |] eqn:E2; cbn [lbind fst] in A; try discriminate.
  destruct (lfold _ (map n_idx ds) f2) as [f3| |] eqn:E3; cbn [lbind] in A; try discriminate. injection A as <-.
  apply id_calls in E1 as (o1 & F1 & A1). 2:{ intros i Hi. apply List.in_seq in Hi. unfold nav_len in *. rewrite LN, <- N. lia. }
  apply line_calls in E3 as (o3 & F3 & A3).
  exists (o1 ++ OpLine r 0 :: o3). split; [apply Forall_app; split; [exact F1|constructor; [exact Logic.I|exact F3]]|].
  rewrite lfold_app, A1. cbn [lbind lfold apply_op]. unfold fm_request. cbn [fm_nav fm_fmts]. rewrite E2. cbn [lbind fst]. exact A3.
Qed.
Lemma ops_calls k ops : forall fm fm', reachable k fm -> lfold apply_op ops fm = LRet fm' ->
  exists ops', Forall no_config ops' /\ lfold apply_op ops' fm = LRet fm'.
Proof.
  induction ops as [|o ops IH]; intros fm fm' R A; cbn [lfold] in A; [injection A as <-; exists []; now split|].
  destruct (apply_op fm o) as [f1| |] eqn:E; cbn [lbind] in A; try discriminate.
  destruct (IH f1 fm' (reach_step k fm o f1 R E) A) as (o2 & F2 & A2).
  assert (X : exists o1, Forall no_config o1 /\ lfold apply_op o1 fm = LRet f1).
  { destruct o as [r i|i w|cfg]; [exists [OpLine r i]|exists [OpId i w]|exact (config_calls k fm cfg f1 R E)]; (split; [repeat constructor|cbn [lfold]; rewrite E; reflexivity]). }
  destruct X as (o1 & F1 & A1). exists (o1 ++ o2). split; [now apply Forall_app|]. rewrite lfold_app, A1. exact A2.
Qed.
(** every layout can be had without apply_config *)
Theorem calls_only k fm : reachable k fm -> exists ops, Forall no_config ops /\ run k ops = LRet fm.
Proof.
  intros [ops A]. unfold run in *. destruct (fm_new k) as [f0| |] eqn:E0; cbn [lbind] in A; try discriminate.
  assert (R : reachable k f0) by (exists []; unfold run; now rewrite E0).
  destruct (ops_calls k ops f0 fm R A) as (o & F & A'). exists o. split; [exact F|]. cbn [lbind]. exact A'.
Qed.

(** ** editing *)
(** the text of the edited value in the old layout *)
Theorem edit_text x y p k k' fm t : edited x y p k k' -> leaf x = true -> leaf y = true -> str_ok y = true ->
  reachable k fm -> fm_write fm [] = LRet t ->
  exists fm' ids tx ty before after, reachable k' fm' /\ fm_fmts fm' = fm_fmts fm /\ own_text ids x tx /\ own_text ids y ty /\
    t = before ++ tx ++ after /\ fm_write fm' [] = LRet (before ++ ty ++ after).
Proof.
  intros E LX LY SY R W. destruct (calls_only k fm R) as (ops & F & A).
  destruct (same_run x y LX LY p k k' E ops fm) as (fm' & A' & FF); [|exact A|].
  { intros cfg Hc. rewrite Forall_forall in F. now specialize (F _ Hc). }
  assert (R' : reachable k' fm') by (exists ops; exact A').
  destruct (local_change x y p k k' fm fm' t E LX LY SY R R' FF W) as (ids & tx & ty & a & b & H). exists fm', ids, tx, ty, a, b. tauto.
Qed.

(** ** what is shown of the edited value *)
Section Each.
  Variable p : dk -> bool.
  Hypothesis P : forall d d', heads d d' -> p d = p d'.
  Lemma each_edit x y q k k' fmts : leaf x = true -> leaf y = true -> edited x y q k k' -> forall i, each p (deco fmts i k) = each p (deco fmts i k').
  Proof.
    intros LX LY. induction 1 as [|n q k k' c c' O E IH]; intros i.
    - rewrite !deco_leaf by assumption. destruct x as [ix vx], y as [iy vy]. cbn [kid kval].
      assert (H : heads (DK (nth i fmts (mkFmt true Inline)) ix (dval vx)) (DK (nth i fmts (mkFmt true Inline)) iy (dval vy))).
      { split; [reflexivity|]. unfold kindn. cbn [d_val]. unfold leaf in *. cbn [kval] in *. destruct vx; try discriminate; destruct vy; try discriminate; split; try reflexivity; intros HH; now destruct HH. }
      pose proof (P _ _ H) as PH. unfold leaf in *. cbn [kval] in *. destruct vx; try discriminate; destruct vy; try discriminate; cbn [dval each] in *; now rewrite PH.
    - pose proof (edited_size x y LX LY q c c' E) as SZ. destruct O as [id l1 l2 c c'|id l1 l2 c c'|id l1 l2 name c c'|id l1 l2 key c c'].
      + rewrite !deco_tuple, !decol_app. cbn [decol each]. rewrite <- SZ, !forallb_app. cbn [forallb]. rewrite <- IH. f_equal. apply P. now repeat split.
      + rewrite !deco_seq, !decol_app. cbn [decol each]. rewrite <- SZ, !forallb_app. cbn [forallb]. rewrite <- IH. f_equal. apply P. now repeat split.
      + rewrite !deco_cntr, !decon_app. cbn [decon each fst snd]. rewrite <- SZ, !forallb_app. cbn [forallb snd]. rewrite <- IH. f_equal. apply P. now repeat split.
      + rewrite !deco_map, !decom_app. cbn [decom each fst snd]. rewrite <- SZ, !forallb_app. cbn [forallb fst snd]. rewrite <- IH. f_equal. apply P. now repeat split.
  Qed.
End Each.
Lemma tuples_edit x y q k k' fmts : leaf x = true -> leaf y = true -> edited x y q k k' ->
  tuple_ids_shown (deco fmts 0 k) = true -> tuple_ids_shown (deco fmts 0 k') = true.
Proof.
  intros LX LY E. unfold tuple_ids_shown. rewrite (each_edit (fun x => negb (drops x)) (fun d d' H => f_equal negb (heads_drops d d' H)) x y q k k' fmts LX LY E 0). auto.
Qed.
Lemma cntrs_edit x y q k k' fmts : leaf x = true -> leaf y = true -> edited x y q k k' ->
  cntr_ids_shown (deco fmts 0 k) = true -> cntr_ids_shown (deco fmts 0 k') = true.
Proof.
  intros LX LY E. unfold cntr_ids_shown. set (p := fun x : dk => _).
  rewrite (each_edit p) with (x := x) (y := y) (q := q) (k' := k'); auto.
  intros d d' (H1 & H2 & H3). subst p. cbn beta. unfold kindn in *. destruct (d_val d) eqn:V, (d_val d') eqn:V'; try discriminate H2; try reflexivity. now rewrite H1, H3.
Qed.

(** the edited text is read as the edited value *)
Theorem edit_reads ids x y p k k' fm t : edited x y p k k' -> leaf x = true -> leaf y = true ->
  reachable k fm -> fm_write fm [] = LRet t ->
  k_sorted k' = true -> simple_tree k' = true -> vsimple ids k' = true -> tuple_ids_shown (deco (fm_fmts fm) 0 k) = true ->
  (ids = true -> cntr_ids_shown (deco (fm_fmts fm) 0 k) = true) -> str_ok y = true ->
  exists b tx ty before after r, own_text b x tx /\ own_text b y ty /\ t = before ++ tx ++ after /\
    parse (before ++ ty ++ after) = ParseOk r /\ k_eqb r k' = true.
Proof.
  intros E LX LY R W KS S V T CI SY. destruct (edit_text x y p k k' fm t E LX LY SY R W) as (fm' & b & tx & ty & a & c & R' & FF & O1 & O2 & -> & W').
  destruct (simple_round_trip ids k' fm' R' KS S V) as (t' & r & W2 & P & Q).
  - rewrite FF. exact (tuples_edit x y p k k' _ LX LY E T).
  - intros I. rewrite FF. exact (cntrs_edit x y p k k' _ LX LY E (CI I)).
  - rewrite W' in W2. injection W2 as <-. exists b, tx, ty, a, c, r. auto 10.
Qed.
Theorem edit_as_str x y p k k' cfg t : edited x y p k k' -> leaf x = true -> leaf y = true -> as_str_with_config k cfg = LRet t ->
  k_sorted k' = true -> simple_tree k' = true -> vsimple (id_on_containers cfg) k' = true -> str_ok y = true ->
  (id_on_tuples cfg = true \/ forall z, In z (preorder k) -> match kval z with VTuple _ => kid z = None | _ => True end) ->
  exists b tx ty before after r, own_text b x tx /\ own_text b y ty /\ t = before ++ tx ++ after /\
    parse (before ++ ty ++ after) = ParseOk r /\ k_eqb r k' = true.
Proof.
  intros E LX LY A KS S V SY T. unfold as_str_with_config in A. destruct (fm_new k) as [f0| |] eqn:E0; cbn [lbind] in A; try discriminate.
  destruct (apply_config f0 cfg) as [fm| |] eqn:E1; cbn [lbind] in A; try discriminate.
  assert (R0 : reachable k f0) by (exists []; unfold run; now rewrite E0).
  apply (edit_reads (id_on_containers cfg) x y p k k' fm t); auto.
  - exact (reach_step k f0 (OpConfig cfg) fm R0 E1).
  - exact (config_tuples k f0 cfg fm R0 E1 T).
  - exact (config_cntrs k f0 cfg fm R0 E1).
Qed.
