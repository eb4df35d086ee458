(** The layout which counts: its results are those of the layout, and each of its loops. *)
From Verif Require Import Base F64 Number BTree Value Base91 Nav Fmt Formatter FmtWork NavProps NavProps2 FmtProps FormatterProps FormatterProps2.
Open Scope nat_scope.
Open Scope list_scope.

(** ** results *)
Lemma e_bind {A B} (r : cl A) (f : A -> cl B) : fst (cbind r f) = lbind (fst r) (fun a => fst (f a)).
Proof. unfold cbind. destruct (fst r); reflexivity. Qed.
Lemma lbind_ext {A B} (r : lres A) (f g : A -> lres B) : (forall a, f a = g a) -> lbind r f = lbind r g.
Proof. intros H. destruct r; [apply H|reflexivity|reflexivity]. Qed.
Lemma e_fold {A B} (f : B -> A -> cl B) (g : B -> A -> lres B) l : (forall a x, fst (f a x) = g a x) -> forall acc, fst (cfold f l acc) = lfold g l acc.
Proof.
  intros H. induction l as [|x l IH]; intros acc; [reflexivity|]. cbn [cfold lfold look fst]. rewrite e_bind, H. apply lbind_ext. exact IH.
Qed.
Lemma e_depth_loop nv : forall fuel todo nodes, fst (c_depth_loop fuel nv todo nodes) = depth_loop fuel nv todo nodes.
Proof.
  induction fuel as [|fuel IH]; intros [|i todo] nodes; try reflexivity. cbn [c_depth_loop depth_loop look fst].
  destruct (nav_get nv i); [apply IH|reflexivity].
Qed.
Lemma e_breadth_loop nv : forall fuel todo nodes, fst (c_breadth_loop fuel nv todo nodes) = breadth_loop fuel nv todo nodes.
Proof.
  induction fuel as [|fuel IH]; intros [|i todo] nodes; try reflexivity. cbn [c_breadth_loop breadth_loop look fst].
  destruct (nav_get nv i); [apply IH|reflexivity].
Qed.
Lemma e_request nv fmts i r : fst (c_request_repr nv fmts i r) = request_repr nv fmts i r.
Proof.
  unfold c_request_repr, request_repr. cbn [look fst]. destruct (nav_get nv i) as [n|]; [|reflexivity].
  rewrite e_bind. cbn [free fst]. apply lbind_ext. intros prev. destruct (repr_eqb r (f_line prev)); [reflexivity|].
  destruct (_ && _ && _); [reflexivity|]. destruct (line_repr_constraints nv fmts n) as [m p]. rewrite e_bind. cbn [free fst]. apply lbind_ext.
  intros [r'|e]; [|reflexivity]. rewrite e_bind. unfold c_descendants_depth. rewrite e_depth_loop. apply lbind_ext. intros ds.
  rewrite e_bind. erewrite e_fold by reflexivity. reflexivity.
Qed.
Lemma e_knock_on nv fmts i : fst (c_knock_on nv fmts i) = knock_on nv fmts i.
Proof.
  unfold c_knock_on, knock_on. cbn [look fst]. destruct (opt_bind _ _) as [p|]; [|reflexivity].
  rewrite e_bind. cbn [free fst]. apply lbind_ext. intros a. rewrite e_bind. cbn [free fst]. apply lbind_ext. intros b.
  destruct (repr_lt _ _); [|reflexivity]. rewrite e_bind, e_request. reflexivity.
Qed.
Lemma e_fm_new k : fst (c_fm_new k) = fm_new k.
Proof.
  unfold c_fm_new, fm_new. rewrite e_bind. cbn [free fst]. apply lbind_ext. intros nv. cbn [look fst]. rewrite e_bind. cbn [free fst]. apply lbind_ext. intros r.
  rewrite e_bind.
  assert (T : forall fmts, fst (dc fmts <- cfold (c_knock_on nv) (map n_idx (nav_nodes nv)) fmts ; free (LRet (mkFmtr nv fmts)))
    = dl fmts <- lfold (knock_on nv) (map n_idx (nav_nodes nv)) fmts ; LRet (mkFmtr nv fmts)).
  { intros fmts. rewrite e_bind. rewrite (e_fold _ (knock_on nv)) by apply e_knock_on. reflexivity. }
  destruct (node_val nv r); rewrite ?e_bind, ?e_request; apply lbind_ext; exact T.
Qed.
Lemma e_child_width crec rec n ws : (forall n ws, fst (crec n ws) = rec n ws) -> fst (c_child_width crec n ws) = child_width rec n ws.
Proof.
  intros H. unfold c_child_width, child_width. rewrite e_bind. cbn [free fst]. apply lbind_ext. intros [v|]; [reflexivity|]. rewrite e_bind, H. reflexivity.
Qed.
Lemma e_inline_rec nv cfg : forall fuel n ws, fst (c_inline_widths_recurse fuel nv cfg n ws) = inline_widths_recurse fuel nv cfg n ws.
Proof.
  induction fuel as [|fuel IH]; intros n ws; [reflexivity|]. cbn [c_inline_widths_recurse inline_widths_recurse]. rewrite e_bind.
  assert (X : forall (acc : nat * widths_t) child, fst (dc r <- c_child_width (c_inline_widths_recurse fuel nv cfg) child (snd acc) ; free (LRet (fst acc + fst r, snd r)))
     = dl r <- child_width (inline_widths_recurse fuel nv cfg) child (snd acc) ; LRet (fst acc + fst r, snd r)).
  { intros acc child. rewrite e_bind, (e_child_width _ _ _ _ IH). reflexivity. }
  rewrite (e_fold _ _ _ X). apply lbind_ext. intros acc. apply (e_fold _ _ _ X).
Qed.
Lemma e_concise_rec nv cfg inw : forall fuel n ws, fst (c_concise_widths_recurse fuel nv cfg inw n ws) = concise_widths_recurse fuel nv cfg inw n ws.
Proof.
  induction fuel as [|fuel IH]; intros n ws; [reflexivity|]. cbn [c_concise_widths_recurse concise_widths_recurse].
  destruct (node_val nv n); try reflexivity; apply e_fold; intros acc x.
  - rewrite e_bind, (e_child_width _ _ _ _ IH). reflexivity.
  - rewrite e_bind, (e_child_width _ _ _ _ IH). reflexivity.
  - rewrite e_bind, (e_child_width _ _ _ _ IH). reflexivity.
  - cbn [look fst]. rewrite e_bind, (e_child_width _ _ _ _ IH). apply lbind_ext. intros r. rewrite e_bind. reflexivity.
Qed.
Lemma e_all_widths crec rec nv : (forall n ws, fst (crec n ws) = rec n ws) -> fst (c_all_widths crec nv) = all_widths rec nv.
Proof.
  intros H. unfold c_all_widths, all_widths. rewrite e_bind.
  rewrite (e_fold _ (fun ws n => dl o <- lunwrap (nth_error ws (n_idx n)) ;
             match o with
             | Some _ => LRet ws
             | None => dl r <- rec n ws ; LRet (set_width (fst r) (snd r) (n_idx n))
             end)).
  - apply lbind_ext. intros ws. apply e_fold. reflexivity.
  - intros ws n. rewrite e_bind. cbn [free fst]. apply lbind_ext. intros [v|]; [reflexivity|]. rewrite e_bind, H. reflexivity.
Qed.
Lemma e_column pv c fmts inw : fst (c_concise_column pv c fmts inw) = concise_column pv c fmts inw.
Proof. destruct pv; reflexivity. Qed.
Lemma e_offset_loop nv fmts inw : forall fuel c off, fst (c_offset_loop fuel nv fmts inw c off) = offset_loop fuel nv fmts inw c off.
Proof.
  induction fuel as [|fuel IH]; intros c off; cbn [c_offset_loop offset_loop]; destruct (node_parent nv c) as [p|]; try reflexivity.
  cbn [look fst]. rewrite e_bind. cbn [free fst]. apply lbind_ext. intros pf. rewrite e_bind.
  destruct (f_line pf); rewrite ?e_column; cbn [free fst]; apply lbind_ext; intros add; apply IH.
Qed.
Lemma e_offset nv n fmts inw : fst (c_calculate_offset nv n fmts inw) = calculate_offset nv n fmts inw.
Proof.
  unfold c_calculate_offset, calculate_offset. destruct (node_parent nv n) as [p|]; [|reflexivity]. cbn [look fst].
  rewrite e_bind. cbn [free fst]. apply lbind_ext. intros pf. rewrite e_bind.
  destruct (f_line pf); rewrite ?e_column; cbn [free fst]; apply lbind_ext; intros off; rewrite e_bind, e_offset_loop; apply lbind_ext; intros r; rewrite e_bind; reflexivity.
Qed.
Lemma e_apply_node nv cfg inw con fmts c : fst (c_apply_node nv cfg inw con fmts c) = apply_node nv cfg inw con fmts c.
Proof.
  unfold c_apply_node, apply_node. cbn [look fst]. rewrite e_bind. cbn [free fst]. apply lbind_ext. intros child.
  rewrite e_bind, e_offset. apply lbind_ext. intros off. rewrite e_bind. cbn [free fst]. apply lbind_ext. intros r.
  rewrite e_bind. cbn [free fst]. apply lbind_ext. intros p. rewrite e_bind, e_request. reflexivity.
Qed.
Theorem counted_config fm cfg : fst (c_apply_config fm cfg) = apply_config fm cfg.
Proof.
  unfold c_apply_config, apply_config. rewrite e_bind. unfold c_apply_ids, apply_ids at 1. erewrite e_fold by reflexivity. apply lbind_ext. intros fmts.
  rewrite e_bind. cbn [free fst]. apply lbind_ext. intros r. rewrite e_bind. unfold c_inline_widths. rewrite (e_all_widths _ _ _ (e_inline_rec _ _ _)). apply lbind_ext. intros inw.
  rewrite e_bind. unfold c_concise_widths. rewrite (e_all_widths _ _ _ (e_concise_rec _ _ _ _)). apply lbind_ext. intros con.
  rewrite e_bind. cbn [free fst]. apply lbind_ext. intros rr. rewrite e_bind. unfold c_descendants_breadth. rewrite e_breadth_loop. apply lbind_ext. intros ds.
  rewrite e_bind, e_request. apply lbind_ext. intros x. cbn [look fst]. rewrite e_bind. rewrite (e_fold _ (apply_node (fm_nav fm) cfg inw con)) by apply e_apply_node. reflexivity.
Qed.
Theorem counted_layout k cfg : fst (c_layout k cfg) = dl fm <- fm_new k ; apply_config fm cfg.
Proof. unfold c_layout. rewrite e_bind, e_fm_new. apply lbind_ext. intros fm. apply counted_config. Qed.

(** ** counts *)
Lemma w_bind {A B} (r : cl A) (f : A -> cl B) a b : snd r <= a -> (forall x, fst r = LRet x -> snd (f x) <= b) -> snd (cbind r f) <= a + b.
Proof. intros Ha Hb. unfold cbind. destruct (fst r) as [x| |]; cbn [snd]; [specialize (Hb x eq_refl); lia|lia|lia]. Qed.
Lemma w_free {A B} (r : lres A) (f : A -> cl B) b : (forall x, r = LRet x -> snd (f x) <= b) -> snd (cbind (free r) f) <= b.
Proof. intros H. unfold cbind. cbn [free fst snd]. destruct r; cbn [snd]; [now apply H|lia|lia]. Qed.
Lemma w_fold {A B} (f : B -> A -> cl B) b l : (forall a x, In x l -> snd (f a x) <= b) -> forall acc, snd (cfold f l acc) <= length l * S b.
Proof.
  induction l as [|x l IH]; intros H acc; [cbn; lia|]. cbn [cfold look snd length].
  enough (snd (dc acc <- f acc x ; cfold f l acc) <= b + length l * S b) by lia.
  apply w_bind; [apply H; now left|]. intros y _. apply IH. intros a z Hz. apply H. now right.
Qed.
Lemma w_depth_loop nv : forall fuel todo nodes, snd (c_depth_loop fuel nv todo nodes) <= fuel.
Proof.
  induction fuel as [|fuel IH]; intros [|i todo] nodes; cbn [c_depth_loop free look snd]; try lia.
  destruct (nav_get nv i); [|cbn; lia]. specialize (IH (push_each todo (depth_pushes n)) (nodes ++ [n])). lia.
Qed.
Lemma depth_loop_length nv : forall fuel todo nodes ds, depth_loop fuel nv todo nodes = LRet ds -> length ds <= length nodes + fuel.
Proof.
  induction fuel as [|fuel IH]; intros [|i todo] nodes ds; cbn [depth_loop]; intros H; try discriminate; try (injection H as <-; lia).
  destruct (nav_get nv i); [|discriminate]. apply IH in H. rewrite app_length in H. cbn [length] in H. lia.
Qed.
Lemma w_breadth_loop nv : forall fuel todo nodes, snd (c_breadth_loop fuel nv todo nodes) <= fuel.
Proof.
  induction fuel as [|fuel IH]; intros [|i todo] nodes; cbn [c_breadth_loop free look snd]; try lia.
  destruct (nav_get nv i); [|cbn; lia]. specialize (IH (todo ++ breadth_children n) (nodes ++ [n])). lia.
Qed.
Lemma breadth_loop_length nv : forall fuel todo nodes ds, breadth_loop fuel nv todo nodes = LRet ds -> length ds <= length nodes + fuel.
Proof.
  induction fuel as [|fuel IH]; intros [|i todo] nodes ds; cbn [breadth_loop]; intros H; try discriminate; try (injection H as <-; lia).
  destruct (nav_get nv i); [|discriminate]. apply IH in H. rewrite app_length in H. cbn [length] in H. lia.
Qed.
Lemma w_request nv fmts i r : snd (c_request_repr nv fmts i r) <= 2 + 2 * length nv.
Proof.
  unfold c_request_repr. cbn [look snd]. apply le_n_S, le_n_S. change (snd ?x <= 0 + 2 * length nv) with (snd x <= 2 * length nv).
  destruct (nav_get nv i) as [n|]; [|cbn; lia]. apply w_free. intros prev _.
  destruct (repr_eqb r (f_line prev)); [cbn; lia|]. destruct (_ && _ && _); [cbn; lia|]. destruct (line_repr_constraints nv fmts n) as [m p].
  apply w_free. intros [r'|e] _; [|cbn; lia]. replace (2 * length nv) with (length nv + (length nv + 0)) by lia.
  apply w_bind; [apply w_depth_loop|]. intros ds E. unfold c_descendants_depth in E. rewrite e_depth_loop in E. apply depth_loop_length in E. cbn [length] in E.
  apply w_bind; [|intros; cbn; lia]. etransitivity; [apply (w_fold _ 0); intros; cbn; lia|lia].
Qed.
Lemma w_knock_on nv fmts i : snd (c_knock_on nv fmts i) <= 3 + 2 * length nv.
Proof.
  unfold c_knock_on. cbn [look snd]. apply le_n_S. change (snd ?x <= 0 + ?y) with (snd x <= y).
  destruct (opt_bind _ _) as [p|]; [|cbn; lia]. apply w_free. intros a _. apply w_free. intros b _.
  destruct (repr_lt _ _); [|cbn; lia]. enough (X : snd (dc r <- c_request_repr nv fmts i (f_line b) ; free (LRet (fst r))) <= (2 + 2 * length nv) + 0) by lia. apply w_bind; [apply w_request|intros; cbn; lia].
Qed.
Lemma w_fm_new k : snd (c_fm_new k) <= 2 * (ksize k) ^ 2 + 7 * ksize k + 2.
Proof.
  unfold c_fm_new. rewrite nav_new_full. unfold cbind at 1. cbn [free fst snd look]. set (nv := full k).
  assert (L : length nv = ksize k) by apply full_length. 
  match goal with |- 0 + (length nv + snd ?e) <= _ => enough (X : snd e <= (2 + 2 * length nv) + length nv * S (3 + 2 * length nv)) end.
  { rewrite L in *. cbn [Nat.pow]. rewrite Nat.mul_1_r. nia. }
  apply w_free. intros r _. apply w_bind.
  - destruct (node_val nv r); try (cbn; lia); replace (2 + 2 * length nv) with (2 + 2 * length nv + 0) by lia; (apply w_bind; [apply w_request|intros; cbn; lia]).
  - intros fmts _. rewrite <- (Nat.add_0_r (length nv * _)). apply w_bind; [|intros; cbn; lia]. etransitivity; [apply (w_fold _ (3 + 2 * length nv)); intros; apply w_knock_on|].
    rewrite map_length. reflexivity.
Qed.
