(** The layout which counts: the total. *)
From Verif Require Import Base F64 Number BTree Value Base91 Nav Fmt Formatter FmtWork NavSpec NavProps NavProps2 FmtProps FmtSpec FormatterProps FormatterProps2 FormatterProps3 FmtWorkProps FmtWorkProps2.
Open Scope nat_scope.
Open Scope list_scope.

Lemma offl_nth p : forall l off j o e, nth_error (filter p (offl off l)) j = Some (o, e) -> off + j <= o.
Proof.
  induction l as [|x l IH]; intros off j o e H; [destruct j; discriminate|]. cbn [offl filter] in H. pose proof (ksize_pos (snd x)) as K.
  destruct (p (off, x)).
  - destruct j as [|j]; cbn [nth_error] in H; [injection H as <- _; lia|]. apply IH in H. lia.
  - apply IH in H. lia.
Qed.
Lemma idx_before it c : In c (kids_of it) -> fst it + idx_in_parent (nd c) < fst c.
Proof.
  intros Hc. destruct c as [o e]. destruct (kid_cases it (o, e) Hc) as [[_ H]|[_ H]]; apply offl_nth in H; cbn [fst] in *; lia.
Qed.
Lemma item_parent root it p : ok_item root it -> node_parent (full root) (nd it) = Some p ->
  exists pit, ok_item root pit /\ p = nd pit /\ fst pit + idx_in_parent (nd it) < fst it.
Proof.
  intros Ho P. unfold node_parent in P. cbn [nd mk_full n_parent] in P. destruct (i_parent (fst (snd it))) as [q|] eqn:Eq; [|discriminate].
  cbn [opt_bind] in P. destruct (parent_kid root it q Ho Eq) as (pit & Hp & <- & c & Hc & Ec). rewrite (ok_get root pit Hp) in P. injection P as <-.
  exists pit. split; [exact Hp|]. split; [reflexivity|]. pose proof (idx_before pit c Hc) as X. rewrite Ec in X. apply (f_equal n_idx) in Ec. change (fst c = fst it) in Ec. lia.
Qed.
Lemma w_column pv c fmts inw : snd (c_concise_column pv c fmts inw) <= S (idx_in_parent c).
Proof. destruct pv; cbn; try lia. destruct (is_key c); lia. Qed.
Lemma w_offset_loop root fmts inw : forall fuel it off, ok_item root it -> snd (c_offset_loop fuel (full root) fmts inw (nd it) off) <= 2 * fst it.
Proof.
  induction fuel as [|fuel IH]; intros it off Ho; cbn [c_offset_loop]; destruct (node_parent (full root) (nd it)) as [p|] eqn:Ep; try (cbn; lia).
  destruct (item_parent root it p Ho Ep) as (pit & Hp & -> & B). cbn [look snd].
  match goal with |- 1 + snd ?e <= _ => enough (X : snd e <= S (idx_in_parent (nd it)) + 2 * fst pit) by lia end.
  apply w_free. intros pf _. apply w_bind; [|intros add _; now apply IH]. destruct (f_line pf); [cbn; lia|apply w_column|cbn; lia].
Qed.
Lemma w_offset root fmts inw it : ok_item root it -> snd (c_calculate_offset (full root) (nd it) fmts inw) <= 2 * fst it.
Proof.
  intros Ho. unfold c_calculate_offset. destruct (node_parent (full root) (nd it)) as [p|] eqn:Ep; [|cbn; lia].
  destruct (item_parent root it p Ho Ep) as (pit & Hp & -> & B). cbn [look snd].
  match goal with |- 1 + snd ?e <= _ => enough (X : snd e <= S (idx_in_parent (nd it)) + (2 * fst pit + 0)) by lia end.
  apply w_free. intros pf _. apply w_bind; [destruct (f_line pf); [cbn; lia|apply w_column|apply w_column]|]. intros off _.
  apply w_bind; [now apply w_offset_loop|]. intros r _. apply w_free. intros; cbn; lia.
Qed.
Lemma w_apply_node root cfg inw con fmts c : snd (c_apply_node (full root) cfg inw con fmts c) <= 5 + 4 * length (full root).
Proof.
  unfold c_apply_node. cbn [look snd].
  match goal with |- 3 + snd ?e <= _ => enough (X : snd e <= 2 * length (full root) + ((2 + 2 * length (full root)) + 0)) by lia end.
  apply w_free. intros child E. destruct (nav_get (full root) c) as [n|] eqn:En; [|discriminate]. injection E as <-.
  destruct (get_item root c n En) as (it & Ho & <- & <-). pose proof (isz_le root it Ho) as L. pose proof (ksize_pos (snd (snd it))) as K.
  apply w_bind; [etransitivity; [now apply w_offset|lia]|]. intros off _. apply w_free. intros r _. apply w_free. intros p _.
  apply w_bind; [apply w_request|intros; cbn; lia].
Qed.
Lemma w_apply_config root fmts cfg : snd (c_apply_config (mkFmtr (full root) fmts) cfg) <= 4 * ksize root ^ 2 + 17 * ksize root + 2.
Proof.
  rewrite <- full_length. set (n := length (full root)). unfold c_apply_config. cbn [fm_nav fm_fmts].
  etransitivity; [|assert (X : n + (3 * n + (3 * n + (n + ((2 + 2 * n) + (n + (n * S (5 + 4 * n) + 0)))))) <= 4 * n ^ 2 + 17 * n + 2) by (cbn [Nat.pow]; nia); exact X].
  apply w_bind. { unfold c_apply_ids. etransitivity; [apply (w_fold _ 0); intros; cbn; lia|]. rewrite seq_length. unfold nav_len. fold n. lia. }
  intros f1 _. apply w_free. intros r Er. apply w_bind; [apply w_inline|]. intros inw Ei. unfold c_inline_widths in Ei. rewrite (e_all_widths _ _ _ (e_inline_rec _ _ _)) in Ei.
  apply w_bind; [now apply w_concise|]. intros con _. apply w_free. intros rr _. apply w_bind; [apply w_breadth_loop|]. intros ds Ed.
  unfold c_descendants_breadth in Ed. rewrite e_breadth_loop in Ed. apply breadth_loop_length in Ed. cbn [length] in Ed. fold n in Ed.
  apply w_bind; [apply w_request|]. intros x _. cbn [look snd]. apply Nat.add_le_mono; [exact Ed|]. apply w_bind; [|intros; cbn; lia].
  etransitivity; [apply (w_fold _ (5 + 4 * n)); intros; apply w_apply_node|]. rewrite map_length. apply Nat.mul_le_mono_r. exact Ed.
Qed.
Theorem config_work k fm cfg : reachable k fm -> snd (c_apply_config fm cfg) <= 4 * ksize k ^ 2 + 17 * ksize k + 2.
Proof. intros R. pose proof (reachable_finv k fm R) as [N _]. destruct fm as [nv fmts]. cbn [fm_nav] in N. subst nv. apply w_apply_config. Qed.
Theorem new_work k : snd (c_fm_new k) <= 2 * ksize k ^ 2 + 7 * ksize k + 2.
Proof. apply w_fm_new. Qed.
Theorem layout_work k cfg : snd (c_layout k cfg) <= 6 * (ksize k + 2) ^ 2.
Proof.
  unfold c_layout. etransitivity; [apply w_bind; [apply new_work|]|]. 2: instantiate (1 := 4 * ksize k ^ 2 + 17 * ksize k + 2); cbn [Nat.pow]; nia.
  intros fm E. rewrite e_fm_new in E. apply config_work. exists []. unfold run. rewrite E. reflexivity.
Qed.
Theorem request_work k fm i r : reachable k fm -> snd (c_request_repr (fm_nav fm) (fm_fmts fm) i r) <= 2 + 2 * ksize k.
Proof. intros R. pose proof (reachable_finv k fm R) as [N _]. rewrite N, <- full_length. apply w_request. Qed.
