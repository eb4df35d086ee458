(** From the trees of forms to the texts formatters write, and the texts of towers. *)
From Verif Require Import Base BaseProps F64 Number BTree Value ValueSpec ValueProps Base91 Nav NavSpec NavProps NavProps2 NavProps3 Fmt FmtText FmtSpec FmtProps FmtProps2 FmtPanic FmtVectors Formatter FormatterProps FormatterProps2 FormatterProps3 FormatterProps4 LayoutSpec LayoutProps3 LayoutProps5 LayoutProps6 RtSpec VRtProps5 SizeSpec SizeProps.
Open Scope nat_scope.

Lemma written_text k fm t : reachable k fm -> fm_write fm [] = LRet t -> t = text true (shown k fm) 0.
Proof.
  intros R E. assert (S : strings_ok k).
  { destruct (Forall_dec (fun x => str_ok x = true) (fun x => Bool.bool_dec (str_ok x) true) (preorder k)) as [Y|NY]; [exact Y|]. rewrite (write_panics k fm [] R NY) in E. discriminate. }
  rewrite (fm_write_text k fm [] (reachable_finv k fm R) S) in E. injection E as <-. unfold FmtText.cut. destruct (drops _); reflexivity.
Qed.
Lemma W_shown k fm : W (shown k fm) = chars k.
Proof. unfold W. now rewrite shown_undeco. Qed.
Lemma N_shown k fm : SizeProps.N (shown k fm) = nodes k.
Proof. unfold SizeProps.N, nodes, total. rewrite shown_undeco. induction (preorder k) as [|x l IH]; cbn [map length]; [reflexivity|]. rewrite list_sum_cons, IH. reflexivity. Qed.

Theorem any_length k fm t : reachable k fm -> fm_write fm [] = LRet t -> length t <= 3 * nodes k * chars k.
Proof.
  intros R E. rewrite (written_text k fm t R E). destruct (any_bound _ (shown_lay k fm R)) as [B _]. specialize (B true 0). rewrite W_shown, N_shown in B. nia.
Qed.
Theorem inline_length k fm t : reachable k fm -> line_of fm 0 = Some Inline -> fm_write fm [] = LRet t -> length t <= chars k.
Proof.
  intros R L E. rewrite (written_text k fm t R E). pose proof (inline_len _ (shown_lay k fm R)) as B.
  assert (DL : d_line (shown k fm) = Inline).
  { pose proof (reachable_finv k fm R) as [_ I]. pose proof (D_line k (fm_fmts fm) _ (proj1 I) (root_ok k)) as (f & Hf & Ef). unfold line_of in L. cbn [fst] in Hf. rewrite Hf in L. cbn in L. unfold shown. congruence. }
  specialize (B DL true 0). rewrite W_shown in B. lia.
Qed.
Lemma as_str_reachable k cfg t : as_str_with_config k cfg = LRet t -> exists fm0 fm, fm_new k = LRet fm0 /\ apply_config fm0 cfg = LRet fm /\ reachable k fm /\ fm_write fm [] = LRet t.
Proof.
  intros H. unfold as_str_with_config in H. destruct (fm_new k) as [fm| |] eqn:E1; try discriminate. cbn [lbind] in H.
  destruct (apply_config fm cfg) as [fm'| |] eqn:E2; try discriminate. cbn [lbind] in H. exists fm, fm'. repeat split; auto.
  exists [OpConfig cfg]. unfold run. rewrite E1. cbn [lbind lfold apply_op]. now rewrite E2.
Qed.
Theorem as_str_length k cfg t : as_str_with_config k cfg = LRet t -> length t <= 3 * nodes k * chars k.
Proof. intros H. destruct (as_str_reachable k cfg t H) as (fm0 & fm & _ & _ & R & E). exact (any_length k fm t R E). Qed.

(** ** towers *)
Lemma tower_text fmts root : (forall pit c n, ok_item root pit -> In c (kids_of pit) -> line_at fmts (fst pit) Concise -> snd (snd c) = tower (S n) -> line_at fmts (fst c) Concise) ->
  forall n it col, ok_item root it -> snd (snd it) = tower n -> (n <> 0 -> line_at fmts (fst it) Concise) -> 2 * n * col + 4 * n * n <= length (text true (D fmts it) col).
Proof.
  intros H. induction n as [|n IH]; intros it col O E L; [cbn; lia|].
  destruct (L ltac:(discriminate)) as (f & Hf & Ef). rewrite D_unfold, E. cbn [tower kid kval]. rewrite (nth_error_nth _ _ _ Hf).
  pose proof (vkids_kserds it) as V. rewrite E in V. cbn in V. destruct (vkids it) as [|c [|c2 l]] eqn:EV; try discriminate. cbn [map] in V. injection V as V.
  assert (C : In c (kids_of it)) by (apply kids_value_or_key; left; rewrite EV; now left).
  assert (LC : n <> 0 -> line_at fmts (fst c) Concise) by (destruct n as [|n']; [congruence|]; intros _; exact (H it c n' O C (L ltac:(discriminate)) V)).
  specialize (IH c (col + 4) (kid_ok root it c O C) V LC). cbn [map text]. rewrite Ef. cbn [fold_left].
  assert (CL : forall a : str, length a <= length (FmtText.cut (D fmts c) a) + 1).
  { intros a. unfold FmtText.cut. destruct (drops _); [|lia]. unfold pop. destruct a as [|x a] using rev_ind; [cbn; lia|]. rewrite removelast_last, app_length. cbn. lia. }
  specialize (CL ((tuple_id f None ++ s "(" ++ nl) ++ sp (col + 4))). assert (T0 : tuple_id f None = []) by (unfold tuple_id; now destruct (f_id f)). rewrite T0 in *.
  unfold str, char in *. rewrite !app_length in *. rewrite !sp_len in *. change (@length BinNums.N (s "(")) with 1 in *. change (@length BinNums.N (s ")")) with 1 in *. rewrite nl_len in *. cbn [length] in *. nia.
Qed.
Lemma tower_kids n fm : fm_new (tower n) = LRet fm -> forall pit c j, ok_item (tower n) pit -> In c (kids_of pit) -> line_at (fm_fmts fm) (fst pit) Concise -> snd (snd c) = tower (S j) -> line_at (fm_fmts fm) (fst c) Concise.
Proof.
  intros E pit c j O C L V. pose proof (new_kids (tower n) fm E pit c Concise O C L) as K. rewrite V in K. unfold own_max, kind_max in K. cbn in K. destruct (is_key (nd c)); exact K.
Qed.
Theorem tower_length n t : as_str_with_config (tower n) (width (Some 0)) = LRet t -> 4 * n * n <= length t.
Proof.
  intros H. destruct (as_str_reachable _ _ t H) as (fm0 & fm & E & E' & R & Ew). rewrite (written_text _ fm t R Ew). unfold shown.
  assert (SV : solvable (tower n) (width (Some 0))) by (right; left; destruct n; reflexivity).
  assert (Z : forall i r, line_at (fm_fmts fm) i r <-> line_at (fm_fmts fm0) i r).
  { intros i r. rewrite <- !line_of_at. now rewrite (zero_limit (tower n) _ fm0 fm E E' eq_refl i). }
  pose proof (tower_text (fm_fmts fm) (tower n)) as T. transitivity (2 * n * 0 + 4 * n * n); [lia|]. apply T; clear T.
  - intros pit c j O C L V. apply Z. apply Z in L. exact (tower_kids n fm0 E pit c j O C L V).
  - apply root_ok.
  - reflexivity.
  - intros NZ. apply Z, line_of_at. cbn [fst]. rewrite (proj1 (new_forms _ fm0 E)). destruct n; [congruence|reflexivity].
Qed.
Lemma tower_nodes n : nodes (tower n) = S n.
Proof. induction n as [|n IH]; [reflexivity|]. unfold nodes in *. cbn. rewrite app_nil_r. now rewrite IH. Qed.
Lemma tower_chars n : chars (tower n) = 16 * S n.
Proof. induction n as [|n IH]; [reflexivity|]. change (chars (tower (S n))) with (16 + list_sum (map own_chars (preorder (tower n) ++ []))). rewrite app_nil_r. fold (chars (tower n)). rewrite IH. lia. Qed.
Theorem tower_shows n : exists t, as_str_with_config (tower n) (width (Some 0)) = LRet t /\ 4 * n * n <= length t.
Proof.
  assert (SV : solvable (tower n) (width (Some 0))) by (right; left; destruct n; reflexivity).
  assert (ST : strings_ok (tower n)). { unfold strings_ok. clear SV. induction n as [|n IH]; cbn; [now repeat constructor|]. rewrite app_nil_r. now constructor. }
  destruct (as_str_returns (tower n) (width (Some 0)) ST SV) as [t E]. exists t. split; [exact E|]. exact (tower_length n t E).
Qed.
Theorem not_linear c : exists k t, as_str_with_config k (width (Some 0)) = LRet t /\ c * chars k < length t.
Proof. destruct (tower_shows (8 * c + 8)) as (t & E & L). exists (tower (8 * c + 8)), t. split; [exact E|]. rewrite tower_chars. nia. Qed.
