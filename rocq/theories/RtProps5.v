(** Formatters without verbose nodes; what is read back against what was
    written. *)
From Verif Require Import Base F64 Number NumberSpec BTree Value BaseProps NumberProps NumberProps2 NumberProps3 BTreeProps ValueSpec ValueProps ValueProps2 Base91 Base91Props Nom Parse ParseErr Grammar GrammarProps Nav NavSpec NavProps NavProps2 Fmt Formatter FmtText FmtSpec FmtProps FmtProps2 FormatterProps FormatterProps2 FormatterProps3 FormatterProps4 RtProps RtSpec RtProps2 RtProps3 RtProps4.
Open Scope nat_scope.

(** ** the layouts of a formatter *)
Lemma D_kid fmts it x : In x (d_children (d_val (D fmts it))) -> exists c, In c (kids_of it) /\ x = D fmts c.
Proof.
  rewrite D_children. intros H. destruct (kval (snd (snd it))) eqn:E;
    try (apply in_map_iff in H as (c & <- & Hc); exists c; split; [apply kids_value_or_key; now left|reflexivity]).
  unfold entry_list in H. apply in_flat_map in H as ([a b] & He & [<-|[<-|[]]]).
  - apply in_combine_l in He. apply in_map_iff in He as (c & <- & Hc). exists c. split; [apply kids_value_or_key; now right|reflexivity].
  - apply in_combine_r in He. apply in_map_iff in He as (c & <- & Hc). exists c. split; [apply kids_value_or_key; now left|reflexivity].
Qed.
Lemma kid_line k fmts it c : inv k fmts -> ok_item k it -> In c (kids_of it) -> repr_le (d_line (D fmts c)) (d_line (D fmts it)).
Proof.
  intros (L & K & P & R) Ho Hc. assert (Hoc : ok_item k c) by now apply (kid_ok k it).
  pose proof (isz_le k c Hoc). pose proof (ksize_pos (snd (snd c))).
  apply (P (fst c) (nd c) (fst it)); [lia|exact (ok_get k c Hoc)|exact (kids_parent it c Hc)|now apply (D_line k)|now apply (D_line k)].
Qed.
Lemma node_kind k fmts it : inv k fmts -> ok_item k it -> repr_le (d_line (D fmts it)) (kind_max (undeco (D fmts it))).
Proof.
  intros (L & K & P & R) Ho. unfold D at 2. rewrite undeco_deco. apply (K (fst it) (nd it)); [exact (ok_get k it Ho)|now apply (D_line k)].
Qed.
Lemma flat_items k fmts : inv k fmts -> (forall it, ok_item k it -> d_line (D fmts it) <> Verbose) ->
  forall it, ok_item k it -> d_all flat_node (D fmts it) = true.
Proof.
  intros I V. apply (D_items k fmts (fun d => d_all flat_node d = true)). intros it Ho F.
  pose proof (node_kind k fmts it I Ho) as KM. pose proof (V it Ho) as NV.
  assert (C : d_line (D fmts it) = Inline -> Forall (fun c => d_line c = Inline) (d_children (d_val (D fmts it)))).
  { intros E. apply Forall_forall. intros x Hx. apply D_kid in Hx as (c & Hc & ->). pose proof (kid_line k fmts it c I Ho Hc) as LE. rewrite E in LE.
    unfold repr_le in LE. destruct (d_line (D fmts c)); [reflexivity|cbn in LE; lia|cbn in LE; lia]. }
  destruct (D fmts it) as [f id v]. apply d_all_children. split; [|exact F]. unfold flat_node.
  destruct (d_line (DK f id v)) eqn:E; [| |congruence].
  - specialize (C eq_refl). cbn [d_val] in *. apply forallb_forall. intros c Hc. rewrite Forall_forall in C. now rewrite (C c Hc).
  - unfold repr_le, kind_max in KM. cbn [undeco kval] in KM. cbn [d_val]. destruct v as [| | | | |[|]|[|]|[|]|[|]]; cbn in KM |- *; (reflexivity || lia).
Qed.
Lemma shown_flat k fm : reachable k fm -> (forall i, line_of fm i <> Some Verbose) -> d_all flat_node (shown k fm) = true.
Proof.
  intros R V. apply reachable_finv in R as [N I]. apply (flat_items k); [exact I| |apply root_ok]. intros it Ho E.
  apply (V (fst it)). apply line_of_at. rewrite <- E. now apply (D_line k); [apply I|].
Qed.
Theorem write_parses k fm t : reachable k fm -> strings_ok k -> (forall i, line_of fm i <> Some Verbose) -> text_safe (shown k fm) = true ->
  fm_write fm [] = LRet t -> parse t = ParseOk (norm (shown k fm)).
Proof.
  intros R S V T E. pose proof (reachable_finv k fm R) as FI. rewrite (fm_write_text k fm [] FI S) in E. injection E as <-.
  replace (FmtText.cut (shown k fm) []) with (@nil char) by (unfold FmtText.cut; destruct (drops _); reflexivity). cbn [app].
  apply text_parses; [exact T|now apply shown_flat].
Qed.
(** safe trees are writable *)
Lemma safe_strings k fm : text_safe (shown k fm) = true -> strings_ok k.
Proof.
  intros S. unfold text_safe in S. apply andb_true_iff in S as [S _]. rewrite each_all in S. rewrite <- (shown_undeco k fm). unfold strings_ok.
  rewrite <- k_all_preorder. revert S. generalize (shown k fm). clear. intros d. induction d as [f id v IH] using dk_ind'. intros S. apply d_all_children in S as [S SC].
  cbn [undeco]. apply k_all_children. assert (C : Forall (fun c => k_all str_ok (undeco c) = true) (d_children v)) by (rewrite Forall_forall in *; auto). split.
  - destruct v; try reflexivity. unfold safe_node, safe_string in S. cbn [d_val] in S. apply andb_true_iff in S as [_ S]. apply str_ok_delimiter. destruct (delimiter t); [discriminate|discriminate].
  - destruct v; cbn [vchildren]; try constructor; cbn [d_children] in C.
    + now rewrite Forall_map.
    + rewrite Forall_map in C. now rewrite !Forall_map.
    + now rewrite Forall_map.
    + apply Forall_entries in C. apply Forall_entries. rewrite Forall_map. exact C.
Qed.

(** ** numbers read back *)
Open Scope Z_scope.
Lemma scale_pos : 0 < scale. Proof. reflexivity. Qed.
Lemma reread_exact n : exact n = true -> num_from_str (num_display n) = Some (reread n) /\ exact (reread n) = true /\ num_val (reread n) = num_val n.
Proof.
  intros E. pose proof (ordinary_wf _ (exact_ordinary _ E)) as W. pose proof (text_round_trip n W) as T. unfold reread. destruct n as [k|k|[sg p|sg|sg m e]].
  - rewrite T. auto.
  - rewrite T. split; [reflexivity|]. unfold exact, ordinary in *. rewrite andb_true_r in E. rewrite andb_true_r in E. destruct (k <? 0) eqn:L; (split; [|reflexivity]).
    + now rewrite E.
    + cbn [num_wf] in *. unfold i128_min, i128_max, u128_max in *. rewrite !andb_true_r. lia.
  - destruct T as [p' T]. rewrite T. split; [reflexivity|]. split; [|reflexivity]. apply num_from_str_wf in T. unfold exact, ordinary. now rewrite T.
  - rewrite T. auto.
  - destruct T as (T1 & T2 & T3 & T4). set (x := FFin sg m e) in *. destruct (Z.eq_dec (fval x mod scale) 0) as [Z|NZ]; [|rewrite (T1 NZ); auto].
    pose proof E as E0. change (exact (Float x)) with (ordinary (Float x) && ((fval x mod scale =? 0) && (Z.abs (fval x) <? 2 ^ 53 * scale)
      || (fval f_1em10 <=? fval x mod scale) && (fval x mod scale <=? scale - fval f_1em10))) in E. apply andb_true_iff in E as [O E].
    apply orb_true_iff in E as [E|E]. 2:{ apply andb_true_iff in E as [E _]. rewrite Z in E. discriminate E. }
    apply andb_true_iff in E as [_ E]. apply Z.ltb_lt in E.
    assert (D : fval x = fval x / scale * scale) by (pose proof (Z.div_mod (fval x) scale ltac:(pose proof scale_pos; lia)); lia).
    set (k := fval x / scale) in *. assert (B : Z.abs k < 2 ^ 53) by (rewrite D, Z.abs_mul in E; pose proof scale_pos; rewrite (Z.abs_eq scale) in E by lia; nia).
    rewrite (T2 k D ltac:(lia)). split; [reflexivity|]. unfold exact, ordinary. destruct sg; cbn [num_wf num_val f_xval x]; fold x; (split; [|now rewrite D]).
    + unfold i128_min, i128_max. lia.
    + assert (N : 0 <= fval x).
      { unfold x. cbn [fval]. cbn [num_wf f64_wf x] in W. rewrite !andb_true_iff in W. assert (0 <= m) by lia. assert (0 <= 2 ^ (e + 1074)) by (apply Z.pow_nonneg; lia). nia. }
      assert (0 <= k) by (pose proof scale_pos; apply Z.div_pos; lia). unfold u128_max. lia.
Qed.
