(** Proofs about debug texts: those of f64 in older Rust, and nodes. *)
From Verif Require Import Base BaseProps F64 F64Text F32Props Number NumberSpec NumberProps3 BTree Value ValueSpec ValueProps Grammar RtProps2 Nav NavSpec NavProps NavProps2 NavProps3 Debug DebugSpec DebugProps DebugProps2 DebugProps3.
Open Scope N_scope.

(** ** f64 *)
Lemma has_point a b : existsb (fun c => c =? 46) (a ++ [46] ++ b) = true.
Proof. rewrite existsb_app. cbn. now rewrite orb_true_r. Qed.
Lemma digits_no_point t : forallb is_digit t = true -> existsb (fun c => c =? 46) t = false.
Proof.
  induction t as [|c t IH]; [reflexivity|]. cbn [forallb existsb]. intros H. apply andb_true_iff in H as [H1 H2]. rewrite (IH H2), orb_false_r.
  unfold is_digit in H1. apply andb_true_iff in H1 as [H1 _]. apply N.leb_le in H1. apply N.eqb_neq. lia.
Qed.
Lemma old_reads x : f64_wf x = true -> f_parse (old_debug x) = Some (match x with FNaN _ _ => nan | _ => x end).
Proof.
  intros W. destruct x as [sg p|[]|sg m e]; try reflexivity.
  unfold old_debug. cbn [f_is_finite andb].
  destruct (Z.eqb_spec m 0) as [->|M].
  { assert (e = -1074)%Z as ->. { unfold f64_wf in W. lia. } destruct sg; reflexivity. }
  assert (0 < m)%Z as Hm. { unfold f64_wf in W. lia. }
  rewrite f_display_fin by exact Hm. pose proof (display_dec_value sg m e W Hm) as HD. destruct (display_dec (FFin sg m e)) as [d t]. destruct HD as [Hd HV].
  destruct (Z.le_gt_cases 0 t) as [C|C].
  - destruct (positional_int d t Hd C) as (D & NE & V). set (ds := positional d t) in *.
    assert (P : existsb (fun c => c =? 46) (signed sg ds) = false). { pose proof (digits_no_point ds D) as ND. unfold signed. destruct sg; [|exact ND]. exact ND. }
    rewrite P. cbn [negb]. replace (signed sg ds ++ s ".0") with (signed sg (ds ++ s "." ++ [48])).
    2:{ unfold signed. destruct sg; rewrite <- ?app_assoc; reflexivity. }
    rewrite f_parse_digits by (assumption || reflexivity). f_equal. rewrite <- HV. unfold f_of_dec.
    rewrite N_of_dec_app. change (N_of_dec [48]) with 0. rewrite N.add_0_r, N2Z.inj_mul, V. cbn [length].
    change (Z.of_N (10 ^ N.of_nat 1)) with 10%Z. change (Z.max 0 (- Z.of_nat 1)) with 0%Z. change (Z.max 0 (- - Z.of_nat 1)) with 1%Z.
    rewrite (Z.max_r 0 t), (Z.max_l 0 (- t)), Z.pow_0_r, Z.mul_1_r by lia. change (10 ^ 1)%Z with (1 * 10)%Z.
    apply rne_scale; [|reflexivity..]. apply Z.mul_nonneg_nonneg; [lia|]. apply Z.pow_nonneg. lia.
  - assert (P : existsb (fun c => c =? 46) (signed sg (positional d t)) = true).
    { destruct (positional_frac d t Hd C) as (ip & fp & E & _). rewrite E. unfold signed. rewrite app_assoc. exact (has_point _ _). }
    rewrite P. cbn [negb]. rewrite f_parse_positional by exact Hd. now rewrite HV.
Qed.
Lemma old_chars x : forallb (fun c => negb (mem c [10; 41])) (old_debug x) = true.
Proof.
  assert (G : forallb (fun c => negb (mem c [10; 41])) (f_display x) = true).
  { pose proof (display_num_chars (Float x)) as H. cbn [num_display] in H. apply forallb_forall. intros c Hc. rewrite forallb_forall in H. specialize (H c Hc).
    unfold mem. cbn [existsb]. destruct (N.eqb_spec c 10) as [->|]; [discriminate H|]. destruct (N.eqb_spec c 41) as [->|]; [discriminate H|]. reflexivity. }
  unfold old_debug. destruct (_ && _); [|exact G]. rewrite forallb_app, G. reflexivity.
Qed.
Theorem old_float_debug : float_debug old_debug.
Proof.
  split; [|exact old_chars]. intros x y Wx Wy. split.
  - intros E. pose proof (old_reads x Wx) as Rx. pose proof (old_reads y Wy) as Ry. rewrite E, Ry in Rx. injection Rx as Rx.
    destruct x as [sx px| |], y as [sy py| |]; try (left; congruence); try (unfold nan in Rx; discriminate Rx). right. auto.
  - intros [->|[Nx Ny]]; [reflexivity|]. destruct x, y; try discriminate. reflexivity.
Qed.

(** ** nodes *)
Section Style.
Variable plain : char -> bool.
Variable f_debug : f64 -> str.
Hypothesis FD : float_debug f_debug.
Variable alt : bool.

Lemma prim_prefix {K} (d : K -> str) (v1 v2 : value K) r r' : primitive v1 = true -> primitive v2 = true ->
  match v1 with VNum n => num_wf n | _ => true end = true -> match v2 with VNum n => num_wf n | _ => true end = true ->
  debug_value plain f_debug alt d v1 ++ r = debug_value plain f_debug alt d v2 ++ r' -> r = r'.
Proof.
  intros Q1 Q2 W1 W2 E. destruct v1 as [|b1|n1|t1|s1|l1|m1|l1|m1]; try discriminate; destruct v2 as [|b2|n2|t2|s2|l2|m2|l2|m2]; try discriminate;
    cbn [debug_value] in E; lits; rewrite <- ?app_assoc in E; try discriminate E; apply app_inv_head in E.
  - exact E.
  - apply bool_prefix in E as [_ E]. now apply app_inv_head in E.
  - apply num_prefix in E as [_ E]; [|assumption..]. now apply app_inv_head in E.
  - apply str_prefix in E as [_ E]. now apply app_inv_head in E.
  - apply bytes_prefix in E as [_ E]. now apply app_inv_head in E.
Qed.

Definition calm (t : str) : str := if alt then sq false t else t.
Definition opt_flat (o : option str) : str := match o with Some t => s "Some(" ++ nl alt ++ t ++ fin alt [41] | None => s "None" end.
Lemma calm_line t : one_line t = true -> calm t = t.
Proof. intros H. unfold calm. destruct alt; [now apply one_line_sq|reflexivity]. Qed.
Lemma calm_option o : match o with Some t => one_line t = true /\ begins t | None => True end ->
  calm (debug_option alt o) = opt_flat o /\ (alt = true -> after false (debug_option alt o) = false).
Proof.
  unfold calm, debug_option, opt_flat, debug_tuple, entries_text, nl, fin. destruct o as [t|]; [|destruct alt; auto].
  intros [H B]. destruct alt; [|split; [cbn [joined_with]; reflexivity|discriminate]].
  destruct (one_line_sq t H) as [S1 S2]. split.
  - change (s "(") with [40]. change (s ")") with [41]. change (s "Some(") with (s "Some" ++ [40]). rewrite <- (app_assoc (s "Some")).
    change ([10] ++ concat (map pretty_entry [t])) with (entries_text true [t]).
    rewrite (sq_app (s "Some")), (sq_app [40]). change (sq false (s "Some")) with (s "Some"). change (after false (s "Some")) with false. change (sq false [40]) with [40]. change (after false [40]) with false.
    rewrite sq_block; [|constructor; auto|discriminate|discriminate|discriminate]. cbn [map sq body]. rewrite S1, app_nil_r. reflexivity.
  - intros _. change (s ")") with [41]. rewrite !app_assoc. now apply after_end.
Qed.

Definition node_fields (nv : nav) (n : node) : list (str * str) :=
  let v := kval (n_kserd n) in
  [(s "id", debug_option alt (option_map (debug_str plain) (kid (n_kserd n)))); (s "value-type", debug_str plain (node_kind v))] ++
  (if str_eqb (node_kind v) (s "Primitive") then [(s "value", debug_value plain f_debug alt (debug plain f_debug alt) v)] else []) ++
  [(s "index", debug_usize (n_idx n)); (s "parent", debug_option alt (option_map (fun p => debug_usize (n_idx p)) (node_parent nv n)));
   (s "is_key", debug_bool (is_key n)); (s "idx_in_parent", debug_usize (idx_in_parent n))].
Lemma kind_primitive v : str_eqb (node_kind v) (s "Primitive") = primitive v.
Proof. destruct v; reflexivity. Qed.
Lemma usize_begins n : begins (debug_usize n).
Proof.
  unfold debug_usize. destruct (dec_of_N_spec (N.of_nat n)) as (_ & D & NE & _). destruct (dec_of_N (N.of_nat n)) as [|c t]; [easy|]. cbn [forallb] in D. apply andb_true_iff in D as [D _].
  unfold is_digit in D. apply andb_true_iff in D as [D _]. apply N.leb_le in D. cbn. lia.
Qed.
Lemma field_calm nv n e : In e (node_fields nv n) -> name_ok true (fst e) /\ (alt = true -> after false (snd e) = false).
Proof.
  assert (L : forall t, one_line t = true -> alt = true -> after false t = false) by (intros t H _; now apply one_line_sq).
  unfold node_fields. rewrite kind_primitive. cbn [app]. intros H.
  destruct H as [<-|[<-|H]]; cbn [fst snd].
  - split; [reflexivity|]. apply calm_option. destruct (kid (n_kserd n)); cbn; [|exact Logic.I]. split; [apply str_line|lia].
  - split; [reflexivity|]. apply L, str_line.
  - apply in_app_or in H as [H|H].
    + destruct (primitive (kval (n_kserd n))) eqn:Q; [|destruct H]. destruct H as [<-|[]]. split; [reflexivity|]. apply L. now apply prim_line.
    + destruct H as [<-|[<-|[<-|[<-|[]]]]]; cbn [fst snd]; (split; [reflexivity|]).
      * apply L, (dec_line plain).
      * apply calm_option. destruct (node_parent nv n) as [p|]; cbn [option_map]; [|exact Logic.I]. split; [apply (dec_line plain)|apply usize_begins].
      * apply L. now destruct (is_key n).
      * apply L, (dec_line plain).
Qed.
Lemma node_flat nv n : calm (debug_node plain f_debug alt nv n) = flat_struct alt (s "Node") (map (fun e => (fst e, calm (snd e))) (node_fields nv n)).
Proof.
  change (debug_node plain f_debug alt nv n) with (debug_struct alt (s "Node") (node_fields nv n)). unfold calm.
  pose proof (field_calm nv n) as F. destruct alt.
  - apply struct_lines; [reflexivity|]. apply Forall_forall. intros e He. destruct (F e He). auto.
  - rewrite struct_line. f_equal. rewrite <- (map_id (node_fields nv n)) at 1. apply map_ext. now intros [].
Qed.
Definition node_open : str := s "Node" ++ (if alt then [32; 123; 10] else [32; 123; 32]) ++ s "id: ".
Lemma node_text nv n : exists rest, calm (debug_node plain f_debug alt nv n) =
  node_open ++ opt_flat (option_map (debug_str plain) (kid (n_kserd n))) ++ more alt ++ s "value-type: " ++ debug_str plain (node_kind (kval (n_kserd n))) ++ more alt ++
  (if primitive (kval (n_kserd n)) then s "value: " ++ debug_value plain f_debug alt (debug plain f_debug alt) (kval (n_kserd n)) ++ more alt else []) ++
  s "index: " ++ debug_usize (n_idx n) ++ 44 :: rest.
Proof.
  rewrite node_flat. unfold node_fields. rewrite kind_primitive. unfold node_open, flat_struct.
  assert (O : calm (debug_option alt (option_map (debug_str plain) (kid (n_kserd n)))) = opt_flat (option_map (debug_str plain) (kid (n_kserd n)))).
  { apply calm_option. destruct (kid (n_kserd n)); cbn; [|exact Logic.I]. split; [apply str_line|lia]. }
  assert (MM : forall x, exists y, more alt ++ x = 44 :: y) by (intros x; unfold more; destruct alt; cbn [app]; eauto).
  destruct (primitive (kval (n_kserd n))) eqn:Q; cbn [app map fst snd]; rewrite O, ?(calm_line (debug_str plain _)) by apply str_line;
    rewrite ?(calm_line (debug_usize (n_idx n))) by apply (dec_line plain); rewrite ?(calm_line (debug_value plain f_debug alt _ _)) by (now apply prim_line); cbn [body].
  - destruct (MM (body alt (end_struct alt) [s "parent" ++ [58; 32] ++ calm (debug_option alt (option_map (fun p => debug_usize (n_idx p)) (node_parent nv n))); s "is_key" ++ [58; 32] ++ calm (debug_bool (is_key n)); s "idx_in_parent" ++ [58; 32] ++ calm (debug_usize (idx_in_parent n))])) as [y Hy].
    exists y. rewrite <- Hy. cbn [body]. rewrite <- !app_assoc. reflexivity.
  - destruct (MM (body alt (end_struct alt) [s "parent" ++ [58; 32] ++ calm (debug_option alt (option_map (fun p => debug_usize (n_idx p)) (node_parent nv n))); s "is_key" ++ [58; 32] ++ calm (debug_bool (is_key n)); s "idx_in_parent" ++ [58; 32] ++ calm (debug_usize (idx_in_parent n))])) as [y Hy].
    exists y. rewrite <- Hy. cbn [body]. rewrite <- !app_assoc. reflexivity.
Qed.
Lemma opt_prefix i j r r' : opt_flat (option_map (debug_str plain) i) ++ r = opt_flat (option_map (debug_str plain) j) ++ r' -> i = j /\ r = r'.
Proof.
  unfold opt_flat. destruct i as [t|], j as [u|]; cbn [option_map]; intros E; lits.
  - rewrite <- !app_assoc in E. apply app_inv_head, app_inv_head, str_prefix in E as [-> E]. apply app_inv_head in E. auto.
  - discriminate E.
  - discriminate E.
  - apply app_inv_head in E. auto.
Qed.
Lemma node_index nv1 nv2 n1 n2 : typed_node (n_kserd n1) = true -> typed_node (n_kserd n2) = true ->
  debug_node plain f_debug alt nv1 n1 = debug_node plain f_debug alt nv2 n2 -> n_idx n1 = n_idx n2.
Proof.
  intros T1 T2 E. destruct (node_text nv1 n1) as [r1 E1], (node_text nv2 n2) as [r2 E2]. rewrite E, E2 in E1. clear E E2. symmetry in E1.
  apply app_inv_head, opt_prefix in E1 as [_ E]. apply app_inv_head, app_inv_head, str_prefix in E as [EK E]. apply app_inv_head in E.
  assert (Q : primitive (kval (n_kserd n1)) = primitive (kval (n_kserd n2))) by (rewrite <- !kind_primitive; now rewrite EK).
  assert (G : forall a b x y, s "index: " ++ debug_usize a ++ 44 :: x = s "index: " ++ debug_usize b ++ 44 :: y -> a = b).
  { intros a b x y H. apply app_inv_head in H. unfold debug_usize in H. apply dec_until in H as [H _]; [|reflexivity]. now apply Nnat.Nat2N.inj. }
  destruct (primitive (kval (n_kserd n2))) eqn:Q2; rewrite Q in E.
  - rewrite <- !app_assoc in E. apply app_inv_head, prim_prefix in E; try assumption.
    + apply app_inv_head in E. now apply G in E.
    + unfold typed_node in T1. destruct (kval (n_kserd n1)); try reflexivity. exact T1.
    + unfold typed_node in T2. destruct (kval (n_kserd n2)); try reflexivity. exact T2.
  - now apply G in E.
Qed.
Lemma node_typed k nv n : k_typed k = true -> nav_new k = LRet nv -> In n nv -> typed_node (n_kserd n) = true.
Proof.
  intros T E Hn. apply new_is_full in E as ->. assert (HP : In (n_kserd n) (preorder k)) by (rewrite <- full_kserds; now apply in_map).
    revert HP. generalize (n_kserd n). clear - T. unfold k_typed in T. induction k as [i v IH] using kserd_ind'. intros x Hx. apply k_all_children in T as [T1 T2].
    rewrite Forall_forall in IH, T2.
    assert (HX : x = Kserd i v \/ exists c, In c (vchildren v) /\ In x (preorder c)).
    { cbn [preorder] in Hx. destruct Hx as [<-|Hx]; [now left|]. right. destruct v as [|b|n|t|b|l|m|l|m]; cbn [vchildren] in *; try destruct Hx.
      - apply in_flat_map in Hx. exact Hx.
      - apply in_flat_map in Hx as (e & He & Hx). exists (snd e). split; [now apply in_map|exact Hx].
      - apply in_flat_map in Hx. exact Hx.
      - apply in_flat_map in Hx as (e & He & Hx). apply in_app_or in Hx as [Hx|Hx]; [exists (fst e)|exists (snd e)]; (split; [apply in_flat_map; exists e; cbn; auto|exact Hx]). }
    destruct HX as [->|(c & Hc & Hx')]; [exact T1|]. exact (IH c Hc (T2 c Hc) x Hx').
Qed.
Theorem nodes_apart k nv n1 n2 : k_typed k = true -> nav_new k = LRet nv -> In n1 nv -> In n2 nv ->
  debug_node plain f_debug alt nv n1 = debug_node plain f_debug alt nv n2 -> n1 = n2.
Proof.
  intros T E I1 I2 D.
  apply node_index in D; [|eapply node_typed; eassumption..]. apply new_is_full in E as ->.
  pose proof (full_idx k) as FI. apply In_nth_error in I1 as [a Ha], I2 as [b Hb].
  assert (X : forall i n, nth_error (full k) i = Some n -> n_idx n = i).
  { intros i n H. assert (H1 : nth_error (map n_idx (full k)) i = Some (n_idx n)) by now apply map_nth_error. rewrite FI in H1.
    assert (L : (i < length (full k))%nat) by (apply nth_error_Some; congruence).
    rewrite (nth_error_nth' _ 0%nat) in H1 by (now rewrite seq_length). rewrite seq_nth in H1 by exact L. injection H1 as H1. now rewrite <- H1. }
  apply X in Ha as Xa. apply X in Hb as Xb. congruence.
Qed.
End Style.

(** ** names *)
Lemma good_plain alt k : k_all (fun x => match kval x with VCntr m => forallb (fun e => good_name (fst e) && negb (alt && mem 10 (fst e))) m | _ => true end) k = true ->
  plain_names alt k = true.
Proof.
  unfold plain_names. induction k as [i v IH] using kserd_ind'. intros H. apply k_all_children in H as [H1 H2]. apply k_all_children. split.
  - cbn [kval] in *. destruct v as [|b|n|t|b|l|m|l|m]; try reflexivity. apply forallb_forall. intros e He. rewrite forallb_forall in H1. specialize (H1 e He).
    apply andb_true_iff in H1 as [G A]. unfold good_name in G. apply andb_true_iff in G as [_ G]. apply forallb_forall. intros c Hc. rewrite forallb_forall in G. specialize (G c Hc).
    apply andb_true_iff. split.
    + unfold mem in G. cbn [existsb] in G. destruct (c =? 32) eqn:E; [discriminate G|reflexivity].
    + destruct alt; [|reflexivity]. cbn [andb] in *. destruct (N.eqb_spec c 10) as [->|]; [|reflexivity]. apply negb_true_iff in A. unfold mem in A.
      assert (X : mem 10 (fst e) = true) by (unfold mem; apply existsb_exists; exists 10; auto). exact (eq_trans (eq_sym A) X) || (pose proof (eq_trans (eq_sym A) X) as Y; discriminate Y).
  - rewrite Forall_forall in *. intros x Hx. now apply IH, H2.
Qed.
