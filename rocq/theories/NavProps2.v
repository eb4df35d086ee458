(** Navigator: links and descendants. *)
From Verif Require Import Base F64 Number BTree Value BaseProps BTreeProps ValueSpec ValueProps Nav NavSpec NavProps.
From Coq Require Import Permutation.
Open Scope nat_scope.

Definition item : Type := (nat * (ninfo * kserd))%type.
Definition nd (it : item) : node := mk_full (fst (snd it)) (fst it) (snd (snd it)).
Definition kids_of (it : item) : list item := kids (fst it) (snd (snd it)).
Definition has (sel : ninfo -> option nat) (it : item) : bool :=
  match sel (fst (snd it)) with Some _ => true | None => false end.
Definition vkids (it : item) := filter (has i_value) (kids_of it).
Definition kkids (it : item) := filter (has i_key) (kids_of it).
Definition isz (l : list item) : nat := sizes (map snd l).
Definition ok_item (root : kserd) (it : item) : Prop := at_ root (fst it) (fst (snd it)) (snd (snd it)).

Lemma sel_filter sel (l : list item) : map snd (sel_pairs sel l) = map fst (filter (has sel) l).
Proof.
  unfold sel_pairs. induction l as [|e l IH]; [reflexivity|]. cbn [flat_map filter]. unfold has at 1.
  destruct (sel (fst (snd e))); cbn; now rewrite IH.
Qed.
Lemma vc_vkids it : vc (fst it) (snd (snd it)) = map fst (vkids it).
Proof. apply sel_filter. Qed.
Lemma kc_kkids it : kc (fst it) (snd (snd it)) = map fst (kkids it).
Proof. apply sel_filter. Qed.

Lemma ok_get root it : ok_item root it -> nav_get (full root) (fst it) = Some (nd it).
Proof. intros H. apply (at_nth _ _ _ _ H). Qed.
Lemma ok_kids root it : ok_item root it -> Forall (ok_item root) (kids_of it).
Proof.
  intros H. apply Forall_forall. intros [o e] HI. unfold ok_item. cbn [fst snd]. eapply at_kid; [apply H|exact HI].
Qed.
Lemma Forall_filter {A} (P : A -> Prop) f l : Forall P l -> Forall P (filter f l).
Proof. rewrite !Forall_forall. intros H x Hx. apply filter_In in Hx. apply H, Hx. Qed.
Lemma seq_iter_items root l : Forall (ok_item root) l -> seq_iter (full root) (map fst l) = map nd l.
Proof.
  induction 1 as [|it l H HF IH]; [reflexivity|]. cbn [map seq_iter]. now rewrite (ok_get _ _ H), IH.
Qed.
Lemma value_children_items root it : ok_item root it -> value_children (full root) (nd it) = map nd (vkids it).
Proof.
  intros H. unfold value_children, nd at 1, mk_full. cbn [n_value_children]. rewrite vc_vkids.
  apply seq_iter_items. now apply Forall_filter, ok_kids.
Qed.
Lemma key_children_items root it : ok_item root it -> key_children (full root) (nd it) = map nd (kkids it).
Proof.
  intros H. unfold key_children, nd at 1, mk_full. cbn [n_key_children]. rewrite kc_kkids.
  apply seq_iter_items. now apply Forall_filter, ok_kids.
Qed.

(** the Kserds of the kids *)
Lemma filter_vinfos_v p l : forall i off, map (fun it : item => snd (snd it)) (filter (has i_value) (offl off (vinfos p i l))) = l.
Proof. induction l as [|x l IH]; intros i off; [reflexivity|]. cbn. now rewrite IH. Qed.
Lemma filter_minfos_v p l : forall i off, map (fun it : item => snd (snd it)) (filter (has i_value) (offl off (minfos p i l))) = map snd l.
Proof. induction l as [|x l IH]; intros i off; [reflexivity|]. cbn. now rewrite IH. Qed.
Lemma filter_minfos_k p l : forall i off, map (fun it : item => snd (snd it)) (filter (has i_key) (offl off (minfos p i l))) = map fst l.
Proof. induction l as [|x l IH]; intros i off; [reflexivity|]. cbn. now rewrite IH. Qed.
Lemma filter_vinfos_k p l : forall i off, filter (has i_key) (offl off (vinfos p i l)) = [].
Proof. induction l as [|x l IH]; intros i off; [reflexivity|]. cbn. apply IH. Qed.

Lemma vkids_kserds it : map (fun it : item => snd (snd it)) (vkids it) = values_of (snd (snd it)).
Proof.
  unfold vkids, kids_of, kids, values_of. destruct (kval (snd (snd it))); try reflexivity; cbn [kid_infos].
  - apply filter_vinfos_v.
  - apply filter_vinfos_v.
  - apply filter_vinfos_v.
  - apply filter_minfos_v.
Qed.
Lemma kkids_kserds it : map (fun it : item => snd (snd it)) (kkids it) = keys_of (snd (snd it)).
Proof.
  unfold kkids, kids_of, kids, keys_of. destruct (kval (snd (snd it))); try reflexivity; cbn [kid_infos];
    rewrite ?filter_vinfos_k; try reflexivity.
  apply filter_minfos_k.
Qed.

(** each kid is a value or a key, not both *)
Definition one_role (e : ninfo * kserd) : Prop :=
  (exists j, i_value (fst e) = Some j /\ i_key (fst e) = None) \/ (exists j, i_value (fst e) = None /\ i_key (fst e) = Some j).
Lemma kid_infos_role p v : Forall one_role (kid_infos p v).
Proof.
  assert (V : forall l i, Forall one_role (vinfos p i l)).
  { induction l as [|x l IH]; intros i; constructor; [|apply IH]. left. exists i. split; reflexivity. }
  destruct v as [| | | | |l|m|l|m]; cbn [kid_infos]; try constructor; auto.
  generalize 0. induction m as [|x l IH]; intros i; cbn [minfos]; [constructor|].
  constructor; [right; exists i; split; reflexivity|]. constructor; [left; exists i; split; reflexivity|]. apply IH.
Qed.
Lemma kids_role it it' : In it' (kids_of it) -> one_role (snd it').
Proof.
  destruct it' as [o e]. intros H. apply offl_in in H as (l1 & l2 & E & _).
  pose proof (kid_infos_role (fst it) (kval (snd (snd it)))) as R. rewrite E, Forall_app in R.
  destruct R as [_ R]. now inversion R.
Qed.
Lemma kids_parent it it' : In it' (kids_of it) -> i_parent (fst (snd it')) = Some (fst it).
Proof.
  destruct it' as [o e]. intros H. apply offl_in in H as (l1 & l2 & E & _).
  pose proof (kid_infos_parent (fst it) (kval (snd (snd it)))) as R. rewrite E, Forall_app in R.
  destruct R as [_ R]. now inversion R.
Qed.
Lemma kids_value_or_key it it' : In it' (kids_of it) <-> In it' (vkids it) \/ In it' (kkids it).
Proof.
  unfold vkids, kkids. rewrite !filter_In. split; [|tauto]. intros H. pose proof (kids_role _ _ H) as [(j & E & _)|(j & _ & E)].
  - left. split; [assumption|]. unfold has. now rewrite E.
  - right. split; [assumption|]. unfold has. now rewrite E.
Qed.

(** positions *)
Lemma sel_pos (sel : ninfo -> option nat) (l : list item) n j it : map fst (sel_pairs sel l) = seq 0 n ->
  nth_error (filter (has sel) l) j = Some it -> sel (fst (snd it)) = Some j.
Proof.
  intros H E.
  assert (M : map fst (sel_pairs sel l) = flat_map (fun it : item => match sel (fst (snd it)) with Some y => [y] | None => [] end) (filter (has sel) l)).
  { clear. unfold sel_pairs. induction l as [|x l IH]; [reflexivity|]. cbn [flat_map filter]. unfold has at 1.
    destruct (sel (fst (snd x))) eqn:E; cbn [flat_map app map fst]; rewrite ?E; cbn [app]; now rewrite IH. }
  rewrite M in H. clear M.
  assert (F : Forall (fun it => has sel it = true) (filter (has sel) l)).
  { apply Forall_forall. intros x Hx. now apply filter_In in Hx. }
  revert F H E. replace (Some j) with (Some (0 + j)) by reflexivity. generalize (filter (has sel) l), 0. clear l.
  intros l. revert n j. induction l as [|x l IH]; intros n j b F H E; [destruct j; discriminate|].
  inversion F as [|? ? F1 F2]; subst. unfold has in F1. cbn [flat_map] in H.
  destruct (sel (fst (snd x))) as [y|] eqn:Ey; [|discriminate]. cbn [app] in H. destruct n as [|n]; [discriminate|].
  cbn [seq] in H. injection H as -> H. destruct j as [|j].
  - injection E as <-. now rewrite Nat.add_0_r.
  - replace (b + S j) with (S b + j) by lia. apply (IH n); assumption.
Qed.
Lemma vkids_pos it j it' : nth_error (vkids it) j = Some it' -> i_value (fst (snd it')) = Some j.
Proof. apply sel_pos with (n := length (values_of (snd (snd it)))). apply kids_sel_v. Qed.
Lemma kkids_pos it j it' : nth_error (kkids it) j = Some it' -> i_key (fst (snd it')) = Some j.
Proof. apply sel_pos with (n := length (keys_of (snd (snd it)))). apply kids_sel_k. Qed.

(** ** links *)
Lemma item_exists root n : In n (full root) -> exists it, ok_item root it /\ n = nd it.
Proof.
  intros H. apply In_nth_error in H as (i & E). destruct (at_exists root i n E) as (info & k & S & ->).
  exists (i, (info, k)). split; [exact S|reflexivity].
Qed.
Lemma ok_in root it : ok_item root it -> In (nd it) (full root).
Proof. intros H. eapply nth_error_In. apply (ok_get _ _ H). Qed.
Lemma ok_unique root a b : ok_item root a -> ok_item root b -> fst a = fst b -> nd a = nd b.
Proof. intros Ha Hb E. apply ok_get in Ha, Hb. rewrite E in Ha. congruence. Qed.

(** an item with a parent is a kid of it *)
Lemma parent_kid root it p : ok_item root it -> i_parent (fst (snd it)) = Some p ->
  exists pit, ok_item root pit /\ fst pit = p /\ exists it', In it' (kids_of pit) /\ nd it' = nd it.
Proof.
  intros H P. destruct (locate_root root (fst it)) as (info & k & S & D).
  { pose proof (sub_lt _ _ _ _ H). rewrite pre_length in H0. pose proof (ksize_pos (snd (snd it))). lia. }
  assert (E : nd (fst it, (info, k)) = nd it) by (apply (ok_unique root); [exact S|exact H|reflexivity]).
  assert (EI : i_parent info = Some p) by (change (n_parent (nd (fst it, (info, k))) = Some p); rewrite E; exact P).
  destruct D as [(_ & -> & _)|(q & infq & kq & l1 & l2 & Sq & Ek & Ei)]; [discriminate|].
  exists (q, (infq, kq)). split; [exact Sq|].
  assert (IK : In (fst it, (info, k)) (kids_of (q, (infq, kq)))).
  { unfold kids_of, kids. cbn [fst snd]. rewrite Ek, Ei. apply in_offl. }
  split.
  - apply kids_parent in IK. cbn [fst snd] in *. congruence.
  - exists (fst it, (info, k)). split; [exact IK|exact E].
Qed.

(** ** descendants *)
Definition st (root : kserd) (it : item) : list node :=
  map (link_node (pre info_default 0 root)) (pre (fst (snd it)) (fst it) (snd (snd it))).

Lemma pre_list_offl l : forall off, pre_list off l = flat_map (fun it : item => pre (fst (snd it)) (fst it) (snd (snd it))) (offl off l).
Proof. induction l as [|e l IH]; intros off; [reflexivity|]. cbn [pre_list offl flat_map fst snd]. now rewrite IH. Qed.
Lemma map_flat_map {A B C} (g : B -> C) (f : A -> list B) l : map g (flat_map f l) = flat_map (fun x => map g (f x)) l.
Proof. induction l as [|x l IH]; [reflexivity|]. cbn. now rewrite map_app, IH. Qed.
Lemma link_head root it : ok_item root it ->
  link_node (pre info_default 0 root) (mk_head (fst (snd it)) (fst it) (snd (snd it))) = nd it.
Proof.
  intros S. unfold link_node, nd, mk_full. cbn [n_kserd n_idx n_parent n_value_idx n_key_idx n_value_children n_key_children mk_head app].
  now rewrite (children_of_v _ _ _ _ S), (children_of_k _ _ _ _ S).
Qed.
Lemma st_unfold root it : ok_item root it -> st root it = nd it :: flat_map (st root) (kids_of it).
Proof.
  intros H. unfold st at 1. rewrite (pre_unfold (fst (snd it)) (fst it) (snd (snd it))). cbn [map]. rewrite (link_head _ _ H). f_equal.
  rewrite pre_list_offl, map_flat_map. reflexivity.
Qed.
Lemma st_segment root it : ok_item root it -> st root it = segment (full root) (fst it) (ksize (snd (snd it))).
Proof.
  intros (A & B & E & LA & _). unfold segment, full, st. rewrite E at 3. rewrite !map_app.
  rewrite skipn_app, skipn_all2 by (rewrite map_length; lia). rewrite map_length, LA, Nat.sub_diag. cbn [app skipn].
  rewrite firstn_app, firstn_all2 by (rewrite map_length, pre_length; lia).
  rewrite map_length, pre_length, Nat.sub_diag. cbn [firstn]. now rewrite app_nil_r.
Qed.

Lemma isz_cons it l : isz (it :: l) = ksize (snd (snd it)) + isz l.
Proof. unfold isz. cbn [map]. now rewrite sizes_cons. Qed.
Lemma isz_app a b : isz (a ++ b) = isz a + isz b.
Proof. unfold isz. now rewrite map_app, sizes_app. Qed.
Lemma offl_snd l : forall off, map snd (offl off l) = l.
Proof. induction l as [|e l IH]; intros off; [reflexivity|]. cbn. now rewrite IH. Qed.
Lemma isz_kids it : ksize (snd (snd it)) = S (isz (kids_of it)).
Proof. unfold isz, kids_of, kids. rewrite offl_snd. apply ksize_kids. Qed.

(** depth first *)
Definition opt_list {A} (o : option A) : list A := match o with Some x => [x] | None => [] end.
Fixpoint interleave (a b : list nat) : list nat :=
  match a, b with x :: a, y :: b => x :: y :: interleave a b | _, _ => [] end.

Lemma rev_flat_map {A B} (f : A -> list B) l : rev (flat_map f (rev l)) = flat_map (fun x => rev (f x)) l.
Proof.
  induction l as [|x l IH]; [reflexivity|]. cbn [rev flat_map]. rewrite flat_map_app, rev_app_distr. cbn [flat_map].
  now rewrite app_nil_r, IH.
Qed.
Lemma flat_map_seq_shift {B} (f : nat -> list B) n : forall i, flat_map f (seq (S i) n) = flat_map (fun x => f (S x)) (seq i n).
Proof. induction n as [|n IH]; intros i; [reflexivity|]. cbn [seq flat_map]. now rewrite IH. Qed.
Lemma flat_map_ext' {A B} (f g : A -> list B) l : (forall x, f x = g x) -> flat_map f l = flat_map g l.
Proof. intros H. induction l as [|x l IH]; [reflexivity|]. cbn. now rewrite H, IH. Qed.
Lemma nth_seq_map {A} (l : list A) : flat_map (fun i => opt_list (nth_error l i)) (seq 0 (length l)) = l.
Proof.
  induction l as [|x l IH]; [reflexivity|]. cbn [length seq flat_map nth_error opt_list app]. f_equal.
  rewrite flat_map_seq_shift. exact IH.
Qed.
Lemma nth_seq_interleave a : forall b, length a = length b ->
  flat_map (fun i => opt_list (nth_error a i) ++ opt_list (nth_error b i)) (seq 0 (length a)) = interleave a b.
Proof.
  induction a as [|x a IH]; intros [|y b] H; try discriminate; [reflexivity|].
  cbn [length seq flat_map nth_error opt_list app interleave]. do 2 f_equal. rewrite flat_map_seq_shift. apply IH. now injection H.
Qed.

Lemma offl_minfos_interleave p l : forall i off, map fst (offl off (minfos p i l)) =
  interleave (map fst (filter (has i_key) (offl off (minfos p i l)))) (map fst (filter (has i_value) (offl off (minfos p i l)))).
Proof.
  induction l as [|x l IH]; intros i off; [reflexivity|]. cbn. do 2 f_equal. apply IH.
Qed.
Lemma filter_vinfos_all p l : forall i off, filter (has i_value) (offl off (vinfos p i l)) = offl off (vinfos p i l).
Proof. induction l as [|x l IH]; intros i off; [reflexivity|]. cbn. now rewrite IH. Qed.

Lemma depth_pushes_kids it : rev (depth_pushes (nd it)) = map fst (kids_of it).
Proof.
  unfold depth_pushes. rewrite rev_flat_map.
  rewrite (flat_map_ext' _ (fun i => opt_list (nth_error (n_key_children (nd it)) i) ++ opt_list (nth_error (n_value_children (nd it)) i))).
  2:{ intros x. rewrite rev_app_distr. f_equal; destruct (nth_error _ x); reflexivity. }
  unfold nd, mk_full. cbn [n_key_children n_value_children]. rewrite vc_vkids, kc_kkids.
  assert (LV : length (map fst (vkids it)) = length (values_of (snd (snd it)))) by (rewrite <- vkids_kserds, !map_length; reflexivity).
  assert (LK : length (map fst (kkids it)) = length (keys_of (snd (snd it)))) by (rewrite <- kkids_kserds, !map_length; reflexivity).
  assert (V : kkids it = [] -> vkids it = kids_of it ->
    flat_map (fun i => opt_list (nth_error (map fst (kkids it)) i) ++ opt_list (nth_error (map fst (vkids it)) i))
     (seq 0 (max (length (map fst (kkids it))) (length (map fst (vkids it))))) = map fst (kids_of it)).
  { intros -> ->. cbn [map length Nat.max]. transitivity (flat_map (fun i => opt_list (nth_error (map fst (kids_of it)) i)) (seq 0 (length (map fst (kids_of it))))); [|apply nth_seq_map].
    apply flat_map_ext'. intros i. now destruct i. }
  destruct (kval (snd (snd it))) as [| | | | |l|m|l|m] eqn:E.
  all: try (apply V; unfold kkids, vkids, kids_of, kids; rewrite E; try reflexivity; cbn [kid_infos];
            first [apply filter_vinfos_k | apply filter_vinfos_all]).
  assert (LE : length (map fst (kkids it)) = length (map fst (vkids it))).
  { rewrite LV, LK. unfold values_of, keys_of. rewrite E. now rewrite !map_length. }
  rewrite <- LE, Nat.max_id, (nth_seq_interleave _ _ LE).
  unfold kkids, vkids, kids_of, kids. rewrite E. cbn [kid_infos]. symmetry. apply offl_minfos_interleave.
Qed.

Lemma push_each_app {A} (l : list A) : forall st, push_each st l = rev l ++ st.
Proof. intros. apply push_each_rev. Qed.

Lemma depth_loop_spec root fuel : forall l acc, Forall (ok_item root) l -> isz l <= fuel ->
  depth_loop fuel (full root) (map fst l) acc = LRet (acc ++ flat_map (st root) l).
Proof.
  induction fuel as [|fuel IH]; intros l acc HF H.
  - destruct l as [|it l]; [cbn; now rewrite app_nil_r|]. rewrite isz_cons in H. pose proof (ksize_pos (snd (snd it))). lia.
  - destruct l as [|it l]; [cbn; now rewrite app_nil_r|]. inversion HF as [|? ? F1 F2]; subst.
    cbn [map depth_loop]. rewrite (ok_get _ _ F1), push_each_app, depth_pushes_kids, <- map_app.
    rewrite isz_cons, isz_kids in H. rewrite IH.
    + rewrite <- app_assoc. do 2 f_equal. cbn [app flat_map]. rewrite (st_unfold _ _ F1). cbn [app].
      now rewrite flat_map_app.
    + apply Forall_app. split; [now apply ok_kids|assumption].
    + rewrite isz_app. lia.
Qed.

Lemma isz_le root it : ok_item root it -> fst it + ksize (snd (snd it)) <= length (full root).
Proof. intros H. apply sub_lt in H. now rewrite full_length, <- (pre_length root info_default 0). Qed.

Lemma depth_spec root it : ok_item root it ->
  descendants_depth (full root) (nd it) = LRet (flat_map (st root) (kids_of it)).
Proof.
  intros H. unfold descendants_depth. rewrite push_each_app, depth_pushes_kids, app_nil_r.
  rewrite depth_loop_spec; [reflexivity|now apply ok_kids|].
  apply isz_le in H. rewrite isz_kids in H. lia.
Qed.
Lemma depth_segment root it : ok_item root it ->
  descendants_depth (full root) (nd it) = LRet (segment (full root) (S (fst it)) (ksize (snd (snd it)) - 1)).
Proof.
  intros H. rewrite (depth_spec _ _ H). f_equal. pose proof (st_segment _ _ H) as E. rewrite (st_unfold _ _ H) in E.
  unfold segment in *. rewrite isz_kids in *. cbn [Nat.sub]. rewrite Nat.sub_0_r.
  destruct (skipn (fst it) (full root)) as [|n t] eqn:ES; [discriminate|]. cbn [firstn] in E. injection E as _ ->.
  f_equal. clear - ES. revert ES. generalize (fst it), (full root). clear. intros i. induction i as [|i IH]; intros [|x l] H; try discriminate.
  - cbn in *. now injection H.
  - cbn [skipn] in *. now apply IH.
Qed.

(** breadth first *)
Definition bkids (it : item) : list item := kkids it ++ vkids it.
Lemma bkids_perm it : Permutation (bkids it) (kids_of it).
Proof.
  unfold bkids, kkids, vkids.
  assert (G : forall l : list item, Forall (fun it' => one_role (snd it')) l -> Permutation (filter (has i_key) l ++ filter (has i_value) l) l).
  { induction l as [|x l IH]; intros F; [constructor|]. inversion F as [|? ? F1 F2]; subst. cbn [filter].
    assert (HV : has i_value x = match i_value (fst (snd x)) with Some _ => true | None => false end) by reflexivity.
    assert (HK : has i_key x = match i_key (fst (snd x)) with Some _ => true | None => false end) by reflexivity.
    destruct F1 as [(j & E1 & E2)|(j & E1 & E2)]; rewrite E1 in HV; rewrite E2 in HK; rewrite HV, HK.
    - symmetry. apply Permutation_cons_app. symmetry. auto.
    - cbn [app]. constructor. auto. }
  apply G. apply Forall_forall. intros. now apply (kids_role it).
Qed.
Lemma isz_perm a b : Permutation a b -> isz a = isz b.
Proof. induction 1; rewrite ?isz_cons; try lia; reflexivity. Qed.
Lemma ok_bkids root it : ok_item root it -> Forall (ok_item root) (bkids it).
Proof. intros H. apply Forall_app. split; now apply Forall_filter, ok_kids. Qed.
Lemma breadth_children_items it : breadth_children (nd it) = map fst (bkids it).
Proof.
  unfold breadth_children, nd, mk_full, bkids. cbn [n_key_children n_value_children]. now rewrite vc_vkids, kc_kkids, map_app.
Qed.

Lemma breadth_level root l : forall fuel q acc, Forall (ok_item root) l ->
  breadth_loop (length l + fuel) (full root) (map fst l ++ q) acc =
  breadth_loop fuel (full root) (q ++ map fst (flat_map bkids l)) (acc ++ map nd l).
Proof.
  induction l as [|it l IH]; intros fuel q acc HF; [cbn; now rewrite !app_nil_r|]. inversion HF as [|? ? F1 F2]; subst.
  cbn [map length Nat.add app breadth_loop]. rewrite (ok_get _ _ F1), breadth_children_items, <- app_assoc, IH by assumption.
  f_equal.
  - cbn [flat_map]. now rewrite map_app, app_assoc.
  - now rewrite <- app_assoc.
Qed.
Lemma isz_level l : isz l = length l + isz (flat_map bkids l).
Proof.
  induction l as [|it l IH]; [reflexivity|]. cbn [flat_map length]. rewrite isz_cons, isz_app, IH, isz_kids, (isz_perm _ _ (bkids_perm it)). lia.
Qed.
Lemma ok_level root l : Forall (ok_item root) l -> Forall (ok_item root) (flat_map bkids l).
Proof. induction 1; [constructor|]. cbn [flat_map]. apply Forall_app. split; [now apply ok_bkids|assumption]. Qed.
Lemma children_level root l : Forall (ok_item root) l ->
  flat_map (fun n => key_children (full root) n ++ value_children (full root) n) (map nd l) = map nd (flat_map bkids l).
Proof.
  induction 1 as [|it l H HF IH]; [reflexivity|]. cbn [map flat_map].
  rewrite (key_children_items _ _ H), (value_children_items _ _ H), IH. unfold bkids at 2. now rewrite !map_app.
Qed.

Lemma breadth_loop_spec root d : forall fuel l acc, Forall (ok_item root) l -> isz l <= d -> isz l <= fuel ->
  breadth_loop fuel (full root) (map fst l) acc = LRet (acc ++ by_levels d (full root) (map nd l)).
Proof.
  induction d as [|d IH]; intros fuel l acc HF Hd Hf.
  - destruct l as [|it l]; [destruct fuel; cbn; now rewrite app_nil_r|].
    rewrite isz_cons in Hd. pose proof (ksize_pos (snd (snd it))). lia.
  - rewrite isz_level in Hd, Hf. replace fuel with (length l + (fuel - length l)) by lia.
    rewrite <- (app_nil_r (map fst l)), breadth_level by assumption. cbn [app by_levels].
    rewrite (children_level root) by assumption.
    destruct l as [|it l].
    + cbn [flat_map map]. replace (by_levels d (full root) []) with (@nil node).
      * destruct (fuel - length []); cbn; now rewrite app_nil_r.
      * clear. induction d; [reflexivity|]. cbn. assumption.
    + rewrite IH; [now rewrite <- app_assoc|now apply ok_level|cbn [length] in *; lia|lia].
Qed.

Lemma by_levels_perm root d : forall l, Forall (ok_item root) l -> isz l <= d ->
  Permutation (by_levels d (full root) (map nd l)) (flat_map (st root) l).
Proof.
  induction d as [|d IH]; intros l HF Hd.
  - destruct l as [|it l]; [constructor|]. rewrite isz_cons in Hd. pose proof (ksize_pos (snd (snd it))). lia.
  - cbn [by_levels]. rewrite (children_level root) by assumption. rewrite isz_level in Hd.
    destruct l as [|it l].
    + cbn. replace (by_levels d (full root) []) with (@nil node); [constructor|]. clear. induction d; [reflexivity|]. cbn. assumption.
    + rewrite IH; [|now apply ok_level|cbn [length] in Hd; lia].
      clear - HF. generalize dependent HF. generalize (it :: l). clear. induction 1 as [|it l H HF IH]; [constructor|].
      cbn [map flat_map]. rewrite flat_map_app, (st_unfold _ _ H). cbn [app]. constructor.
      rewrite <- IH. rewrite !app_assoc. apply Permutation_app; [|reflexivity].
      rewrite Permutation_app_comm. apply Permutation_app; [|reflexivity].
      apply Permutation_flat_map, bkids_perm.
Qed.

Lemma breadth_spec root it d : ok_item root it -> ksize (snd (snd it)) - 1 <= d ->
  descendants_breadth (full root) (nd it) = LRet (by_levels d (full root) (map nd (bkids it))).
Proof.
  intros H Hd. unfold descendants_breadth. rewrite breadth_children_items.
  assert (E : isz (bkids it) = isz (kids_of it)) by apply isz_perm, bkids_perm. pose proof (isz_kids it) as K.
  rewrite (breadth_loop_spec root d); [reflexivity|now apply ok_bkids|lia|]. apply isz_le in H. lia.
Qed.
Lemma breadth_perm root it d : ok_item root it -> ksize (snd (snd it)) - 1 <= d ->
  Permutation (by_levels d (full root) (map nd (bkids it))) (segment (full root) (S (fst it)) (ksize (snd (snd it)) - 1)).
Proof.
  intros H Hd. pose proof (depth_segment _ _ H) as D. rewrite (depth_spec _ _ H) in D. injection D as <-.
  assert (E : isz (bkids it) = isz (kids_of it)) by apply isz_perm, bkids_perm. pose proof (isz_kids it) as K.
  rewrite by_levels_perm; [|now apply ok_bkids|lia]. apply Permutation_flat_map, bkids_perm.
Qed.

(** ** the statements *)
Lemma flat_map_entries (m : list (kserd * kserd)) :
  flat_map preorder (flat_map (fun e => [fst e; snd e]) m) = flat_map (fun e => preorder (fst e) ++ preorder (snd e)) m.
Proof. induction m as [|e m IH]; [reflexivity|]. cbn [flat_map app]. rewrite <- IH. now rewrite app_assoc. Qed.
Lemma preorder_unfold k : preorder k = k :: flat_map preorder (vchildren (kval k)).
Proof.
  destruct k as [id v]. destruct v as [| | | | |l|m|l|m]; try reflexivity; cbn [preorder kval vchildren]; f_equal.
  - clear. induction m as [|e m IH]; [reflexivity|]. cbn. now rewrite IH.
  - clear. induction m as [|e m IH]; [reflexivity|]. cbn. rewrite IH. now rewrite app_assoc.
Qed.
Lemma pre_kserds k : forall info base, map n_kserd (pre info base k) = preorder k.
Proof.
  induction k as [id v IH] using kserd_ind'. intros info base. rewrite pre_unfold, preorder_unfold. cbn [map kval]. f_equal.
  rewrite <- (kid_infos_snd base) in *. revert IH. generalize (kid_infos base v), (S base).
  induction l as [|e l IHl]; intros o F; [reflexivity|]. cbn [map] in F. inversion F; subst.
  cbn [pre_list map flat_map]. now rewrite map_app, H1, IHl.
Qed.
Lemma full_kserds root : map n_kserd (full root) = preorder root.
Proof. unfold full. rewrite map_map. cbn [n_kserd link_node]. apply pre_kserds. Qed.
Lemma preorder_length k : length (preorder k) = ksize k.
Proof. now rewrite <- (pre_kserds k info_default 0), map_length, pre_length. Qed.
Lemma full_idx root : map n_idx (full root) = seq 0 (length (full root)).
Proof.
  apply (nth_ext _ _ 0 0); [now rewrite map_length, seq_length|].
  intros i H. rewrite map_length in H. rewrite seq_nth by assumption. cbn [Nat.add].
  destruct (nth_error (full root) i) as [n|] eqn:E; [|apply nth_error_None in E; lia].
  destruct (at_exists root i n E) as (info & k & S & ->).
  apply nth_error_nth. now rewrite (map_nth_error n_idx _ _ E).
Qed.

Lemma kid_in_children root it c : ok_item root it ->
  (In c (map nd (kids_of it)) <-> In c (value_children (full root) (nd it)) \/ In c (key_children (full root) (nd it))).
Proof.
  intros H. rewrite (value_children_items _ _ H), (key_children_items _ _ H), !in_map_iff. split.
  - intros (x & <- & Hx). apply kids_value_or_key in Hx as [Hx|Hx]; [left|right]; exists x; auto.
  - intros [(x & <- & Hx)|(x & <- & Hx)]; exists x; (split; [reflexivity|]); apply kids_value_or_key; auto.
Qed.

Lemma parent_iff root p c : In p (full root) -> In c (full root) ->
  (node_parent (full root) c = Some p <-> In c (value_children (full root) p) \/ In c (key_children (full root) p)).
Proof.
  intros Hp Hc. destruct (item_exists _ _ Hp) as (ip & Op & ->). destruct (item_exists _ _ Hc) as (ic & Oc & ->).
  rewrite <- (kid_in_children root ip) by assumption. split.
  - unfold node_parent. cbn [nd mk_full n_parent]. destruct (i_parent (fst (snd ic))) as [q|] eqn:E; [|discriminate].
    intros G. destruct (parent_kid _ _ _ Oc E) as (pit & Opit & <- & it' & IK & EN).
    cbn [opt_bind] in G. rewrite (ok_get _ _ Opit) in G. apply (f_equal (fun o => match o with Some x => x | None => nd pit end)) in G. assert (GI : fst pit = fst ip) by (change (n_idx (nd pit) = n_idx (nd ip)); now rewrite G).
    apply in_map_iff. exists it'. split; [assumption|].
    assert (GK : snd (snd pit) = snd (snd ip)) by (change (n_kserd (nd pit) = n_kserd (nd ip)); now rewrite G).
    unfold kids_of in *. now rewrite <- GI, <- GK.
  - intros G. apply in_map_iff in G as (x & E & Hx). unfold node_parent. rewrite <- E. cbn [nd mk_full n_parent].
    rewrite (kids_parent _ _ Hx). cbn [opt_bind]. now apply ok_get.
Qed.

Lemma parent_none_iff root c : In c (full root) -> (node_parent (full root) c = None <-> n_idx c = 0).
Proof.
  intros Hc. destruct (item_exists _ _ Hc) as (it & O & ->). unfold node_parent. cbn [nd mk_full n_parent n_idx].
  destruct (i_parent (fst (snd it))) as [q|] eqn:E.
  - destruct (parent_kid _ _ _ O E) as (pit & Op & <- & _). cbn [opt_bind]. rewrite (ok_get _ _ Op).
    split; [discriminate|]. intros Z. destruct O as (A & B & _ & _ & _ & _ & L). rewrite E in L. lia.
  - cbn [opt_bind]. split; [|reflexivity]. intros _.
    destruct (locate_root root (fst it)) as (info & k & S & D).
    { pose proof (sub_lt _ _ _ _ O) as L. rewrite pre_length in L. pose proof (ksize_pos (snd (snd it))). lia. }
    destruct D as [(Z & _)|(p & infp & kp & l1 & l2 & Sp & Ek & Ei)]; [exact Z|].
    assert (EN : nd (fst it, (info, k)) = nd it) by (apply (ok_unique root); [exact S|exact O|reflexivity]).
    assert (EI : i_parent info = None) by (change (n_parent (nd (fst it, (info, k))) = None); rewrite EN; exact E).
    pose proof (kid_infos_parent p (kval kp)) as R. rewrite Ek, Forall_app in R. destruct R as [_ R]. inversion R; subst. cbn in *. congruence.
Qed.

Lemma children_kserds root p : In p (full root) ->
  map n_kserd (value_children (full root) p) = values_of (n_kserd p) /\
  map n_kserd (key_children (full root) p) = keys_of (n_kserd p).
Proof.
  intros Hp. destruct (item_exists _ _ Hp) as (it & O & ->).
  rewrite (value_children_items _ _ O), (key_children_items _ _ O), !map_map. cbn [nd mk_full n_kserd].
  split; [apply vkids_kserds|apply kkids_kserds].
Qed.

Lemma children_positions root p j c : In p (full root) ->
  (nth_error (value_children (full root) p) j = Some c -> is_key c = false /\ idx_in_parent c = j) /\
  (nth_error (key_children (full root) p) j = Some c -> is_key c = true /\ idx_in_parent c = j).
Proof.
  intros Hp. destruct (item_exists _ _ Hp) as (it & O & ->).
  rewrite (value_children_items _ _ O), (key_children_items _ _ O). split; intros E.
  - rewrite nth_error_map in E. destruct (nth_error (vkids it) j) as [x|] eqn:Ex; [|discriminate]. cbn [option_map] in E. assert (E' : nd x = c) by congruence. rewrite <- E'.
    pose proof (vkids_pos _ _ _ Ex) as P. assert (I : In x (kids_of it)) by (apply kids_value_or_key; left; eapply nth_error_In, Ex).
    destruct (kids_role _ _ I) as [(j' & R1 & R2)|(j' & R1 & R2)]; [|congruence].
    unfold is_key, idx_in_parent. cbn [nd mk_full n_key_idx n_value_idx]. rewrite R2, P. auto.
  - rewrite nth_error_map in E. destruct (nth_error (kkids it) j) as [x|] eqn:Ex; [|discriminate]. cbn [option_map] in E. assert (E' : nd x = c) by congruence. rewrite <- E'.
    pose proof (kkids_pos _ _ _ Ex) as P. assert (I : In x (kids_of it)) by (apply kids_value_or_key; right; eapply nth_error_In, Ex).
    destruct (kids_role _ _ I) as [(j' & R1 & R2)|(j' & R1 & R2)]; [congruence|].
    unfold is_key, idx_in_parent. cbn [nd mk_full n_key_idx n_value_idx]. rewrite P. auto.
Qed.

Lemma named_iter_combine nv names l : length (seq_iter nv l) = length l -> named_iter nv names l = combine names (seq_iter nv l).
Proof.
  revert names. induction l as [|i l IH]; intros [|n names] H; try reflexivity.
  cbn [named_iter seq_iter] in *. destruct (nav_get nv i); [|discriminate]. cbn [combine]. rewrite IH; [reflexivity|].
  cbn in H. lia.
Qed.
Lemma keyed_iter_combine nv ks vs : length (seq_iter nv ks) = length ks -> length (seq_iter nv vs) = length vs ->
  keyed_iter nv ks vs = combine (seq_iter nv ks) (seq_iter nv vs).
Proof.
  revert vs. induction ks as [|i ks IH]; intros [|j vs] Hk Hv; try reflexivity.
  - cbn. destruct (nav_get nv i); reflexivity.
  - cbn [keyed_iter seq_iter] in *. destruct (nav_get nv i); [|discriminate]. destruct (nav_get nv j); [|discriminate].
    cbn [combine length] in *. rewrite IH by lia. reflexivity.
Qed.

Lemma node_val_children root p : In p (full root) ->
  node_val (full root) p =
    match kval (n_kserd p) with
    | VTuple _ => NTuple (value_children (full root) p)
    | VSeq _ => NSeq (value_children (full root) p)
    | VCntr m => NCntr (combine (map fst m) (value_children (full root) p))
    | VMap _ => NMap (combine (key_children (full root) p) (value_children (full root) p))
    | _ => NPrimitive
    end.
Proof.
  intros Hp. destruct (item_exists _ _ Hp) as (it & O & ->).
  assert (LV : length (seq_iter (full root) (n_value_children (nd it))) = length (n_value_children (nd it))).
  { pose proof (value_children_items _ _ O) as E. unfold value_children in E. rewrite E. cbn [nd mk_full n_value_children].
    now rewrite vc_vkids, !map_length. }
  assert (LK : length (seq_iter (full root) (n_key_children (nd it))) = length (n_key_children (nd it))).
  { pose proof (key_children_items _ _ O) as E. unfold key_children in E. rewrite E. cbn [nd mk_full n_key_children].
    now rewrite kc_kkids, !map_length. }
  unfold node_val. destruct (kval (n_kserd (nd it))); try reflexivity.
  - f_equal. now apply named_iter_combine.
  - f_equal. now apply keyed_iter_combine.
Qed.

(** ** the debug assertion holds *)
Lemma nth_combine_forall {A B} (P : A * B -> bool) (l : list A) : forall r,
  (forall j a b, nth_error l j = Some a -> nth_error r j = Some b -> P (a, b) = true) -> forallb P (combine l r) = true.
Proof.
  induction l as [|a l IH]; intros [|b r] H; try reflexivity. cbn [combine forallb]. rewrite (H 0 a b) by reflexivity. cbn [andb].
  apply IH. intros j. apply (H (S j)).
Qed.

Lemma validate_list_true root (l : list item) (ks : list kserd) :
  Forall (ok_item root) l -> map (fun it : item => snd (snd it)) l = ks ->
  validate_list (full root) (map fst l) ks = true.
Proof.
  intros F E. unfold validate_list. rewrite <- E at 1. rewrite !map_length, Nat.eqb_refl. cbn [andb].
  apply nth_combine_forall. intros j a b Ha Hb. cbn [fst snd].
  rewrite (@nth_error_map item) in Ha. destruct (nth_error l j) as [it|] eqn:Ej; [|discriminate Ha]. cbn [option_map] in Ha. injection Ha as <-.
  rewrite Forall_forall in F. specialize (F it (nth_error_In _ _ Ej)). apply ok_get in F. unfold nav_get in F. rewrite F.
  cbn [option_map assert_same]. cbn [nd mk_full n_kserd].
  rewrite <- E, nth_error_map, Ej in Hb. cbn [option_map] in Hb. assert (snd (snd it) = b) as -> by congruence.
  apply k_eqb_refl.
Qed.

Lemma validate_children_true root n : In n (full root) -> validate_children (full root) n = true.
Proof.
  intros H. destruct (item_exists _ _ H) as (it & O & ->). unfold validate_children.
  cbn [nd mk_full n_value_children n_key_children n_kserd]. rewrite vc_vkids, kc_kkids.
  apply andb_true_iff. split; apply validate_list_true; try (now apply Forall_filter, ok_kids).
  - rewrite vkids_kserds. unfold values_of. destruct (kval (snd (snd it))); reflexivity.
  - rewrite kkids_kserds. unfold keys_of. destruct (kval (snd (snd it))); reflexivity.
Qed.

Lemma vvalues_of it it' j : In it' (kids_of it) -> i_value (fst (snd it')) = Some j ->
  exists l, vvalues (kval (snd (snd it))) = Some l /\ nth_error l j = Some (snd (snd it')).
Proof.
  intros I E. assert (I' : In it' (vkids it)) by (apply filter_In; split; [assumption|unfold has; now rewrite E]).
  apply In_nth_error in I' as (j' & EJ). pose proof (vkids_pos _ _ _ EJ) as P. rewrite E in P. injection P as <-.
  pose proof (map_nth_error (fun it : item => snd (snd it)) _ _ EJ) as M. rewrite vkids_kserds in M. unfold values_of in M.
  destruct (kval (snd (snd it))); try (destruct j; discriminate M); eexists; (split; [reflexivity|exact M]).
Qed.
Lemma vkeys_of it it' j : In it' (kids_of it) -> i_key (fst (snd it')) = Some j ->
  exists l, vkeys (kval (snd (snd it))) = Some l /\ nth_error l j = Some (snd (snd it')).
Proof.
  intros I E. assert (I' : In it' (kkids it)) by (apply filter_In; split; [assumption|unfold has; now rewrite E]).
  apply In_nth_error in I' as (j' & EJ). pose proof (kkids_pos _ _ _ EJ) as P. rewrite E in P. injection P as <-.
  pose proof (map_nth_error (fun it : item => snd (snd it)) _ _ EJ) as M. rewrite kkids_kserds in M. unfold keys_of in M.
  destruct (kval (snd (snd it))); try (destruct j; discriminate M); eexists; (split; [reflexivity|exact M]).
Qed.

Lemma validate_parent_true root n : In n (full root) -> validate_parent (full root) n = true.
Proof.
  intros H. destruct (item_exists _ _ H) as (it & O & ->). unfold validate_parent.
  destruct (n_parent (nd it)) as [p|] eqn:E; [|reflexivity].
  destruct (parent_kid _ _ _ O E) as (pit & Op & <- & it' & I & EN). rewrite <- EN.
  apply ok_get in Op. unfold nav_get in Op. rewrite Op. cbn [nd mk_full n_kserd n_value_idx n_key_idx].
  apply andb_true_iff. split.
  - destruct (i_value (fst (snd it'))) as [j|] eqn:Ev; [|reflexivity].
    destruct (vvalues_of _ _ _ I Ev) as (l & -> & ->). apply k_eqb_refl.
  - destruct (i_key (fst (snd it'))) as [j|] eqn:Ev; [|reflexivity].
    destruct (vkeys_of _ _ _ I Ev) as (l & -> & ->). apply k_eqb_refl.
Qed.

Lemma enumerate_idx (l : list node) : forall b, map n_idx l = seq b (length l) ->
  forallb (fun e : nat * node => n_idx (snd e) =? fst e) (enumerate_from b l) = true.
Proof.
  induction l as [|n l IH]; intros b H; [reflexivity|]. cbn [map length seq] in H. injection H as H1 H2.
  cbn [enumerate_from forallb fst snd]. rewrite H1, Nat.eqb_refl. cbn [andb]. now apply IH.
Qed.

Lemma full_cons root : exists t, full root = mk_full info_default 0 root :: t.
Proof.
  pose proof (at_nth root 0 _ _ (at_root root)) as E. unfold nav_get in E.
  destruct (full root) as [|n t]; [discriminate|]. cbn [nth_error] in E. exists t. congruence.
Qed.

Lemma nav_validate_true root : nav_validate (full root) = true.
Proof.
  unfold nav_validate. destruct (full_cons root) as (t & E). rewrite E at 1. cbn [mk_full n_parent info_default i_parent andb].
  repeat (apply andb_true_iff; split).
  - apply Nat.eqb_eq. rewrite E. cbn [filter mk_full n_parent info_default i_parent length]. f_equal.
    replace (filter _ t) with (@nil node); [reflexivity|]. symmetry.
    assert (F : Forall (fun n => n_parent n <> None) t).
    { apply Forall_forall. intros n Hn EP. apply In_nth_error in Hn as (i & EI).
      assert (G : nth_error (full root) (S i) = Some n) by (rewrite E; exact EI).
      pose proof (nth_error_In _ _ G) as HI.
      assert (Z : n_idx n = 0) by (apply (parent_none_iff root n HI); unfold node_parent; now rewrite EP).
      destruct (at_exists root (S i) n G) as (info & k & _ & ->). discriminate Z. }
    clear - F. induction F as [|n t H F IH]; [reflexivity|]. cbn [filter]. destruct (n_parent n); [exact IH|congruence].
  - apply enumerate_idx, full_idx.
  - apply forallb_forall. apply validate_parent_true.
  - apply forallb_forall. apply validate_children_true.
Qed.
