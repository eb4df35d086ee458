(** Navigator: the statements of PropertiesNav.v. *)
From Verif Require Import Base F64 Number BTree Value BaseProps BTreeProps ValueSpec ValueProps Nav NavSpec NavProps NavProps2.
From Coq Require Import Permutation.
Open Scope nat_scope.

Lemma new_is_full k nv : nav_new k = LRet nv -> nv = full k.
Proof. rewrite nav_new_full. congruence. Qed.

Lemma nav_depth_first k : exists nv,
  nav_new k = LRet nv /\
  map n_kserd (nav_nodes nv) = preorder k /\
  map n_idx (nav_nodes nv) = seq 0 (nav_len nv) /\
  nav_len nv = length (preorder k) /\
  (forall i, i < nav_len nv <-> nav_get nv i <> None) /\
  (forall i n, nav_get nv i = Some n -> n_idx n = i /\ nth_error (preorder k) i = Some (n_kserd n)) /\
  (exists r, nav_root nv = Some r /\ nav_get nv 0 = Some r /\ n_kserd r = k).
Proof.
  exists (full k). split; [apply nav_new_full|]. unfold nav_nodes, nav_len.
  split; [apply full_kserds|]. split; [apply full_idx|]. split; [now rewrite preorder_length, full_length|].
  split; [intros i; symmetry; apply nth_error_Some|]. split.
  - intros i n H. split.
    + destruct (at_exists k i n H) as (info & x & _ & ->). reflexivity.
    + rewrite <- full_kserds. apply map_nth_error. exact H.
  - destruct (full_cons k) as (t & E). rewrite E. eexists. repeat split; reflexivity.
Qed.

Lemma nav_assertions_hold k nv : nav_new k = LRet nv -> nav_validate nv = true.
Proof. intros H. rewrite (new_is_full _ _ H). apply nav_validate_true. Qed.

Lemma nav_parents k nv : nav_new k = LRet nv ->
  (forall c, In c nv -> (node_parent nv c = None <-> n_idx c = 0)) /\
  (forall p c, In p nv -> In c nv ->
     (node_parent nv c = Some p <-> In c (value_children nv p) \/ In c (key_children nv p))).
Proof.
  intros H. rewrite (new_is_full _ _ H). split; [apply parent_none_iff|apply parent_iff].
Qed.

Lemma child_in root it it' : ok_item root it -> In it' (kids_of it) -> In (nd it') (full root).
Proof. intros O I. apply ok_in. pose proof (ok_kids _ _ O) as F. rewrite Forall_forall in F. now apply F. Qed.

Lemma nav_children k nv p : nav_new k = LRet nv -> In p nv ->
  map n_kserd (value_children nv p) = values_of (n_kserd p) /\
  map n_kserd (key_children nv p) = keys_of (n_kserd p) /\
  (forall j c, nth_error (value_children nv p) j = Some c -> In c nv /\ is_key c = false /\ idx_in_parent c = j) /\
  (forall j c, nth_error (key_children nv p) j = Some c -> In c nv /\ is_key c = true /\ idx_in_parent c = j).
Proof.
  intros H I. rewrite (new_is_full _ _ H) in *. destruct (children_kserds k p I) as (A & B).
  split; [exact A|]. split; [exact B|].
  assert (C : forall c, In c (value_children (full k) p) \/ In c (key_children (full k) p) -> In c (full k)).
  { intros c Hc. destruct (item_exists _ _ I) as (it & O & ->). apply (kid_in_children k it c O) in Hc.
    apply in_map_iff in Hc as (x & <- & Hx). eapply child_in; eassumption. }
  split; intros j c E; (split; [apply C; [..]; first [left; eapply nth_error_In, E | right; eapply nth_error_In, E]|]).
  - now apply (proj1 (children_positions k p j c I)).
  - now apply (proj2 (children_positions k p j c I)).
Qed.

Lemma nav_value k nv p : nav_new k = LRet nv -> In p nv ->
  node_val nv p =
    match kval (n_kserd p) with
    | VTuple _ => NTuple (value_children nv p)
    | VSeq _ => NSeq (value_children nv p)
    | VCntr m => NCntr (combine (map fst m) (value_children nv p))
    | VMap _ => NMap (combine (key_children nv p) (value_children nv p))
    | _ => NPrimitive
    end.
Proof. intros H I. rewrite (new_is_full _ _ H) in *. now apply node_val_children. Qed.

Lemma nav_depth k nv n : nav_new k = LRet nv -> In n nv ->
  descendants_depth nv n = LRet (segment nv (S (n_idx n)) (length (preorder (n_kserd n)) - 1)).
Proof.
  intros H I. rewrite (new_is_full _ _ H) in *. destruct (item_exists _ _ I) as (it & O & ->).
  rewrite preorder_length. exact (depth_segment k it O).
Qed.

Lemma by_levels_enough k l d d' : Forall (ok_item k) l -> isz l <= d -> isz l <= d' ->
  by_levels d (full k) (map nd l) = by_levels d' (full k) (map nd l).
Proof.
  intros F H H'. pose proof (breadth_loop_spec k d (isz l) l [] F H (le_n _)) as E.
  rewrite (breadth_loop_spec k d' (isz l) l [] F H' (le_n _)) in E. cbn [app] in E. congruence.
Qed.

Lemma NoDup_tail {A} (a b : list A) : NoDup (a ++ b) -> NoDup b.
Proof. induction a as [|x a IH]; [easy|]. cbn [app]. intros H. inversion H; subst. auto. Qed.
Lemma NoDup_front {A} (a b : list A) : NoDup (a ++ b) -> NoDup a.
Proof.
  induction a as [|x a IH]; intros H; [constructor|]. inversion H; subst. constructor; [|auto].
  intros I. apply H2, in_or_app. now left.
Qed.
Lemma segment_NoDup k i n : NoDup (map n_idx (segment (full k) i n)).
Proof.
  assert (N : NoDup (map n_idx (full k))) by (rewrite full_idx; apply seq_NoDup).
  unfold segment. rewrite <- firstn_map, <- skipn_map. revert N. generalize (map n_idx (full k)). intros l N.
  rewrite <- (firstn_skipn i l) in N. apply NoDup_tail in N.
  rewrite <- (firstn_skipn n (skipn i l)) in N. now apply NoDup_front in N.
Qed.

Lemma nav_breadth k nv n : nav_new k = LRet nv -> In n nv ->
  exists l, descendants_breadth nv n = LRet l /\
    (forall d, length (preorder (n_kserd n)) <= d -> l = by_levels d nv (key_children nv n ++ value_children nv n)) /\
    Permutation l (segment nv (S (n_idx n)) (length (preorder (n_kserd n)) - 1)) /\
    NoDup (map n_idx l).
Proof.
  intros H I. rewrite (new_is_full _ _ H) in *. destruct (item_exists _ _ I) as (it & O & ->).
  change (n_kserd (nd it)) with (snd (snd it)). rewrite preorder_length.
  exists (by_levels (ksize (snd (snd it))) (full k) (map nd (bkids it))).
  split; [apply breadth_spec; [exact O|lia]|].
  rewrite (key_children_items _ _ O), (value_children_items _ _ O), <- map_app. change (kkids it ++ vkids it) with (bkids it).
  assert (E : isz (bkids it) = isz (kids_of it)) by apply isz_perm, bkids_perm. pose proof (isz_kids it) as K.
  split; [intros d Hd; apply by_levels_enough; [now apply ok_bkids|lia|lia]|].
  assert (P : Permutation (by_levels (ksize (snd (snd it))) (full k) (map nd (bkids it)))
                (segment (full k) (S (n_idx (nd it))) (ksize (snd (snd it)) - 1))) by (apply (breadth_perm k it); [exact O|lia]).
  split; [exact P|]. eapply Permutation_NoDup; [apply Permutation_map, Permutation_sym, P|]. apply segment_NoDup.
Qed.
