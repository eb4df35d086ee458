(** Proofs about encoding and decoding: the order on values, maps. *)
From Verif Require Import Base BaseProps F64 Number NumberSpec BTree BTreeProps Value ValueSpec ValueProps ValueProps2 Encode EncodeSpec.
From Coq Require Import Permutation.
Open Scope N_scope.

Lemma data_ind' (P : data -> Prop)
  (Hu : P DUnit) (Hb : forall b, P (DBool b)) (Hi : forall n, P (DInt n)) (Hf : forall x, P (DF64 x)) (Hg : forall x, P (DF32 x)) (Hc : forall c, P (DChar c))
  (Hs : forall u, P (DString u)) (Hy : forall b, P (DBytes b)) (Hn : P DNone) (Ho : forall d, P d -> P (DSome d))
  (Hl : forall l, Forall P l -> P (DList l)) (Hm : forall m, Forall (fun e => P (fst e) /\ P (snd e)) m -> P (DMap m))
  (Hw : forall d, P d -> P (DNewtype d)) (Hr : forall l, Forall P l -> P (DRecord l)) (Hv : forall i d, P d -> P (DVariant i d)) :
  forall d, P d.
Proof.
  fix IH 1. intros [].
  11: { apply Hl. induction l as [|x l IHl]; constructor; [apply IH|exact IHl]. }
  11: { apply Hm. induction m as [|x m IHm]; constructor; [split; apply IH|exact IHm]. }
  12: { apply Hr. induction l as [|x l IHl]; constructor; [apply IH|exact IHl]. }
  all: first [apply Hu|apply Hb|apply Hi|apply Hf|apply Hg|apply Hc|apply Hs|apply Hy|apply Hn|apply Ho, IH|apply Hw, IH|apply Hv, IH].
Qed.

(** ** the order on values *)
Definition dsame_cmp (a b : data) : comparison :=
  match a, b with
  | DBool x, DBool y => bool_cmp x y
  | DInt x, DInt y => Z.compare x y
  | DChar x, DChar y => N.compare x y
  | DString x, DString y => str_cmp x y
  | DBytes x, DBytes y => bytes_cmp x y
  | DSome x, DSome y => d_cmp x y
  | DList x, DList y => list_cmp d_cmp x y
  | DMap x, DMap y => list_cmp (fun e f => match d_cmp (fst e) (fst f) with Eq => d_cmp (snd e) (snd f) | c => c end) x y
  | DNewtype x, DNewtype y => d_cmp x y
  | DRecord x, DRecord y => list_cmp d_cmp x y
  | DVariant i x, DVariant j y => match Nat.compare i j with Eq => d_cmp x y | c => c end
  | _, _ => Eq
  end.
Lemma d_cmp_unfold a b : d_cmp a b = match N.compare (dtag a) (dtag b) with Eq => dsame_cmp a b | c => c end.
Proof. destruct a, b; reflexivity. Qed.

Lemma d_cmp_refl d : d_cmp d d = Eq.
Proof.
  induction d using data_ind'; try reflexivity; rewrite d_cmp_unfold, N.compare_refl; cbn [dsame_cmp].
  - apply bool_cmp_refl.
  - apply Z.compare_refl.
  - apply N.compare_refl.
  - apply str_cmp_refl.
  - apply bytes_cmp_refl.
  - exact IHd.
  - now apply list_cmp_refl.
  - apply list_cmp_refl. eapply Forall_impl; [|exact H]. intros x [-> ->]. reflexivity.
  - exact IHd.
  - now apply list_cmp_refl.
  - now rewrite Nat.compare_refl.
Qed.
Lemma d_cmp_anti a : forall b, d_cmp b a = CompOpp (d_cmp a b).
Proof.
  induction a using data_ind'; intros y; rewrite !d_cmp_unfold, (N.compare_antisym (dtag y) (dtag _));
    match goal with |- context [CompOpp (?x ?= ?z)] => rewrite (N.compare_antisym z x) end;
    match goal with |- context [dtag ?x ?= dtag y] => destruct (N.compare_spec (dtag x) (dtag y)) as [E| |] end; cbn [CompOpp]; try reflexivity;
    destruct y; try discriminate E; cbn [dsame_cmp]; try reflexivity.
  - apply bool_cmp_anti.
  - apply Z.compare_antisym.
  - apply N.compare_antisym.
  - apply str_cmp_antisym.
  - apply bytes_cmp_anti.
  - apply IHa.
  - now apply list_cmp_anti.
  - apply list_cmp_anti. eapply Forall_impl; [|exact H]. intros x [H1 H2] y. rewrite H1, H2. now destruct (d_cmp (fst x) (fst y)).
  - apply IHa.
  - now apply list_cmp_anti.
  - rewrite (Nat.compare_antisym i0 i), IHa. now destruct (Nat.compare i0 i).
Qed.
Lemma tr_Z a b c : tr Z.compare a b c.
Proof.
  unfold tr. destruct (Z.compare_spec a b), (Z.compare_spec b c), (Z.compare_spec a c); intros ? ?;
    first [congruence | exfalso; lia | split; [congruence|intros; try discriminate; auto]].
Qed.
Lemma tr_nat a b c : tr Nat.compare a b c.
Proof.
  unfold tr. destruct (Nat.compare_spec a b), (Nat.compare_spec b c), (Nat.compare_spec a c); intros ? ?;
    first [congruence | exfalso; lia | split; [congruence|intros; try discriminate; auto]].
Qed.
Lemma d_tr a : forall b c, tr d_cmp a b c.
Proof.
  assert (K : forall a b c, (dtag a = dtag b -> dtag b = dtag c -> tr dsame_cmp a b c) -> tr d_cmp a b c).
  { intros x y z TS. unfold tr in *. rewrite !d_cmp_unfold.
    destruct (N.compare_spec (dtag x) (dtag y)) as [E1|E1|E1]; destruct (N.compare_spec (dtag y) (dtag z)) as [E2|E2|E2];
      destruct (N.compare_spec (dtag x) (dtag z)) as [E3|E3|E3]; try (exfalso; congruence || lia); intros; try congruence;
      try (split; congruence). apply TS; auto. }
  assert (Q : forall (l l1 l2 : list data), Forall (fun a => forall b c, tr d_cmp a b c) l -> tr (list_cmp d_cmp) l l1 l2).
  { intros l l1 l2 H. apply (tr_list d_cmp (fun _ => True)); [|apply Forall_forall; auto..]. eapply Forall_impl; [|exact H]. auto. }
  induction a using data_ind'; intros y z; apply K; intros E1 E2; destruct y; try discriminate E1; destruct z; try discriminate E2;
    try (unfold tr; cbn; split; now auto).
  - exact (tr_bool b b0 b1).
  - exact (tr_Z n n0 n1).
  - exact (tr_N c c0 c1).
  - exact (tr_str u t t0).
  - exact (tr_bytes b b0 b1).
  - exact (IHa y z).
  - exact (Q _ _ _ H).
  - refine (tr_list _ (fun _ => True) m _ m0 m1 _ _); [|apply Forall_forall; auto..].
    eapply Forall_impl; [|exact H]. intros e [H1 H2] e1 e2 _ _. apply (tr_lex d_cmp d_cmp); auto.
  - exact (IHa y z).
  - exact (Q _ _ _ H).
  - exact (tr_lex Nat.compare d_cmp (i, a) (i0, y) (i1, z) (tr_nat _ _ _) (IHa y z)).
Qed.
Lemma d_lawful : lawful (fun _ => True) d_cmp.
Proof.
  constructor.
  - apply d_cmp_refl.
  - intros. apply d_cmp_anti.
  - intros a b c _ _ _ H1 H2.
    destruct (d_tr a b c ltac:(congruence) ltac:(congruence)) as [H3 H4].
    destruct (d_cmp a c); [destruct (H4 eq_refl); congruence|reflexivity|congruence].
  - intros a b c _ _ _ E.
    pose proof (d_tr a b c) as T1. pose proof (d_tr b a c) as T2. pose proof (d_tr c b a) as T3. pose proof (d_tr c a b) as T4.
    unfold tr in *.
    assert (E' : d_cmp b a = Eq) by (rewrite d_cmp_anti, E; reflexivity).
    pose proof (d_cmp_anti a c) as A1. pose proof (d_cmp_anti b c) as A2.
    rewrite E, E' in *.
    destruct (d_cmp a c) eqn:C1, (d_cmp b c) eqn:C2; try reflexivity; cbn [CompOpp] in *; rewrite A1, A2 in *;
      exfalso;
      try (destruct (T1 ltac:(congruence) ltac:(congruence)) as [? X]; try congruence; destruct (X eq_refl); congruence);
      try (destruct (T2 ltac:(congruence) ltac:(congruence)) as [? X]; try congruence; destruct (X eq_refl); congruence);
      try (destruct (T3 ltac:(congruence) ltac:(congruence)) as [? X]; try congruence; destruct (X eq_refl); congruence);
      try (destruct (T4 ltac:(congruence) ltac:(congruence)) as [? X]; try congruence; destruct (X eq_refl); congruence).
Qed.

(** ** inserting new keys *)
Lemma insert_perm {K V} (cmp : K -> K -> comparison) k (v : V) m : Forall (fun e => cmp k (fst e) <> Eq) m ->
  Permutation (bt_insert cmp k v m) ((k, v) :: m).
Proof.
  induction 1 as [|[k' v'] m H _ IH]; [reflexivity|]. cbn [bt_insert fst] in *. destruct (cmp k k'); [congruence|reflexivity|].
  rewrite IH. apply perm_swap.
Qed.
(** a sorted map is the result of inserting its entries in any order *)
Lemma inserts_sorted_perm {K V} (P : K -> Prop) (cmp : K -> K -> comparison) (L : lawful P cmp) :
  forall (l m acc : list (K * V)), keysP P m -> ascending cmp m = true -> Permutation (acc ++ l) m -> ascending cmp acc = true ->
  fold_left (fun a e => bt_insert cmp (fst e) (snd e) a) l acc = m.
Proof.
  assert (U : forall m m' : list (K * V), keysP P m -> ascending cmp m = true -> ascending cmp m' = true -> Permutation m' m -> m' = m).
  { induction m as [|e m IH]; intros m' KP A A' Q; [now apply Permutation_nil, Permutation_sym|].
    destruct m' as [|e' m']; [now apply Permutation_nil in Q|].
    assert (KP' : keysP P (e' :: m')) by (eapply Permutation_Forall; [apply Permutation_sym; exact Q|exact KP]).
    pose proof A as A0. pose proof A' as A0'.
    apply (ascending_cons P cmp L) in A as [B A]; [|exact KP]. apply (ascending_cons P cmp L) in A' as [B' A']; [|exact KP'].
    assert (e' = e).
    { destruct (Permutation_in e' Q (or_introl eq_refl)) as [->|I1]; [reflexivity|].
      destruct (Permutation_in e (Permutation_sym Q) (or_introl eq_refl)) as [->|I2]; [reflexivity|]. exfalso.
      unfold below in *. rewrite Forall_forall in B, B'. specialize (B _ I1). specialize (B' _ I2).
      rewrite (law_anti _ _ L), B in B'. discriminate. }
    subst e'. f_equal. inversion KP; inversion KP'; subst. apply IH; auto. now apply Permutation_cons_inv in Q. }
  induction l as [|e l IH]; intros m acc KP A Q A'; cbn [fold_left].
  - rewrite app_nil_r in Q. now apply U.
  - assert (KP' : keysP P (acc ++ e :: l)) by (eapply Permutation_Forall; [apply Permutation_sym; exact Q|exact KP]).
    unfold keysP in KP'. apply Forall_app in KP' as [KA KL]. inversion KL; subst.
    assert (F : Forall (fun x => cmp (fst e) (fst x) <> Eq) acc).
    { apply Forall_forall. intros x Hx C. apply in_split in Hx as (a1 & a2 & ->).
      assert (Q' : Permutation (x :: e :: (a1 ++ a2 ++ l)) m).
      { rewrite <- Q. rewrite <- app_assoc. cbn [app]. rewrite <- Permutation_middle. constructor.
        rewrite <- !Permutation_middle. reflexivity. }
      assert (SP : forall (m : list (K * V)) l', keysP P m -> ascending cmp m = true -> Permutation l' m -> ForallOrdPairs (fun a b => cmp (fst a) (fst b) <> Eq) l').
      { clear - L. intros m l' KP A Q.
        assert (F0 : ForallOrdPairs (fun a b => cmp (fst a) (fst b) <> Eq) m).
        { clear Q. induction m as [|y m IHm]; constructor.
          - apply (ascending_cons P cmp L) in A as [B _]; [|exact KP]. unfold below in B. eapply Forall_impl; [|exact B]. cbn beta. intros; congruence.
          - apply (ascending_cons P cmp L) in A as [_ A]; [|exact KP]. inversion KP; subst. now apply IHm. }
        clear KP A. apply Permutation_sym in Q. induction Q.
        - constructor.
        - inversion F0; subst. constructor; [|auto]. eapply Permutation_Forall; eassumption.
        - inversion F0 as [|? ? F1 F2]; subst. inversion F2; subst. inversion F1; subst. constructor; [constructor; [|assumption]|constructor; assumption].
          rewrite (law_anti _ _ L). now destruct (cmp (fst y) (fst x)).
        - auto. }
      pose proof (SP m _ KP A Q') as F0. inversion F0 as [|? ? F1 _]; subst. inversion F1; subst.
      assert (cmp (fst x) (fst e) = Eq) by (rewrite (law_anti _ _ L (fst e) (fst x)), C; reflexivity). congruence. }
    apply IH; auto.
    + rewrite insert_perm by exact F. rewrite <- Q. rewrite <- surjective_pairing. cbn [app]. now rewrite Permutation_middle.
    + now apply (ascending_insert P cmp L).
Qed.
