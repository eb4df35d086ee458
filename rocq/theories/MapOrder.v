(** Maps built from keys which hold no numbers are strictly sorted. *)
From Verif Require Import Base BaseProps F64 Number NumberSpec NumberProps3 BTree BTreeProps Value ValueSpec ValueProps ValueProps2 ParseSpec.
Open Scope N_scope.

Lemma no_numbers_ordinary k : no_numbers k = true -> k_ordinary k = true.
Proof.
  unfold no_numbers, k_ordinary. induction k as [id v IH] using kserd_ind'. rewrite !k_all_children. intros [H C].
  rewrite Forall_forall in *. split; [|intros c Hc; apply IH; auto].
  unfold num_node. cbn [kval] in *. now destruct v.
Qed.

(** ** equal in order means equal but for ids *)
Lemma list_cmp_eq {A} (f : A -> A -> comparison) (R : A -> A -> Prop) l :
  Forall (fun x => forall y, f x y = Eq -> R x y) l -> forall l', list_cmp f l l' = Eq -> Forall2 R l l'.
Proof.
  induction 1 as [|x l H F IH]; intros [|y l'] E; cbn [list_cmp] in E; try discriminate; constructor.
  - apply H. destruct (f x y); congruence.
  - apply IH. destruct (f x y); congruence.
Qed.
Lemma Forall2_map_eq {A B} (g : A -> B) l l' : Forall2 (fun x y => g x = g y) l l' -> map g l = map g l'.
Proof. induction 1; cbn [map]; congruence. Qed.

Lemma cmp_eq_erase a : forall b, no_numbers a = true -> k_cmp a b = Eq -> erase a = erase b.
Proof.
  unfold no_numbers. induction a as [id v IH] using kserd_ind'. intros [j w]. rewrite k_all_children. intros [N C] E.
  assert (G : forall x, In x (vchildren v) -> forall y, k_cmp x y = Eq -> erase x = erase y).
  { rewrite Forall_forall in *. intros x Hx y. apply IH; auto. }
  rewrite k_cmp_unfold in E.
  destruct v as [|x|n|t|l0|l|m|l|m], w as [|x'|n'|t'|l0'|l'|m'|l'|m']; cbn [vtag N.compare kval] in *; try discriminate; rewrite ?N.compare_refl in E; cbn [erase vchildren same_cmp] in *.
  - reflexivity.
  - destruct x, x'; cbn in E; congruence.
  - apply str_cmp_eq in E. now subst.
  - f_equal. f_equal. revert l0' E. induction l0 as [|c l0 H]; intros [|c' l0'] E; cbn in E; try congruence.
    destruct (N.compare_spec c c'); try discriminate. subst. f_equal. now apply H.
  - do 2 f_equal. apply Forall2_map_eq. eapply list_cmp_eq; [|exact E]. now apply Forall_forall.
  - do 2 f_equal. apply Forall2_map_eq. eapply list_cmp_eq; [|exact E]. apply Forall_forall. intros [n x] Hx [n' x']. cbn [fst snd].
    destruct (str_cmp n n') eqn:E1; try discriminate. apply str_cmp_eq in E1 as ->. intros E2. f_equal.
    apply G; [|exact E2]. now apply (in_map snd) in Hx.
  - do 2 f_equal. apply Forall2_map_eq. eapply list_cmp_eq; [|exact E]. now apply Forall_forall.
  - do 2 f_equal. apply Forall2_map_eq. eapply list_cmp_eq; [|exact E]. apply Forall_forall. intros [n x] Hx [n' x']. cbn [fst snd].
    destruct (k_cmp n n') eqn:E1; try discriminate. intros E2.
    assert (Q : In n (entry_list m) /\ In x (entry_list m)).
    { unfold entry_list. rewrite !in_flat_map. split; exists (n, x); cbn; auto. }
    f_equal; [apply (G n)|apply (G x)]; tauto.
Qed.
Lemma cmp_eq_eqb a b : no_numbers a = true -> k_cmp a b = Eq -> k_eqb a b = true.
Proof. intros N E. apply cmp_eq_erase in E; [|exact N]. rewrite <- k_eqb_erase, E, k_eqb_erase. apply k_eqb_refl. Qed.

(** ** equality carries the absence of numbers over *)
Lemma list_eqb_pairs {A} (f : A -> A -> bool) l : forall l' x, list_eqb f l l' = true -> In x l ->
  exists y, In y l' /\ f x y = true.
Proof.
  induction l as [|a l IH]; intros [|b l'] x E Hx; cbn in E; try discriminate; [destruct Hx|].
  apply andb_true_iff in E as [E1 E2]. destruct Hx as [->|Hx]; [exists b; split; [now left|exact E1]|].
  destruct (IH l' x E2 Hx) as (y & Hy & E3). exists y. split; [now right|exact E3].
Qed.
Lemma eqb_no_numbers a : forall b, no_numbers b = true -> k_eqb a b = true -> no_numbers a = true.
Proof.
  unfold no_numbers. induction a as [id v IH] using kserd_ind'. intros [j w]. rewrite !k_all_children. intros [N C] E.
  rewrite Forall_forall in C.
  assert (G : (forall x, In x (vchildren v) -> exists y, In y (vchildren w) /\ k_eqb x y = true) ->
    Forall (fun c => k_all (fun k => match kval k with VNum _ => false | _ => true end) c = true) (vchildren v)).
  { intros H. rewrite Forall_forall in *. intros x Hx. destruct (H x Hx) as (y & Hy & E1). apply (IH x Hx y); auto. }
  split.
  - cbn [kval] in *. destruct v; try reflexivity. destruct w; cbn in E; try discriminate.
  - apply G. clear G IH C N. intros x Hx.
    destruct v as [|z|n|t|l0|l|m|l|m]; cbn [vchildren] in Hx; try (destruct Hx; fail);
    destruct w as [|z'|n'|t'|l0'|l'|m'|l'|m']; cbn [k_eqb kval] in E; try discriminate; cbn [vchildren];
    try (destruct l; [destruct Hx|discriminate E]); try (destruct m; [destruct Hx|discriminate E]);
    try (destruct l; [destruct Hx|]; destruct m'; discriminate E); try (destruct m; [destruct Hx|]; destruct l'; discriminate E).
    + assert (E' : list_eqb k_eqb l l' = true) by (destruct l; exact E). eapply list_eqb_pairs; eassumption.
    + destruct m as [|e0 m]; [destruct Hx|]. destruct m' as [|e1 m']; [discriminate|].
      apply in_map_iff in Hx as ([n y] & <- & Hx).
      destruct (list_eqb_pairs _ _ _ _ E Hx) as ([n' y'] & Hy & E1). cbn [fst snd] in *. apply andb_true_iff in E1 as [_ E1].
      exists y'. split; [|exact E1]. now apply (in_map snd) in Hy.
    + eapply list_eqb_pairs; eassumption.
    + unfold entry_list in *. rewrite in_flat_map in Hx. destruct Hx as ([p q] & Hx & Hi).
      destruct (list_eqb_pairs _ _ _ _ E Hx) as ([p' q'] & Hy & E1). cbn [fst snd] in *. apply andb_true_iff in E1 as [E1 E2].
      cbn [In] in Hi. destruct Hi as [<-|[<-|[]]]; [exists p'|exists q']; (split; [|assumption]);
        rewrite in_flat_map; exists (p', q'); cbn; auto.
Qed.

(** ** maps *)
Notation plain_keys := (keysP (V := kserd) (fun k => no_numbers k = true)).
Definition sorted_plain (m : list (kserd * kserd)) : Prop :=
  plain_keys m -> strictly_sorted k_cmp m = true.

Lemma plain_lawful : lawful (fun k => no_numbers k = true) k_cmp.
Proof.
  pose proof k_lawful as L. constructor.
  - apply (law_refl _ _ L).
  - apply (law_anti _ _ L).
  - intros a b c A B C. apply (law_trans _ _ L); now apply no_numbers_ordinary.
  - intros a b c A B C. apply (law_eq _ _ L); now apply no_numbers_ordinary.
Qed.

(** what is dropped equals what is kept *)
Lemma dedup_plain (l : list (kserd * kserd)) : plain_keys (bt_dedup k_eqb l) -> plain_keys l.
Proof.
  induction l as [|e l IH]; [auto|]. destruct l as [|e' l]; [auto|].
  change (bt_dedup k_eqb (e :: e' :: l)) with
    (if k_eqb (fst e) (fst e') then bt_dedup k_eqb (e' :: l) else e :: bt_dedup k_eqb (e' :: l)).
  destruct (k_eqb (fst e) (fst e')) eqn:E; intros H.
  - specialize (IH H). constructor; [|exact IH]. inversion IH; subst. eapply eqb_no_numbers; eassumption.
  - inversion H; subst. constructor; [assumption|now apply IH].
Qed.
Lemma dedup_ascending (l : list (kserd * kserd)) : plain_keys l -> sorted k_cmp l ->
  ascending k_cmp (bt_dedup k_eqb l) = true.
Proof.
  pose proof plain_lawful as L.
  induction l as [|e l IH]; intros HP S; [reflexivity|].
  inversion HP as [|? ? He HP']; subst. inversion S as [|? ? S1 S2]; subst.
  destruct l as [|e' l']; [reflexivity|].
  change (bt_dedup k_eqb (e :: e' :: l')) with
    (if k_eqb (fst e) (fst e') then bt_dedup k_eqb (e' :: l') else e :: bt_dedup k_eqb (e' :: l')).
  inversion HP' as [|? ? He' HP'']; subst. inversion S2 as [|? ? S3 S4]; subst.
  destruct (k_eqb (fst e) (fst e')) eqn:E; [now apply IH|].
  assert (N : k_cmp (fst e) (fst e') <> Eq) by (intros X; apply cmp_eq_eqb in X; [congruence|exact He]).
  apply (ascending_cons _ _ L).
  { constructor; auto. eapply (keysP_in (fun k => no_numbers k = true)); [|exact HP']. intros x. apply bt_dedup_in. }
  split; [|now apply IH].
  unfold below. rewrite Forall_forall. intros x Hx. apply bt_dedup_in in Hx.
  inversion S1 as [|? ? L1 L2]; subst.
  assert (LT : k_cmp (fst e) (fst e') = Lt) by (destruct (k_cmp (fst e) (fst e')); congruence).
  destruct Hx as [<-|Hx]; [exact LT|].
  unfold le_all, keysP in *. rewrite Forall_forall in *.
  pose proof (S3 x Hx) as C. destruct (k_cmp (fst e') (fst x)) eqn:E2; [| |easy].
  - rewrite <- (law_eq_r _ _ L (fst e') (fst x) (fst e)); auto.
  - apply (law_trans _ _ L (fst e) (fst e') (fst x)); auto.
Qed.

Lemma map_of_plain (l : list (kserd * kserd)) : sorted_plain (map_of l).
Proof.
  intros H. rewrite (strictly_sorted_spec _ _ plain_lawful) by exact H.
  unfold map_of, bt_from_list in *. apply dedup_plain in H. apply dedup_ascending; [exact H|].
  apply (bt_sort_sorted _ _ plain_lawful). eapply (keysP_in (fun k => no_numbers k = true)); [|exact H]. intros x. apply (bt_sort_in k_cmp).
Qed.

Lemma insert_plain k v (m : list (kserd * kserd)) : plain_keys (bt_insert k_cmp k v m) ->
  no_numbers k = true /\ plain_keys m.
Proof.
  induction m as [|[k' v'] m IH]; cbn [bt_insert]; intros H.
  - inversion H; subst. split; [assumption|constructor].
  - destruct (k_cmp k k') eqn:E; inversion H as [|? ? H1 H2]; subst; cbn [fst] in *.
    + split; [|now constructor]. apply (eqb_no_numbers k k' H1). rewrite k_cmp_anti in E.
      assert (E' : k_cmp k' k = Eq) by (destruct (k_cmp k' k); cbn in E; congruence).
      apply cmp_eq_erase in E'; [|exact H1]. rewrite <- k_eqb_erase, <- E', k_eqb_erase. apply k_eqb_refl.
    + split; assumption.
    + destruct (IH H2) as [A B]. split; [exact A|now constructor].
Qed.
Lemma insert_sorted_plain k v (m : list (kserd * kserd)) : sorted_plain m -> sorted_plain (bt_insert k_cmp k v m).
Proof.
  intros S H. destruct (insert_plain _ _ _ H) as [A B]. specialize (S B).
  rewrite (strictly_sorted_spec _ _ plain_lawful) in * by assumption. now apply (ascending_insert _ _ plain_lawful).
Qed.
