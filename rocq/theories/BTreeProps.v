(** Facts about the BTreeMap model for a key order which is lawful on [P]. *)
From Verif Require Import Base BaseProps BTree.

(** the value given last for [k] in a list of bindings *)
Fixpoint last_binding {K V} (cmp : K -> K -> comparison) (k : K) (l : list (K * V)) : option V :=
  match l with
  | [] => None
  | e :: l' =>
      match last_binding cmp k l' with
      | Some v => Some v
      | None => match cmp k (fst e) with Eq => Some (snd e) | _ => None end
      end
  end.

(** a comparison which is a total preorder on [P] *)
Record lawful {K} (P : K -> Prop) (cmp : K -> K -> comparison) : Prop := {
  law_refl : forall a, cmp a a = Eq;
  law_anti : forall a b, cmp b a = CompOpp (cmp a b);
  law_trans : forall a b c, P a -> P b -> P c -> cmp a b = Lt -> cmp b c = Lt -> cmp a c = Lt;
  law_eq : forall a b c, P a -> P b -> P c -> cmp a b = Eq -> cmp a c = cmp b c
}.

Section Props.
  Context {K V : Type} (P : K -> Prop) (cmp : K -> K -> comparison) (eqb : K -> K -> bool).
  Context (L : lawful P cmp).
  Context (Heqb : forall a b, P a -> P b -> eqb a b = true <-> cmp a b = Eq).

  Definition keysP (l : list (K * V)) : Prop := Forall (fun e => P (fst e)) l.

  Lemma cmp_gt_lt a b : cmp a b = Gt <-> cmp b a = Lt.
  Proof. rewrite (law_anti _ _ L a b). destruct (cmp a b); cbn; split; congruence. Qed.
  Lemma cmp_eq_sym a b : cmp a b = Eq <-> cmp b a = Eq.
  Proof. rewrite (law_anti _ _ L a b). destruct (cmp a b); cbn; split; congruence. Qed.
  Lemma law_eq_r a b c : P a -> P b -> P c -> cmp a b = Eq -> cmp c a = cmp c b.
  Proof.
    intros Ha Hb Hc E. rewrite (law_anti _ _ L a c), (law_anti _ _ L b c).
    f_equal. now apply (law_eq _ _ L).
  Qed.

  (** [e] is below every key of [l] *)
  Definition below (k : K) (l : list (K * V)) : Prop := Forall (fun e => cmp k (fst e) = Lt) l.

  Lemma ascending_cons e l : keysP (e :: l) ->
    ascending cmp (e :: l) = true <-> below (fst e) l /\ ascending cmp l = true.
  Proof.
    revert e. induction l as [|e' l IH]; intros e HP.
    - cbn. split; auto. intros _. split; [constructor|reflexivity].
    - inversion HP as [|? ? He HP']; subst. inversion HP' as [|? ? He' HP'']; subst.
      change (ascending cmp (e :: e' :: l)) with
        (match cmp (fst e) (fst e') with Lt => ascending cmp (e' :: l) | _ => false end).
      split.
      + destruct (cmp (fst e) (fst e')) eqn:E; try discriminate. intros A. split; [|exact A].
        constructor; [exact E|]. apply IH in A; [|exact HP']. destruct A as [B _].
        unfold below in *. rewrite Forall_forall in *. intros x Hx.
        apply (law_trans _ _ L (fst e) (fst e') (fst x)); auto.
      + intros [B A]. inversion B; subst. now rewrite H1.
  Qed.

  Lemma below_insert k k' v (m : list (K * V)) : cmp k k' = Lt -> below k m -> below k (bt_insert cmp k' v m).
  Proof.
    intros H. induction m as [|[k2 v2] m IH]; cbn [bt_insert]; intros B.
    - now constructor.
    - inversion B as [|? ? B1 B2]; subst. cbn [fst] in B1. destruct (cmp k' k2).
      + now constructor.
      + constructor; auto.
      + constructor; auto. now apply IH.
  Qed.

  Lemma keysP_insert k v m : P k -> keysP m -> keysP (bt_insert cmp k v m).
  Proof.
    intros Hk. induction m as [|[k' v'] m IH]; cbn [bt_insert]; intros H.
    - now repeat constructor.
    - inversion H; subst. destruct (cmp k k'); repeat constructor; auto. now apply IH.
  Qed.

  Lemma ascending_insert k v m : P k -> keysP m -> ascending cmp m = true ->
    ascending cmp (bt_insert cmp k v m) = true.
  Proof.
    intros Hk. induction m as [|[k' v'] m IH]; intros HP A; cbn [bt_insert]; [reflexivity|].
    apply ascending_cons in A as [B A]; [|exact HP]. cbn [fst] in B.
    inversion HP as [|? ? Hk' HP']; subst. cbn [fst] in Hk'.
    destruct (cmp k k') eqn:E.
    - apply ascending_cons; [now constructor|]. cbn [fst]. auto.
    - apply ascending_cons; [constructor; auto|]. cbn [fst]. split.
      + constructor; [exact E|]. unfold below in B. unfold keysP in HP'. rewrite Forall_forall in *. intros x Hx.
        apply (law_trans _ _ L k k' (fst x)); auto.
      + apply ascending_cons; auto.
    - apply ascending_cons; [constructor; [auto|now apply keysP_insert]|]. cbn [fst]. split.
      + apply below_insert; auto. now apply cmp_gt_lt.
      + now apply IH.
  Qed.

  (** ** lookup *)
  Lemma last_binding_below k l : below k l -> last_binding cmp k l = None.
  Proof.
    induction l as [|e l IH]; intros B; [reflexivity|]. inversion B; subst.
    cbn [last_binding]. rewrite IH by assumption. now rewrite H1.
  Qed.

  Lemma get_last k l : P k -> keysP l -> ascending cmp l = true -> bt_get cmp k l = last_binding cmp k l.
  Proof.
    intros Hk. induction l as [|[k' v'] l IH]; intros HP A; [reflexivity|].
    apply ascending_cons in A as [B A]; [|exact HP]. cbn [fst] in B.
    inversion HP as [|? ? Hk' HP']; subst. cbn [fst] in Hk'.
    assert (BB : cmp k k' = Eq \/ cmp k k' = Lt -> below k l).
    { intros C. unfold below, keysP in *. rewrite Forall_forall in *. intros x Hx. destruct C as [C|C].
      - rewrite (law_eq _ _ L k k' (fst x)); auto.
      - apply (law_trans _ _ L k k' (fst x)); auto. }
    cbn [bt_get last_binding fst snd].
    destruct (cmp k k') eqn:E.
    - rewrite last_binding_below; auto.
    - rewrite last_binding_below; auto.
    - rewrite IH by assumption. now destruct (last_binding cmp k l).
  Qed.

  (** ** insertion *)
  Lemma last_binding_eq k k' l : P k -> P k' -> keysP l -> cmp k k' = Eq ->
    last_binding cmp k l = last_binding cmp k' l.
  Proof.
    intros Hk Hk' HP E. induction HP as [|e l He HP IH]; [reflexivity|].
    cbn [last_binding]. rewrite IH. destruct (last_binding cmp k' l); [reflexivity|].
    now rewrite (law_eq _ _ L k k' (fst e)).
  Qed.

  Lemma get_insert k k' v m : P k -> P k' -> keysP m -> ascending cmp m = true ->
    bt_get cmp k (bt_insert cmp k' v m) =
    match cmp k k' with Eq => Some v | _ => bt_get cmp k m end.
  Proof.
    intros Hk Hk'. induction m as [|[k2 v2] m IH]; intros HP A; cbn [bt_insert bt_get].
    - destruct (cmp k k'); reflexivity.
    - apply ascending_cons in A as [B A]; [|exact HP]. cbn [fst] in B.
      inversion HP as [|? ? Hk2 HP']; subst. cbn [fst] in Hk2.
      destruct (cmp k' k2) eqn:E; cbn [bt_get].
      + rewrite (law_eq_r k' k2 k) by assumption. destruct (cmp k k2); reflexivity.
      + destruct (cmp k k') eqn:E'; try reflexivity.
        now rewrite (law_trans _ _ L k k' k2).
      + rewrite IH by assumption.
        destruct (cmp k k') eqn:E'.
        * rewrite (law_eq _ _ L k k' k2) by assumption. now rewrite E.
        * reflexivity.
        * reflexivity.
  Qed.

  Lemma bt_inserts_snoc (l : list (K * V)) e : bt_inserts cmp (l ++ [e]) = bt_insert cmp (fst e) (snd e) (bt_inserts cmp l).
  Proof. unfold bt_inserts. now rewrite fold_left_app. Qed.

  Lemma last_binding_app k (l1 l2 : list (K * V)) :
    last_binding cmp k (l1 ++ l2) = match last_binding cmp k l2 with Some v => Some v | None => last_binding cmp k l1 end.
  Proof.
    induction l1 as [|e l IH]; cbn [app last_binding]; [now destruct (last_binding cmp k l2)|].
    rewrite IH. now destruct (last_binding cmp k l2).
  Qed.

  Lemma bt_inserts_spec l : keysP l ->
    keysP (bt_inserts cmp l) /\ ascending cmp (bt_inserts cmp l) = true /\
    forall k, P k -> bt_get cmp k (bt_inserts cmp l) = last_binding cmp k l.
  Proof.
    induction l as [|e l IH] using rev_ind; intros HP; [repeat split; constructor|].
    apply Forall_app in HP as [HP He]. inversion He; subst. destruct (IH HP) as (I1 & I2 & I3).
    rewrite bt_inserts_snoc. split; [now apply keysP_insert|]. split; [now apply ascending_insert|].
    intros k Hk. rewrite get_insert by assumption. rewrite last_binding_app. cbn [last_binding].
    destruct (cmp k (fst e)); [reflexivity| |]; now apply I3.
  Qed.

  Lemma insert_snoc k v (m : list (K * V)) : Forall (fun e => cmp k (fst e) = Gt) m -> bt_insert cmp k v m = m ++ [(k, v)].
  Proof.
    induction 1 as [|[k' v'] m H HF IH]; [reflexivity|]. cbn [bt_insert fst app] in *. rewrite H. now rewrite IH.
  Qed.

  Lemma ascending_app_last l e : keysP (l ++ [e]) -> ascending cmp (l ++ [e]) = true ->
    ascending cmp l = true /\ Forall (fun x => cmp (fst e) (fst x) = Gt) l.
  Proof.
    induction l as [|x l IH]; intros HP A; [split; [reflexivity|constructor]|].
    cbn [app] in *. apply ascending_cons in A as [B A]; [|exact HP].
    inversion HP as [|? ? Hx HP']; subst. destruct (IH HP' A) as [A' F].
    apply Forall_app in B as [B1 B2]. inversion B2; subst. split.
    - apply ascending_cons; [|auto]. constructor; auto. now apply Forall_app in HP'.
    - constructor; [|exact F]. now apply cmp_gt_lt.
  Qed.

  (** rebuilding a sorted map changes nothing *)
  Lemma bt_inserts_sorted l : keysP l -> ascending cmp l = true -> bt_inserts cmp l = l.
  Proof.
    induction l as [|e l IH] using rev_ind; intros HP A; [reflexivity|].
    destruct (ascending_app_last _ _ HP A) as [A' F].
    rewrite bt_inserts_snoc, IH; [|now apply Forall_app in HP|exact A'].
    rewrite insert_snoc by exact F. now destruct e.
  Qed.

  (** ** from_iter *)
  Definition le_all (k : K) (l : list (K * V)) : Prop := Forall (fun e => cmp k (fst e) <> Gt) l.
  Inductive sorted : list (K * V) -> Prop :=
  | sorted_nil : sorted []
  | sorted_cons e l : le_all (fst e) l -> sorted l -> sorted (e :: l).

  Lemma le_trans a b c : P a -> P b -> P c -> cmp a b <> Gt -> cmp b c <> Gt -> cmp a c <> Gt.
  Proof.
    intros Ha Hb Hc H1 H2. destruct (cmp a b) eqn:E1; [| |easy].
    - now rewrite (law_eq _ _ L a b c).
    - destruct (cmp b c) eqn:E2; [| |easy].
      + rewrite <- (law_eq_r b c a) by assumption. congruence.
      + rewrite (law_trans _ _ L a b c) by assumption. easy.
  Qed.

  Lemma sort_ins_in (e x : K * V) l : In x (sort_ins cmp e l) <-> x = e \/ In x l.
  Proof.
    induction l as [|e' l IH]; cbn [sort_ins In].
    - split; [intros [->|[]]; auto|intros [->|[]]; auto].
    - destruct (cmp (fst e) (fst e')); cbn [In]; rewrite ?IH; intuition congruence.
  Qed.

  Lemma sort_ins_sorted e l : P (fst e) -> keysP l -> sorted l -> sorted (sort_ins cmp e l).
  Proof.
    intros He. induction l as [|e' l IH]; intros HP S; cbn [sort_ins].
    - repeat constructor.
    - inversion HP as [|? ? He' HP']; subst. inversion S as [|? ? S1 S2]; subst.
      assert (G : cmp (fst e) (fst e') <> Gt -> sorted (e :: e' :: l)).
      { intros C. constructor; [|exact S]. constructor; [exact C|].
        unfold le_all, keysP in *. rewrite Forall_forall in *. intros x Hx.
        apply (le_trans (fst e) (fst e') (fst x)); auto. }
      destruct (cmp (fst e) (fst e')) eqn:E; try (apply G; congruence).
      constructor; [|now apply IH].
      unfold le_all, keysP in *. rewrite Forall_forall in *. intros x Hx.
      apply sort_ins_in in Hx as [->|Hx]; [|auto].
      rewrite (law_anti _ _ L (fst e) (fst e')), E. easy.
  Qed.

  Lemma bt_sort_in (x : K * V) l : In x (bt_sort cmp l) <-> In x l.
  Proof.
    induction l as [|e l IH]; [reflexivity|]. cbn [bt_sort fold_right In]. rewrite sort_ins_in.
    unfold bt_sort in IH. rewrite IH. intuition congruence.
  Qed.

  Lemma keysP_in l l' : (forall x, In x l' -> In x l) -> keysP l -> keysP l'.
  Proof. unfold keysP. rewrite !Forall_forall. auto. Qed.

  Lemma bt_sort_sorted l : keysP l -> sorted (bt_sort cmp l).
  Proof.
    induction l as [|e l IH]; intros HP; [constructor|]. inversion HP; subst.
    cbn [bt_sort fold_right]. apply sort_ins_sorted; auto.
    apply (keysP_in l); [intros x; apply bt_sort_in|assumption].
  Qed.

  Lemma last_binding_swap k (e e' : K * V) l : P k -> P (fst e) -> P (fst e') -> cmp (fst e) (fst e') <> Eq ->
    last_binding cmp k (e :: e' :: l) = last_binding cmp k (e' :: e :: l).
  Proof.
    intros Hk He He' N. cbn [last_binding]. destruct (last_binding cmp k l); [reflexivity|].
    destruct (cmp k (fst e)) eqn:E1, (cmp k (fst e')) eqn:E2; try reflexivity.
    exfalso. apply N. rewrite <- (law_eq _ _ L k (fst e) (fst e')); auto.
  Qed.

  Lemma last_binding_sort_ins k e l : P k -> P (fst e) -> keysP l ->
    last_binding cmp k (sort_ins cmp e l) = last_binding cmp k (e :: l).
  Proof.
    intros Hk He. induction l as [|e' l IH]; intros HP; [reflexivity|]. inversion HP as [|? ? He' HP']; subst.
    cbn [sort_ins]. destruct (cmp (fst e) (fst e')) eqn:E; try reflexivity.
    rewrite (last_binding_swap k e e') by (try assumption; congruence).
    change (last_binding cmp k (e' :: sort_ins cmp e l)) with
      (match last_binding cmp k (sort_ins cmp e l) with
       | Some v => Some v | None => match cmp k (fst e') with Eq => Some (snd e') | _ => None end end).
    rewrite IH by exact HP'. reflexivity.
  Qed.

  Lemma last_binding_sort k l : P k -> keysP l -> last_binding cmp k (bt_sort cmp l) = last_binding cmp k l.
  Proof.
    intros Hk. induction l as [|e l IH]; intros HP; [reflexivity|]. inversion HP; subst.
    cbn [bt_sort fold_right]. fold (bt_sort cmp l).
    rewrite last_binding_sort_ins; auto.
    2:{ apply (keysP_in l); [intros x; apply bt_sort_in|assumption]. }
    cbn [last_binding]. now rewrite IH.
  Qed.

  Lemma bt_dedup_in (x : K * V) l : In x (bt_dedup eqb l) -> In x l.
  Proof.
    induction l as [|e l IH]; [easy|]. cbn [bt_dedup].
    destruct l as [|e' l']; [easy|]. destruct (eqb (fst e) (fst e')).
    - intros H. right. now apply IH.
    - intros [->|H]; [now left|right; now apply IH].
  Qed.

  Lemma bt_dedup_ascending l : keysP l -> sorted l -> ascending cmp (bt_dedup eqb l) = true.
  Proof.
    induction l as [|e l IH]; intros HP S; [reflexivity|].
    inversion HP as [|? ? He HP']; subst. inversion S as [|? ? S1 S2]; subst.
    destruct l as [|e' l']; [reflexivity|].
    change (bt_dedup eqb (e :: e' :: l')) with
      (if eqb (fst e) (fst e') then bt_dedup eqb (e' :: l') else e :: bt_dedup eqb (e' :: l')).
    inversion HP' as [|? ? He' HP'']; subst. inversion S2 as [|? ? S3 S4]; subst.
    destruct (eqb (fst e) (fst e')) eqn:E; [now apply IH|].
    assert (N : cmp (fst e) (fst e') <> Eq) by (rewrite <- Heqb by assumption; congruence).
    apply ascending_cons.
    { constructor; auto. apply (keysP_in (e' :: l')); [intros x; apply bt_dedup_in|assumption]. }
    split; [|now apply IH].
    unfold below. rewrite Forall_forall. intros x Hx. apply bt_dedup_in in Hx.
    inversion S1 as [|? ? L1 L2]; subst.
    assert (LT : cmp (fst e) (fst e') = Lt) by (destruct (cmp (fst e) (fst e')); congruence).
    destruct Hx as [<-|Hx]; [exact LT|].
    unfold le_all, keysP in *. rewrite Forall_forall in *.
    pose proof (S3 x Hx) as C. destruct (cmp (fst e') (fst x)) eqn:E2; [| |easy].
    - rewrite <- (law_eq_r (fst e') (fst x) (fst e)); auto.
    - apply (law_trans _ _ L (fst e) (fst e') (fst x)); auto.
  Qed.

  Lemma last_binding_dedup k l : P k -> keysP l -> last_binding cmp k (bt_dedup eqb l) = last_binding cmp k l.
  Proof.
    intros Hk. induction l as [|e l IH]; intros HP; [reflexivity|].
    inversion HP as [|? ? He HP']; subst.
    destruct l as [|e' l']; [reflexivity|].
    change (bt_dedup eqb (e :: e' :: l')) with
      (if eqb (fst e) (fst e') then bt_dedup eqb (e' :: l') else e :: bt_dedup eqb (e' :: l')).
    inversion HP' as [|? ? He' HP'']; subst.
    destruct (eqb (fst e) (fst e')) eqn:E.
    - rewrite IH by exact HP'. apply Heqb in E; [|assumption|assumption].
      cbn [last_binding]. destruct (last_binding cmp k l'); [reflexivity|].
      rewrite (law_eq_r (fst e) (fst e') k) by assumption.
      now destruct (cmp k (fst e')).
    - change (last_binding cmp k (e :: ?r)) with
        (match last_binding cmp k r with Some v => Some v | None =>
           match cmp k (fst e) with Eq => Some (snd e) | _ => None end end).
      rewrite IH by exact HP'. reflexivity.
  Qed.

  Lemma bt_from_list_in (x : K * V) l : In x (bt_from_list cmp eqb l) -> In x l.
  Proof. intros H. apply bt_dedup_in in H. exact (proj1 (bt_sort_in _ _) H). Qed.

  Lemma bt_from_list_spec l : keysP l ->
    keysP (bt_from_list cmp eqb l) /\ ascending cmp (bt_from_list cmp eqb l) = true /\
    forall k, P k -> bt_get cmp k (bt_from_list cmp eqb l) = last_binding cmp k l.
  Proof.
    intros HP.
    assert (HS : keysP (bt_sort cmp l)) by (apply (keysP_in l); [intros x; apply bt_sort_in|assumption]).
    assert (HK : keysP (bt_from_list cmp eqb l)) by (apply (keysP_in l); [intros x; apply bt_from_list_in|assumption]).
    assert (A : ascending cmp (bt_from_list cmp eqb l) = true).
    { apply bt_dedup_ascending; [exact HS|now apply bt_sort_sorted]. }
    split; [exact HK|]. split; [exact A|].
    intros k Hk. rewrite get_last by assumption. unfold bt_from_list.
    now rewrite last_binding_dedup, last_binding_sort.
  Qed.

  Lemma bt_sort_ascending l : keysP l -> ascending cmp l = true -> bt_sort cmp l = l.
  Proof.
    induction l as [|e l IH]; intros HP A; [reflexivity|].
    apply ascending_cons in A as [B A]; [|exact HP]. inversion HP; subst.
    cbn [bt_sort fold_right]. fold (bt_sort cmp l). rewrite IH by assumption.
    destruct l as [|e' l]; [reflexivity|]. cbn [sort_ins]. inversion B; subst. now rewrite H3.
  Qed.
  Lemma bt_dedup_ascending_id l : keysP l -> ascending cmp l = true -> bt_dedup eqb l = l.
  Proof.
    induction l as [|e l IH]; intros HP A; [reflexivity|].
    pose proof A as A0. apply ascending_cons in A as [B A]; [|exact HP]. inversion HP; subst.
    destruct l as [|e' l]; [reflexivity|].
    change (bt_dedup eqb (e :: e' :: l)) with
      (if eqb (fst e) (fst e') then bt_dedup eqb (e' :: l) else e :: bt_dedup eqb (e' :: l)).
    inversion B; subst. inversion H2; subst.
    destruct (eqb (fst e) (fst e')) eqn:E; [apply Heqb in E; [congruence|assumption|assumption]|].
    now rewrite IH.
  Qed.
  Lemma bt_from_list_sorted l : keysP l -> ascending cmp l = true -> bt_from_list cmp eqb l = l.
  Proof.
    intros HP A. unfold bt_from_list. rewrite bt_sort_ascending by assumption. now apply bt_dedup_ascending_id.
  Qed.

  (** a map is determined by its lookups: every entry is found *)
  Lemma get_in k v m : keysP m -> ascending cmp m = true -> In (k, v) m -> bt_get cmp k m = Some v.
  Proof.
    induction m as [|[k' v'] m IH]; intros HP A; [easy|].
    apply ascending_cons in A as [B A]; [|exact HP]. cbn [fst] in B. inversion HP; subst.
    cbn [bt_get]. intros [[= -> ->]|H].
    - now rewrite (law_refl _ _ L).
    - unfold below in B. rewrite Forall_forall in B. pose proof (B _ H) as C. cbn [fst] in C.
      assert (E : cmp k k' = Gt) by now apply cmp_gt_lt. rewrite E. now apply IH.
  Qed.
  Lemma get_some k (v : V) m : bt_get cmp k m = Some v -> exists k', In (k', v) m /\ cmp k k' = Eq.
  Proof.
    induction m as [|[k' v'] m IH]; [discriminate|]. cbn [bt_get].
    destruct (cmp k k') eqn:E.
    - intros [= ->]. exists k'. split; [now left|exact E].
    - discriminate.
    - intros H. destruct (IH H) as (k2 & H1 & H2). exists k2. split; [now right|exact H2].
  Qed.
End Props.

(** text keys are lawful everywhere *)
Lemma str_lawful : lawful (fun _ => True) str_cmp.
Proof.
  constructor; intros.
  - apply str_cmp_refl.
  - apply str_cmp_antisym.
  - eapply str_cmp_lt_trans; eassumption.
  - apply str_cmp_eq in H2. now subst.
Qed.
Lemma str_eqb_cmp a b : str_eqb a b = true <-> str_cmp a b = Eq.
Proof. rewrite str_eqb_eq, str_cmp_eq. reflexivity. Qed.
Lemma keysP_true {V} (l : list (str * V)) : keysP (fun _ => True) l.
Proof. unfold keysP. rewrite Forall_forall. auto. Qed.
