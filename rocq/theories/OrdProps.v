(** The comparison of Kserds is the order of OrdSpec.v. *)
From Verif Require Import Base BaseProps F64 Number BTree Value ValueSpec ValueProps OrdSpec.
Open Scope nat_scope.

Lemma lex_spec {A} (f : A -> A -> comparison) (lt eq : A -> A -> Prop) l :
  Forall (fun x => forall y, (f x y = Lt <-> lt x y) /\ (f x y = Eq <-> eq x y)) l ->
  forall m, (list_cmp f l m = Lt <-> lex lt eq l m) /\ (list_cmp f l m = Eq <-> Forall2 eq l m).
Proof.
  induction 1 as [|x l H _ IH]; intros [|y m]; cbn [list_cmp].
  - split; split; intros X; try discriminate; try constructor. inversion X.
  - split; split; intros X; try discriminate; try constructor. inversion X.
  - split; split; intros X; try discriminate; inversion X.
  - destruct (H y) as [H1 H2], (IH m) as [I1 I2]. fold (list_cmp f). destruct (f x y) eqn:C.
    + assert (E : eq x y) by now apply H2. split; split; intros X.
      * apply lex_later; [exact E|now apply I1].
      * inversion X as [|? ? ? ? L|? ? ? ? _ L]; subst; [apply H1 in L; discriminate|now apply I1].
      * constructor; [exact E|now apply I2].
      * inversion X; subst. now apply I2.
    + assert (L : lt x y) by now apply H1. split; split; intros X; try discriminate.
      * now apply lex_now.
      * reflexivity.
      * inversion X as [|? ? ? ? E _]; subst. apply H2 in E. discriminate.
    + split; split; intros X; try discriminate.
      * inversion X as [|? ? ? ? L|? ? ? ? E _]; subst; [apply H1 in L|apply H2 in E]; discriminate.
      * inversion X as [|? ? ? ? E _]; subst. apply H2 in E. discriminate.
Qed.
Lemma Forall2_eq {A} (l m : list A) : Forall2 eq l m <-> l = m.
Proof. split; [|intros <-; induction l; constructor; auto]. induction 1; congruence. Qed.
Lemma bytes_spec l m : (list_cmp N.compare l m = Lt <-> text_before l m) /\ (list_cmp N.compare l m = Eq <-> l = m).
Proof.
  rewrite <- Forall2_eq. apply lex_spec. apply Forall_forall. intros x _ y. split; [apply N.compare_lt_iff|apply N.compare_eq_iff].
Qed.
Lemma str_cmp_list a : forall b, str_cmp a b = list_cmp N.compare a b.
Proof. reflexivity. Qed.
Lemma str_spec l m : (str_cmp l m = Lt <-> text_before l m) /\ (str_cmp l m = Eq <-> l = m).
Proof. rewrite str_cmp_list. apply bytes_spec. Qed.

Lemma order_spec a : forall b, (k_cmp a b = Lt <-> before a b) /\ (k_cmp a b = Eq <-> alike a b).
Proof.
  induction a as [ia v IH] using kserd_ind'. intros [ib w].
  assert (K : vtag v <> vtag w -> k_cmp (Kserd ia v) (Kserd ib w) = N.compare (vtag v) (vtag w) -> (N.to_nat (vtag v) = kind (Kserd ia v)) -> (N.to_nat (vtag w) = kind (Kserd ib w)) ->
     (k_cmp (Kserd ia v) (Kserd ib w) = Lt <-> before (Kserd ia v) (Kserd ib w)) /\ (k_cmp (Kserd ia v) (Kserd ib w) = Eq <-> alike (Kserd ia v) (Kserd ib w))).
  { intros D C T1 T2. rewrite C. split.
    - rewrite N.compare_lt_iff. split; [intros L; apply b_kind; lia|]. intros B. inversion B; subst; cbn [kval] in *; subst; try (exfalso; now apply D); lia.
    - rewrite N.compare_eq_iff. split; [intros L; now apply D in L|]. intros B. inversion B; subst; cbn [kval] in *; subst; reflexivity. }
  destruct v as [|x|x|x|x|l|l|l|l], w as [|y|y|y|y|m|m|m|m]; try (apply K; [discriminate|reflexivity|reflexivity|reflexivity]); clear K; cbn [k_cmp kval].
  - split; split; intros X; try discriminate; [|now apply a_unit|reflexivity]. inversion X; subst; cbn [kval kind] in *; try discriminate; unfold kind in *; cbn [kval] in *; lia.
  - split; split; intros X.
    + destruct x, y; try discriminate. now apply b_bool.
    + inversion X; subst; unfold kind in *; cbn [kval] in *; try discriminate; try lia. injection H as ->. injection H0 as ->. reflexivity.
    + destruct x, y; try discriminate; eapply a_bool; reflexivity.
    + inversion X; subst; cbn [kval] in *; try discriminate. injection H as ->. injection H0 as ->. now destruct x0.
  - split; split; intros X.
    + eapply b_num; try reflexivity. exact X.
    + inversion X; subst; unfold kind in *; cbn [kval] in *; try discriminate; try lia. injection H as ->. injection H0 as ->. assumption.
    + eapply a_num; try reflexivity. exact X.
    + inversion X; subst; cbn [kval] in *; try discriminate. injection H as ->. injection H0 as ->. assumption.
  - destruct (str_spec x y) as [S1 S2]. rewrite S1, S2. split; split; intros X.
    + eapply b_str; try reflexivity. exact X.
    + inversion X; subst; unfold kind in *; cbn [kval] in *; try discriminate; try lia. injection H as ->. injection H0 as ->. assumption.
    + subst y. eapply a_str; reflexivity.
    + inversion X; subst; cbn [kval] in *; try discriminate. congruence.
  - destruct (bytes_spec x y) as [S1 S2]. unfold bytes_cmp. rewrite S1, S2. split; split; intros X.
    + eapply b_barr; try reflexivity. exact X.
    + inversion X; subst; unfold kind in *; cbn [kval] in *; try discriminate; try lia. injection H as ->. injection H0 as ->. assumption.
    + subst y. eapply a_barr; reflexivity.
    + inversion X; subst; cbn [kval] in *; try discriminate. congruence.
  - destruct (lex_spec k_cmp before alike l IH m) as [S1 S2]. rewrite S1, S2. split; split; intros X.
    + eapply b_tuple; try reflexivity. exact X.
    + inversion X; subst; unfold kind in *; cbn [kval] in *; try discriminate; try lia. injection H as ->. injection H0 as ->. assumption.
    + eapply a_tuple; try reflexivity. exact X.
    + inversion X; subst; cbn [kval] in *; try discriminate. injection H as ->. injection H0 as ->. assumption.
  - apply Forall_map_snd in IH.
    assert (S : Forall (fun e => forall f, ((match str_cmp (fst e) (fst f) with Eq => k_cmp (snd e) (snd f) | c => c end) = Lt <-> text_before (fst e) (fst f) \/ (fst e = fst f /\ before (snd e) (snd f))) /\
       ((match str_cmp (fst e) (fst f) with Eq => k_cmp (snd e) (snd f) | c => c end) = Eq <-> fst e = fst f /\ alike (snd e) (snd f))) l).
    { eapply Forall_impl; [|exact IH]. cbn beta. intros e He f. destruct (He (snd f)) as [H1 H2], (str_spec (fst e) (fst f)) as [H3 H4]. destruct (str_cmp (fst e) (fst f)).
      - rewrite H1, H2, <- H3, <- H4. clear. intuition discriminate.
      - rewrite <- H3, <- H4. clear. intuition discriminate.
      - rewrite <- H3, <- H4. clear. intuition discriminate. }
    destruct (lex_spec _ _ _ l S m) as [S1 S2]. rewrite S1, S2. split; split; intros X.
    + eapply b_cntr; try reflexivity. exact X.
    + inversion X; subst; unfold kind in *; cbn [kval] in *; try discriminate; try lia. injection H as ->. injection H0 as ->. assumption.
    + eapply a_cntr; try reflexivity. exact X.
    + inversion X; subst; cbn [kval] in *; try discriminate. injection H as ->. injection H0 as ->. assumption.
  - destruct (lex_spec k_cmp before alike l IH m) as [S1 S2]. rewrite S1, S2. split; split; intros X.
    + eapply b_seq; try reflexivity. exact X.
    + inversion X; subst; unfold kind in *; cbn [kval] in *; try discriminate; try lia. injection H as ->. injection H0 as ->. assumption.
    + eapply a_seq; try reflexivity. exact X.
    + inversion X; subst; cbn [kval] in *; try discriminate. injection H as ->. injection H0 as ->. assumption.
  - apply Forall_entries in IH.
    assert (S : Forall (fun e => forall f, ((match k_cmp (fst e) (fst f) with Eq => k_cmp (snd e) (snd f) | c => c end) = Lt <-> before (fst e) (fst f) \/ (alike (fst e) (fst f) /\ before (snd e) (snd f))) /\
       ((match k_cmp (fst e) (fst f) with Eq => k_cmp (snd e) (snd f) | c => c end) = Eq <-> alike (fst e) (fst f) /\ alike (snd e) (snd f))) l).
    { eapply Forall_impl; [|exact IH]. cbn beta. intros e [He He'] f. destruct (He' (snd f)) as [H1 H2], (He (fst f)) as [H3 H4]. destruct (k_cmp (fst e) (fst f)).
      - rewrite H1, H2, <- H3, <- H4. clear. intuition discriminate.
      - rewrite <- H3, <- H4. clear. intuition discriminate.
      - rewrite <- H3, <- H4. clear. intuition discriminate. }
    destruct (lex_spec _ _ _ l S m) as [S1 S2]. rewrite S1, S2. split; split; intros X.
    + eapply b_map; try reflexivity. exact X.
    + inversion X; subst; unfold kind in *; cbn [kval] in *; try discriminate; try lia. injection H as ->. injection H0 as ->. assumption.
    + eapply a_map; try reflexivity. exact X.
    + inversion X; subst; cbn [kval] in *; try discriminate. injection H as ->. injection H0 as ->. assumption.
Qed.
