(** Proofs about values: equality, order, constructors, conversions. *)
From Verif Require Import Base BaseProps F64 Number NumberSpec NumberProps NumberProps3 BTree BTreeProps Value ValueSpec.
Open Scope N_scope.

(** ** induction on trees *)
Lemma kserd_ind' (P : kserd -> Prop) :
  (forall id v, Forall P (vchildren v) -> P (Kserd id v)) -> forall k, P k.
Proof.
  intros H. fix IH 1. intros [id v]. apply H.
  destruct v as [| | | | |l|m|l|m]; try exact (@Forall_nil _ P).
  - exact ((fix go l : Forall P l := match l with
       | [] => Forall_nil P | x :: l' => Forall_cons x (IH x) (go l') end) l).
  - exact ((fix go m : Forall P (map snd m) := match m with
       | [] => Forall_nil P | (a, x) :: m' => Forall_cons x (IH x) (go m') end) m).
  - exact ((fix go l : Forall P l := match l with
       | [] => Forall_nil P | x :: l' => Forall_cons x (IH x) (go l') end) l).
  - exact ((fix go m : Forall P (entry_list m) := match m with
       | [] => Forall_nil P
       | (a, x) :: m' => Forall_cons a (IH a) (Forall_cons x (IH x) (go m')) end) m).
Qed.

Lemma Forall_map_snd {A B} (P : B -> Prop) (m : list (A * B)) : Forall P (map snd m) <-> Forall (fun e => P (snd e)) m.
Proof. apply Forall_map. Qed.
Lemma Forall_entries {A} (P : A -> Prop) (m : list (A * A)) :
  Forall P (entry_list m) <-> Forall (fun e => P (fst e) /\ P (snd e)) m.
Proof.
  unfold entry_list. induction m as [|e m IH]; cbn [flat_map app]; [split; constructor|].
  split; intros H.
  - inversion H as [|? ? H1 H2]; subst. inversion H2; subst. constructor; auto. now apply IH.
  - inversion H as [|? ? [H1 H2] H3]; subst. repeat constructor; auto. now apply IH.
Qed.

Lemma k_all_unfold p id v : k_all p (Kserd id v) = p (Kserd id v) && forallb (k_all p) (vchildren v).
Proof.
  destruct v as [| | | | |l|m|l|m]; cbn [k_all vchildren]; try reflexivity; f_equal.
  - induction m as [|e m IH]; [reflexivity|]. cbn [map forallb]. now rewrite IH.
  - induction m as [|e m IH]; [reflexivity|]. unfold entry_list in *. cbn [flat_map forallb app].
    rewrite IH. now rewrite andb_assoc.
Qed.

Lemma k_all_children p id v : k_all p (Kserd id v) = true <->
  p (Kserd id v) = true /\ Forall (fun c => k_all p c = true) (vchildren v).
Proof. rewrite k_all_unfold, andb_true_iff, forallb_forall, Forall_forall. reflexivity. Qed.

(** ** ids are ignored *)
Lemma list_eqb_map {A} f (g : A -> A) a : Forall (fun x => forall y, f (g x) (g y) = f x y) a ->
  forall b, list_eqb f (map g a) (map g b) = list_eqb f a b.
Proof.
  induction 1 as [|x a H HF IH]; intros [|y b]; cbn; try reflexivity. now rewrite H, IH.
Qed.
Lemma list_cmp_map {A} f (g : A -> A) a : Forall (fun x => forall y, f (g x) (g y) = f x y) a ->
  forall b, list_cmp f (map g a) (map g b) = list_cmp f a b.
Proof.
  induction 1 as [|x a H HF IH]; intros [|y b]; cbn; try reflexivity. now rewrite H, IH.
Qed.

Lemma k_eqb_erase a : forall b, k_eqb (erase a) (erase b) = k_eqb a b.
Proof.
  induction a as [id v IH] using kserd_ind'. intros [id' w].
  destruct v as [| | | | |l|m|l|m], w as [| | | | |l'|m'|l'|m']; cbn [erase k_eqb kval]; try reflexivity;
    cbn [vchildren] in IH; try (destruct l; reflexivity); try (destruct m; reflexivity).
  - assert (G : list_eqb k_eqb (map erase l) (map erase l') = list_eqb k_eqb l l') by now apply list_eqb_map.
    destruct l; exact G.
  - destruct l, m'; reflexivity.
  - destruct m, l'; reflexivity.
  - destruct m as [|e m], m' as [|e' m']; try reflexivity.
    refine (list_eqb_map _ (fun e => (fst e, erase (snd e))) (e :: m) _ (e' :: m')).
    apply Forall_map_snd in IH. eapply Forall_impl; [|exact IH]. cbn beta. intros x Hx y. cbn [fst snd]. now rewrite Hx.
  - now apply list_eqb_map.
  - refine (list_eqb_map _ (fun e => (erase (fst e), erase (snd e))) m _ m').
    apply Forall_entries in IH. eapply Forall_impl; [|exact IH]. cbn beta. intros x [Hx Hy] y. cbn [fst snd]. now rewrite Hx, Hy.
Qed.

Lemma k_cmp_erase a : forall b, k_cmp (erase a) (erase b) = k_cmp a b.
Proof.
  induction a as [id v IH] using kserd_ind'. intros [id' w].
  destruct v as [| | | | |l|m|l|m], w as [| | | | |l'|m'|l'|m']; cbn [erase k_cmp kval vtag]; try reflexivity;
    cbn [vchildren] in IH.
  - now apply list_cmp_map.
  - refine (list_cmp_map _ (fun e => (fst e, erase (snd e))) m _ m').
    apply Forall_map_snd in IH. eapply Forall_impl; [|exact IH]. cbn beta. intros x Hx y. cbn [fst snd]. now rewrite Hx.
  - now apply list_cmp_map.
  - refine (list_cmp_map _ (fun e => (erase (fst e), erase (snd e))) m _ m').
    apply Forall_entries in IH. eapply Forall_impl; [|exact IH]. cbn beta. intros x [Hx Hy] y. cbn [fst snd]. now rewrite Hx, Hy.
Qed.

Lemma ids_ignored a a' b b' : erase a = erase a' -> erase b = erase b' ->
  k_eqb a b = k_eqb a' b' /\ k_cmp a b = k_cmp a' b'.
Proof.
  intros Ha Hb. rewrite <- (k_eqb_erase a b), <- (k_cmp_erase a b), Ha, Hb.
  now rewrite k_eqb_erase, k_cmp_erase.
Qed.

(** ** the order *)

(** payload comparison for equal tags *)
Definition same_cmp (v w : value kserd) : comparison :=
  match v, w with
  | VBool x, VBool y => bool_cmp x y
  | VNum x, VNum y => num_cmp x y
  | VStr x, VStr y => str_cmp x y
  | VBarr x, VBarr y => bytes_cmp x y
  | VTuple x, VTuple y | VSeq x, VSeq y => list_cmp k_cmp x y
  | VCntr x, VCntr y =>
      list_cmp (fun e f => match str_cmp (fst e) (fst f) with Eq => k_cmp (snd e) (snd f) | c => c end) x y
  | VMap x, VMap y =>
      list_cmp (fun e f => match k_cmp (fst e) (fst f) with Eq => k_cmp (snd e) (snd f) | c => c end) x y
  | _, _ => Eq
  end.
Lemma k_cmp_unfold i v j w :
  k_cmp (Kserd i v) (Kserd j w) = match N.compare (vtag v) (vtag w) with Eq => same_cmp v w | c => c end.
Proof. destruct v, w; reflexivity. Qed.

Lemma list_cmp_refl {A} f (a : list A) : Forall (fun x => f x x = Eq) a -> list_cmp f a a = Eq.
Proof. induction 1 as [|x a H HF IH]; cbn; [reflexivity|]. now rewrite H. Qed.
Lemma list_cmp_anti {A} f (a : list A) : Forall (fun x => forall y, f y x = CompOpp (f x y)) a ->
  forall b, list_cmp f b a = CompOpp (list_cmp f a b).
Proof.
  induction 1 as [|x a H HF IH]; intros [|y b]; cbn; try reflexivity. rewrite H.
  destruct (f x y); cbn; auto.
Qed.

Lemma bool_cmp_refl b : bool_cmp b b = Eq. Proof. now destruct b. Qed.
Lemma bool_cmp_anti a b : bool_cmp b a = CompOpp (bool_cmp a b). Proof. now destruct a, b. Qed.
Lemma bytes_cmp_refl b : bytes_cmp b b = Eq.
Proof. apply list_cmp_refl. apply Forall_forall. intros. apply N.compare_refl. Qed.
Lemma bytes_cmp_anti a b : bytes_cmp b a = CompOpp (bytes_cmp a b).
Proof. apply list_cmp_anti. apply Forall_forall. intros. apply N.compare_antisym. Qed.

Lemma k_cmp_refl k : k_cmp k k = Eq.
Proof.
  induction k as [id v IH] using kserd_ind'. rewrite k_cmp_unfold, N.compare_refl.
  destruct v as [| | | | |l|m|l|m]; cbn [same_cmp vchildren] in *; try reflexivity.
  - apply bool_cmp_refl.
  - apply num_cmp_refl.
  - apply str_cmp_refl.
  - apply bytes_cmp_refl.
  - now apply list_cmp_refl.
  - apply list_cmp_refl. apply Forall_map_snd in IH. eapply Forall_impl; [|exact IH]. cbn beta.
    intros x ->. now rewrite str_cmp_refl.
  - now apply list_cmp_refl.
  - apply list_cmp_refl. apply Forall_entries in IH. eapply Forall_impl; [|exact IH]. cbn beta.
    intros x [-> ->]. reflexivity.
Qed.

Lemma k_cmp_anti a : forall b, k_cmp b a = CompOpp (k_cmp a b).
Proof.
  induction a as [id v IH] using kserd_ind'. intros [j w]. rewrite !k_cmp_unfold.
  rewrite (N.compare_antisym (vtag v) (vtag w)).
  destruct (N.compare_spec (vtag v) (vtag w)) as [E| |]; cbn [CompOpp]; try reflexivity.
  destruct v as [| | | | |l|m|l|m], w as [| | | | |l'|m'|l'|m']; try discriminate E; cbn [same_cmp vchildren] in *; try reflexivity.
  - apply bool_cmp_anti.
  - apply num_cmp_antisym.
  - apply str_cmp_antisym.
  - apply bytes_cmp_anti.
  - now apply list_cmp_anti.
  - apply list_cmp_anti. apply Forall_map_snd in IH. eapply Forall_impl; [|exact IH]. cbn beta.
    intros x H y. rewrite H, (str_cmp_antisym (fst x) (fst y)). now destruct (str_cmp (fst x) (fst y)).
  - now apply list_cmp_anti.
  - apply list_cmp_anti. apply Forall_entries in IH. eapply Forall_impl; [|exact IH]. cbn beta.
    intros x [H1 H2] y. rewrite H1, H2. now destruct (k_cmp (fst x) (fst y)).
Qed.

(** transitivity of "at most", with strictness *)
Definition tr {A} (f : A -> A -> comparison) (a b c : A) : Prop :=
  f a b <> Gt -> f b c <> Gt -> f a c <> Gt /\ (f a c = Eq -> f a b = Eq /\ f b c = Eq).

Lemma tr_list {A} f (Q : A -> Prop) a :
  Forall (fun x => forall y z, Q y -> Q z -> tr f x y z) a ->
  forall b c, Forall Q b -> Forall Q c -> tr (list_cmp f) a b c.
Proof.
  unfold tr. induction 1 as [|x a H HF IH]; intros [|y b] [|z c] Hb Hc; cbn; try (split; congruence); [now auto|].
  apply Forall_cons_iff in Hb as [Qy Hb]. apply Forall_cons_iff in Hc as [Qz Hc].
  specialize (H y z Qy Qz). intros H1 H2.
  destruct (f x y) eqn:E1; [| |congruence]; (destruct (f y z) eqn:E2; [| |congruence]);
    (destruct (f x z) eqn:E3; [|split; congruence|]);
    try (destruct (H ltac:(congruence) ltac:(congruence)) as [Ha Hx']; try congruence;
         destruct (Hx' eq_refl); congruence).
  now apply IH.
Qed.

Lemma tr_lex {A B} (f : A -> A -> comparison) (g : B -> B -> comparison) x y z :
  tr f (fst x) (fst y) (fst z) -> tr g (snd x) (snd y) (snd z) ->
  tr (fun e e' => match f (fst e) (fst e') with Eq => g (snd e) (snd e') | c => c end) x y z.
Proof.
  unfold tr. intros Hf Hg. cbn beta. intros H1 H2.
  destruct (f (fst x) (fst y)) eqn:E1; [| |congruence]; (destruct (f (fst y) (fst z)) eqn:E2; [| |congruence]);
    (destruct (f (fst x) (fst z)) eqn:E3; [|split; congruence|]);
    try (destruct (Hf ltac:(congruence) ltac:(congruence)) as [Ha Hx']; try congruence;
         destruct (Hx' eq_refl); congruence).
  now apply Hg.
Qed.

Lemma tr_str a b c : tr str_cmp a b c.
Proof.
  unfold tr. intros H1 H2. destruct (str_cmp a b) eqn:E1; [| |easy].
  - apply str_cmp_eq in E1. subst b. split; auto.
  - destruct (str_cmp b c) eqn:E2; [| |easy].
    + apply str_cmp_eq in E2. subst c. split; congruence.
    + rewrite (str_cmp_lt_trans a b c) by assumption. split; congruence.
Qed.
Lemma tr_N a b c : tr N.compare a b c.
Proof.
  unfold tr. destruct (N.compare_spec a b), (N.compare_spec b c), (N.compare_spec a c); intros ? ?;
    first [congruence | exfalso; lia | split; [congruence|intros; try discriminate; auto]].
Qed.
Lemma tr_bool a b c : tr bool_cmp a b c.
Proof. unfold tr. destruct a, b, c; cbn; intros; try congruence; split; try congruence; auto. Qed.
Lemma tr_bytes a b c : tr bytes_cmp a b c.
Proof.
  apply (tr_list N.compare (fun _ => True)); try (apply Forall_forall; auto).
  intros. apply tr_N.
Qed.

Lemma k_tr a : forall b c, k_ordinary a = true -> k_ordinary b = true -> k_ordinary c = true -> tr k_cmp a b c.
Proof.
  unfold k_ordinary.
  induction a as [id v IH] using kserd_ind'. intros [j w] [i u] Ha Hb Hc.
  apply k_all_children in Ha as [Na Ca]. apply k_all_children in Hb as [Nb Cb]. apply k_all_children in Hc as [Nc Cc].
  assert (TS : vtag v = vtag w -> vtag w = vtag u -> tr same_cmp v w u).
  { intros E1 E2.
    destruct v as [| | | | |l|m|l|m], w as [| | | | |l'|m'|l'|m']; try discriminate E1;
      destruct u as [| | | | |l2|m2|l2|m2]; try discriminate E2; cbn [vchildren num_node kval] in *.
    - unfold tr. cbn. split; auto.
    - exact (tr_bool b b0 b1).
    - unfold tr. cbn [same_cmp]. now apply num_cmp_trans_le.
    - exact (tr_str t t0 t1).
    - exact (tr_bytes bs bs0 bs1).
    - refine (tr_list k_cmp (fun x => k_all (num_node ordinary) x = true) l _ l' l2 Cb Cc).
      rewrite Forall_forall in *. intros x Hx y z Hy Hz. apply IH; auto.
    - refine (tr_list _ (fun e => k_all (num_node ordinary) (snd e) = true) m _ m' m2 _ _).
      + apply Forall_map_snd in IH, Ca. rewrite Forall_forall in *. intros x Hx y z Hy Hz.
        apply (tr_lex str_cmp k_cmp); [apply tr_str|]. apply IH; auto.
      + now apply Forall_map_snd in Cb.
      + now apply Forall_map_snd in Cc.
    - refine (tr_list k_cmp (fun x => k_all (num_node ordinary) x = true) l _ l' l2 Cb Cc).
      rewrite Forall_forall in *. intros x Hx y z Hy Hz. apply IH; auto.
    - refine (tr_list _ (fun e => k_all (num_node ordinary) (fst e) = true /\ k_all (num_node ordinary) (snd e) = true) m _ m' m2 _ _).
      + apply Forall_entries in IH, Ca. rewrite Forall_forall in *. intros x Hx y z [Hy1 Hy2] [Hz1 Hz2].
        destruct (IH x Hx), (Ca x Hx).
        apply (tr_lex k_cmp k_cmp); auto.
      + now apply Forall_entries in Cb.
      + now apply Forall_entries in Cc. }
  unfold tr in *. rewrite !k_cmp_unfold.
  destruct (N.compare_spec (vtag v) (vtag w)) as [E1|E1|E1]; destruct (N.compare_spec (vtag w) (vtag u)) as [E2|E2|E2];
    destruct (N.compare_spec (vtag v) (vtag u)) as [E3|E3|E3]; try (exfalso; congruence || lia); intros; try congruence;
    try (split; congruence).
  intros. apply TS; auto.
Qed.

Lemma k_lawful : lawful (fun k => k_ordinary k = true) k_cmp.
Proof.
  constructor.
  - apply k_cmp_refl.
  - intros. apply k_cmp_anti.
  - intros a b c Ha Hb Hc H1 H2.
    destruct (k_tr a b c Ha Hb Hc ltac:(congruence) ltac:(congruence)) as [H3 H4].
    destruct (k_cmp a c); [destruct (H4 eq_refl); congruence|reflexivity|congruence].
  - intros a b c Ha Hb Hc E.
    pose proof (k_tr a b c Ha Hb Hc) as T1. pose proof (k_tr b a c Hb Ha Hc) as T2.
    pose proof (k_tr c b a Hc Hb Ha) as T3. pose proof (k_tr c a b Hc Ha Hb) as T4.
    unfold tr in *.
    assert (E' : k_cmp b a = Eq) by (rewrite k_cmp_anti, E; reflexivity).
    pose proof (k_cmp_anti a c) as A1. pose proof (k_cmp_anti b c) as A2.
    rewrite E, E' in *.
    destruct (k_cmp a c) eqn:C1, (k_cmp b c) eqn:C2; try reflexivity; cbn [CompOpp] in *; rewrite A1, A2 in *;
      exfalso;
      try (destruct (T1 ltac:(congruence) ltac:(congruence)) as [? X]; try congruence; destruct (X eq_refl); congruence);
      try (destruct (T2 ltac:(congruence) ltac:(congruence)) as [? X]; try congruence; destruct (X eq_refl); congruence);
      try (destruct (T3 ltac:(congruence) ltac:(congruence)) as [? X]; try congruence; destruct (X eq_refl); congruence);
      try (destruct (T4 ltac:(congruence) ltac:(congruence)) as [? X]; try congruence; destruct (X eq_refl); congruence).
Qed.

(** ** equality *)
Lemma list_eqb_refl {A} f (a : list A) : Forall (fun x => f x x = true) a -> list_eqb f a a = true.
Proof. induction 1 as [|x a H HF IH]; cbn; [reflexivity|]. now rewrite H. Qed.

Lemma k_eqb_refl k : k_eqb k k = true.
Proof.
  induction k as [id v IH] using kserd_ind'.
  destruct v as [| | | | |l|m|l|m]; cbn [k_eqb kval vchildren] in *; try reflexivity.
  - apply eqb_reflx.
  - apply num_eqb_refl.
  - apply str_eqb_refl.
  - apply list_eqb_refl. apply Forall_forall. intros. apply N.eqb_refl.
  - destruct l; [reflexivity|]. now apply list_eqb_refl.
  - destruct m; [reflexivity|]. apply list_eqb_refl.
    apply Forall_map_snd in IH. eapply Forall_impl; [|exact IH]. cbn beta. intros x ->. now rewrite str_eqb_refl.
  - now apply list_eqb_refl.
  - apply list_eqb_refl. apply Forall_entries in IH. eapply Forall_impl; [|exact IH]. cbn beta. now intros x [-> ->].
Qed.

Definition is_eq (c : comparison) : bool := match c with Eq => true | _ => false end.

Lemma list_eq_cmp {A} f g (h : A -> A) a : forall b,
  (forall x y, In x a -> In y b -> f x y = is_eq (g (h x) (h y))) ->
  list_eqb f a b = is_eq (list_cmp g (map h a) (map h b)).
Proof.
  induction a as [|x a IH]; intros [|y b] H; cbn; try reflexivity.
  rewrite H by (now left). destruct (g (h x) (h y)); cbn; try reflexivity.
  apply IH. intros. apply H; now right.
Qed.

Lemma k_eqb_cmp a : forall b, k_exact a = true -> k_exact b = true ->
  k_eqb a b = is_eq (k_cmp (unify_empty a) (unify_empty b)).
Proof.
  unfold k_exact.
  induction a as [id v IH] using kserd_ind'. intros [j w] Ha Hb.
  apply k_all_children in Ha as [Na Ca]. apply k_all_children in Hb as [Nb Cb].
  rewrite Forall_forall in Ca, Cb.
  destruct v as [| | | | |l|m|l|m], w as [| | | | |l'|m'|l'|m'];
    cbn [num_node kval vchildren] in *; try reflexivity;
    try (destruct l; reflexivity); try (destruct m; reflexivity);
    try (destruct m'; reflexivity).
  - cbn. now destruct b, b0.
  - cbn. now apply num_eqb_cmp.
  - cbn. rename t into x, t0 into y. destruct (str_eqb x y) eqn:E.
    + apply str_eqb_cmp in E. now rewrite E.
    + destruct (str_cmp x y) eqn:E'; try reflexivity. apply str_eqb_cmp in E'. congruence.
  - cbn. unfold bytes_eqb, bytes_cmp.
    rewrite (list_eq_cmp N.eqb N.compare (fun x => x)); [now rewrite !map_id|].
    intros x y _ _. rewrite N.eqb_compare. reflexivity.
  - (* tuple tuple *)
    assert (G : list_eqb k_eqb l l' = is_eq (list_cmp k_cmp (map unify_empty l) (map unify_empty l'))).
    { apply list_eq_cmp. intros x y Hx Hy. rewrite Forall_forall in IH. apply IH; auto. }
    cbn [k_eqb kval unify_empty]. destruct l, l'; exact G || reflexivity.
  - (* tuple cntr *) destruct l, m' as [|e' m']; reflexivity.
  - (* cntr tuple *) destruct m as [|e m], l'; reflexivity.
  - (* cntr cntr *)
    assert (G : forall m m', (forall x y, In x m -> In y m' -> k_eqb (snd x) (snd y) = is_eq (k_cmp (unify_empty (snd x)) (unify_empty (snd y)))) ->
      list_eqb (fun e f => str_eqb (fst e) (fst f) && k_eqb (snd e) (snd f)) m m' =
      is_eq (list_cmp (fun e f => match str_cmp (fst e) (fst f) with Eq => k_cmp (snd e) (snd f) | c => c end)
        (map (fun e => (fst e, unify_empty (snd e))) m) (map (fun e => (fst e, unify_empty (snd e))) m'))).
    { intros a b H. apply list_eq_cmp. intros x y Hx Hy. cbn [fst snd]. rewrite H by assumption.
      destruct (str_eqb (fst x) (fst y)) eqn:E.
      - apply str_eqb_cmp in E. now rewrite E.
      - destruct (str_cmp (fst x) (fst y)) eqn:E'; try reflexivity. apply str_eqb_cmp in E'. congruence. }
    specialize (G m m').
    assert (G' : forall x y, In x m -> In y m' -> k_eqb (snd x) (snd y) = is_eq (k_cmp (unify_empty (snd x)) (unify_empty (snd y)))).
    { intros x y Hx Hy. rewrite Forall_forall in IH. apply IH; [|apply Ca|apply Cb]; now apply in_map. }
    specialize (G G'). cbn [k_eqb kval unify_empty].
    destruct m as [|e m], m' as [|e' m']; exact G || reflexivity.
  - (* seq seq *)
    cbn [k_eqb kval unify_empty k_cmp]. apply list_eq_cmp. intros x y Hx Hy. rewrite Forall_forall in IH. apply IH; auto.
  - (* map map *)
    cbn [k_eqb kval unify_empty k_cmp].
    apply (list_eq_cmp _ (fun e f => match k_cmp (fst e) (fst f) with Eq => k_cmp (snd e) (snd f) | c => c end)
             (fun e => (unify_empty (fst e), unify_empty (snd e)))).
    intros x y Hx Hy. cbn [fst snd]. rewrite Forall_forall in IH.
    assert (InF : forall (m : list (kserd * kserd)) e, In e m -> In (fst e) (entry_list m) /\ In (snd e) (entry_list m)).
    { intros m0 e He. unfold entry_list. rewrite !in_flat_map. split; exists e; cbn; auto. }
    destruct (InF _ _ Hx) as [X1 X2], (InF _ _ Hy) as [Y1 Y2].
    rewrite (IH _ X1), (IH _ X2) by auto.
    now destruct (k_cmp (unify_empty (fst x)) (unify_empty (fst y))).
Qed.

Lemma unify_empty_id k : no_empty_cntr k = true -> unify_empty k = k.
Proof.
  unfold no_empty_cntr. induction k as [id v IH] using kserd_ind'. intros H.
  apply k_all_children in H as [N C].
  assert (M : Forall (fun x => unify_empty x = x) (vchildren v)).
  { rewrite Forall_forall in *. auto. }
  clear IH C. cbn [unify_empty]. f_equal.
  destruct v as [| | | | |l|m|l|m]; try reflexivity; cbn [vchildren] in M.
  - f_equal. rewrite Forall_forall in M. rewrite <- map_id. apply map_ext_in. auto.
  - destruct m as [|e m]; [discriminate|]. f_equal. apply Forall_map_snd in M. rewrite Forall_forall in M.
    rewrite <- map_id. apply map_ext_in. intros e0 Hin. rewrite (M _ Hin). now destruct e0.
  - f_equal. rewrite Forall_forall in M. rewrite <- map_id. apply map_ext_in. auto.
  - f_equal. apply Forall_entries in M. rewrite Forall_forall in M.
    rewrite <- map_id. apply map_ext_in. intros e0 Hin. destruct (M _ Hin) as [-> ->]. now destruct e0.
Qed.

Lemma k_all_impl p q k : (forall k, p k = true -> q k = true) -> k_all p k = true -> k_all q k = true.
Proof.
  intros H. induction k as [id v IH] using kserd_ind'. rewrite !k_all_children. intros [N C]. split; [auto|].
  rewrite Forall_forall in *. auto.
Qed.
Lemma k_exact_ordinary k : k_exact k = true -> k_ordinary k = true.
Proof.
  apply k_all_impl. intros [i v]. unfold num_node. cbn [kval]. destruct v; try reflexivity. apply exact_ordinary.
Qed.
