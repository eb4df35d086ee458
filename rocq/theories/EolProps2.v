(** Line endings: values, primitives and delimited forms. *)
From Verif Require Import Base BaseProps F64 Number BTree BTreeProps Value ValueSpec ValueProps ValueProps2 Base91 Nom Parse ParseErr ParseSpec ParseProps MapOrder EolSpec EolProps.
Open Scope N_scope.
Local Notation eol := (EolSpec.eol all).
Local Notation eol_v := (EolSpec.eol_v all).
Local Notation eol_k := (EolSpec.eol_k all).
Section Mode.
Context {md : mode}.

(** ** values *)
Definition rk (k k' : kserd) : Prop := k_all one_line_keys k = true -> eol_k k k'.
Definition rv (v v' : value kserd) : Prop := forall id, rk (Kserd id v) (Kserd id v').
Definition rf (e f : str * kserd) : Prop := fst e = fst f /\ rk (snd e) (snd f).
Definition re (e f : kserd * kserd) : Prop := rk (fst e) (fst f) /\ rk (snd e) (snd f).

Lemma flat_one_line k : k_all one_line k = true -> k_all one_line_keys k = true.
Proof.
  induction k as [id v IH] using kserd_ind'. rewrite !k_all_children. intros [H C]. split.
  - unfold one_line_keys. cbn [kval]. destruct v; try reflexivity. rewrite forallb_forall. intros [a b] He. cbn [fst].
    rewrite Forall_forall in C. apply C. cbn [vchildren]. unfold entry_list. rewrite in_flat_map. exists (a, b). cbn. auto.
  - rewrite Forall_forall in *. auto.
Qed.
Lemma eol_k_flat k : forall k', k_all one_line k = true -> eol_k k k' -> k' = k.
Proof.
  induction k as [id v IH] using kserd_ind'. intros k'. rewrite k_all_children. intros [H C] E. inversion E as [i0 v0 v' EV]; subst.
  rewrite Forall_forall in IH, C. f_equal. inversion EV as [|b|n|t t' Et|b|l l' F|m m' F|l l' F|m m' F]; subst; try reflexivity; f_equal.
  - apply eol_plain; [exact Et|]. unfold one_line in H. cbn [kval] in H. now destruct (mem 10 t).
  - cbn [vchildren] in IH, C. clear - F IH C. induction F; [reflexivity|]. f_equal; [apply IH; [cbn; auto|apply C; cbn; auto|assumption]|]. apply IHF; intros; [apply C; cbn; auto|apply IH; [cbn; auto|assumption|assumption]].
  - cbn [vchildren] in IH, C. clear - F IH C. induction F as [|[n x] [n' x'] l l' [A B] F IHF]; [reflexivity|]. cbn [fst snd map] in *. subst n'.
    f_equal; [f_equal; apply IH; [cbn; auto|apply C; cbn; auto|assumption]|]. apply IHF; intros; [apply C; cbn; auto|apply IH; [cbn; auto|assumption|assumption]].
  - cbn [vchildren] in IH, C. clear - F IH C. induction F; [reflexivity|]. f_equal; [apply IH; [cbn; auto|apply C; cbn; auto|assumption]|]. apply IHF; intros; [apply C; cbn; auto|apply IH; [cbn; auto|assumption|assumption]].
  - cbn [vchildren] in IH, C. clear - F IH C. unfold entry_list in *. induction F as [|[n x] [n' x'] l l' [A B] F IHF]; [reflexivity|].
    cbn [fst snd flat_map app] in *. subst n'. f_equal; [f_equal; apply IH; [cbn; auto|apply C; cbn; auto|assumption]|]. apply IHF; intros; [apply C; cbn; auto|apply IH; [cbn; auto|assumption|assumption]].
Qed.
Lemma rk_flat k k' : rk k k' -> k_all one_line k = true -> k' = k.
Proof. intros H F. apply eol_k_flat; [exact F|]. apply H. now apply flat_one_line. Qed.

Lemma rv_atom v : match v with VUnit | VBool _ | VNum _ | VBarr _ => True | _ => False end -> rv v v.
Proof. intros H id _. constructor. destruct v; try contradiction; constructor. Qed.
Lemma rv_str t t' : eol t t' -> rv (VStr t) (VStr t').
Proof. intros H id _. constructor. now constructor. Qed.
Lemma rk_list l l' : Forall2 rk l l' -> Forall (fun k => k_all one_line_keys k = true) l -> Forall2 eol_k l l'.
Proof. induction 1; intros F; constructor; inversion F; subst; auto. Qed.
Lemma rv_tuple l l' : Forall2 rk l l' -> rv (VTuple l) (VTuple l').
Proof. intros H id A. rewrite k_all_children in A. constructor. constructor. apply rk_list; [exact H|apply A]. Qed.
Lemma rv_seq l l' : Forall2 rk l l' -> rv (VSeq l) (VSeq l').
Proof. intros H id A. rewrite k_all_children in A. constructor. constructor. apply rk_list; [exact H|apply A]. Qed.
Lemma rv_cntr m m' : Forall2 rf m m' -> rv (VCntr m) (VCntr m').
Proof.
  intros H id A. rewrite k_all_children in A. destruct A as [_ A]. cbn [vchildren] in A. constructor. constructor.
  induction H as [|[n x] [n' x'] l l' [X Y] F IHF]; constructor; cbn [fst snd map] in *; inversion A; subst; auto.
Qed.

(** *** maps: if the keys of the result are on one line, all keys were *)
Definition flat (k : kserd) : Prop := k_all one_line k = true.
Local Notation flat_keys := (keysP (V := kserd) flat).
Definition rm (m m' : list (kserd * kserd)) : Prop := flat_keys m -> Forall2 (fun e f => fst e = fst f /\ rk (snd e) (snd f)) m m'.
Lemma rv_map m m' : rm m m' -> rv (VMap m) (VMap m').
Proof.
  intros H id A. rewrite k_all_children in A. destruct A as [K A]. unfold one_line_keys in K. cbn [kval vchildren] in *.
  rewrite forallb_forall in K. constructor. constructor.
  assert (FK : flat_keys m) by (apply Forall_forall; intros e He; now apply K).
  specialize (H FK). clear K FK. unfold entry_list in A. induction H as [|[n x] [n' x'] l l' [X Y] F IHF]; constructor; cbn [fst snd flat_map app] in *; inversion A as [|? ? A1 A2]; inversion A2; subst; auto.
Qed.

Lemma flat_children v id : flat (Kserd id v) <-> one_line (Kserd id v) = true /\ Forall flat (vchildren v).
Proof. apply k_all_children. Qed.
(** equal keys are both on one line or both not *)
Lemma eqb_flat a : forall b, flat b -> k_eqb a b = true -> flat a.
Proof.
  induction a as [id v IH] using kserd_ind'. intros [j w]. rewrite !flat_children. intros [N C] E.
  rewrite Forall_forall in C.
  assert (G : (forall x, In x (vchildren v) -> exists y, In y (vchildren w) /\ k_eqb x y = true) -> Forall flat (vchildren v)).
  { intros H. rewrite Forall_forall in *. intros x Hx. destruct (H x Hx) as (y & Hy & E1). apply (IH x Hx y); auto. }
  split.
  - unfold one_line in *. cbn [kval] in *. destruct v; try reflexivity. destruct w; cbn in E; try discriminate. apply str_eqb_eq in E. now subst.
  - apply G. clear G IH C N. intros x Hx.
    destruct v as [|z|n|t|l0|l|m|l|m]; cbn [vchildren] in Hx; try (destruct Hx; fail);
    destruct w as [|z'|n'|t'|l0'|l'|m'|l'|m']; cbn [k_eqb kval] in E; try discriminate; cbn [vchildren];
    try (destruct l; [destruct Hx|discriminate E]); try (destruct m; [destruct Hx|discriminate E]);
    try (destruct l; [destruct Hx|]; destruct m'; discriminate E); try (destruct m; [destruct Hx|]; destruct l'; discriminate E).
    + assert (E' : list_eqb k_eqb l l' = true) by (destruct l; exact E). eapply list_eqb_pairs; eassumption.
    + destruct m as [|e0 m]; [destruct Hx|]. destruct m' as [|e1 m']; [discriminate|].
      apply in_map_iff in Hx as ([n y] & <- & Hx).
      destruct (list_eqb_pairs _ _ _ _ E Hx) as ([n' y'] & Hy & E1). cbn [fst snd] in *. apply andb_true_iff in E1 as [_ E1].
      exists y'. split; [|exact E1]. now apply (in_map snd) in Hy.
    + eapply list_eqb_pairs; eassumption.
    + unfold entry_list in *. rewrite in_flat_map in Hx. destruct Hx as ([p q] & Hx & Hi).
      destruct (list_eqb_pairs _ _ _ _ E Hx) as ([p' q'] & Hy & E1). cbn [fst snd] in *. apply andb_true_iff in E1 as [E1 E2].
      cbn [In] in Hi. destruct Hi as [<-|[<-|[]]]; [exists p'|exists q']; (split; [|assumption]);
        rewrite in_flat_map; exists (p', q'); cbn; auto.
Qed.
Lemma list_cmp_pairs {A} (f : A -> A -> comparison) l : forall l' x, list_cmp f l l' = Eq -> In x l -> exists y, In y l' /\ f x y = Eq.
Proof.
  induction l as [|a l IH]; intros [|b l'] x E Hx; cbn in E; try discriminate; [destruct Hx|].
  destruct (f a b) eqn:E1; try discriminate. destruct Hx as [->|Hx]; [exists b; split; [now left|exact E1]|].
  destruct (IH l' x E Hx) as (y & Hy & E3). exists y. split; [now right|exact E3].
Qed.
Lemma cmp_flat a : forall b, flat b -> k_cmp a b = Eq -> flat a.
Proof.
  induction a as [id v IH] using kserd_ind'. intros [j w]. rewrite !flat_children. intros [N C] E.
  rewrite Forall_forall in C.
  assert (G : (forall x, In x (vchildren v) -> exists y, In y (vchildren w) /\ k_cmp x y = Eq) -> Forall flat (vchildren v)).
  { intros H. rewrite Forall_forall in *. intros x Hx. destruct (H x Hx) as (y & Hy & E1). apply (IH x Hx y); auto. }
  rewrite k_cmp_unfold in E. split.
  - unfold one_line in *. cbn [kval] in *. destruct v; try reflexivity. destruct w; cbn [vtag N.compare] in E; try discriminate E; rewrite ?N.compare_refl in E; cbn [same_cmp] in E. apply str_cmp_eq in E. now subst.
  - apply G. clear G IH C N. intros x Hx.
    destruct v as [|z|n|t|l0|l|m|l|m], w as [|z'|n'|t'|l0'|l'|m'|l'|m']; cbn [vtag N.compare kval] in *; try discriminate E; rewrite ?N.compare_refl in E; cbn [vchildren same_cmp] in *; try (destruct Hx; fail).
    + eapply list_cmp_pairs; eassumption.
    + apply in_map_iff in Hx as ([n y] & <- & Hx).
      destruct (list_cmp_pairs _ _ _ _ E Hx) as ([n' y'] & Hy & E1). cbn [fst snd] in *. destruct (str_cmp n n'); try discriminate.
      exists y'. split; [|exact E1]. now apply (in_map snd) in Hy.
    + eapply list_cmp_pairs; eassumption.
    + unfold entry_list in *. rewrite in_flat_map in Hx. destruct Hx as ([p q] & Hx & Hi).
      destruct (list_cmp_pairs _ _ _ _ E Hx) as ([p' q'] & Hy & E1). cbn [fst snd] in *. destruct (k_cmp p p') eqn:E2; try discriminate.
      cbn [In] in Hi. destruct Hi as [<-|[<-|[]]]; [exists p'|exists q']; (split; [|assumption]);
        rewrite in_flat_map; exists (p', q'); cbn; auto.
Qed.

Lemma insert_flat k v (m : list (kserd * kserd)) : flat_keys (bt_insert k_cmp k v m) -> flat k /\ flat_keys m.
Proof.
  induction m as [|[k' v'] m IH]; cbn [bt_insert]; intros H.
  - inversion H; subst. split; [assumption|constructor].
  - destruct (k_cmp k k') eqn:E; inversion H as [|? ? H1 H2]; subst; cbn [fst] in *.
    + split; [|now constructor]. now apply (cmp_flat k k').
    + split; assumption.
    + destruct (IH H2) as [A B]. split; [exact A|now constructor].
Qed.
Local Notation same_keys R := (Forall2 (fun e f => fst e = fst f /\ R (snd e) (snd f))).
Lemma insert_same {K V W} cmp (R : V -> W -> Prop) (k : K) v w : R v w -> forall m m', same_keys R m m' -> same_keys R (bt_insert cmp k v m) (bt_insert cmp k w m').
Proof.
  intros H. induction 1 as [|[a x] [a' x'] m m' [E F] G IH]; cbn [bt_insert]; [repeat constructor; auto|].
  cbn [fst snd] in *. subst a'. destruct (cmp k a); repeat (constructor; auto).
Qed.
Lemma rm_insert k k' v v' m m' : rk k k' -> rk v v' -> rm m m' -> rm (bt_insert k_cmp k v m) (bt_insert k_cmp k' v' m').
Proof.
  intros K V M F. apply insert_flat in F as [F1 F2]. rewrite (rk_flat _ _ K F1). apply insert_same; auto.
Qed.
Lemma dedup_flat (l : list (kserd * kserd)) : flat_keys (bt_dedup k_eqb l) -> flat_keys l.
Proof.
  induction l as [|e l IH]; [auto|]. destruct l as [|e' l]; [auto|].
  change (bt_dedup k_eqb (e :: e' :: l)) with
    (if k_eqb (fst e) (fst e') then bt_dedup k_eqb (e' :: l) else e :: bt_dedup k_eqb (e' :: l)).
  destruct (k_eqb (fst e) (fst e')) eqn:E; intros H.
  - specialize (IH H). constructor; [|exact IH]. inversion IH; subst. eapply eqb_flat; eassumption.
  - inversion H; subst. constructor; [assumption|now apply IH].
Qed.
Lemma sort_same {K V W} cmp (R : V -> W -> Prop) (m : list (K * V)) m' : same_keys R m m' -> same_keys R (bt_sort cmp m) (bt_sort cmp m').
Proof.
  induction 1 as [|[a x] [a' x'] m m' [E F] G IH]; cbn [bt_sort fold_right]; [constructor|]. cbn [fst snd] in *. subst a'.
  fold (bt_sort cmp m). fold (bt_sort cmp m'). induction IH as [|[b y] [b' y'] l l' [E' F'] G' IH']; cbn [sort_ins fst]; [repeat constructor; auto|].
  cbn [fst snd] in *. subst b'. destruct (cmp a b); repeat (constructor; auto).
Qed.
Lemma dedup_same {K V W} eqb (R : V -> W -> Prop) (m : list (K * V)) m' : same_keys R m m' -> same_keys R (bt_dedup eqb m) (bt_dedup eqb m').
Proof.
  induction 1 as [|[a x] [a' x'] m m' [E F] G IH]; [constructor|]. cbn [fst snd] in *. subst a'.
  destruct G as [|[b y] [b' y'] m m' [E' F'] G]; [repeat constructor; auto|]. cbn [fst snd] in *. subst b'.
  change (bt_dedup eqb ((a, x) :: (b, y) :: m)) with (if eqb a b then bt_dedup eqb ((b, y) :: m) else (a, x) :: bt_dedup eqb ((b, y) :: m)).
  change (bt_dedup eqb ((a, x') :: (b, y') :: m')) with (if eqb a b then bt_dedup eqb ((b, y') :: m') else (a, x') :: bt_dedup eqb ((b, y') :: m')).
  destruct (eqb a b); [exact IH|constructor; auto].
Qed.
Lemma rm_map_of l l' : Forall2 re l l' -> rm (map_of l) (map_of l').
Proof.
  intros H F. unfold map_of, bt_from_list in *. apply dedup_flat in F. apply dedup_same, sort_same.
  assert (FK : flat_keys l) by (eapply (keysP_in flat); [|exact F]; intros x; apply (bt_sort_in k_cmp)).
  clear F. induction H as [|[a x] [a' x'] l l' [X Y] G IH]; constructor; inversion FK; subst; auto.
  cbn [fst snd] in *. split; [|exact Y]. symmetry. now apply rk_flat.
Qed.
Lemma rf_fields l l' : Forall2 rf l l' -> Forall2 rf (fields_of l) (fields_of l').
Proof. intros H. unfold fields_of, bt_from_list. apply (dedup_same _ rk), (sort_same _ rk), H. Qed.
End Mode.
