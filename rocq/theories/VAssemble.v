(** What the parser makes of the items of a verbose container. *)
From Verif Require Import Base F64 Number BTree Value BaseProps BTreeProps Nom Parse Grammar VGrammar VGrammarProps.
Open Scope N_scope.

Section Str.
  Context {V : Type}.
  Notation asc m := (ascending str_cmp (V := V) m = true).
  Lemma asc_cons (e : str * V) m : asc (e :: m) <-> Forall (fun x => str_cmp (fst e) (fst x) = Lt) m /\ asc m.
  Proof. apply (ascending_cons (fun _ => True) str_cmp str_lawful). apply keysP_true. Qed.
  Lemma str_trans a b c : str_cmp a b = Lt -> str_cmp b c = Lt -> str_cmp a c = Lt.
  Proof. now apply (law_trans _ _ str_lawful). Qed.
  Lemma get_below k (m : list (str * V)) : Forall (fun x => str_cmp k (fst x) = Lt) m -> bt_get str_cmp k m = None.
  Proof. intros [|[k' v'] m' H _]; [reflexivity|]. cbn [bt_get]. cbn [fst] in H. now rewrite H. Qed.
  Lemma below_le k k' (m : list (str * V)) : str_cmp k k' <> Gt -> Forall (fun x => str_cmp k' (fst x) = Lt) m -> Forall (fun x => str_cmp k (fst x) = Lt) m.
  Proof.
    intros H. apply Forall_impl. intros [k2 v2]. cbn [fst]. destruct (str_cmp k k') eqn:E; [|now apply str_trans|congruence].
    apply str_eqb_cmp, str_eqb_eq in E. now subst.
  Qed.
  Lemma sorted_ext (m1 m2 : list (str * V)) : asc m1 -> asc m2 -> (forall k, bt_get str_cmp k m1 = bt_get str_cmp k m2) -> m1 = m2.
  Proof.
    revert m2. induction m1 as [|[k1 v1] m1 IH]; intros m2 A1 A2 G.
    - destruct m2 as [|[k2 v2] m2]; [reflexivity|]. specialize (G k2). cbn [bt_get] in G. rewrite str_cmp_refl in G. discriminate.
    - destruct m2 as [|[k2 v2] m2]; [specialize (G k1); cbn [bt_get] in G; rewrite str_cmp_refl in G; discriminate|].
      apply asc_cons in A1 as [B1 A1]. apply asc_cons in A2 as [B2 A2]. cbn [fst] in *.
      destruct (str_cmp k1 k2) eqn:E.
      + apply str_cmp_eq in E. subst k2. pose proof (G k1) as G1. cbn [bt_get] in G1. rewrite str_cmp_refl in G1. injection G1 as ->. f_equal. apply IH; auto.
        intros k. specialize (G k). cbn [bt_get] in G. destruct (str_cmp k k1) eqn:E; [| |exact G].
        * rewrite !get_below; [reflexivity|eapply below_le; [|exact B2]|eapply below_le; [|exact B1]]; congruence.
        * rewrite !get_below; [reflexivity|eapply below_le; [|exact B2]|eapply below_le; [|exact B1]]; congruence.
      + specialize (G k1). cbn [bt_get] in G. rewrite str_cmp_refl, E in G. discriminate.
      + specialize (G k2). cbn [bt_get] in G. rewrite (law_anti _ _ str_lawful k1 k2), E, str_cmp_refl in G. discriminate.
  Qed.
  Lemma get_update k name new upd (m : list (str * V)) : asc m ->
    bt_get str_cmp k (bt_update name new upd m) =
    match str_cmp k name with Eq => Some (upd (match bt_get str_cmp name m with Some v => v | None => new end)) | _ => bt_get str_cmp k m end.
  Proof.
    induction m as [|[k' v'] m IH]; intros A.
    - cbn. destruct (str_cmp k name); reflexivity.
    - apply asc_cons in A as [B A]. cbn [fst] in B. cbn [bt_update bt_get]. destruct (str_cmp name k') eqn:E.
      + apply str_cmp_eq in E. subst k'. cbn [bt_get]. destruct (str_cmp k name); reflexivity.
      + cbn [bt_get]. destruct (str_cmp k name) eqn:E2; [reflexivity| |reflexivity]. assert (X : str_cmp k k' = Lt) by (eapply str_trans; eassumption). now rewrite X.
      + cbn [bt_get]. rewrite IH by assumption. destruct (str_cmp k name) eqn:E2.
        * apply str_cmp_eq in E2. subst k. rewrite E. reflexivity.
        * destruct (str_cmp k k'); reflexivity.
        * destruct (str_cmp k k'); reflexivity.
  Qed.
  Lemma update_below x name new upd (m : list (str * V)) : str_cmp x name = Lt -> Forall (fun e => str_cmp x (fst e) = Lt) m ->
    Forall (fun e => str_cmp x (fst e) = Lt) (bt_update name new upd m).
  Proof.
    intros H F. induction F as [|[k v] m H1 F IH]; cbn [bt_update]; [now repeat constructor|]. destruct (str_cmp name k); repeat constructor; auto.
  Qed.
  Lemma update_asc name new upd (m : list (str * V)) : asc m -> asc (bt_update name new upd m).
  Proof.
    induction m as [|[k v] m IH]; intros A; [reflexivity|]. pose proof A as A0. apply asc_cons in A as [B A]. cbn [fst] in B. cbn [bt_update]. destruct (str_cmp name k) eqn:E.
    - apply asc_cons. auto.
    - apply asc_cons. split; [|exact A0]. constructor; [exact E|]. cbn [fst]. eapply below_le; [|exact B]. congruence.
    - apply asc_cons. split; [|auto]. cbn [fst]. apply update_below; [|exact B]. rewrite (law_anti _ _ str_lawful name k), E. reflexivity.
  Qed.
  Lemma insert_asc k v (m : list (str * V)) : asc m -> asc (bt_insert str_cmp k v m).
  Proof. apply (ascending_insert (fun _ => True) str_cmp str_lawful); [exact I|apply keysP_true]. Qed.
  Lemma get_insert_str k k' v (m : list (str * V)) : asc m -> bt_get str_cmp k (bt_insert str_cmp k' v m) = match str_cmp k k' with Eq => Some v | _ => bt_get str_cmp k m end.
  Proof. apply (get_insert (fun _ => True) str_cmp str_lawful); [exact I|exact I|apply keysP_true]. Qed.
End Str.

Lemma fold_inserts {V W} (g : V -> W) (l : list (str * V)) : ascending str_cmp l = true -> forall m : list (str * W), ascending str_cmp m = true ->
  let r := fold_left (fun m e => bt_insert str_cmp (fst e) (g (snd e)) m) l m in
  ascending str_cmp r = true /\ forall k, bt_get str_cmp k r = match bt_get str_cmp k l with Some x => Some (g x) | None => bt_get str_cmp k m end.
Proof.
  induction l as [|[k1 x] l IH]; intros AL m A; cbn [fold_left].
  - cbv zeta. split; [exact A|reflexivity].
  - apply asc_cons in AL as [B AL]. cbn [fst] in B. destruct (IH AL (bt_insert str_cmp k1 (g x) m) (insert_asc _ _ _ A)) as [R1 R2]. cbv zeta. split; [exact R1|].
    intros k. rewrite R2. cbn [fst snd]. rewrite get_insert_str by assumption. cbn [bt_get]. destruct (str_cmp k k1) eqn:E.
    + now rewrite get_below by (eapply below_le; [|exact B]; congruence).
    + now rewrite get_below by (eapply below_le; [|exact B]; congruence).
    + reflexivity.
Qed.

Lemma last_some_snoc {A} (l : list (option A)) o : last_some (l ++ [o]) = match o with Some _ => o | None => last_some l end.
Proof. unfold last_some. rewrite fold_left_app. reflexivity. Qed.
Lemma elems_snoc n l i : elems_of n (l ++ [i]) = elems_of n l ++ elems_of n [i].
Proof. unfold elems_of. now rewrite flat_map_app. Qed.
Lemma entries_snoc n l i : entries_of n (l ++ [i]) = entries_of n l ++ entries_of n [i].
Proof. unfold entries_of. now rewrite flat_map_app. Qed.
Lemma direct_snoc n l i : direct_of n (l ++ [i]) = direct_of n l ++ direct_of n [i].
Proof. unfold direct_of. now rewrite flat_map_app. Qed.
Definition seq_part (es : list (option str * kserd)) : option (option str * list kserd) :=
  match es with [] => None | _ => Some (last_some (map fst es), map snd es) end.
Definition map_part (es : list (option str * (kserd * kserd))) : option (option str * list (kserd * kserd)) :=
  match es with [] => None | _ => Some (last_some (map fst es), bt_inserts k_cmp (map snd es)) end.
Lemma eqb_cmp a b : str_eqb b a = match str_cmp a b with Eq => true | _ => false end.
Proof.
  destruct (str_eqb b a) eqn:E.
  - apply str_eqb_eq in E. subst. now rewrite str_cmp_refl.
  - destruct (str_cmp a b) eqn:C; [|reflexivity|reflexivity]. apply str_cmp_eq in C. subst. rewrite (proj2 (str_eqb_eq b b) eq_refl) in E. discriminate.
Qed.
Lemma last_or {A} (l : list (option A)) id : or_else id (last_some l) = last_some (l ++ [id]).
Proof. rewrite last_some_snoc. destruct id; reflexivity. Qed.
Lemma steps_spec l : let st := fold_left vs_step l (mkVs [] [] [] None) in let its := map cf_item l in
  ascending str_cmp (vs_seqs st) = true /\ (forall n, bt_get str_cmp n (vs_seqs st) = seq_part (elems_of n its)) /\
  ascending str_cmp (vs_maps st) = true /\ (forall n, bt_get str_cmp n (vs_maps st) = map_part (entries_of n its)) /\
  ascending str_cmp (vs_fields st) = true /\ (forall n, bt_get str_cmp n (vs_fields st) = last_some (direct_of n its)) /\
  vs_id st = last_some (map (fun i => match i with It_id id => Some id | _ => None end) its).
Proof.
  induction l as [|f l IH] using rev_ind; cbv zeta in *; [repeat split; reflexivity|].
  rewrite fold_left_app, map_app. cbn [fold_left map]. set (st := fold_left vs_step l _) in *. set (its := map cf_item l) in *.
  destruct IH as (S1 & S2 & M1 & M2 & F1 & F2 & ID). rewrite map_app. cbn [map]. rewrite last_some_snoc, <- ID.
  assert (NE : forall n i, match i with It_elem _ _ _ => False | _ => True end -> elems_of n (its ++ [i]) = elems_of n its).
  { intros n i H. rewrite elems_snoc. destruct i; try contradiction; apply app_nil_r. }
  assert (NM : forall n i, match i with It_entry _ _ _ _ => False | _ => True end -> entries_of n (its ++ [i]) = entries_of n its).
  { intros n i H. rewrite entries_snoc. destruct i; try contradiction; apply app_nil_r. }
  assert (ND : forall n i, match i with It_field _ _ => False | _ => True end -> direct_of n (its ++ [i]) = direct_of n its).
  { intros n i H. rewrite direct_snoc. destruct i; try contradiction; apply app_nil_r. }
  assert (FD : forall name v n, bt_get str_cmp n (bt_insert str_cmp name v (vs_fields st)) = last_some (direct_of n (its ++ [It_field name v]))).
  { intros name v n. rewrite get_insert_str, F2 by assumption. rewrite direct_snoc. cbn [direct_of flat_map app]. rewrite eqb_cmp. destruct (str_cmp n name); rewrite ?app_nil_r; try reflexivity. now rewrite last_some_snoc. }
  destruct f as [id|name v|name v|id name v|id name k v]; cbn [vs_step cf_item vs_seqs vs_maps vs_fields vs_id].
  - repeat split; auto; intros n; rewrite ?NE, ?NM, ?ND by exact I; auto.
  - repeat split; auto; try (now apply insert_asc); intros n; rewrite ?NE, ?NM by exact I; auto.
  - repeat split; auto; try (now apply insert_asc); intros n; rewrite ?NE, ?NM by exact I; auto.
  - repeat split; auto; try (now apply update_asc); intros n; rewrite ?NM, ?ND by exact I; auto.
    rewrite get_update, !S2 by assumption. rewrite elems_snoc. cbn [elems_of flat_map app]. rewrite eqb_cmp. destruct (str_cmp n name) eqn:E; rewrite ?app_nil_r; try reflexivity.
    apply str_cmp_eq in E. subst n. unfold seq_part. destruct (elems_of name its) as [|e es] eqn:EE.
    + cbn [app map fst snd]. unfold last_some, or_else. cbn [fold_left]. now destruct id.
    + destruct ((e :: es) ++ [(id, v)]) eqn:X; [discriminate|]. rewrite <- X. rewrite !map_app. cbn [map fst snd]. now rewrite last_or.
  - repeat split; auto; try (now apply update_asc); intros n; rewrite ?NE, ?ND by exact I; auto.
    rewrite get_update, !M2 by assumption. rewrite entries_snoc. cbn [entries_of flat_map app]. rewrite eqb_cmp. destruct (str_cmp n name) eqn:E; rewrite ?app_nil_r; try reflexivity.
    apply str_cmp_eq in E. subst n. unfold map_part. destruct (entries_of name its) as [|e es] eqn:EE.
    + cbn [app map fst snd]. unfold last_some, or_else. cbn [fold_left]. now destruct id.
    + destruct ((e :: es) ++ [(id, (k, v))]) eqn:X; [discriminate|]. rewrite <- X. rewrite !map_app. cbn [map fst snd]. rewrite last_or, bt_inserts_snoc. reflexivity.
Qed.
Lemma last_binding_names (f : str -> kserd) k (l : list str) :
  last_binding str_cmp k (map (fun n => (n, f n)) l) = if existsb (str_eqb k) l then Some (f k) else None.
Proof.
  induction l as [|n l IH]; [reflexivity|]. cbn [map last_binding existsb fst snd]. rewrite IH. destruct (existsb (str_eqb k) l); [now rewrite orb_true_r|]. rewrite orb_false_r.
  destruct (str_cmp k n) eqn:E.
  - apply str_cmp_eq in E. subst. now rewrite (proj2 (str_eqb_eq n n) eq_refl).
  - destruct (str_eqb k n) eqn:X; [apply str_eqb_eq in X; subst; rewrite str_cmp_refl in E; discriminate|reflexivity].
  - destruct (str_eqb k n) eqn:X; [apply str_eqb_eq in X; subst; rewrite str_cmp_refl in E; discriminate|reflexivity].
Qed.
Lemma names_some k l : existsb (str_eqb k) (names l) =
  match entries_of k l, elems_of k l, direct_of k l with [], [], [] => false | _, _, _ => true end.
Proof.
  induction l as [|i l IH]; [reflexivity|].
  change (names (i :: l)) with ((match i with It_id _ => [] | It_field n _ | It_elem _ n _ | It_entry _ n _ _ => [n] end) ++ names l).
  assert (X1 : entries_of k (i :: l) = entries_of k [i] ++ entries_of k l) by (unfold entries_of; now rewrite <- flat_map_app).
  assert (X2 : elems_of k (i :: l) = elems_of k [i] ++ elems_of k l) by (unfold elems_of; now rewrite <- flat_map_app).
  assert (X3 : direct_of k (i :: l) = direct_of k [i] ++ direct_of k l) by (unfold direct_of; now rewrite <- flat_map_app).
  rewrite X1, X2, X3.
  rewrite existsb_app, IH.
  assert (SYM : forall a b, str_eqb a b = str_eqb b a). { intros a b. destruct (str_eqb a b) eqn:E; [apply str_eqb_eq in E; subst; symmetry; now apply str_eqb_eq|]. destruct (str_eqb b a) eqn:F; [|reflexivity]. apply str_eqb_eq in F. subst. rewrite (proj2 (str_eqb_eq a a) eq_refl) in E. discriminate. }
  destruct i as [id|n v|id n v|id n kk v]; cbn [entries_of elems_of direct_of flat_map app existsb]; rewrite ?orb_false_r; try reflexivity; rewrite (SYM k n); destruct (str_eqb n k); cbn [app orb];
    try reflexivity; destruct (entries_of k l); try reflexivity; destruct (elems_of k l); reflexivity.
Qed.
Lemma last_direct k l : direct_of k l <> [] -> exists v, last_some (direct_of k l) = Some v.
Proof.
  induction l as [|i l IH] using rev_ind; [intros H; now elim H|]. rewrite direct_snoc. destruct i as [id|n v|id n v|id n kk v]; cbn [direct_of flat_map app]; rewrite ?app_nil_r; auto.
  destruct (str_eqb n k); rewrite ?app_nil_r; auto. intros _. rewrite last_some_snoc. eauto.
Qed.
Theorem assemble_container l : assemble l = container (map cf_item l).
Proof.
  unfold assemble, container. destruct (steps_spec l) as (S1 & S2 & M1 & M2 & F1 & F2 & ID). set (st := fold_left vs_step l _) in *. set (its := map cf_item l) in *. rewrite ID. f_equal. f_equal.
  destruct (fold_inserts (fun x => Kserd (fst x) (VSeq (snd x))) (vs_seqs st) S1 (vs_fields st) F1) as [R1 R2]. set (f1 := fold_left _ (vs_seqs st) (vs_fields st)) in *.
  destruct (fold_inserts (fun x => Kserd (fst x) (VMap (snd x))) (vs_maps st) M1 f1 R1) as [T1 T2]. set (f2 := fold_left _ (vs_maps st) f1) in *.
  pose proof (bt_from_list_spec (V := kserd) (fun _ => True) str_cmp str_eqb str_lawful (fun a b _ _ => str_eqb_cmp a b) (map (fun n => (n, value_of n its)) (names its)) (keysP_true _)) as (_ & G1 & G2).
  apply sorted_ext; [exact T1|exact G1|]. intros k. unfold fields_of. rewrite (G2 k Logic.I), last_binding_names, names_some, T2, R2, M2, S2, F2. unfold value_of, map_part, seq_part.
  destruct (entries_of k its) as [|e es]; [|reflexivity]. destruct (elems_of k its) as [|e es]; [|reflexivity]. destruct (direct_of k its) eqn:D; [reflexivity|]. rewrite <- D.
  destruct (last_direct k its) as [v ->]; [congruence|reflexivity].
Qed.
