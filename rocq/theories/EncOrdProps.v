(** Proofs about the order of encoded values. *)
From Verif Require Import Base BaseProps F64 Number NumberProps BTree BTreeProps Value ValueSpec ValueProps Encode EncodeSpec EncodeProps EncodeProps2 EncodeProps4 EncOrdSpec.
Open Scope nat_scope.

Lemma ebind_inr {A B} (r : eres A) (f : A -> eres B) b : ebind r f = inr b -> exists a, r = inr a /\ f a = inr b.
Proof. destruct r; [discriminate|]. eauto. Qed.
Lemma e_with_id_inr id v k : e_with_id id v = inr k -> k = Kserd (Some id) v.
Proof. unfold e_with_id, with_id. destruct (existsb _ _); [discriminate|]. now intros [= <-]. Qed.
Lemma list_cmp_one {A} (f : A -> A -> comparison) x y : list_cmp f [x] [y] = f x y.
Proof. cbn [list_cmp]. now destruct (f x y). Qed.
Lemma int_order t a b : num_cmp (num_of_int t a) (num_of_int t b) = (a ?= b)%Z.
Proof. unfold num_of_int, num_cmp, num_cmp_res. now destruct (ntype_signed t). Qed.
Lemma inserts_fresh {K V} (cmp : K -> K -> comparison) (es : list (K * V)) : ForallOrdPairs (fun e f => cmp (fst f) (fst e) = Gt) es ->
  forall acc, Forall (fun a => Forall (fun e => cmp (fst e) (fst a) = Gt) es) acc -> fold_left (fun a e => bt_insert cmp (fst e) (snd e) a) es acc = acc ++ es.
Proof.
  induction 1 as [|e es H _ IH]; intros acc A; cbn [fold_left]; [now rewrite app_nil_r|].
  rewrite insert_snoc by (eapply Forall_impl; [|exact A]; intros a X; now inversion X). rewrite IH; [rewrite <- app_assoc; now destruct e|].
  apply Forall_app. split; [eapply Forall_impl; [|exact A]; intros a X; now inversion X|]. constructor; [|constructor]. exact H.
Qed.
Lemma ascending_pairs {K V} (P : K -> Prop) (cmp : K -> K -> comparison) (L : lawful P cmp) (m : list (K * V)) : Forall (fun e => P (fst e)) m -> ascending cmp m = true ->
  ForallOrdPairs (fun e f => cmp (fst f) (fst e) = Gt) m.
Proof.
  induction m as [|e m IH]; intros HP A; [constructor|]. apply (ascending_cons P cmp L) in A as [B A]; [|exact HP]. inversion HP as [|? ? He HP']; subst. constructor; [|now apply IH]. unfold below in B.
  rewrite Forall_forall in *. intros f Hf. rewrite (law_anti P cmp L (fst e) (fst f)), (B f Hf). reflexivity.
Qed.

Section Ordered.
  Context (E : decls) (AL : alphabetical E).
  Definition fine (t : ty) (d : data) : Prop := has_type E t d = true /\ has_ord d = true /\ no_variant d = true.
  Definition ord_at (d d' : data) : Prop := forall t a b, fine t d -> fine t d' -> enc E t d = inr a -> enc E t d' = inr b -> k_cmp a b = d_cmp d d'.
  Definition all_at (l l' : list data) : Prop := forall d d', In d l -> In d' l' -> ord_at d d'.
  Lemma all_order t l : forall l' ks ks', all_at l l' -> Forall (fine t) l -> Forall (fine t) l' -> enc_all (enc E t) l = inr ks -> enc_all (enc E t) l' = inr ks' ->
    list_cmp k_cmp ks ks' = list_cmp d_cmp l l'.
  Proof.
    induction l as [|d l IH]; intros [|d' l'] ks ks' H F F' E1 E2; cbn [enc_all] in E1, E2; fold (enc_all (enc E t)) in E1, E2.
    - injection E1 as <-. injection E2 as <-. reflexivity.
    - injection E1 as <-. apply ebind_inr in E2 as (a & _ & E2). apply ebind_inr in E2 as (b & _ & E2). injection E2 as <-. reflexivity.
    - injection E2 as <-. apply ebind_inr in E1 as (a & _ & E1). apply ebind_inr in E1 as (b & _ & E1). injection E1 as <-. reflexivity.
    - apply ebind_inr in E1 as (a & A & E1). apply ebind_inr in E1 as (b & B & E1). injection E1 as <-. apply ebind_inr in E2 as (a' & A' & E2). apply ebind_inr in E2 as (b' & B' & E2). injection E2 as <-.
      inversion F; subst. inversion F'; subst. cbn [list_cmp]. rewrite (H d d' (or_introl eq_refl) (or_introl eq_refl) t a a') by assumption. destruct (d_cmp d d'); try reflexivity.
      apply IH; auto. intros x y Hx Hy. apply H; now right.
  Qed.
  Lemma each_order l : forall ts l' ks ks', all_at l l' -> each_of (has_type E) ts l = true -> each_of (has_type E) ts l' = true -> forallb has_ord l = true -> forallb has_ord l' = true ->
    forallb no_variant l = true -> forallb no_variant l' = true -> enc_each (enc E) ts l = inr ks -> enc_each (enc E) ts l' = inr ks' -> list_cmp k_cmp ks ks' = list_cmp d_cmp l l'.
  Proof.
    induction l as [|d l IH]; intros [|t ts] [|d' l'] ks ks' H T T' O O' V V' E1 E2; cbn [enc_each] in E1, E2; try discriminate; fold (enc_each (enc E)) in E1, E2.
    - injection E1 as <-. injection E2 as <-. reflexivity.
    - apply ebind_inr in E1 as (a & A & E1). apply ebind_inr in E1 as (b & B & E1). injection E1 as <-. apply ebind_inr in E2 as (a' & A' & E2). apply ebind_inr in E2 as (b' & B' & E2). injection E2 as <-.
      cbn [each_of forallb] in *. apply andb_true_iff in T as [T1 T], T' as [T1' T'], O as [O1 O], O' as [O1' O'], V as [V1 V], V' as [V1' V'].
      cbn [list_cmp]. rewrite (H d d' (or_introl eq_refl) (or_introl eq_refl) t a a') by (first [assumption | split; [assumption|split; assumption]]). destruct (d_cmp d d'); try reflexivity.
      apply (IH ts); auto. intros x y Hx Hy. apply H; now right.
  Qed.
  Lemma enc_each_length ts : forall l ks, enc_each (enc E) ts l = inr ks -> length ts = length ks.
  Proof.
    induction ts as [|t ts IH]; intros [|d l] ks H; cbn [enc_each] in H; try discriminate; fold (enc_each (enc E)) in H; [now injection H as <-|].
    apply ebind_inr in H as (a & _ & H). apply ebind_inr in H as (b & B & H). injection H as <-. cbn [length]. f_equal. now apply (IH l).
  Qed.
  Lemma names_order (names : list str) : forall ks ks', length names = length ks -> length names = length ks' ->
    list_cmp (fun e f => match str_cmp (fst e) (fst f) with Eq => k_cmp (snd e) (snd f) | c => c end) (combine names ks) (combine names ks') = list_cmp k_cmp ks ks'.
  Proof.
    induction names as [|n names IH]; intros [|k ks] [|k' ks'] L L'; try discriminate; [reflexivity|]. cbn [combine list_cmp fst snd].
    rewrite (proj2 (str_cmp_eq n n) eq_refl). destruct (k_cmp k k'); try reflexivity. apply IH; [now injection L|now injection L'].
  Qed.
  Lemma fields_encoded fs l m : ascending str_cmp fs = true -> enc_fields (enc E) fs l [] = inr m -> exists ks, enc_each (enc E) (map snd fs) l = inr ks /\ m = combine (map fst fs) ks.
  Proof.
    intros A H. assert (X : exists ks, enc_each (enc E) (map snd fs) l = inr ks).
    { clear A. revert l H. generalize (@nil (str * kserd)). induction fs as [|[n t] fs IH]; intros acc [|d l] H; cbn [enc_fields] in H; try discriminate; cbn [map snd enc_each]; [eauto|].
      fold (enc_fields (enc E)) in H. fold (enc_each (enc E)). apply ebind_inr in H as (k & K & H). rewrite K. cbn [ebind]. destruct (IH _ l H) as (ks & ->). cbn [ebind]. eauto. }
    destruct X as (ks & X). exists ks. split; [exact X|]. rewrite (fields_insert E fs l ks [] X) in H. injection H as <-. apply inserts_fresh; [|constructor].
    apply enc_each_length in X. rewrite map_length in X. apply (ascending_pairs _ _ str_lawful) in A; [|apply Forall_forall; auto].
    revert ks X. induction A as [|e fs H _ IH]; intros [|k ks] X; try discriminate; cbn [map combine]; constructor; [|apply IH; now injection X].
    rewrite Forall_forall in *. intros [n j] I. apply in_combine_l in I. apply in_map_iff in I as (f & <- & I). cbn [fst]. now apply H.
  Qed.
  Definition keyed (kt vt : ty) (e : data * data) (f : kserd * kserd) : Prop := enc E kt (fst e) = inr (fst f) /\ enc E vt (snd e) = inr (snd f).
  Lemma entries_insert kt vt m : forall acc r, enc_entries (enc E kt) (enc E vt) m acc = inr r -> exists es, Forall2 (keyed kt vt) m es /\ r = fold_left (fun a e => bt_insert k_cmp (fst e) (snd e) a) es acc.
  Proof.
    induction m as [|[d e] m IH]; intros acc r H; cbn [enc_entries] in H; [injection H as <-; exists []; split; [constructor|reflexivity]|]. fold (enc_entries (enc E kt) (enc E vt)) in H.
    apply ebind_inr in H as (k & K & H). apply ebind_inr in H as (v & V & H). destruct (IH _ _ H) as (es & F & ->). exists ((k, v) :: es). split; [constructor; [split; assumption|exact F]|reflexivity].
  Qed.
  Lemma entries_encoded kt vt m r : all_at (map fst m) (map fst m) -> Forall (fun e => fine kt (fst e)) m -> ascending d_cmp m = true -> enc_entries (enc E kt) (enc E vt) m [] = inr r -> Forall2 (keyed kt vt) m r.
  Proof.
    intros O F A H. apply entries_insert in H as (es & H & ->). rewrite inserts_fresh; [exact H| |constructor].
    apply (ascending_pairs _ _ d_lawful) in A; [|apply Forall_forall; auto].
    revert A O F. induction H as [|e f m es [K _] H IH]; intros A O F; [constructor|]. inversion A as [|? ? A1 A2]; subst. inversion F as [|? ? F1 F2]; subst. constructor.
    - rewrite Forall_forall in *. intros g Hg. assert (X : exists e', In e' m /\ keyed kt vt e' g) by (clear - H Hg; induction H; [destruct Hg|]; destruct Hg as [<-|Hg]; [eexists; split; [now left|assumption]|]; destruct (IHForall2 Hg) as (e' & I & Q); exists e'; split; [now right|exact Q]).
      destruct X as (e' & I & [K' _]). rewrite (O (fst e') (fst e) (or_intror (in_map fst _ _ I)) (or_introl eq_refl) kt (fst g) (fst f)); auto.
    - apply IH; auto. intros x y Hx Hy. apply O; now right.
  Qed.
  Lemma entries_order kt vt m : forall m' r r', all_at (map fst m) (map fst m') -> all_at (map snd m) (map snd m') ->
    Forall (fun e => fine kt (fst e) /\ fine vt (snd e)) m -> Forall (fun e => fine kt (fst e) /\ fine vt (snd e)) m' -> Forall2 (keyed kt vt) m r -> Forall2 (keyed kt vt) m' r' ->
    list_cmp (fun e f => match k_cmp (fst e) (fst f) with Eq => k_cmp (snd e) (snd f) | c => c end) r r' =
    list_cmp (fun e f => match d_cmp (fst e) (fst f) with Eq => d_cmp (snd e) (snd f) | c => c end) m m'.
  Proof.
    induction m as [|e m IH]; intros [|e' m'] r r' O1 O2 F F' H H'; inversion H as [|? f ? rr [K1 K2] H0]; inversion H' as [|? f' ? rr' [K1' K2'] H0']; subst; try reflexivity.
    inversion F as [|? ? [F1 F2] F3]; inversion F' as [|? ? [F1' F2'] F3']; subst. cbn [list_cmp].
    rewrite (O1 (fst e) (fst e') (or_introl eq_refl) (or_introl eq_refl) kt (fst f) (fst f')), (O2 (snd e) (snd e') (or_introl eq_refl) (or_introl eq_refl) vt (snd f) (snd f')) by assumption.
    rewrite (IH m' rr rr'); auto; intros x y Hx Hy; [apply O1|apply O2]; now right.
  Qed.
  Lemma order_at n : forall d d', dsize d < n -> dsize d' < n -> ord_at d d'.
  Proof.
    induction n as [|n IH]; intros d d' L L' t a b (T & O & V) (T' & O' & V') E1 E2; [lia|].
    assert (AL1 : forall l l' : list data, list_sum (map dsize l) < n -> list_sum (map dsize l') < n -> all_at l l').
    { intros l l' X X' x y Hx Hy. apply IH; [pose proof (sum_in l x Hx)|pose proof (sum_in l' y Hy)]; lia. }
    destruct t as [| |nt| | | | | |t|ts|t|kt vt|q], d as [|v|z|x|x3|c|u|y| |d|l|m|d|l|i d]; try discriminate; destruct d' as [|v'|z'|x'|x3'|c'|u'|y'| |d'|l'|m'|d'|l'|i' d']; try discriminate; cbn [enc] in E1, E2; cbn [has_type has_ord no_variant dsize] in *;
      try (revert T T' E1 E2; destruct (E q) as [nm|nm t|nm ts|nm fs|vs] eqn:Q; intros T T' E1 E2; try discriminate).
    - injection E1 as <-. injection E2 as <-. reflexivity.
    - injection E1 as <-. injection E2 as <-. reflexivity.
    - injection E1 as <-. injection E2 as <-. apply int_order.
    - injection E1 as <-. injection E2 as <-. apply (list_cmp_one N.compare).
    - injection E1 as <-. injection E2 as <-. reflexivity.
    - injection E1 as <-. injection E2 as <-. reflexivity.
    - injection E1 as <-. injection E2 as <-. reflexivity.
    - injection E1 as <-. apply ebind_inr in E2 as (k & _ & E2). injection E2 as <-. reflexivity.
    - injection E2 as <-. apply ebind_inr in E1 as (k & _ & E1). injection E1 as <-. reflexivity.
    - apply ebind_inr in E1 as (k & K & E1). injection E1 as <-. apply ebind_inr in E2 as (k' & K' & E2). injection E2 as <-. cbn [k_cmp kval with_id_unchk d_cmp]. rewrite list_cmp_one. apply (IH d d' ltac:(lia) ltac:(lia) t); try assumption; repeat split; assumption.
    - apply ebind_inr in E1 as (k & K & E1). injection E1 as <-. apply ebind_inr in E2 as (k' & K' & E2). injection E2 as <-. apply (each_order l ts l' k k'); try assumption. apply AL1; lia.
    - apply ebind_inr in E1 as (k & K & E1). injection E1 as <-. apply ebind_inr in E2 as (k' & K' & E2). injection E2 as <-. apply (all_order t l l' k k'); try assumption; [apply AL1; lia| |];
        rewrite forallb_forall in *; apply Forall_forall; intros x Hx; repeat split; auto.
    - apply ebind_inr in E1 as (k & K & E1). injection E1 as <-. apply ebind_inr in E2 as (k' & K' & E2). injection E2 as <-. apply andb_true_iff in T as [T S], T' as [T' S'].
      assert (FN : forall (m : list (data * data)), forallb (fun e => has_type E kt (fst e) && has_ord (fst e) && has_type E vt (snd e)) m = true -> forallb (fun e => has_ord (fst e) && has_ord (snd e)) m = true ->
        forallb (fun e => no_variant (fst e) && no_variant (snd e)) m = true -> Forall (fun e => fine kt (fst e) /\ fine vt (snd e)) m).
      { clear. intros m A B C. rewrite forallb_forall in *. apply Forall_forall. intros e He. specialize (A e He). specialize (B e He). specialize (C e He). rewrite !andb_true_iff in *. unfold fine. tauto. }
      assert (SZ : forall (m m' : list (data * data)), list_sum (map (fun e => dsize (fst e) + dsize (snd e)) m) < n -> list_sum (map (fun e => dsize (fst e) + dsize (snd e)) m') < n -> all_at (map fst m) (map fst m') /\ all_at (map snd m) (map snd m')).
      { intros p p' X X'. split; intros x y Hx Hy; apply in_map_iff in Hx as (e & <- & He), Hy as (f & <- & Hf); apply IH; pose proof (sum_entry p e He); pose proof (sum_entry p' f Hf); lia. }
      pose proof (FN m T O V) as F. pose proof (FN m' T' O' V') as F'.
      assert (KM : Forall2 (keyed kt vt) m k). { apply entries_encoded; auto; [apply SZ; lia|]. eapply Forall_impl; [|exact F]. intros e [H _]. exact H. }
      assert (KM' : Forall2 (keyed kt vt) m' k'). { apply entries_encoded; auto; [apply SZ; lia|]. eapply Forall_impl; [|exact F']. intros e [H _]. exact H. }
      destruct (SZ m m' ltac:(lia) ltac:(lia)) as [O1 O2]. exact (entries_order kt vt m m' k k' O1 O2 F F' KM KM').
    - apply e_with_id_inr in E1, E2. subst. reflexivity.
    - apply ebind_inr in E1 as (k & K & E1). apply ebind_inr in E1 as (l1 & K1 & E1). injection E1 as <-. apply ebind_inr in E2 as (k' & K' & E2). apply ebind_inr in E2 as (l2 & K2 & E2). injection E2 as <-.
      apply (each_order l ts l' l1 l2); try assumption. apply AL1; lia.
    - apply ebind_inr in E1 as (k & K & E1). apply e_with_id_inr in E1. apply ebind_inr in E2 as (k' & K' & E2). apply e_with_id_inr in E2. subst. cbn [k_cmp kval d_cmp]. rewrite list_cmp_one. apply (IH d d' ltac:(lia) ltac:(lia) t); try assumption; repeat split; assumption.
    - apply ebind_inr in E1 as (k & K & E1). apply ebind_inr in E1 as (l1 & K1 & E1). injection E1 as <-. apply ebind_inr in E2 as (k' & K' & E2). apply ebind_inr in E2 as (l2 & K2 & E2). injection E2 as <-.
      pose proof (AL q nm fs Q) as A. destruct (fields_encoded fs l l1 A K1) as (ks & X & ->). destruct (fields_encoded fs l' l2 A K2) as (ks' & X' & ->).
      cbn [k_cmp kval d_cmp]. rewrite names_order by (rewrite map_length; apply enc_each_length in X, X'; rewrite map_length in X, X'; assumption).
      apply (each_order l (map snd fs) l' ks ks'); try assumption. apply AL1; lia.
  Qed.
  Theorem order_kept t d d' a b : fine t d -> fine t d' -> enc E t d = inr a -> enc E t d' = inr b -> k_cmp a b = d_cmp d d'.
  Proof. apply (order_at (S (dsize d + dsize d'))); lia. Qed.
End Ordered.

Lemma list_cmp_same {A} (f : A -> A -> comparison) (P : A -> Prop) l : Forall (fun x => forall y, P x -> f x y = Eq -> x = y) l -> Forall P l -> forall l', list_cmp f l l' = Eq -> l = l'.
Proof.
  induction 1 as [|x l H _ IH]; intros F [|y l'] E; cbn [list_cmp] in E; try discriminate; [reflexivity|]. inversion F; subst.
  destruct (f x y) eqn:X; try discriminate. rewrite (H y); auto. f_equal. auto.
Qed.
Lemma d_cmp_same d : forall d', has_ord d = true -> d_cmp d d' = Eq -> d = d'.
Proof.
  induction d using data_ind'; intros d' O E; rewrite d_cmp_unfold in E;
    match type of E with match (?a ?= ?b)%N with _ => _ end = _ => destruct (N.compare_spec a b) as [X| |]; try discriminate end;
    destruct d'; try discriminate; cbn [dsame_cmp has_ord] in *; try reflexivity.
  - destruct b, b0; try discriminate; reflexivity.
  - now apply Z.compare_eq in E as ->.
  - now apply N.compare_eq in E as ->.
  - now apply str_cmp_eq in E as ->.
  - f_equal. clear X. revert b0 E. cbn [has_ord] in O. clear O. induction b as [|c b IH]; intros [|c' b'] E; cbn in E; try discriminate; [reflexivity|].
    destruct (N.compare_spec c c'); try discriminate. subst. f_equal. now apply IH.
  - f_equal. now apply IHd.
  - f_equal. rewrite forallb_forall in O. eapply (list_cmp_same d_cmp (fun x => has_ord x = true)); [|apply Forall_forall; exact O|exact E]. eapply Forall_impl; [|exact H]. intros x Y y. apply Y.
  - f_equal. rewrite forallb_forall in O. eapply (list_cmp_same _ (fun e => has_ord (fst e) && has_ord (snd e) = true)); [|apply Forall_forall; exact O|exact E].
    eapply Forall_impl; [|exact H]. intros [x1 x2] [Y1 Y2] [y1 y2] Z C. cbn [fst snd] in *. apply andb_true_iff in Z as [Z1 Z2]. destruct (d_cmp x1 y1) eqn:C1; try discriminate. f_equal; auto.
  - f_equal. now apply IHd.
  - f_equal. rewrite forallb_forall in O. eapply (list_cmp_same d_cmp (fun x => has_ord x = true)); [|apply Forall_forall; exact O|exact E]. eapply Forall_impl; [|exact H]. intros x Y y. apply Y.
  - destruct (Nat.compare_spec i i0); try discriminate. subst. f_equal. now apply IHd.
Qed.
Lemma fine_keys E kt vt m : has_type E (TyMap kt vt) (DMap m) = true -> forallb no_variant (map fst m) = true -> Forall (fun e => fine E kt (fst e)) m.
Proof.
  cbn [has_type]. intros T V. apply andb_true_iff in T as [T _]. rewrite forallb_forall in *. apply Forall_forall. intros e I. specialize (T e I). specialize (V (fst e) (in_map fst m e I)). rewrite !andb_true_iff in T. unfold fine. tauto.
Qed.
Theorem map_kept E (AL : alphabetical E) kt vt m k : has_type E (TyMap kt vt) (DMap m) = true -> forallb no_variant (map fst m) = true -> enc E (TyMap kt vt) (DMap m) = inr k ->
  exists es, kval k = VMap es /\ Forall2 (fun e f => enc E kt (fst e) = inr (fst f) /\ enc E vt (snd e) = inr (snd f)) m es.
Proof.
  intros T V H. pose proof (fine_keys E kt vt m T V) as F. cbn [has_type enc] in *. apply andb_true_iff in T as [_ T]. apply ebind_inr in H as (r & R & H). injection H as <-. exists r. split; [reflexivity|].
  apply (entries_encoded E kt vt m r); auto. intros x y _ _. apply (order_at E AL (S (dsize x + dsize y))); lia.
Qed.
