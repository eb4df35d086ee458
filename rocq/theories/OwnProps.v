(** Ownership changes no content, and decoding depends on it only for references. *)
From Verif Require Import Base BaseProps F64 F32 Number BTree Value ValueSpec ValueProps ValueProps2 Encode Own OwnSpec.
Open Scope N_scope.

(** ** induction *)
Definition ochildren (v : ovalue okserd) : list okserd :=
  match v with OTuple l | OSeq l => l | OCntr m => map snd m | OMap m => entry_list m | _ => [] end.
Lemma okserd_ind' (P : okserd -> Prop) : (forall id v, Forall P (ochildren v) -> P (OKserd id v)) -> forall k, P k.
Proof.
  intros H. fix IH 1. intros [id v]. apply H.
  destruct v as [| | | | |l|m|l|m]; try exact (@Forall_nil _ P).
  - exact ((fix go l : Forall P l := match l with [] => Forall_nil P | x :: l' => Forall_cons x (IH x) (go l') end) l).
  - exact ((fix go m : Forall P (map snd m) := match m with [] => Forall_nil P | (a, x) :: m' => Forall_cons x (IH x) (go m') end) m).
  - exact ((fix go l : Forall P l := match l with [] => Forall_nil P | x :: l' => Forall_cons x (IH x) (go l') end) l).
  - exact ((fix go m : Forall P (entry_list m) := match m with
       | [] => Forall_nil P | (a, x) :: m' => Forall_cons a (IH a) (Forall_cons x (IH x) (go m')) end) m).
Qed.

(** ** maps *)
Lemma inserts_map {K V K' V'} (c : K -> K -> comparison) (c' : K' -> K' -> comparison) (f : K -> K') (g : V -> V') :
  (forall a b, c a b = c' (f a) (f b)) -> forall l,
  map (fun e => (f (fst e), g (snd e))) (bt_inserts c l) = bt_inserts c' (map (fun e => (f (fst e), g (snd e))) l).
Proof.
  intros H l. unfold bt_inserts.
  assert (I : forall k v m, map (fun e => (f (fst e), g (snd e))) (bt_insert c k v m) = bt_insert c' (f k) (g v) (map (fun e => (f (fst e), g (snd e))) m)).
  { intros k v m. induction m as [|[k' v'] m IH]; [reflexivity|]. cbn [bt_insert map fst snd]. rewrite <- H. destruct (c k k'); cbn [map fst snd]; [reflexivity|reflexivity|now rewrite IH]. }
  assert (G : forall acc, map (fun e => (f (fst e), g (snd e))) (fold_left (fun m e => bt_insert c (fst e) (snd e) m) l acc)
    = fold_left (fun m e => bt_insert c' (fst e) (snd e) m) (map (fun e => (f (fst e), g (snd e))) l) (map (fun e => (f (fst e), g (snd e))) acc)).
  { induction l as [|e l IH]; intros acc; [reflexivity|]. cbn [fold_left map]. now rewrite IH, I. }
  exact (G []).
Qed.
Lemma inserts_forallb {K V} (c : K -> K -> comparison) (p : K * V -> bool) :
  (forall k v k' v', p (k, v) = true -> p (k', v') = true -> p (k', v) = true) ->
  forall l, forallb p l = true -> forallb p (bt_inserts c l) = true.
Proof.
  intros H l. unfold bt_inserts.
  assert (I : forall k v m, p (k, v) = true -> forallb p m = true -> forallb p (bt_insert c k v m) = true).
  { intros k v m A. induction m as [|[k' v'] m IH]; intros B; [cbn; now rewrite A|]. cbn [bt_insert forallb] in *. pose proof B as B0. apply andb_true_iff in B as [B1 B2].
    destruct (c k k'); cbn [forallb]; [rewrite (H k v k' v' A B1); exact B2|now rewrite A, B1, B2|now rewrite B1, IH]. }
  assert (G : forall acc, forallb p acc = true -> forallb p l = true -> forallb p (fold_left (fun m e => bt_insert c (fst e) (snd e) m) l acc) = true).
  { induction l as [|[k v] l IH]; intros acc A L; [exact A|]. cbn [forallb] in L. apply andb_true_iff in L as [L1 L2]. cbn [fold_left]. apply IH; [|exact L2]. now apply I. }
  now apply G.
Qed.
Lemma map_map_eq {A B C D} (f : A -> B) (g : B -> C) (h : A -> D) (i : D -> C) l : Forall (fun x => g (f x) = i (h x)) l -> map g (map f l) = map i (map h l).
Proof. induction 1 as [|x l E F IH]; [reflexivity|]. cbn [map]. now rewrite E, IH. Qed.

Lemma into_owned_content k : content (o_into_owned k) = into_owned (content k).
Proof.
  induction k as [id v IH] using okserd_ind'. cbn [o_into_owned content into_owned]. f_equal; [now destruct id|].
  destruct v as [| | | | |l|m|l|m]; cbn [ochildren] in IH; try reflexivity; f_equal.
  - now apply map_map_eq.
  - rewrite (inserts_map ostr_cmp str_cmp cow_get content) by reflexivity. f_equal. apply Forall_map_snd in IH. apply map_map_eq.
    eapply Forall_impl; [|exact IH]. intros [n x] E. cbn [fst snd cow_into_owned cow_get] in *. now rewrite E.
  - now apply map_map_eq.
  - rewrite (inserts_map o_cmp k_cmp content content) by reflexivity. f_equal. apply Forall_entries in IH. apply map_map_eq.
    eapply Forall_impl; [|exact IH]. intros [n x] [E F]. cbn [fst snd] in *. now rewrite E, F.
Qed.
Lemma mk_brw_content k : content (o_mk_brw k) = mk_brw (content k).
Proof.
  induction k as [id v IH] using okserd_ind'. cbn [o_mk_brw content mk_brw]. f_equal; [now destruct id|].
  destruct v as [| | | | |l|m|l|m]; cbn [ochildren] in IH; try reflexivity; f_equal.
  - now apply map_map_eq.
  - rewrite (inserts_map ostr_cmp str_cmp cow_get content) by reflexivity. f_equal. apply Forall_map_snd in IH. apply map_map_eq.
    eapply Forall_impl; [|exact IH]. intros [n x] E. cbn [fst snd cow_get] in *. now rewrite E.
  - now apply map_map_eq.
  - rewrite (inserts_map o_cmp k_cmp content content) by reflexivity. f_equal. apply Forall_entries in IH. apply map_map_eq.
    eapply Forall_impl; [|exact IH]. intros [n x] [E F]. cbn [fst snd] in *. now rewrite E, F.
Qed.
Lemma forallb_map_Forall {A B} (p : B -> bool) (f : A -> B) l : Forall (fun x => p (f x) = true) l -> forallb p (map f l) = true.
Proof. induction 1 as [|x l E F IH]; [reflexivity|]. cbn [map forallb]. now rewrite E. Qed.
Lemma into_owned_owned k : all_owned (o_into_owned k) = true.
Proof.
  unfold all_owned. induction k as [id v IH] using okserd_ind'. cbn [o_into_owned o_texts]. apply andb_true_iff. split; [now destruct id|].
  destruct v as [| | | | |l|m|l|m]; cbn [ochildren] in IH; try reflexivity.
  - now apply forallb_map_Forall.
  - apply inserts_forallb.
    + intros a v a' v' A B. cbn [fst snd] in *. apply andb_true_iff in A as [_ A]. apply andb_true_iff in B as [B _]. now rewrite A, B.
    + apply forallb_map_Forall. apply Forall_map_snd in IH. eapply Forall_impl; [|exact IH]. intros [n x] E. cbn [fst snd is_owned cow_into_owned] in *. exact E.
  - now apply forallb_map_Forall.
  - apply inserts_forallb.
    + intros a v a' v' A B. cbn [fst snd] in *. apply andb_true_iff in A as [_ A]. apply andb_true_iff in B as [B _]. now rewrite A, B.
    + apply forallb_map_Forall. apply Forall_entries in IH. eapply Forall_impl; [|exact IH]. intros [n x] [E F]. cbn [fst snd] in *. now rewrite E, F.
Qed.
Lemma mk_brw_brwed k : all_brwed (o_mk_brw k) = true.
Proof.
  unfold all_brwed. induction k as [id v IH] using okserd_ind'. cbn [o_mk_brw o_texts]. apply andb_true_iff. split; [now destruct id|].
  destruct v as [| | | | |l|m|l|m]; cbn [ochildren] in IH; try reflexivity.
  - now apply forallb_map_Forall.
  - apply inserts_forallb.
    + intros a v a' v' A B. cbn [fst snd] in *. apply andb_true_iff in A as [_ A]. apply andb_true_iff in B as [B _]. now rewrite A, B.
    + apply forallb_map_Forall. apply Forall_map_snd in IH. eapply Forall_impl; [|exact IH]. intros [n x] E. cbn [fst snd is_brwed is_owned negb] in *. exact E.
  - now apply forallb_map_Forall.
  - apply inserts_forallb.
    + intros a v a' v' A B. cbn [fst snd] in *. apply andb_true_iff in A as [_ A]. apply andb_true_iff in B as [B _]. now rewrite A, B.
    + apply forallb_map_Forall. apply Forall_entries in IH. eapply Forall_impl; [|exact IH]. intros [n x] [E F]. cbn [fst snd] in *. now rewrite E, F.
Qed.
Lemma map_id_ext {A} (f : A -> A) l : Forall (fun x => f x = x) l -> map f l = l.
Proof. induction 1 as [|x l E F IH]; [reflexivity|]. cbn [map]. now rewrite E, IH. Qed.
Lemma o_clone_id k : o_clone k = k.
Proof.
  induction k as [id v IH] using okserd_ind'. cbn [o_clone]. f_equal; [now destruct id|].
  destruct v as [| | | | |l|m|l|m]; cbn [ochildren] in IH; try reflexivity; f_equal.
  - now apply map_id_ext.
  - apply map_id_ext. apply Forall_map_snd in IH. eapply Forall_impl; [|exact IH]. intros [n x] E. cbn [fst snd] in *. now rewrite E.
  - now apply map_id_ext.
  - apply map_id_ext. apply Forall_entries in IH. eapply Forall_impl; [|exact IH]. intros [n x] [E F]. cbn [fst snd] in *. now rewrite E, F.
Qed.

Lemma read_owned_content k : content (read_owned k) = k.
Proof.
  induction k as [id v IH] using kserd_ind'. cbn [read_owned content]. f_equal; [now destruct id|].
  destruct v as [| | | | |l|m|l|m]; cbn [vchildren] in IH; try reflexivity; f_equal; rewrite map_map; apply map_id_ext.
  - exact IH.
  - apply Forall_map_snd in IH. eapply Forall_impl; [|exact IH]. intros [n x] E. cbn [fst snd cow_get] in *. now rewrite E.
  - exact IH.
  - apply Forall_entries in IH. eapply Forall_impl; [|exact IH]. intros [n x] [E F]. cbn [fst snd] in *. now rewrite E, F.
Qed.
Lemma enc_owned_content k : content (enc_owned k) = k.
Proof.
  induction k as [id v IH] using kserd_ind'. cbn [enc_owned content]. f_equal.
  { destruct id as [i|]; [|reflexivity]. cbn [option_map]. f_equal. unfold enc_id. destruct v; try reflexivity; now destruct (str_eqb _ _). }
  destruct v as [| | | | |l|m|l|m]; cbn [vchildren] in IH; try reflexivity; f_equal; rewrite map_map; apply map_id_ext.
  - exact IH.
  - apply Forall_map_snd in IH. eapply Forall_impl; [|exact IH]. intros [n x] E. cbn [fst snd cow_get] in *. now rewrite E.
  - exact IH.
  - apply Forall_entries in IH. eapply Forall_impl; [|exact IH]. intros [n x] [E F]. cbn [fst snd] in *. now rewrite E, F.
Qed.
Lemma forallb_mapF {A B} (p : B -> bool) (q : A -> bool) (f : A -> B) l : Forall (fun x => q x = true -> p (f x) = true) l -> forallb q l = true -> forallb p (map f l) = true.
Proof. induction 1 as [|x l E F IH]; [reflexivity|]. cbn [map forallb]. rewrite !andb_true_iff. intros [A1 A2]. auto. Qed.
Lemma read_owned_brwed k : no_bytes k = true -> data_brwed (read_owned k) = true.
Proof.
  induction k as [id v IH] using kserd_ind'. cbn [read_owned data_brwed no_bytes].
  destruct v as [| | | | |l|m|l|m]; cbn [vchildren] in IH; try reflexivity; try discriminate; apply forallb_mapF.
  - exact IH.
  - apply Forall_map_snd in IH. eapply Forall_impl; [|exact IH]. intros [n x] E. cbn [fst snd] in *. exact E.
  - exact IH.
  - apply Forall_entries in IH. eapply Forall_impl; [|exact IH]. intros [n x] [E F]. cbn [fst snd] in *. rewrite !andb_true_iff. intros [A B]. auto.
Qed.
Lemma all_data_brwed k : all_brwed k = true -> data_brwed k = true.
Proof.
  unfold all_brwed. induction k as [id v IH] using okserd_ind'. cbn [o_texts data_brwed]. rewrite andb_true_iff. intros [_ H].
  destruct v as [| | | | |l|m|l|m]; cbn [ochildren] in IH; try reflexivity; try exact H; rewrite forallb_forall in *; intros x I; specialize (H x I).
  - rewrite Forall_forall in IH. auto.
  - apply Forall_map_snd in IH. rewrite Forall_forall in IH. apply andb_true_iff in H as [_ H]. now apply IH.
  - rewrite Forall_forall in IH. auto.
  - apply Forall_entries in IH. rewrite Forall_forall in IH. apply andb_true_iff in H as [H1 H2]. apply andb_true_iff. split; now apply IH.
Qed.
