(** Proofs about encoding and decoding: encoding always gives a Kserd which is
    in order; keys which are not apart cost entries. *)
From Verif Require Import Base BaseProps F64 F32 F32Spec F32Props Number NumberSpec NumberProps BTree BTreeProps Value ValueSpec ValueProps ValueProps2 RtProps6 Encode EncodeSpec EncodeProps EncodeProps2 EncodeProps3 EncodeProps4.
From Coq Require Import Permutation.
Open Scope N_scope.

Lemma keys_fold {K V} (P : K -> Prop) (Q : V -> Prop) (cmp : K -> K -> comparison) : forall (l acc : list (K * V)),
  Forall (fun e => P (fst e) /\ Q (snd e)) acc -> Forall (fun e => P (fst e) /\ Q (snd e)) l ->
  Forall (fun e => P (fst e) /\ Q (snd e)) (fold_left (fun a e => bt_insert cmp (fst e) (snd e) a) l acc).
Proof.
  induction l as [|[k v] l IH]; intros acc A L; [exact A|]. inversion L as [|? ? [L1 L2] L3]; subst. cbn [fold_left fst snd] in *. apply IH; [|exact L3].
  clear -A L1 L2. induction A as [|[k' v'] acc [H1 H2] A IH]; cbn [bt_insert fst snd] in *; [now repeat constructor|].
  destruct (cmp k k'); repeat (constructor; try assumption); cbn [fst snd]; auto.
Qed.

Section Valid.
  Context (E : decls) (W : id_decls E).
  Definition val_ok (d : data) : Prop := forall t, has_type E t d = true -> exists k, enc E t d = inr k /\ ok (has_ord d) k.

  Lemma each_valid l : Forall val_ok l -> forall ts, each_of (has_type E) ts l = true -> exists ks, enc_each (enc E) ts l = inr ks /\ Forall (ok (forallb has_ord l)) ks.
  Proof.
    induction 1 as [|d l H HF IH]; intros [|t ts] T; try discriminate; [exists []; repeat constructor|].
    cbn [each_of] in T. apply andb_true_iff in T as [T1 T2]. destruct (H t T1) as (k & E1 & O1). destruct (IH ts T2) as (ks & E2 & O2).
    exists (k :: ks). cbn [enc_each]. rewrite E1. cbn [ebind]. fold (enc_each (enc E)). rewrite E2. cbn [ebind forallb]. split; [reflexivity|].
    constructor; [|eapply Forall_impl; [|exact O2]; intros a]; [refine (ok_weaken _ _ _ _ O1)|apply ok_weaken]; intros X; apply andb_true_iff in X; tauto.
  Qed.
  Lemma vec_valid l : Forall val_ok l -> forall t, forallb (has_type E t) l = true -> exists ks, enc_all (enc E t) l = inr ks /\ Forall (ok (forallb has_ord l)) ks.
  Proof.
    induction 1 as [|d l H HF IH]; intros t T; [exists []; repeat constructor|].
    cbn [forallb] in T. apply andb_true_iff in T as [T1 T2]. destruct (H t T1) as (k & E1 & O1). destruct (IH t T2) as (ks & E2 & O2).
    exists (k :: ks). cbn [enc_all]. rewrite E1. cbn [ebind]. fold (enc_all (enc E t)). rewrite E2. cbn [ebind forallb]. split; [reflexivity|].
    constructor; [|eapply Forall_impl; [|exact O2]; intros a]; [refine (ok_weaken _ _ _ _ O1)|apply ok_weaken]; intros X; apply andb_true_iff in X; tauto.
  Qed.
  Lemma fields_valid fs l : Forall val_ok l -> each_of (has_type E) (map snd fs) l = true ->
    exists m, enc_fields (enc E) fs l [] = inr m /\ ascending str_cmp m = true /\ Forall (fun e => ok (forallb has_ord l) (snd e)) m.
  Proof.
    intros H T. destruct (each_valid l H _ T) as (ks & E1 & O1). eexists. split; [exact (fields_insert E fs l ks [] E1)|].
    split; [apply (fold_inserts_spec _ _ str_lawful), keysP_true|].
    assert (F : Forall (fun e : str * kserd => True /\ ok (forallb has_ord l) (snd e)) (combine (map fst fs) ks)).
    { apply Forall_forall. intros [n k] I. apply in_combine_r in I. rewrite Forall_forall in O1. split; [exact Logic.I|now apply O1]. }
    eapply Forall_impl; [|exact (keys_fold (fun _ => True) (ok (forallb has_ord l)) str_cmp _ [] (Forall_nil _) F)]. now intros a [_ X].
  Qed.
  Lemma entries_valid kt vt m : Forall (fun e => val_ok (fst e) /\ val_ok (snd e)) m ->
    forallb (fun e => has_type E kt (fst e) && has_ord (fst e) && has_type E vt (snd e)) m = true ->
    exists es, Forall2 (fun e f => enc E kt (fst e) = inr (fst f)) m es /\
      Forall (fun f => ok true (fst f) /\ ok (forallb (fun e => has_ord (fst e) && has_ord (snd e)) m) (snd f)) es /\
      forall acc, enc_entries (enc E kt) (enc E vt) m acc = inr (fold_left (fun a e => bt_insert k_cmp (fst e) (snd e) a) es acc).
  Proof.
    intros HF. induction HF as [|[d e] m [H1 H2] HF IH]; intros T; [exists []; repeat split; constructor|].
    cbn [forallb fst snd] in T. apply andb_true_iff in T as [T1 T2]. apply andb_true_iff in T1 as [T1 T3]. apply andb_true_iff in T1 as [T1 T4]. cbn [fst snd] in *.
    destruct (H1 kt T1) as (k & E1 & O1). destruct (H2 vt T3) as (v & E2 & O2). destruct (IH T2) as (es & C & O3 & F).
    exists ((k, v) :: es). split; [constructor; assumption|]. split.
    - cbn [forallb fst snd]. constructor; cbn [fst snd].
      + split; [now rewrite T4 in O1|]. refine (ok_weaken _ _ _ _ O2). intros X. apply andb_true_iff in X as [X _]. apply andb_true_iff in X. tauto.
      + eapply Forall_impl; [|exact O3]. intros a [X Y]. split; [exact X|]. refine (ok_weaken _ _ _ _ Y). intros Z. apply andb_true_iff in Z. tauto.
    - intros acc. cbn [enc_entries]. rewrite E1. cbn [ebind]. rewrite E2. cbn [ebind fold_left fst snd]. fold (enc_entries (enc E kt) (enc E vt)). apply F.
  Qed.

  Definition items_valid (d : data) : Prop := match d with DList l | DRecord l => Forall val_ok l | _ => True end.
  Lemma enc_valid' d : val_ok d /\ items_valid d.
  Proof.
    assert (FV : forall (vs : list (str * shape)) i n h, forallb id_name (map fst vs) = true -> nth_error vs i = Some (n, h) -> id_name n = true).
    { intros vs i n h H N. rewrite forallb_forall in H. apply H. apply nth_error_In in N. now apply (in_map fst) in N. }
    assert (EX : forall k t d, enc E t d = inr k -> ok (has_ord d) k -> exists k, enc E t d = inr k /\ ok (has_ord d) k) by (intros; eexists; eauto).
    assert (LF : forall o id v, match v with VUnit | VBool _ | VStr _ | VTuple [] => True | _ => False end -> ok o (Kserd id v)).
    { intros o id v H. apply ok_node; destruct v as [| | | | |[|]| | |]; try contradiction; try (intros _); try reflexivity; constructor. }
    assert (FM : forall m : list (data * data), Forall (fun e => (val_ok (fst e) /\ items_valid (fst e)) /\ (val_ok (snd e) /\ items_valid (snd e))) m -> Forall (fun e => val_ok (fst e) /\ val_ok (snd e)) m) by (intros m; apply Forall_impl; now intros a [[X _] [Y _]]).
    assert (FF : forall l, Forall (fun d => val_ok d /\ items_valid d) l -> Forall val_ok l) by (intros l; apply Forall_impl; now intros a [X _]).
    induction d using data_ind'; (split; [|try exact Logic.I; cbn [items_valid]; now apply FF]); try (apply FF in H); try (apply FM in H); try (destruct IHd as [IHd IHi]); intros t T.
    all: destruct t as [| |nt| | | | | |t|ts|t|kt vt|q]; try discriminate T; cbn [has_type] in T.
    all: try (eapply EX; [reflexivity|now apply LF]).
    all: try (pose proof (W q) as G; destruct (E q) as [nm|nm t|nm ts|nm fs|vs] eqn:Q; try discriminate T; cbn [def_ids forallb] in G; rewrite ?andb_true_r in G).
    - (* unit struct *) eapply EX; [cbn [enc]; rewrite Q; now apply with_id_ok|now apply LF].
    - (* int *) eapply EX; [reflexivity|].
      pose proof (in_ntype_wf nt n T) as N. apply ok_node; try reflexivity; [exact N| |constructor].
      intros _. unfold num_node. cbn [kval]. unfold exact, ordinary. rewrite N. unfold num_of_int. now destruct (ntype_signed _).
    - (* f64 *) eapply EX; [reflexivity|]. apply ok_node; try reflexivity; [exact T|discriminate|constructor].
    - (* f32 *) destruct (f32_number x T) as (y & F & Y). eapply EX; [cbn [enc]; rewrite F; reflexivity|]. apply ok_node; try reflexivity; [exact Y|discriminate|constructor].
    - (* bytes *) eapply EX; [reflexivity|]. apply ok_node; try reflexivity; [exact T|constructor].
    - (* Some *) destruct (IHd t T) as (k & E1 & O1). eapply EX; [cbn [enc]; rewrite E1; reflexivity|]. apply ok_list. now constructor.
    - (* tuple *) destruct (each_valid l H ts T) as (ks & E1 & O1). eapply EX; [cbn [enc]; rewrite E1; reflexivity|]. now apply ok_list.
    - (* Vec *) destruct (vec_valid l H t T) as (ks & E1 & O1). eapply EX; [cbn [enc]; rewrite E1; reflexivity|]. now apply ok_list.
    - (* tuple struct *) destruct (each_valid l H ts T) as (ks & E1 & O1). eapply EX; [cbn [enc]; rewrite Q, with_id_ok by exact G; cbn [ebind]; rewrite E1; reflexivity|]. now apply ok_list.
    - (* map *) apply andb_true_iff in T as [T S]. destruct (entries_valid kt vt m H T) as (es & _ & O1 & F).
      eapply EX; [cbn [enc]; rewrite F; reflexivity|].
      assert (KF := keys_fold (ok true) (ok (forallb (fun e => has_ord (fst e) && has_ord (snd e)) m)) k_cmp es [] (Forall_nil _) O1).
      apply ok_map.
      + apply (fold_inserts_spec _ _ k_lawful). unfold keysP. eapply Forall_impl; [|exact O1]. intros a [(_ & _ & X) _]. now apply k_exact_ordinary, X.
      + eapply Forall_impl; [|exact KF]. now intros a [X _].
      + eapply Forall_impl; [|exact KF]. now intros a [_ X].
    - (* newtype *) destruct (IHd t T) as (k & E1 & O1). eapply EX; [cbn [enc]; rewrite Q, E1; cbn [ebind]; now apply with_id_ok|]. apply ok_list. now constructor.
    - (* struct *) destruct (fields_valid fs l H T) as (m & E1 & S1 & O1). eapply EX; [cbn [enc]; rewrite Q, with_id_ok by exact G; cbn [ebind]; rewrite E1; reflexivity|]. now apply ok_fields.
    - (* variant *) destruct (nth_error vs i) as [[n h]|] eqn:NT; [|discriminate]. pose proof (FV vs i n h G NT) as GN.
      destruct h as [|t|ts|fs].
      + destruct d; try discriminate. eapply EX; [cbn [enc]; rewrite Q, NT; now apply with_id_ok|now apply LF].
      + destruct (IHd t T) as (k & E1 & O1). eapply EX; [cbn [enc]; rewrite Q, NT, E1; cbn [ebind]; now apply with_id_ok|]. apply ok_list. now constructor.
      + destruct d as [| | | | | | | | | |l| | | |]; try discriminate. cbn [items_valid] in IHi. destruct (each_valid l IHi ts T) as (ks & E1 & O1).
        eapply EX; [cbn [enc]; rewrite Q, NT, with_id_ok by exact GN; cbn [ebind]; rewrite E1; reflexivity|]. now apply ok_list.
      + destruct d as [| | | | | | | | | | | | |l|]; try discriminate. cbn [items_valid] in *. destruct (fields_valid fs l IHi T) as (m & E1 & S1 & O1).
        eapply EX; [cbn [enc]; rewrite Q, NT, with_id_ok by exact GN; cbn [ebind]; rewrite E1; reflexivity|]. now apply ok_fields.
  Qed.
  Lemma enc_valid d t : has_type E t d = true -> exists k, enc E t d = inr k /\ ok (has_ord d) k.
  Proof. exact (proj1 (enc_valid' d) t). Qed.
End Valid.

Lemma good_ids E : good_decls E -> id_decls E.
Proof.
  intros W n. specialize (W n). destruct (E n); cbn [good_def def_ids forallb] in *; rewrite ?andb_true_r; repeat (apply andb_true_iff in W as [W ?]); auto.
  rewrite forallb_forall in *. intros x Hx. apply in_map_iff in Hx as ([a b] & <- & I). apply H in I. now apply andb_true_iff in I as [I _].
Qed.

(** ** entries are lost *)
Lemma insert_length {K V} (cmp : K -> K -> comparison) k (v : V) m : (length (bt_insert cmp k v m) <= S (length m))%nat.
Proof. induction m as [|[k' v'] m IH]; cbn [bt_insert length]; [lia|]. destruct (cmp k k'); cbn [length]; lia. Qed.
Lemma inserts_length {K V} (cmp : K -> K -> comparison) : forall (l acc : list (K * V)),
  (length (fold_left (fun a e => bt_insert cmp (fst e) (snd e) a) l acc) <= length acc + length l)%nat.
Proof. induction l as [|e l IH]; intros acc; cbn [fold_left length]; [lia|]. specialize (IH (bt_insert cmp (fst e) (snd e) acc)). pose proof (insert_length cmp (fst e) (snd e) acc). lia. Qed.
Section Lost.
  Context {K V : Type} (P : K -> Prop) (cmp : K -> K -> comparison) (L : lawful P cmp).
  Lemma insert_same k (v : V) m : P k -> keysP P m -> ascending cmp m = true -> Exists (fun e => cmp k (fst e) = Eq) m -> length (bt_insert cmp k v m) = length m.
  Proof.
    induction m as [|[k' v'] m IH]; intros PK KP A X; [inversion X|]. cbn [bt_insert]. apply (ascending_cons P cmp L) in A as [B A]; [|exact KP]. inversion KP as [|? ? K1 K2]; subst. cbn [fst] in *.
    destruct (cmp k k') eqn:C; [reflexivity| |].
    - exfalso. inversion X as [? ? Y|? ? Y]; subst; [cbn [fst] in Y; congruence|]. apply Exists_exists in Y as ([k2 v2] & I & Y). cbn [fst] in Y.
      unfold below in B. unfold keysP in K2. rewrite Forall_forall in B, K2. specialize (B _ I). specialize (K2 _ I). cbn [fst] in *.
      pose proof (law_trans _ _ L k k' k2 PK K1 K2 C B). congruence.
    - cbn [length]. f_equal. apply IH; auto. inversion X as [? ? Y|? ? Y]; subst; [cbn [fst] in Y; congruence|exact Y].
  Qed.
  Lemma insert_keeps k k' (v : V) m : P k -> P k' -> keysP P m -> (cmp k' k = Eq \/ Exists (fun e => cmp k' (fst e) = Eq) m) -> Exists (fun e => cmp k' (fst e) = Eq) (bt_insert cmp k v m).
  Proof.
    intros PK PK' KP H. induction m as [|[k2 v2] m IH]; cbn [bt_insert].
    - destruct H as [H|H]; [now left|inversion H].
    - inversion KP as [|? ? K1 K2]; subst. cbn [fst] in *. destruct (cmp k k2) eqn:C.
      + destruct H as [H|H]; [left; cbn [fst]; rewrite (law_eq_r P cmp L k2 k k' K1 PK PK'); [exact H|]|].
        * rewrite (law_anti _ _ L k k2), C. reflexivity.
        * inversion H as [? ? Y|? ? Y]; subst; [now left|now right].
      + destruct H as [H|H]; [now left|now right].
      + destruct H as [H|H]; [right; apply IH; auto|]. inversion H as [? ? Y|? ? Y]; subst; [now left|right; apply IH; auto].
  Qed.
  Lemma inserts_lost : forall (l acc : list (K * V)), keysP P l -> keysP P acc -> ascending cmp acc = true ->
    Exists (fun e => Exists (fun f => cmp (fst e) (fst f) = Eq) acc) l \/ ~ ForallOrdPairs (fun e f => cmp (fst e) (fst f) <> Eq) l ->
    (length (fold_left (fun a e => bt_insert cmp (fst e) (snd e) a) l acc) < length acc + length l)%nat.
  Proof.
    induction l as [|[k v] l IH]; intros acc KL KA A H.
    - destruct H as [H|H]; [inversion H|exfalso; apply H; constructor].
    - cbn [fold_left length fst snd]. inversion KL as [|? ? K1 K2]; subst. cbn [fst] in K1.
      destruct (Exists_dec (fun f => cmp k (fst f) = Eq) acc) as [X|X]; [intros f; destruct (cmp k (fst f)); [now left|right; discriminate|right; discriminate]| |].
      + pose proof (inserts_length cmp l (bt_insert cmp k v acc)) as LE. rewrite (insert_same k v acc K1 KA A X) in LE. lia.
      + pose proof (insert_length cmp k v acc) as LI.
        assert (LT : (length (fold_left (fun a e => bt_insert cmp (fst e) (snd e) a) l (bt_insert cmp k v acc)) < length (bt_insert cmp k v acc) + length l)%nat); [|lia].
        apply IH; [exact K2|now apply (keysP_insert P)|now apply (ascending_insert P cmp L)|].
        destruct H as [H|H].
        * left. inversion H as [? ? Y|? ? Y]; subst; [contradiction|]. rewrite Exists_exists in *. destruct Y as (e & I & Y). exists e. split; [exact I|]. unfold keysP in K2. rewrite Forall_forall in K2. apply insert_keeps; auto.
        * destruct (Exists_dec (fun e => cmp k (fst e) = Eq) l) as [Y|Y]; [intros f; destruct (cmp k (fst f)); [now left|right; discriminate|right; discriminate]| |].
          -- left. rewrite Exists_exists in *. destruct Y as (e & I & Y). exists e. split; [exact I|]. unfold keysP in K2. rewrite Forall_forall in K2. apply insert_keeps; auto. left. rewrite (law_anti _ _ L k (fst e)), Y. reflexivity.
          -- right. intros F. apply H. constructor; [|exact F]. apply Forall_forall. intros f I C. apply Y. apply Exists_exists. now exists f.
  Qed.
End Lost.

Lemma dec_entries_length f g : forall es acc m, dec_entries f g es acc = Some m -> (length m <= length acc + length es)%nat.
Proof.
  induction es as [|[k v] es IH]; intros acc m H; cbn [dec_entries] in H; [injection H as <-; cbn [length]; lia|].
  destruct (f k) as [d|]; [|discriminate]. cbn [opt_bind] in H. destruct (g v) as [e|]; [|discriminate]. cbn [opt_bind] in H. fold (dec_entries f g) in H. apply IH in H.
  pose proof (insert_length d_cmp d e acc). cbn [length]. lia.
Qed.
Lemma entries_lost E kt vt m k : id_decls E -> has_type E (TyMap kt vt) (DMap m) = true -> ~ keys_apart E kt m -> enc E (TyMap kt vt) (DMap m) = inr k ->
  (exists es, kval k = VMap es /\ (length es < length m)%nat) /\ dec E (TyMap kt vt) k <> Some (DMap m).
Proof.
  intros W T N H. cbn [has_type] in T. apply andb_true_iff in T as [T S].
  destruct (entries_valid E kt vt m) as (es & C & O1 & F); [apply Forall_forall; intros e _; split; intros t Te; now apply enc_valid|exact T|].
  cbn [enc] in H. rewrite F in H. cbn [ebind] in H. injection H as <-. set (es' := fold_left _ es []).
  assert (LT : (length es' < length m)%nat).
  { replace (length m) with (length es) by (clear -C; induction C; cbn [length]; lia). apply (inserts_lost (fun k => k_ordinary k = true) k_cmp k_lawful es []); [|constructor|reflexivity|right].
    - unfold keysP. eapply Forall_impl; [|exact O1]. intros a [(_ & _ & X) _]. now apply k_exact_ordinary, X.
    - intros X. apply N. unfold keys_apart. clear -C X. induction C as [|e f m es H C IH]; constructor; inversion X as [|? ? X1 X2]; subst; [|now apply IH].
      clear -H C X1. induction C as [|e' f' m es H' C IH]; constructor; inversion X1; subst; [|now apply IH]. intros a b Ha Hb. rewrite H in Ha. rewrite H' in Hb. injection Ha as <-. injection Hb as <-. assumption. }
  split; [exists es'; now split|]. unfold knew. cbn [dec deserialize_any visit_map]. destruct (dec_entries _ _ es' []) as [m'|] eqn:D; [|discriminate]. cbn [option_map]. intros [= ->].
  apply dec_entries_length in D. cbn [length] in D. lia.
Qed.

Lemma enc_total E t d : id_decls E -> has_type E t d = true -> exists k, enc E t d = inr k /\ k_sorted k = true /\ k_typed k = true.
Proof. intros W T. destruct (enc_valid E W d t T) as (k & H & S & [Y _] & _). eauto. Qed.
Lemma enc_exact E t d k : id_decls E -> has_type E t d = true -> has_ord d = true -> enc E t d = inr k -> k_exact k = true.
Proof. intros W T O H. destruct (enc_valid E W d t T) as (k' & H' & _ & _ & C). rewrite H in H'. injection H' as <-. now apply C. Qed.
