(** Proofs about encoding and decoding: what was encoded can always be decoded;
    which value comes back, and when it is the one which was encoded. *)
From Verif Require Import Base BaseProps F64 F32 F32Spec F32Props Number NumberSpec NumberProps BTree BTreeProps Value ValueSpec ValueProps ValueProps2 RtProps6 Encode EncodeSpec EncodeProps EncodeProps2 EncodeProps3 EncodeProps4 EncodeProps5.
From Verif Require DeserProps2.
From Coq Require Import Permutation.
Open Scope N_scope.

(** ** every f32 replaced by the one which comes back *)
Fixpoint cast (d : data) : data :=
  match d with
  | DF32 x => DF32 (match f32_to_f64 x with Ret y => f64_to_f32 y | Panic _ => x end)
  | DSome d => DSome (cast d)
  | DNewtype d => DNewtype (cast d)
  | DVariant i d => DVariant i (cast d)
  | DList l => DList (map cast l)
  | DRecord l => DRecord (map cast l)
  | DMap m => DMap (map (fun e => (cast (fst e), cast (snd e))) m)
  | _ => d
  end.
Lemma cast_ord d : has_ord d = true -> cast d = d.
Proof.
  induction d using data_ind'; cbn [has_ord cast]; intros O; try reflexivity; try discriminate; try (f_equal; auto; fail).
  - f_equal. revert O. induction H as [|d l H _ IH]; cbn [forallb map]; intros O; [reflexivity|]. apply andb_true_iff in O as [O1 O2]. f_equal; auto.
  - f_equal. revert O. induction H as [|[a b] l [H1 H2] _ IH]; cbn [forallb map fst snd] in *; intros O; [reflexivity|]. apply andb_true_iff in O as [O1 O2]. apply andb_true_iff in O1 as [O1 O3]. f_equal; auto. f_equal; auto.
  - f_equal. revert O. induction H as [|d l H _ IH]; cbn [forallb map]; intros O; [reflexivity|]. apply andb_true_iff in O as [O1 O2]. f_equal; auto.
Qed.
Lemma cast_same d : cast d = d <-> Forall f32_same (f32s d).
Proof.
  assert (L : forall l, Forall (fun d0 => cast d0 = d0 <-> Forall f32_same (f32s d0)) l -> (map cast l = l <-> Forall f32_same (flat_map f32s l))).
  { induction 1 as [|d0 l H _ IH]; cbn [map flat_map]; [split; constructor|]. rewrite Forall_app, <- H, <- IH. split; [intros [= -> ->]; auto|]. intros [-> ->]. reflexivity. }
  induction d using data_ind'; cbn [cast f32s]; try (split; [constructor|reflexivity]); try (rewrite <- IHd; split; [intros [= X]; exact X|now intros ->]).
  - split; [|intros F; inversion F as [|? ? X _]; subst; f_equal; unfold f32_same in X; destruct (f32_to_f64 x); auto].
    intros [= X]. constructor; [|constructor]. intros y Y. now rewrite Y in X.
  - rewrite <- (L l H). split; [now intros [= X]|now intros ->].
  - transitivity (map (fun e => (cast (fst e), cast (snd e))) m = m); [split; [now intros [= X]|now intros ->]|].
    induction H as [|[a b] m [H1 H2] _ IH]; cbn [map flat_map fst snd] in *; [split; constructor|]. rewrite !Forall_app, <- H1, <- H2, <- IH. split; [intros [= -> -> ->]; auto|]. intros [[-> ->] ->]. reflexivity.
  - rewrite <- (L l H). split; [now intros [= X]|now intros ->].
Qed.

(** ** what entries weigh *)
Section Weight.
  Context {K V : Type} (cmp : K -> K -> comparison) (f : K -> nat) (g : V -> nat).
  Definition weight (m : list (K * V)) : nat := list_sum (map (fun e => f (fst e) + g (snd e))%nat m).
  Lemma weight_cons e m : weight (e :: m) = (f (fst e) + g (snd e) + weight m)%nat.
  Proof. reflexivity. Qed.
  Lemma weight_perm m m' : Permutation m m' -> weight m = weight m'.
  Proof. induction 1; rewrite ?weight_cons; lia. Qed.
  Lemma insert_weight k v m : (1 <= f k)%nat -> (weight (bt_insert cmp k v m) + S (length m) <= weight m + f k + g v + length (bt_insert cmp k v m))%nat.
  Proof.
    intros Hk. induction m as [|[k' v'] m IH]; cbn [bt_insert length]; [rewrite !weight_cons; cbn [fst snd]; lia|].
    destruct (cmp k k'); cbn [length]; rewrite !weight_cons; cbn [fst snd]; lia.
  Qed.
  Lemma inserts_weight : forall (l acc : list (K * V)), Forall (fun e => 1 <= f (fst e))%nat l ->
    (weight (fold_left (fun a e => bt_insert cmp (fst e) (snd e) a) l acc) + length acc + length l <=
     weight acc + weight l + length (fold_left (fun a e => bt_insert cmp (fst e) (snd e) a) l acc))%nat.
  Proof.
    induction l as [|e l IH]; intros acc F; cbn [fold_left length]; [unfold weight at 3; cbn; lia|]. inversion F as [|? ? F1 F2]; subst.
    specialize (IH (bt_insert cmp (fst e) (snd e) acc) F2). pose proof (insert_weight (fst e) (snd e) acc F1). rewrite weight_cons. lia.
  Qed.
End Weight.

(** ** what comes back *)
Section Back.
  Context (E : decls) (W : good_decls E).
  Notation apart_parts := (enc_ok_parts E).
  Definition back (t : ty) (d d' : data) : Prop :=
    has_type E t d' = true /\ (has_ord d = true -> has_ord d' = true) /\ (dsize d' <= dsize d)%nat /\
    (dsize d' = dsize d -> apart E t d) /\ (apart E t d -> d' = cast d).
  Definition comes (d : data) : Prop := forall t, has_type E t d = true -> exists k d', enc E t d = inr k /\ dec E t k = Some d' /\ back t d d'.
  Definition backs (typed : list data -> bool) (parts : list (ty * data)) (l l' : list data) : Prop :=
    typed l' = true /\ (forallb has_ord l = true -> forallb has_ord l' = true) /\ (list_sum (map dsize l') <= list_sum (map dsize l))%nat /\
    (list_sum (map dsize l') = list_sum (map dsize l) -> apart_parts parts) /\ (apart_parts parts -> l' = map cast l).

  Lemma apart_app a b : apart_parts (a ++ b) <-> apart_parts a /\ apart_parts b.
  Proof.
    split; [intros H; split; intros kt vt m I; apply (H kt vt m), in_or_app; auto|]. intros [H1 H2] kt vt m I. apply in_app_or in I as [I|I]; eauto.
  Qed.
  Lemma backs_cons t d d' ty1 ty2 p l l' : back t d d' -> backs ty1 p l l' -> ty2 (d' :: l') = has_type E t d' && ty1 l' -> backs ty2 (parts E t d ++ p) (d :: l) (d' :: l').
  Proof.
    intros (T1 & O1 & S1 & A1 & C1) (T2 & O2 & S2 & A2 & C2) TY. unfold backs. cbn [forallb map list_sum fold_right]. fold (list_sum (map dsize l)). fold (list_sum (map dsize l')).
    split; [rewrite TY, T1, T2; reflexivity|]. split; [intros O; apply andb_true_iff in O as [O O']; rewrite O1, O2; auto|]. split; [lia|]. rewrite apart_app.
    split; [intros Q; split; [apply A1|apply A2]; lia|]. intros [Q1 Q2]. f_equal; auto.
  Qed.
  Lemma each_comes l : Forall comes l -> forall ts, each_of (has_type E) ts l = true ->
    exists ks l', enc_each (enc E) ts l = inr ks /\ each3 (fun t d k => dec E t k = Some d) ts l' ks /\ length l' = length l /\ backs (each_of (has_type E) ts) (parts_each (parts E) ts l) l l'.
  Proof.
    induction 1 as [|d l H HF IH]; intros [|t ts] T; try discriminate; [exists [], []; repeat split; intros; lia || easy|].
    cbn [each_of] in T. apply andb_true_iff in T as [T1 T2]. destruct (H t T1) as (k & d' & E1 & D1 & B1). destruct (IH ts T2) as (ks & l' & E2 & D2 & L2 & B2).
    exists (k :: ks), (d' :: l'). cbn [enc_each]. rewrite E1. cbn [ebind]. fold (enc_each (enc E)). rewrite E2. cbn [ebind each3 length]. split; [reflexivity|]. split; [split; assumption|]. split; [lia|].
    cbn [parts_each]. eapply backs_cons; [exact B1|exact B2|reflexivity].
  Qed.
  Lemma vec_comes l : Forall comes l -> forall t, forallb (has_type E t) l = true ->
    exists ks l', enc_all (enc E t) l = inr ks /\ dec_all (dec E t) ks = Some l' /\ backs (forallb (has_type E t)) (flat_map (parts E t) l) l l'.
  Proof.
    induction 1 as [|d l H HF IH]; intros t T; [exists [], []; repeat split; intros; lia || easy|].
    cbn [forallb] in T. apply andb_true_iff in T as [T1 T2]. destruct (H t T1) as (k & d' & E1 & D1 & B1). destruct (IH t T2) as (ks & l' & E2 & D2 & B2).
    exists (k :: ks), (d' :: l'). cbn [enc_all]. rewrite E1. cbn [ebind]. fold (enc_all (enc E t)). rewrite E2. cbn [ebind dec_all]. rewrite D1. cbn [opt_bind]. fold (dec_all (dec E t)). rewrite D2. split; [reflexivity|]. split; [reflexivity|].
    cbn [flat_map]. eapply backs_cons; [exact B1|exact B2|reflexivity].
  Qed.
  Lemma each_decodes : forall l ts ks, each3 (fun t d k => dec E t k = Some d) ts l ks -> dec_each (dec E) ts ks = Some l.
  Proof.
    induction l as [|d l IH]; intros [|t ts] [|k ks] H; try destruct H; [reflexivity|]. cbn [dec_each]. rewrite H. cbn [opt_bind]. fold (dec_each (dec E)). now rewrite (IH ts ks).
  Qed.
  Lemma fields_decode fs l m : distinct (map fst fs) = true -> (exists ks, each3 (fun t d k => dec E t k = Some d) (map snd fs) l ks /\ Permutation m (combine (map fst fs) ks)) ->
    opt_bind (dec_struct (field_name fs) (dec E) m) (dec_record fs) = Some (DRecord l).
  Proof.
    intros D (ks & C & P).
    assert (F : Forall2 (fun e r => exists t, field_name fs (fst e) = Some (Some (fst r, t)) /\ dec E t (snd e) = Some (snd r)) (combine (map fst fs) ks) (combine (seq 0 (length l)) l)).
    { pose proof (position_nth fs D) as PN.
      assert (G : forall i gs l ks, (forall j n t, nth_error gs j = Some (n, t) -> position n fs = Some ((i + j)%nat, t)) ->
        each3 (fun t d k => dec E t k = Some d) (map snd gs) l ks ->
        Forall2 (fun e r => exists t, field_name fs (fst e) = Some (Some (fst r, t)) /\ dec E t (snd e) = Some (snd r)) (combine (map fst gs) ks) (combine (seq i (length l)) l)).
      { clear. intros i gs. revert i. induction gs as [|[n t] gs IH]; intros i [|d l] [|k ks] N C; try destruct C; [constructor|].
        cbn [map fst snd length seq combine] in *. constructor.
        - exists t. cbn [fst snd]. split; [unfold field_name; rewrite (N O n t eq_refl); now rewrite Nat.add_0_r|assumption].
        - apply IH; auto. intros j n' t' J. specialize (N (S j) n' t' J). now replace (S i + j)%nat with (i + S j)%nat by lia. }
      apply G; auto. }
    destruct (Permutation_Forall2 (Permutation_sym P) F) as (il & Q & F').
    rewrite (dec_struct_all _ _ m il F'). cbn [opt_bind]. unfold dec_record.
    assert (ND : NoDup (map fst il)).
    { eapply Permutation_NoDup; [apply Permutation_map; exact Q|]. rewrite combine_fst by apply seq_length. apply seq_NoDup. }
    rewrite twice_NoDup by exact ND. destruct (each3_length _ _ _ _ C) as [LT _]. rewrite map_length in LT.
    rewrite (take_all il ND fs l 0 LT); [reflexivity|]. intros j d J. eapply Permutation_in; [exact Q|]. now apply combine_seq_in.
  Qed.
  Lemma fields_come fs l : distinct (map fst fs) = true -> Forall comes l -> each_of (has_type E) (map snd fs) l = true ->
    exists m l', enc_fields (enc E) fs l [] = inr m /\ opt_bind (dec_struct (field_name fs) (dec E) m) (dec_record fs) = Some (DRecord l') /\
      backs (each_of (has_type E) (map snd fs)) (parts_each (parts E) (map snd fs) l) l l'.
  Proof.
    intros D H T. destruct (each_comes l H _ T) as (ks & l' & E1 & D1 & _ & B1). eexists. exists l'. split; [exact (fields_insert E fs l ks [] E1)|]. split; [|exact B1].
    apply fields_decode; [exact D|]. exists ks. split; [exact D1|].
    apply (inserts_perm str_cmp _ []); [constructor|]. apply distinct_pairs in D. clear -D. revert ks.
    induction D as [|n ns H _ IH]; intros [|k ks]; cbn [combine]; constructor; [|apply IH].
    apply Forall_forall. intros [n' k'] I. apply in_combine_l in I. rewrite Forall_forall in H. cbn [fst]. intros C. apply str_cmp_eq in C. exact (H _ I (eq_sym C)).
  Qed.

  (** *** maps *)
  Definition wt (t : ty) (k : kserd) : nat := match dec E t k with Some d => dsize d | None => O end.
  Lemma entries_come kt vt m : Forall (fun e => comes (fst e) /\ comes (snd e)) m ->
    forallb (fun e => has_type E kt (fst e) && has_ord (fst e) && has_type E vt (snd e)) m = true ->
    exists es m1, Forall2 (fun e f => enc E kt (fst e) = inr (fst f)) m es /\
      Forall2 (fun e f => dec E kt (fst f) = Some (fst e) /\ dec E vt (snd f) = Some (snd e)) m1 es /\
      Forall2 (fun e f => back kt (fst e) (fst f) /\ back vt (snd e) (snd f)) m m1 /\
      forall acc, enc_entries (enc E kt) (enc E vt) m acc = inr (fold_left (fun a e => bt_insert k_cmp (fst e) (snd e) a) es acc).
  Proof.
    intros HF. induction HF as [|[d e] m [H1 H2] HF IH]; intros T; [exists [], []; repeat split; constructor|].
    cbn [forallb fst snd] in T. apply andb_true_iff in T as [T1 T2]. apply andb_true_iff in T1 as [T1 T3]. apply andb_true_iff in T1 as [T1 T4]. cbn [fst snd] in *.
    destruct (H1 kt T1) as (k & d' & E1 & D1 & B1). destruct (H2 vt T3) as (v & e' & E2 & D2 & B2). destruct (IH T2) as (es & m1 & E3 & D3 & B3 & F).
    exists ((k, v) :: es), ((d', e') :: m1). split; [constructor; assumption|]. split; [constructor; [split; assumption|exact D3]|]. split; [constructor; [split; assumption|exact B3]|].
    intros acc. cbn [enc_entries]. rewrite E1. cbn [ebind]. rewrite E2. cbn [ebind fold_left fst snd]. fold (enc_entries (enc E kt) (enc E vt)). apply F.
  Qed.
  Lemma all_decode kt vt es : Forall (fun f => (exists d, dec E kt (fst f) = Some d) /\ (exists d, dec E vt (snd f) = Some d)) es ->
    exists m, Forall2 (fun e f => dec E kt (fst f) = Some (fst e) /\ dec E vt (snd f) = Some (snd e)) m es.
  Proof. induction 1 as [|f es [[a Ha] [b Hb]] _ (m & IH)]; [exists []; constructor|]. exists ((a, b) :: m). constructor; [split; assumption|exact IH]. Qed.
  Lemma decoded_weight kt vt m es : Forall2 (fun e f => dec E kt (fst f) = Some (fst e) /\ dec E vt (snd f) = Some (snd e)) m es -> weight (wt kt) (wt vt) es = weight dsize dsize m.
  Proof. induction 1 as [|e f m es [H1 H2] _ IH]; [reflexivity|]. rewrite !weight_cons, IH. unfold wt. now rewrite H1, H2. Qed.
  Lemma map_comes kt vt m : Forall (fun e => comes (fst e) /\ comes (snd e)) m -> has_type E (TyMap kt vt) (DMap m) = true ->
    exists k d', enc E (TyMap kt vt) (DMap m) = inr k /\ dec E (TyMap kt vt) k = Some d' /\ back (TyMap kt vt) (DMap m) d'.
  Proof.
    intros H T. cbn [has_type] in T. apply andb_true_iff in T as [T S].
    destruct (entries_come kt vt m H T) as (es & m1 & E1 & D1 & B1 & F). set (es' := fold_left (fun a e => bt_insert k_cmp (fst e) (snd e) a) es []).
    assert (LE : length es = length m) by (clear -E1; induction E1; cbn [length]; lia).
    assert (LM : length m1 = length es) by (clear -D1; induction D1; cbn [length]; lia).
    (* the keys are keys *)
    assert (OK : Forall (fun f => k_ordinary (fst f) = true) es).
    { clear -E1 T W. revert T. induction E1 as [|e f m es H _ IH]; intros T; constructor; cbn [forallb] in T; apply andb_true_iff in T as [T T2]; [|now apply IH].
      apply andb_true_iff in T as [T _]. apply andb_true_iff in T as [T O]. apply k_exact_ordinary. exact (enc_exact E kt (fst e) (fst f) (good_ids E W) T O H). }
    (* what can be decoded *)
    set (PK := fun k : kserd => exists d, dec E kt k = Some d /\ has_type E kt d = true /\ has_ord d = true).
    set (PV := fun v : kserd => exists d, dec E vt v = Some d /\ has_type E vt d = true /\ (forallb (fun e => has_ord (fst e) && has_ord (snd e)) m = true -> has_ord d = true)).
    assert (KF : Forall (fun f => PK (fst f) /\ PV (snd f)) es).
    { subst PK PV. clear -D1 B1 T. set (all := forallb (fun e => has_ord (fst e) && has_ord (snd e)) m). assert (AL : all = true -> Forall (fun e => has_ord (snd e) = true) m).
      { intros X. apply Forall_forall. intros e He. unfold all in X. rewrite forallb_forall in X. specialize (X e He). now apply andb_true_iff in X. }
      clearbody all. revert es D1 T AL. induction B1 as [|e e1 m m1 [X Y] _ IH]; intros es D1 T AL; inversion D1 as [|? f ? es0 [D2 D3] D4]; subst; constructor.
      - cbn [forallb] in T. apply andb_true_iff in T as [T _]. apply andb_true_iff in T as [T _]. apply andb_true_iff in T as [T O]. destruct X as (X1 & X2 & _), Y as (Y1 & Y2 & _).
        split; [exists (fst e1); auto|exists (snd e1)]. split; [exact D3|]. split; [exact Y1|]. intros Z. apply AL in Z. inversion Z; subst. auto.
      - apply IH; [exact D4|cbn [forallb] in T; now apply andb_true_iff in T|]. intros Z. apply AL in Z. now inversion Z. }
    pose proof (keys_fold PK PV k_cmp es [] (Forall_nil _) KF) as KF'. fold es' in KF'.
    assert (M2 : exists m2, Forall2 (fun e f => dec E kt (fst f) = Some (fst e) /\ dec E vt (snd f) = Some (snd e)) m2 es').
    { apply all_decode. eapply Forall_impl; [|exact KF']. intros f [(a & Ha & _) (b & Hb & _)]. eauto. }
    destruct M2 as (m2 & D2). set (m3 := fold_left (fun a e => bt_insert d_cmp (fst e) (snd e) a) m2 []).
    exists (knew (VMap es')), (DMap m3). split; [cbn [enc]; rewrite F; reflexivity|]. split.
    { unfold knew. cbn [dec deserialize_any visit_map]. rewrite (entries_dec E kt vt es' m2 D2 []). reflexivity. }
    (* weights *)
    assert (POS : Forall (fun e => 1 <= wt kt (fst e))%nat es).
    { eapply Forall_impl; [|exact KF]. intros f [(d & Hd & _) _]. unfold wt. rewrite Hd. pose proof (dsize_pos d). lia. }
    pose proof (inserts_weight k_cmp (wt kt) (wt vt) es [] POS) as W1. fold es' in W1. rewrite (decoded_weight kt vt m1 es D1), (decoded_weight kt vt m2 es' D2) in W1.
    pose proof (inserts_length k_cmp es []) as L1. fold es' in L1.
    assert (LM2 : length m2 = length es') by (clear -D2; induction D2; cbn [length]; lia).
    pose proof (inserts_weight d_cmp dsize dsize m2 [] ltac:(apply Forall_forall; intros e _; pose proof (dsize_pos (fst e)); lia)) as W2. fold m3 in W2.
    pose proof (inserts_length d_cmp m2 []) as L2. fold m3 in L2. cbn [length] in *. change (weight (wt kt) (wt vt) []) with 0%nat in W1. change (weight dsize dsize []) with 0%nat in W2.
    assert (W0 : (weight dsize dsize m1 <= weight dsize dsize m)%nat).
    { clear -B1. induction B1 as [|e f m m1 [(_ & _ & X & _) (_ & _ & Y & _)] _ IH]; [lia|]. rewrite !weight_cons. lia. }
    split; [|split; [|split; [|split]]].
    - cbn [has_type]. apply andb_true_iff. split; [|apply (fold_inserts_spec (fun _ => True) d_cmp d_lawful), Forall_forall; auto].
      assert (G : Forall (fun e => (has_type E kt (fst e) = true /\ has_ord (fst e) = true) /\ has_type E vt (snd e) = true) m3).
      { apply (keys_fold (fun d => has_type E kt d = true /\ has_ord d = true) (fun d => has_type E vt d = true) d_cmp m2 []); [constructor|].
        clear -D2 KF'. induction D2 as [|e f m2 es' [H1 H2] _ IH]; constructor; inversion KF' as [|? ? [(a & Ha & Ha') (b & Hb & Hb')] K2]; subst; [|now apply IH].
        rewrite H1 in Ha. rewrite H2 in Hb. injection Ha as <-. injection Hb as <-. tauto. }
      apply forallb_forall. intros e He. rewrite Forall_forall in G. destruct (G e He) as [[-> ->] ->]. reflexivity.
    - cbn [has_ord]. intros O.
      assert (G : Forall (fun e => has_ord (fst e) = true /\ has_ord (snd e) = true) m3).
      { apply (keys_fold (fun d => has_ord d = true) (fun d => has_ord d = true) d_cmp m2 []); [constructor|].
        clear -D2 KF' O. induction D2 as [|e f m2 es' [H1 H2] _ IH]; constructor; inversion KF' as [|? ? [(a & Ha & Ha') (b & Hb & Hb')] K2]; subst; [|now apply IH].
        rewrite H1 in Ha. rewrite H2 in Hb. injection Ha as <-. injection Hb as <-. tauto. }
      apply forallb_forall. intros e He. rewrite Forall_forall in G. destruct (G e He) as [-> ->]. reflexivity.
    - cbn [dsize]. fold (weight dsize dsize m). fold (weight dsize dsize m3). lia.
    - cbn [dsize]. fold (weight dsize dsize m). fold (weight dsize dsize m3). intros Q.
      assert (L0 : length es' = length es) by lia. assert (W3 : weight dsize dsize m1 = weight dsize dsize m) by lia.
      assert (SUB : apart_parts (flat_map (fun e => parts E kt (fst e) ++ parts E vt (snd e)) m)).
      { clear -B1 W3 W0. induction B1 as [|e f m m1 [(_ & _ & X & X' & _) (_ & _ & Y & Y' & _)] B1 IH]; [now intros a b c I|]. rewrite !weight_cons in *.
        assert (W1 : (weight dsize dsize m1 <= weight dsize dsize m)%nat).
        { clear -B1. induction B1 as [|e f m m1 [(_ & _ & X & _) (_ & _ & Y & _)] _ IH]; [lia|]. rewrite !weight_cons. lia. }
        cbn [flat_map]. rewrite !apart_app. split; [split; [apply X'; lia|apply Y'; lia]|apply IH; lia]. }
      intros kt' vt' m' I. cbn [parts] in I. destruct I as [[= <- <- <-]|I]; [|exact (SUB kt' vt' m' I)].
      assert (FO : ForallOrdPairs (fun e f => k_cmp (fst e) (fst f) <> Eq) es).
      { assert (DEC : forall l : list (kserd * kserd), ForallOrdPairs (fun e f => k_cmp (fst e) (fst f) <> Eq) l \/ ~ ForallOrdPairs (fun e f => k_cmp (fst e) (fst f) <> Eq) l).
        { clear. induction l as [|e l [IH|IH]]; [left; constructor| |right; intros X; inversion X; auto].
          destruct (Forall_dec (fun f : kserd * kserd => k_cmp (fst e) (fst f) <> Eq)) with (l := l) as [X|X]; [intros f; destruct (k_cmp (fst e) (fst f)); [right; auto|left; discriminate|left; discriminate]|left; now constructor|right; intros Y; inversion Y; auto]. }
        destruct (DEC es) as [X|X]; [exact X|exfalso].
        pose proof (inserts_lost (fun k => k_ordinary k = true) k_cmp k_lawful es [] OK (Forall_nil _) eq_refl (or_intror X)) as LT. fold es' in LT. cbn [length] in LT. lia. }
      unfold keys_apart. clear -E1 FO. induction E1 as [|e f m es H E1 IH]; constructor; inversion FO as [|? ? X1 X2]; subst; [|now apply IH].
      clear -H E1 X1. induction E1 as [|e' f' m es H' E1 IH]; constructor; inversion X1; subst; [|now apply IH]. intros a b Ha Hb. rewrite H in Ha. rewrite H' in Hb. injection Ha as <-. injection Hb as <-. assumption.
    - intros A.
      assert (P : Permutation es' es).
      { apply (inserts_perm k_cmp es []); [constructor|]. pose proof (A kt vt m (or_introl eq_refl)) as KA. unfold keys_apart in KA.
        clear -KA E1. induction E1 as [|e f m es E1 C1 IH]; constructor; inversion KA as [|? ? K1 K2]; subst; [|now apply IH].
        clear -E1 C1 K1. induction C1 as [|e' f' m es E2 C1 IH]; constructor; inversion K1; subst; [|now apply IH].
        intros C. apply (H1 _ _ E1 E2). rewrite k_cmp_anti, C. reflexivity. }
      assert (M1 : m1 = map (fun e => (cast (fst e), cast (snd e))) m).
      { assert (SUB : apart_parts (flat_map (fun e => parts E kt (fst e) ++ parts E vt (snd e)) m)) by (intros a b c I; apply (A a b c); right; exact I).
        clear -B1 SUB. induction B1 as [|e f m m1 [(_ & _ & _ & _ & X) (_ & _ & _ & _ & Y)] _ IH]; [reflexivity|]. cbn [flat_map] in SUB. rewrite !apart_app in SUB. destruct SUB as [[S1 S2] S3].
        cbn [map]. rewrite <- (X S1), <- (Y S2), <- (IH S3). now rewrite <- surjective_pairing. }
      assert (D1' : Forall2 (fun f e => dec E kt (fst f) = Some (fst e) /\ dec E vt (snd f) = Some (snd e)) es m1) by (clear -D1; induction D1; constructor; auto).
      destruct (Permutation_Forall2 (Permutation_sym P) D1') as (m2' & Q & F').
      assert (m2' = m2).
      { clear -F' D2. clearbody es'. revert m2 D2. induction F' as [|f e es0 m0 [X Y] _ IH]; intros m2 D2; inversion D2 as [|? ? ? ? [X' Y'] D3]; subst; [reflexivity|]. f_equal; [|now apply IH].
        rewrite X in X'. rewrite Y in Y'. injection X' as X'. injection Y' as Y'. rewrite (surjective_pairing e), X', Y'. now rewrite <- surjective_pairing. }
      subst m2'. cbn [cast]. f_equal. subst m1.
      apply (inserts_sorted_perm (fun _ => True) d_cmp d_lawful); [apply Forall_forall; auto| |now apply Permutation_sym|reflexivity].
      assert (X : forall l, map fst (map (fun e : data * data => (cast (fst e), cast (snd e))) l) = map cast (map fst l)) by (intros l; now rewrite !map_map).
      clear -S T. revert S T. induction m as [|[a b] [|[a' b'] m] IH]; intros S T; try reflexivity. cbn [map ascending fst snd] in *. cbn [forallb fst snd] in T.
      apply andb_true_iff in T as [T1 T2]. pose proof T2 as T3. apply andb_true_iff in T3 as [T3 _]. apply andb_true_iff in T1 as [T1 _], T3 as [T3 _]. apply andb_true_iff in T1 as [_ T1], T3 as [_ T3].
      rewrite (cast_ord a T1), (cast_ord a' T3) in *. destruct (d_cmp a a'); try discriminate. now apply IH.
  Qed.

  Definition items_come (d : data) : Prop := match d with DList l | DRecord l => Forall comes l | _ => True end.
  Lemma comes' : forall d, comes d /\ items_come d.
  Proof.
    assert (FV : forall (vs : list (str * shape)) i n h, forallb (fun v => id_name (fst v) && good_shape (snd v)) vs = true -> nth_error vs i = Some (n, h) -> id_name n = true /\ good_shape h = true).
    { intros vs i n h H N. rewrite forallb_forall in H. specialize (H _ (nth_error_In _ _ N)). now apply andb_true_iff in H. }
    assert (EX : forall k d' t d, enc E t d = inr k -> dec E t k = Some d' -> back t d d' -> exists k d', enc E t d = inr k /\ dec E t k = Some d' /\ back t d d') by (intros; do 2 eexists; eauto).
    assert (LF : forall t d, has_type E t d = true -> cast d = d -> (forall kt vt m, ~ In (TyMap kt vt, DMap m) (parts E t d)) -> back t d d).
    { intros t d T C P. split; [exact T|]. split; [auto|]. split; [lia|]. split; [|now rewrite C]. intros _ kt vt m I. now apply P in I. }
    assert (NS : forall {R} (V : visitor R) n l, length l <> 1%nat -> (length l = O -> str_eqb n (s "None") = false) ->
      deserialize_any V (Kserd (Some n) (VTuple l)) = visit_seq V l).
    { intros R V n [|x [|y l]] H1 H2; cbn [deserialize_any]; [now rewrite H2|now destruct H1|reflexivity]. }
    assert (NN : forall {R} (V : visitor R) l, deserialize_any V (Kserd None (VTuple l)) = visit_seq V l) by (intros R V [|x [|y l]]; reflexivity).
    (* one part, several parts *)
    assert (B1 : forall t d t' d0 d0' (c : data -> data), back t d0 d0' -> has_type E t' (c d0') = has_type E t d0' -> d = c d0 -> (forall x, has_ord (c x) = has_ord x /\ dsize (c x) = S (dsize x) /\ cast (c x) = c (cast x)) ->
      parts E t' d = (t', d) :: parts E t d0 -> match d with DMap _ => False | _ => True end -> back t' d (c d0')).
    { intros t d t' d0 d0' c (X1 & X2 & X3 & X4 & X5) Y -> C P M. destruct (C d0) as (C1 & C2 & C3), (C d0') as (C1' & C2' & C3'). unfold back. rewrite Y, C1, C2, C1', C2', C3.
      split; [exact X1|]. split; [exact X2|]. split; [lia|]. split.
      - intros Q kt vt m I. rewrite P in I. destruct I as [[= _ Z]|I]; [rewrite Z in M; destruct M|]. revert I. apply X4. lia.
      - intros A. f_equal. apply X5. intros kt vt m I. apply (A kt vt m). rewrite P. now right. }
    assert (BL : forall typed p t d l l' (c : list data -> data), backs typed p l l' -> has_type E t (c l') = typed l' -> d = c l ->
      (forall x, has_ord (c x) = forallb has_ord x /\ (exists a, forall y, dsize (c y) = (a + list_sum (map dsize y))%nat) /\ cast (c x) = c (map cast x)) ->
      parts E t d = (t, d) :: p -> match d with DMap _ => False | _ => True end -> back t d (c l')).
    { intros typed p t d l l' c (X1 & X2 & X3 & X4 & X5) Y -> C P M. destruct (C l) as (C1 & (a & C2) & C3), (C l') as (C1' & _ & C3'). unfold back. rewrite Y, C1, C1', !C2, C3.
      split; [exact X1|]. split; [exact X2|]. split; [lia|]. split.
      - intros Q kt vt m I. rewrite P in I. destruct I as [[= _ Z]|I]; [rewrite Z in M; destruct M|]. revert I. apply X4. lia.
      - intros A. f_equal. apply X5. intros kt vt m I. apply (A kt vt m). rewrite P. now right. }
    assert (FM : forall m : list (data * data), Forall (fun e => (comes (fst e) /\ items_come (fst e)) /\ (comes (snd e) /\ items_come (snd e))) m -> Forall (fun e => comes (fst e) /\ comes (snd e)) m) by (intros m; apply Forall_impl; now intros a [[X _] [Y _]]).
    assert (FF : forall l, Forall (fun d => comes d /\ items_come d) l -> Forall comes l) by (intros l; apply Forall_impl; now intros a [X _]).
    assert (NP : forall kt vt m t d, parts E t d = [(t, d)] -> match d with DMap _ => False | _ => True end -> ~ In (TyMap kt vt, DMap m) (parts E t d)) by (intros kt vt m t d -> M [[= _ ->]|[]]; exact M).
    induction d using data_ind'; (split; [|try exact Logic.I; cbn [items_come]; now apply FF]); try (apply FF in H); try (apply FM in H); try (destruct IHd as [IHd IHi]); intros t T; pose proof T as T0.
    all: destruct t as [| |nt| | | | | |t|ts|t|kt vt|q]; try discriminate T; cbn [has_type] in T.
    all: try (pose proof (W q) as G; destruct (E q) as [nm|nm t|nm ts|nm fs|vs] eqn:Q; try discriminate T; cbn [good_def] in G).
    all: try (eapply EX; [reflexivity|reflexivity|apply LF; [assumption|reflexivity|intros; now apply NP]]; fail).
    - (* unit struct *) eapply EX; [cbn [enc]; rewrite Q; now apply with_id_ok|cbn [dec]; rewrite Q; reflexivity|apply LF; [assumption|reflexivity|intros; apply NP; [cbn [parts]; now rewrite Q|exact Logic.I]]].
    - (* int *) eapply EX; [reflexivity| |apply LF; [assumption|reflexivity|intros; now apply NP]].
      destruct (int_decodes nt n (Some (ntype_name (serde_int nt))) T) as [I1 I2]. change (option_map DInt (deserialize_int nt (Kserd (Some (ntype_name (serde_int nt))) (VNum (num_of_int (serde_int nt) n)))) = Some (DInt n)). unfold num_of_int. destruct (ntype_signed _); [now rewrite I2|now rewrite I1].
    - (* f32 *) destruct (f32_number x T) as (y & F & Y). eapply EX; [cbn [enc]; rewrite F; reflexivity|cbn [dec]; reflexivity|].
      split; [cbn [has_type]; now apply DeserProps2.f64_to_f32_wf|]. split; [discriminate|]. split; [cbn [dsize]; lia|]. split; [intros _ a b c I; now apply NP in I|]. intros _. cbn [cast]. now rewrite F.
    - (* Some *) destruct (IHd t T) as (k & d' & E1 & D1 & R). eapply EX; [cbn [enc]; rewrite E1; reflexivity|transitivity (option_map DSome (dec E t k)); [reflexivity|now rewrite D1]|].
      eapply (B1 t); [exact R|reflexivity|reflexivity|now intros|reflexivity|exact Logic.I].
    - (* tuple *) destruct (each_comes l H ts T) as (ks & l' & E1 & D1 & L1 & R). eapply EX; [cbn [enc]; rewrite E1; reflexivity|unfold knew; cbn [dec]; rewrite NN; cbn [visit_seq]; rewrite (each_decodes l' ts ks D1); reflexivity|].
      eapply BL; [exact R|reflexivity|reflexivity|intros x; split; [reflexivity|split; [now exists 1%nat|reflexivity]]|reflexivity|exact Logic.I].
    - (* Vec *) destruct (vec_comes l H t T) as (ks & l' & E1 & D1 & R). eapply EX; [cbn [enc]; rewrite E1; reflexivity|unfold knew; cbn [dec deserialize_any visit_seq]; rewrite D1; reflexivity|].
      eapply BL; [exact R|reflexivity|reflexivity|intros x; split; [reflexivity|split; [now exists 1%nat|reflexivity]]|reflexivity|exact Logic.I].
    - (* tuple struct *) apply andb_true_iff in G as [G G2]. apply andb_true_iff in G as [G G1]. destruct (each_comes l H ts T) as (ks & l' & E1 & D1 & L1 & R).
      destruct (each3_length _ _ _ _ D1) as [L2 L3]. apply negb_true_iff in G1, G2. apply Nat.eqb_neq in G1.
      eapply EX; [cbn [enc]; rewrite Q, with_id_ok by exact G; cbn [ebind]; rewrite E1; reflexivity|cbn [dec]; rewrite Q; rewrite NS; [cbn [visit_seq]; rewrite (each_decodes l' ts ks D1); reflexivity|lia|intros Z; replace (length ts) with 0%nat in G2 by lia; exact G2]|].
      eapply BL; [exact R|cbn [has_type]; now rewrite Q|reflexivity|intros x; split; [reflexivity|split; [now exists 1%nat|reflexivity]]|cbn [parts]; now rewrite Q|exact Logic.I].
    - (* map *) now apply map_comes.
    - (* newtype *) apply andb_true_iff in G as [G G1]. apply negb_true_iff in G1. destruct (IHd t T) as (k & d' & E1 & D1 & R).
      eapply EX; [cbn [enc]; rewrite Q, E1; cbn [ebind]; now apply with_id_ok|cbn [dec]; rewrite Q; cbn [deserialize_any]; rewrite G1; cbn [visit_newtype]; rewrite D1; reflexivity|].
      eapply (B1 t); [exact R|cbn [has_type]; now rewrite Q|reflexivity|now intros|cbn [parts]; now rewrite Q|exact Logic.I].
    - (* struct *) apply andb_true_iff in G as [G D]. destruct (fields_come fs l D H T) as (m & l' & E1 & D1 & R).
      eapply EX; [cbn [enc]; rewrite Q, with_id_ok by exact G; cbn [ebind]; rewrite E1; reflexivity|cbn [dec]; rewrite Q; cbn [deserialize_any visit_fields]; exact D1|].
      eapply BL; [exact R|cbn [has_type]; now rewrite Q|reflexivity|intros x; split; [reflexivity|split; [now exists 1%nat|reflexivity]]|cbn [parts]; now rewrite Q|exact Logic.I].
    - (* variant *) apply andb_true_iff in G as [D G]. destruct (nth_error vs i) as [[n h]|] eqn:NT; [|discriminate]. destruct (FV vs i n h G NT) as [GN GH].
      assert (PS : position n vs = Some (i, h)) by now apply position_nth.
      destruct h as [|t|ts|fs].
      + destruct d; try discriminate. eapply EX; [cbn [enc]; rewrite Q, NT; now apply with_id_ok|cbn [dec]; rewrite Q; cbn [variant_id kid opt_bind]; rewrite PS; reflexivity|apply LF; [assumption|reflexivity|intros; apply NP; [cbn [parts]; cbn [fst]; now rewrite Q, NT|exact Logic.I]]].
      + destruct (IHd t T) as (k & d' & E1 & D1 & R).
        eapply EX; [cbn [enc]; rewrite Q, NT, E1; cbn [ebind]; now apply with_id_ok|cbn [dec]; rewrite Q; cbn [variant_id kid opt_bind]; rewrite PS; cbn [opt_bind fst snd]; rewrite D1; reflexivity|].
        eapply (B1 t); [exact R|cbn [has_type]; now rewrite Q, NT|reflexivity|now intros|cbn [parts]; now rewrite Q, NT|exact Logic.I].
      + destruct d as [| | | | | | | | | |l| | | |]; try discriminate. cbn [items_come] in IHi. destruct (each_comes l IHi ts T) as (ks & l' & E1 & D1 & L1 & R). destruct (each3_length _ _ _ _ D1) as [L2 L3].
        eapply EX; [cbn [enc]; rewrite Q, NT, with_id_ok by exact GN; cbn [ebind]; rewrite E1; reflexivity|cbn [dec]; rewrite Q; cbn [variant_id kid opt_bind]; rewrite PS; cbn [opt_bind fst snd]|].
        { replace (length ks) with (length ts) by lia. rewrite Nat.eqb_refl. rewrite (each_decodes l' ts ks D1). reflexivity. }
        eapply (BL _ _ _ _ _ _ (fun l => DVariant i (DList l))); [exact R|cbn [has_type]; now rewrite Q, NT|reflexivity|intros x; split; [reflexivity|split; [now exists 2%nat|reflexivity]]|cbn [parts]; now rewrite Q, NT|exact Logic.I].
      + destruct d as [| | | | | | | | | | | | |l|]; try discriminate. cbn [items_come good_shape] in *. destruct (fields_come fs l GH IHi T) as (m & l' & E1 & D1 & R).
        eapply EX; [cbn [enc]; rewrite Q, NT, with_id_ok by exact GN; cbn [ebind]; rewrite E1; reflexivity|cbn [dec]; rewrite Q; cbn [variant_id kid opt_bind]; rewrite PS; cbn [opt_bind fst snd]; rewrite D1; reflexivity|].
        eapply (BL _ _ _ _ _ _ (fun l => DVariant i (DRecord l))); [exact R|cbn [has_type]; now rewrite Q, NT|reflexivity|intros x; split; [reflexivity|split; [now exists 2%nat|reflexivity]]|cbn [parts]; now rewrite Q, NT|exact Logic.I].
  Qed.
End Back.

(** a value always comes back as a value of its type; which is the same exactly
    when no map loses entries and every f32 comes back *)
Lemma decodes E t d : good_decls E -> has_type E t d = true -> exists k d', enc E t d = inr k /\ dec E t k = Some d' /\ has_type E t d' = true.
Proof. intros W T. destruct (proj1 (comes' E W d) t T) as (k & d' & H & D & R & _). eauto. Qed.
Lemma round_trip_exact E t d k : good_decls E -> has_type E t d = true -> enc E t d = inr k ->
  (dec E t k = Some d <-> apart E t d /\ Forall f32_same (f32s d)).
Proof.
  intros W T H. destruct (proj1 (comes' E W d) t T) as (k' & d' & H' & D & R1 & R2 & R3 & R4 & R5). rewrite H in H'. injection H' as <-. rewrite D. split.
  - intros [= ->]. assert (A : apart E t d) by auto. split; [exact A|]. apply cast_same. symmetry. now apply R5.
  - intros [A F]. apply cast_same in F. rewrite (R5 A), F. reflexivity.
Qed.
