(** Proofs about encoding and decoding: the decoder reads what stands for a
    value as the value. *)
From Verif Require Import Base BaseProps F64 F32 F32Spec F32Props Number NumberSpec BTree BTreeProps Value ValueSpec ValueProps ValueProps2 Encode EncodeSpec EncodeProps EncodeProps2.
From Coq Require Import Permutation.
Open Scope N_scope.

Lemma int_decodes t n i : in_ntype t n = true ->
  deserialize_int t (Kserd i (VNum (Uint n))) = Some n /\ deserialize_int t (Kserd i (VNum (Int n))) = Some n.
Proof.
  intros H. unfold deserialize_int. cbn [kval as_i128 as_u128]. pose proof H as H0. unfold in_ntype in H0. apply andb_true_iff in H0 as [H1 H2]. apply Z.leb_le in H1, H2.
  assert (A : ntype_signed t = true -> to_i128 n = Some n).
  { intros S. unfold to_i128. replace (i128_min <=? n)%Z with true; [replace (n <=? i128_max)%Z with true; [reflexivity|]|]; symmetry; apply Z.leb_le.
    - eapply Z.le_trans; [exact H2|]. destruct t; try discriminate S; now vm_compute.
    - eapply Z.le_trans; [|exact H1]. destruct t; try discriminate S; now vm_compute. }
  assert (B : ntype_signed t = false -> to_u128 n = Some n).
  { intros S. unfold to_u128. replace (0 <=? n)%Z with true; [replace (n <=? u128_max)%Z with true; [reflexivity|]|]; symmetry; apply Z.leb_le.
    - eapply Z.le_trans; [exact H2|]. destruct t; try discriminate S; now vm_compute.
    - eapply Z.le_trans; [|exact H1]. destruct t; try discriminate S; now vm_compute. }
  destruct (ntype_signed t) eqn:S; rewrite ?A, ?B by reflexivity; cbn [opt_bind]; rewrite H; auto.
Qed.

Lemma position_nth {A} (l : list (str * A)) : distinct (map fst l) = true -> forall i n a, nth_error l i = Some (n, a) -> position n l = Some (i, a).
Proof.
  induction l as [|[m b] l IH]; intros D [|i] n a H; try discriminate; cbn [position].
  - injection H as -> ->. now rewrite (proj2 (str_eqb_eq n n) eq_refl).
  - cbn [map fst distinct] in D. apply andb_true_iff in D as [D1 D2]. cbn [nth_error] in H. rewrite (IH D2 i n a H).
    destruct (str_eqb n m) eqn:X; [|reflexivity]. exfalso. apply str_eqb_eq in X. subst m. apply negb_true_iff in D1.
    assert (Y : existsb (str_eqb n) (map fst l) = true); [|congruence]. apply existsb_exists. exists n. split; [|now apply str_eqb_eq]. apply nth_error_In in H. now apply (in_map fst) in H.
Qed.

Lemma dec_struct_all {K} (ident : K -> option (option (nat * ty))) f m il :
  Forall2 (fun e r => exists t, ident (fst e) = Some (Some (fst r, t)) /\ f t (snd e) = Some (snd r)) m il -> dec_struct ident f m = Some il.
Proof.
  induction 1 as [|[n k] [i d] m il (t & H1 & H2) _ IH]; [reflexivity|]. cbn [dec_struct fst snd] in *. rewrite H1. cbn [opt_bind]. rewrite H2. cbn [opt_bind].
  fold (dec_struct ident f). now rewrite IH.
Qed.
Lemma twice_NoDup l : NoDup (map fst l) -> twice l = false.
Proof.
  induction l as [|[i d] l IH]; intros H; [reflexivity|]. cbn [map fst twice] in *. inversion H as [|? ? H1 H2]; subst. rewrite IH by exact H2. rewrite orb_false_r.
  destruct (existsb _ l) eqn:X; [|reflexivity]. exfalso. apply existsb_exists in X as ([j e] & I & Y). apply Nat.eqb_eq in Y. cbn [fst] in Y. subst j. apply H1. now apply (in_map fst) in I.
Qed.
Lemma find_NoDup i d (l : list (nat * data)) : NoDup (map fst l) -> In (i, d) l -> find (fun e => Nat.eqb i (fst e)) l = Some (i, d).
Proof.
  induction l as [|[j e] l IH]; intros N I; [destruct I|]. cbn [find fst map] in *. inversion N as [|? ? N1 N2]; subst. destruct I as [[= -> ->]|I].
  - now rewrite Nat.eqb_refl.
  - destruct (Nat.eqb_spec i j) as [->|X]; [exfalso; apply N1; now apply (in_map fst) in I|]. now apply IH.
Qed.
Lemma take_all il : NoDup (map fst il) -> forall fs l i, length fs = length l ->
  (forall j d, nth_error l j = Some d -> In ((i + j)%nat, d) il) -> take_fields i fs il = Some l.
Proof.
  intros N. induction fs as [|[n t] fs IH]; intros [|d l] i L H; try discriminate; [reflexivity|]. cbn [take_fields].
  rewrite (find_NoDup i d) by (try exact N; specialize (H O d eq_refl); now rewrite Nat.add_0_r in H). cbn [opt_bind].
  rewrite (IH l (S i)); [reflexivity|now injection L|]. intros j d' J. specialize (H (S j) d' J). now replace (S i + j)%nat with (i + S j)%nat by lia.
Qed.
Lemma combine_seq_in {A} (l : list A) : forall i j d, nth_error l j = Some d -> In ((i + j)%nat, d) (combine (seq i (length l)) l).
Proof.
  induction l as [|x l IH]; intros i [|j] d H; try discriminate; cbn [length seq combine].
  - injection H as ->. left. now rewrite Nat.add_0_r.
  - right. replace (i + S j)%nat with (S i + j)%nat by lia. now apply IH.
Qed.
Lemma combine_fst {A B} (a : list A) : forall (b : list B), length a = length b -> map fst (combine a b) = a.
Proof. induction a as [|x a IH]; intros [|y b] L; try discriminate; [reflexivity|]. cbn. f_equal. apply IH. now injection L. Qed.

Section Dec.
  Context (E : decls) (W : good_decls E).
  Definition dec_ok (d : data) : Prop := forall t k, has_type E t d = true -> codes E t d k -> dec E t k = Some d.

  Lemma each_dec l : Forall dec_ok l -> forall ts ks, each_of (has_type E) ts l = true -> each3 (codes E) ts l ks -> dec_each (dec E) ts ks = Some l.
  Proof.
    induction 1 as [|d l H HF IH]; intros [|t ts] [|k ks] T C; try discriminate T; try destruct C; [reflexivity|].
    cbn [each_of] in T. apply andb_true_iff in T as [T1 T2]. cbn [dec_each]. rewrite (H t k) by assumption. cbn [opt_bind]. fold (dec_each (dec E)). now rewrite (IH ts ks).
  Qed.
  Lemma vec_dec l : Forall dec_ok l -> forall t ks, forallb (has_type E t) l = true -> all2 (codes E t) l ks -> dec_all (dec E t) ks = Some l.
  Proof.
    induction 1 as [|d l H HF IH]; intros t [|k ks] T C; try destruct C; [reflexivity|].
    cbn [forallb] in T. apply andb_true_iff in T as [T1 T2]. cbn [dec_all]. rewrite (H t k) by assumption. cbn [opt_bind]. fold (dec_all (dec E t)). now rewrite (IH t ks).
  Qed.
  Lemma entries_dec kt vt es m : Forall2 (fun e f => dec E kt (fst f) = Some (fst e) /\ dec E vt (snd f) = Some (snd e)) m es ->
    forall acc, dec_entries (dec E kt) (dec E vt) es acc = Some (fold_left (fun a e => bt_insert d_cmp (fst e) (snd e) a) m acc).
  Proof.
    intros F. induction F as [|[d e] [k v] m es [H1 H2] _ IH]; intros acc; [reflexivity|]. cbn [dec_entries fst snd fold_left] in *. rewrite H1. cbn [opt_bind]. rewrite H2. cbn [opt_bind].
    fold (dec_entries (dec E kt) (dec E vt)). apply IH.
  Qed.
  Lemma fields_dec fs l m : distinct (map fst fs) = true -> Forall dec_ok l -> each_of (has_type E) (map snd fs) l = true -> fields_are (codes E) fs l m ->
    opt_bind (dec_struct (field_name fs) (dec E) m) (dec_record fs) = Some (DRecord l).
  Proof.
    intros D H T (ks & C & P).
    assert (F : Forall2 (fun e r => exists t, field_name fs (fst e) = Some (Some (fst r, t)) /\ dec E t (snd e) = Some (snd r)) (combine (map fst fs) ks) (combine (seq 0 (length l)) l)).
    { pose proof (position_nth fs D) as PN. revert T C. change (map snd fs) with (map snd (skipn 0 fs)). change (map fst fs) with (map fst (skipn 0 fs)).
      assert (G : forall i gs l ks, Forall dec_ok l -> (forall j n t, nth_error gs j = Some (n, t) -> position n fs = Some ((i + j)%nat, t)) ->
        each_of (has_type E) (map snd gs) l = true -> each3 (codes E) (map snd gs) l ks ->
        Forall2 (fun e r => exists t, field_name fs (fst e) = Some (Some (fst r, t)) /\ dec E t (snd e) = Some (snd r)) (combine (map fst gs) ks) (combine (seq i (length l)) l)).
      { clear. intros i gs. revert i. induction gs as [|[n t] gs IH]; intros i [|d l] [|k ks] H N T C; try discriminate T; try destruct C; [constructor|].
        cbn [map fst snd each_of length seq combine] in *. apply andb_true_iff in T as [T1 T2]. inversion H as [|? ? F1 F2]; subst. constructor.
        - exists t. cbn [fst snd]. split; [unfold field_name; rewrite (N O n t eq_refl); now rewrite Nat.add_0_r|now apply F1].
        - apply IH; auto. intros j n' t' J. specialize (N (S j) n' t' J). now replace (S i + j)%nat with (i + S j)%nat by lia. }
      intros T C. apply G; auto. }
    destruct (Permutation_Forall2 (Permutation_sym P) F) as (il & Q & F').
    rewrite (dec_struct_all _ _ m il F'). cbn [opt_bind]. unfold dec_record.
    assert (ND : NoDup (map fst il)).
    { eapply Permutation_NoDup; [apply Permutation_map; exact Q|]. rewrite combine_fst by apply seq_length. apply seq_NoDup. }
    rewrite twice_NoDup by exact ND. destruct (each3_length _ _ _ _ C) as [LT _]. rewrite map_length in LT.
    rewrite (take_all il ND fs l 0 LT); [reflexivity|]. intros j d J. eapply Permutation_in; [exact Q|]. now apply combine_seq_in.
  Qed.

  Definition items_dec (d : data) : Prop := match d with DList l | DRecord l => Forall dec_ok l | _ => True end.
  Lemma codes_dec' d : f32s_kept d -> dec_ok d /\ items_dec d.
  Proof.
    assert (FM : forall m : list (data * data), Forall f32_kept (flat_map (fun e => f32s (fst e) ++ f32s (snd e)) m) ->
      Forall (fun e => (f32s_kept (fst e) -> dec_ok (fst e) /\ items_dec (fst e)) /\ (f32s_kept (snd e) -> dec_ok (snd e) /\ items_dec (snd e))) m -> Forall (fun e => dec_ok (fst e) /\ dec_ok (snd e)) m).
    { intros m K. induction 1 as [|e m [H1 H2] _ IH]; constructor; cbn [flat_map] in K; apply Forall_app in K as [K1 K2]; [apply Forall_app in K1 as [K1 K3]|]; [split; [now apply H1|now apply H2]|now apply IH]. }
    assert (FF : forall l, Forall f32_kept (flat_map f32s l) -> Forall (fun d => f32s_kept d -> dec_ok d /\ items_dec d) l -> Forall dec_ok l).
    { intros l K. induction 1 as [|x l H _ IH]; constructor; cbn [flat_map] in K; apply Forall_app in K as [K1 K2]; [now apply H|now apply IH]. }
    assert (NS : forall {R} (V : visitor R) n l, length l <> 1%nat -> (length l = O -> str_eqb n (s "None") = false) ->
      deserialize_any V (Kserd (Some n) (VTuple l)) = visit_seq V l).
    { intros R V n [|x [|y l]] H1 H2; cbn [deserialize_any]; [now rewrite H2|now destruct H1|reflexivity]. }
    assert (NN : forall {R} (V : visitor R) l, deserialize_any V (Kserd None (VTuple l)) = visit_seq V l) by (intros R V [|x [|y l]]; reflexivity).
    induction d using data_ind'; intros K; unfold f32s_kept in K; cbn [f32s] in K; (split; [|try exact Logic.I; cbn [items_dec]; now apply FF]); try (apply (FF _ K) in H); try (apply (FM _ K) in H); try (destruct (IHd K) as [IHd' IHi]; clear IHd; rename IHd' into IHd); intros r k T C.
    all: destruct r as [| |nt| | | | | |t|ts|t|kt vt|q]; try discriminate T; cbn [has_type codes] in T, C.
    all: try (pose proof (W q) as G; destruct (E q) as [nm|nm t|nm ts|nm fs|vs] eqn:Q; try discriminate T; cbn [good_def] in G).
    all: try (destruct k as [i v]; cbn [kval] in C; subst v; reflexivity).
    - (* unit struct *) subst k. cbn [dec]. now rewrite Q.
    - (* int *) destruct C as [C _], k as [i v]. cbn [kval] in C. cbn [dec]. destruct (int_decodes nt n i T) as [I1 I2]. destruct C as [-> | ->]; [now rewrite I1|now rewrite I2].
    - (* f64 *) destruct C as (n & C & N), k as [i v]. cbn [kval] in C. subst v. cbn [dec]. unfold deserialize_f64. cbn [kval option_map]. now rewrite N.
    - (* f32 *) destruct C as (n & C & N), k as [i v]. cbn [kval] in C. subst v. cbn [dec]. unfold deserialize_f32. cbn [kval option_map]. inversion K; subst. now rewrite (f32_back x (as_f64 n) T).
    - (* None *) subst k. reflexivity.
    - (* Some *) destruct C as (x & -> & C). cbn [dec]. change (option_map DSome (dec E t x) = Some (DSome d)). now rewrite (IHd t x).
    - (* tuple *) destruct C as (ks & -> & C). cbn [dec]. rewrite NN. cbn [visit_seq]. now rewrite (each_dec l H ts ks).
    - (* Vec *) destruct C as (ks & C & D), k as [i v]. cbn [kval] in C. subst v. cbn [dec deserialize_any visit_seq]. now rewrite (vec_dec l H t ks).
    - (* tuple struct *) destruct C as (ks & -> & C). apply andb_true_iff in G as [G G2]. apply andb_true_iff in G as [_ G1]. destruct (each3_length _ _ _ _ C) as [L1 L2]. cbn [dec]. rewrite Q.
      apply negb_true_iff in G1, G2. apply Nat.eqb_neq in G1.
      rewrite NS; [|lia|intros Z; replace (length ts) with 0%nat in G2 by lia; exact G2]. cbn [visit_seq]. now rewrite (each_dec l H ts ks).
    - (* map *) destruct C as (es & es' & C & P & A), k as [i v]. cbn [kval] in C. subst v. apply andb_true_iff in T as [T S].
      assert (F : Forall2 (fun f e => dec E kt (fst f) = Some (fst e) /\ dec E vt (snd f) = Some (snd e)) es' m).
      { apply all2_Forall2 in A. clear -A H T. revert T. induction A as [|e f m es' [C1 C2] _ IH]; intros T; constructor; inversion H as [|? ? [H1 H2] H3]; subst;
          cbn [forallb] in T; apply andb_true_iff in T as [T T3]; [|now apply IH]. apply andb_true_iff in T as [T T2]. apply andb_true_iff in T as [T T1]. split; auto. }
      destruct (Permutation_Forall2 (Permutation_sym P) F) as (m' & Q & F').
      cbn [dec deserialize_any visit_map]. rewrite (entries_dec kt vt es m').
      2:{ clear -F'. induction F'; constructor; auto. }
      cbn [option_map]. do 2 f_equal. apply (inserts_sorted_perm (fun _ => True) d_cmp d_lawful); [apply Forall_forall; auto|exact S|now apply Permutation_sym|reflexivity].
    - (* newtype *) destruct C as (x & -> & C). apply andb_true_iff in G as [_ G]. apply negb_true_iff in G. cbn [dec]. rewrite Q. cbn [deserialize_any]. rewrite G. cbn [visit_newtype]. now rewrite (IHd t x).
    - (* struct *) destruct C as (m & C & F), k as [i v]. cbn [kval] in C. subst v. apply andb_true_iff in G as [_ D]. cbn [dec]. rewrite Q. cbn [deserialize_any visit_fields]. now apply fields_dec.
    - (* variant *) apply andb_true_iff in G as [D G]. destruct (nth_error vs i) as [[n h]|] eqn:NT; [|discriminate].
      assert (PS : position n vs = Some (i, h)) by now apply position_nth. rewrite forallb_forall in G. specialize (G _ (nth_error_In _ _ NT)). apply andb_true_iff in G as [_ G]. cbn [snd] in G.
      destruct h as [|t|ts|fs].
      + destruct C as [-> ->]. cbn [dec]. rewrite Q. cbn [variant_id kid opt_bind]. rewrite PS. reflexivity.
      + destruct C as (x & -> & C). cbn [dec]. rewrite Q. cbn [variant_id kid opt_bind]. rewrite PS. cbn [opt_bind fst snd]. now rewrite (IHd t x).
      + destruct d as [| | | | | | | | | |l| | | |]; try discriminate. destruct C as (ks & -> & C). cbn [dec]. rewrite Q. cbn [variant_id kid opt_bind]. rewrite PS. cbn [opt_bind fst snd].
        destruct (each3_length _ _ _ _ C) as [L1 L2]. replace (length ks) with (length ts) by lia. rewrite Nat.eqb_refl. cbn [items_dec] in IHi. now rewrite (each_dec l IHi ts ks).
      + destruct d as [| | | | | | | | | | | | |l|]; try discriminate. destruct C as (m & -> & F). cbn [dec]. rewrite Q. cbn [variant_id kid opt_bind]. rewrite PS. cbn [opt_bind fst snd items_dec good_shape] in *. now rewrite (fields_dec fs l m G IHi T F).
  Qed.
  Lemma codes_dec d t k : f32s_kept d -> has_type E t d = true -> codes E t d k -> dec E t k = Some d.
  Proof. intros K. exact (proj1 (codes_dec' d K) t k). Qed.
End Dec.

Lemma round_trip E t d : good_decls E -> has_type E t d = true -> f32s_kept d -> apart E t d -> exists k, enc E t d = inr k /\ dec E t k = Some d.
Proof. intros W T K A. destruct (enc_codes E W d t T A) as (k & H & C & _). exists k. split; [exact H|]. now apply codes_dec. Qed.
