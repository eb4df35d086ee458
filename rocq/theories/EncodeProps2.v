(** Proofs about encoding and decoding: a relation between values and the
    Kserds which stand for them; the encoder's result is in it. *)
From Verif Require Import Base BaseProps F64 F32 F32Spec F32Props Number NumberSpec BTree BTreeProps Value ValueSpec ValueProps ValueProps2 Encode EncodeSpec EncodeProps.
From Coq Require Import Permutation.
Open Scope N_scope.

Definition all2 {A B} (R : A -> B -> Prop) : list A -> list B -> Prop :=
  fix go l ks {struct l} := match l, ks with
    | [], [] => True
    | d :: l', k :: ks' => R d k /\ go l' ks'
    | _, _ => False
    end.
Definition each3 (R : ty -> data -> kserd -> Prop) : list ty -> list data -> list kserd -> Prop :=
  fix go ts l ks {struct l} := match ts, l, ks with
    | [], [], [] => True
    | t :: ts', d :: l', k :: ks' => R t d k /\ go ts' l' ks'
    | _, _, _ => False
    end.
(** the fields of a container, in any order *)
Definition fields_are (R : ty -> data -> kserd -> Prop) (fs : list (str * ty)) (l : list data) (m : list (str * kserd)) : Prop :=
  exists ks, each3 R (map snd fs) l ks /\ Permutation m (combine (map fst fs) ks).

(** [k] stands for [d]: up to the kind of a number, ids which do not matter to
    the decoder, and the order of entries *)
Fixpoint codes (E : decls) (t : ty) (d : data) (k : kserd) {struct d} : Prop :=
  match t, d with
  | TyUnit, DUnit => kval k = VUnit
  | TyBool, DBool b => kval k = VBool b
  | TyInt t, DInt n => (kval k = VNum (Uint n) \/ kval k = VNum (Int n)) /\ in_ntype t n = true
  | TyF64, DF64 x => exists n, kval k = VNum n /\ as_f64 n = x
  | TyF32, DF32 x => exists n, kval k = VNum n /\ f32_to_f64 x = Ret (as_f64 n)
  | TyChar, DChar c => kval k = VStr [c]
  | TyString, DString t => kval k = VStr t
  | TyBytes, DBytes b => kval k = VBarr b
  | TyOption _, DNone => k = Kserd (Some (s "None")) (VTuple [])
  | TyOption t, DSome d => exists x, k = Kserd (Some (s "Some")) (VTuple [x]) /\ codes E t d x
  | TyTuple ts, DList l => exists ks, k = Kserd None (VTuple ks) /\ each3 (codes E) ts l ks
  | TyVec t, DList l => exists ks, kval k = VSeq ks /\ all2 (codes E t) l ks
  | TyMap kt vt, DMap m =>
      exists es es', kval k = VMap es /\ Permutation es es' /\ all2 (fun e f => codes E kt (fst e) (fst f) /\ codes E vt (snd e) (snd f)) m es'
  | TyNamed n, d =>
      match E n, d with
      | DefUnit name, DUnit => k = Kserd (Some name) (VTuple [])
      | DefNewtype name t, DNewtype d => exists x, k = Kserd (Some name) (VTuple [x]) /\ codes E t d x
      | DefTuple name ts, DList l => exists ks, k = Kserd (Some name) (VTuple ks) /\ each3 (codes E) ts l ks
      | DefStruct _ fs, DRecord l => exists m, kval k = VCntr m /\ fields_are (codes E) fs l m
      | DefEnum vs, DVariant i d =>
          match nth_error vs i with
          | Some (name, ShUnit) => d = DUnit /\ k = Kserd (Some name) (VTuple [])
          | Some (name, ShNewtype t) => exists x, k = Kserd (Some name) (VTuple [x]) /\ codes E t d x
          | Some (name, ShTuple ts) => match d with DList l => exists ks, k = Kserd (Some name) (VTuple ks) /\ each3 (codes E) ts l ks | _ => False end
          | Some (name, ShStruct fs) => match d with DRecord l => exists m, k = Kserd (Some name) (VCntr m) /\ fields_are (codes E) fs l m | _ => False end
          | None => False
          end
      | _, _ => False
      end
  | _, _ => False
  end.

(** ** encoder *)
Lemma with_id_ok n v : id_name n = true -> e_with_id n v = inr (Kserd (Some n) v).
Proof. intros H. unfold e_with_id. rewrite with_id_spec. unfold id_name in H. now rewrite H. Qed.

Definition ok (o : bool) (k : kserd) : Prop := k_sorted k = true /\ (k_typed k = true /\ key_numbers k = true) /\ (o = true -> k_exact k = true).
Lemma ok_node o id v : sorted_node (Kserd id v) = true -> typed_node (Kserd id v) = true ->
  (o = true -> num_node exact (Kserd id v) = true) -> keys_exact (Kserd id v) = true -> Forall (ok o) (vchildren v) -> ok o (Kserd id v).
Proof.
  intros S T N X F. unfold ok, k_sorted, k_typed, k_exact, key_numbers in *. split; [|split; [split|intros O; specialize (N O)]]; apply k_all_children; (split; [assumption|]);
    (eapply Forall_impl; [|exact F]); cbn beta; intros a (A & (B & D) & C); auto.
Qed.
Lemma ok_weaken o o' k : (o' = true -> o = true) -> ok o k -> ok o' k.
Proof. intros H (A & (B & D) & C). repeat split; auto. Qed.
Lemma ok_list o id l : Forall (ok o) l -> ok o (Kserd id (VTuple l)) /\ ok o (Kserd id (VSeq l)).
Proof. intros H. split; apply ok_node; auto. Qed.
Lemma ok_fields o id m : ascending str_cmp m = true -> Forall (fun e => ok o (snd e)) m -> ok o (Kserd id (VCntr m)).
Proof.
  intros S H. apply ok_node; auto; [|now apply Forall_map_snd].
  unfold sorted_node. cbn [kval]. now rewrite (strictly_sorted_spec _ _ str_lawful) by apply keysP_true.
Qed.
Lemma ok_map o id m : ascending k_cmp m = true -> Forall (fun e => ok true (fst e)) m -> Forall (fun e => ok o (snd e)) m -> ok o (Kserd id (VMap m)).
Proof.
  intros S K H. apply ok_node; auto.
  - unfold sorted_node. cbn [kval]. rewrite (strictly_sorted_spec _ _ k_lawful); [exact S|].
    unfold keysP. eapply Forall_impl; [|exact K]. intros a (_ & _ & A). now apply k_exact_ordinary, A.
  - unfold keys_exact. cbn [kval]. apply forallb_forall. rewrite Forall_forall in K. intros e He. now apply (K e He).
  - cbn [vchildren]. apply Forall_entries. rewrite Forall_forall in *. intros e He. split; [|now apply H]. apply (ok_weaken true); [auto|now apply K].
Qed.

(** the entries which are inserted all remain *)
Lemma inserts_perm {K V} (cmp : K -> K -> comparison) : forall (l acc : list (K * V)),
  Forall (fun e => Forall (fun f => cmp (fst f) (fst e) <> Eq) l) acc -> ForallOrdPairs (fun e f => cmp (fst f) (fst e) <> Eq) l ->
  Permutation (fold_left (fun a e => bt_insert cmp (fst e) (snd e) a) l acc) (acc ++ l).
Proof.
  induction l as [|e l IH]; intros acc A P; cbn [fold_left]; [now rewrite app_nil_r|].
  inversion P as [|? ? P1 P2]; subst.
  assert (Q : Permutation (bt_insert cmp (fst e) (snd e) acc) (e :: acc)).
  { rewrite (surjective_pairing e) at 3. apply insert_perm. eapply Forall_impl; [|exact A]. intros f F. now inversion F. }
  rewrite IH; [|eapply Permutation_Forall; [apply Permutation_sym; exact Q|]|exact P2].
  - rewrite Q. cbn [app]. now rewrite Permutation_middle.
  - constructor; [exact P1|]. eapply Forall_impl; [|exact A]. intros f F. now inversion F.
Qed.
Lemma fold_inserts_spec {K V} (P : K -> Prop) cmp (L : lawful P cmp) (l : list (K * V)) : keysP P l ->
  ascending cmp (fold_left (fun a e => bt_insert cmp (fst e) (snd e) a) l []) = true.
Proof. intros H. exact (proj1 (proj2 (bt_inserts_spec P cmp L l H))). Qed.

Lemma distinct_pairs (l : list str) : distinct l = true -> ForallOrdPairs (fun a b => a <> b) l.
Proof.
  induction l as [|n l IH]; intros H; constructor; cbn [distinct] in H; apply andb_true_iff in H as [H1 H2]; [|now apply IH].
  apply Forall_forall. intros x Hx ->. apply negb_true_iff in H1. assert (existsb (str_eqb x) l = true) by (apply existsb_exists; exists x; split; [exact Hx|now apply str_eqb_eq]). congruence.
Qed.
Lemma distinct_NoDup (l : list str) : distinct l = true -> NoDup l.
Proof.
  intros H. apply distinct_pairs in H. induction H as [|n l H _ IH]; constructor; auto. intros I. rewrite Forall_forall in H. now apply (H n I).
Qed.

Lemma all2_Forall2 {A B} (R : A -> B -> Prop) l ks : all2 R l ks <-> Forall2 R l ks.
Proof.
  revert ks. induction l as [|d l IH]; intros [|k ks]; cbn [all2]; split; intros H; try easy; try (now inversion H).
  - constructor; [easy|]. now apply IH.
  - inversion H; subst. split; [easy|]. now apply IH.
Qed.

Lemma in_ntype_wf t n : in_ntype t n = true -> num_wf (num_of_int (serde_int t) n) = true.
Proof.
  unfold in_ntype, ntype_min, ntype_max, num_of_int, num_wf, u128_max, i128_min, i128_max.
  destruct t; cbn [serde_int ntype_signed ntype_bits]; intros H; apply andb_true_iff in H as [H1 H2]; apply andb_true_iff;
    apply Z.leb_le in H1, H2; split; apply Z.leb_le;
    (eapply Z.le_trans; [|exact H1]; now vm_compute) || (eapply Z.le_trans; [exact H2|]; now vm_compute).
Qed.

Section Enc.
  Context (E : decls) (W : good_decls E).
  (** what is shown for each value *)
  Definition enc_ok (d : data) : Prop := forall t, has_type E t d = true -> apart E t d ->
    exists k, enc E t d = inr k /\ codes E t d k /\ ok (has_ord d) k.
  Definition enc_ok_parts (l : list (ty * data)) : Prop :=
    forall kt vt m, In (TyMap kt vt, DMap m) l -> keys_apart E kt m.

  Lemma each_ok l : Forall enc_ok l -> forall ts, each_of (has_type E) ts l = true -> enc_ok_parts (parts_each (parts E) ts l) ->
    exists ks, enc_each (enc E) ts l = inr ks /\ each3 (codes E) ts l ks /\ Forall (ok (forallb has_ord l)) ks.
  Proof.
    induction 1 as [|d l H HF IH]; intros [|t ts] T A; try discriminate; [exists []; repeat constructor|].
    cbn [each_of] in T. apply andb_true_iff in T as [T1 T2].
    destruct (H t T1) as (k & E1 & C1 & O1); [intros kt vt m I; apply (A kt vt); cbn [parts_each]; apply in_or_app; now left|].
    destruct (IH ts T2) as (ks & E2 & C2 & O2); [intros kt vt m I; apply (A kt vt); cbn [parts_each]; apply in_or_app; now right|].
    exists (k :: ks). cbn [enc_each]. rewrite E1. cbn [ebind]. fold (enc_each (enc E)). rewrite E2. cbn [ebind forallb each3]. split; [reflexivity|]. split; [split; assumption|].
    constructor; [|eapply Forall_impl; [|exact O2]; intros a]; [refine (ok_weaken _ _ _ _ O1)|apply ok_weaken]; intros X; apply andb_true_iff in X; tauto.
  Qed.
  Lemma vec_ok l : Forall enc_ok l -> forall t, forallb (has_type E t) l = true -> enc_ok_parts (flat_map (parts E t) l) ->
    exists ks, enc_all (enc E t) l = inr ks /\ all2 (codes E t) l ks /\ Forall (ok (forallb has_ord l)) ks.
  Proof.
    induction 1 as [|d l H HF IH]; intros t T A; [exists []; repeat constructor|].
    cbn [forallb] in T. apply andb_true_iff in T as [T1 T2].
    destruct (H t T1) as (k & E1 & C1 & O1); [intros kt vt m I; apply (A kt vt); cbn [flat_map]; apply in_or_app; now left|].
    destruct (IH t T2) as (ks & E2 & C2 & O2); [intros kt vt m I; apply (A kt vt); cbn [flat_map]; apply in_or_app; now right|].
    exists (k :: ks). cbn [enc_all]. rewrite E1. cbn [ebind]. fold (enc_all (enc E t)). rewrite E2. cbn [ebind forallb all2]. split; [reflexivity|]. split; [split; assumption|].
    constructor; [|eapply Forall_impl; [|exact O2]; intros a]; [refine (ok_weaken _ _ _ _ O1)|apply ok_weaken]; intros X; apply andb_true_iff in X; tauto.
  Qed.
  Lemma each3_length R : forall l ts ks, each3 R ts l ks -> length ts = length l /\ length ks = length l.
  Proof. induction l as [|d l IH]; intros [|t ts] [|k ks] H; try easy. cbn [each3 length] in *. destruct H as [_ H]. apply IH in H. lia. Qed.

  Lemma fields_insert fs : forall l ks acc, enc_each (enc E) (map snd fs) l = inr ks ->
    enc_fields (enc E) fs l acc = inr (fold_left (fun a e => bt_insert str_cmp (fst e) (snd e) a) (combine (map fst fs) ks) acc).
  Proof.
    induction fs as [|[n t] fs IH]; intros [|d l] ks acc H; cbn [map enc_each] in H; try discriminate.
    - now injection H as <-.
    - cbn [snd] in H. fold (enc_each (enc E)) in H. destruct (enc E t d) as [e|k] eqn:E1; [discriminate|]. cbn [ebind] in H.
      destruct (enc_each (enc E) (map snd fs) l) as [e|ks'] eqn:E2; [discriminate|]. cbn [ebind] in H. injection H as <-.
      cbn [enc_fields]. rewrite E1. cbn [ebind map combine fold_left fst snd]. fold (enc_fields (enc E)). now apply IH.
  Qed.
  Lemma fields_ok fs l : distinct (map fst fs) = true -> Forall enc_ok l -> each_of (has_type E) (map snd fs) l = true ->
    enc_ok_parts (parts_each (parts E) (map snd fs) l) ->
    exists m, enc_fields (enc E) fs l [] = inr m /\ fields_are (codes E) fs l m /\ ascending str_cmp m = true /\ Forall (fun e => ok (forallb has_ord l) (snd e)) m.
  Proof.
    intros D H T A. destruct (each_ok l H _ T A) as (ks & E1 & C1 & O1). eexists. split; [exact (fields_insert fs l ks [] E1)|].
    assert (P : Permutation (fold_left (fun a e => bt_insert str_cmp (fst e) (snd e) a) (combine (map fst fs) ks) []) (combine (map fst fs) ks)).
    { apply (inserts_perm str_cmp _ []); [constructor|]. apply distinct_pairs in D. revert ks C1 E1 O1. clear -D. intros ks _ _ _. revert ks.
      induction D as [|n ns H _ IH]; intros [|k ks]; cbn [combine]; constructor; [|apply IH].
      apply Forall_forall. intros [n' k'] I. apply in_combine_l in I. rewrite Forall_forall in H. cbn [fst]. intros C. apply str_cmp_eq in C. exact (H _ I (eq_sym C)). }
    split; [exists ks; split; [exact C1|exact P]|]. split; [apply (fold_inserts_spec _ _ str_lawful), keysP_true|].
    eapply Permutation_Forall; [apply Permutation_sym; exact P|]. apply Forall_forall. intros [n k] I. apply in_combine_r in I. rewrite Forall_forall in O1. now apply O1.
  Qed.

  Lemma entries_ok kt vt m : Forall (fun e => enc_ok (fst e) /\ enc_ok (snd e)) m ->
    forallb (fun e => has_type E kt (fst e) && has_ord (fst e) && has_type E vt (snd e)) m = true ->
    enc_ok_parts (flat_map (fun e => parts E kt (fst e) ++ parts E vt (snd e)) m) ->
    exists es, all2 (fun e f => enc E kt (fst e) = inr (fst f) /\ codes E kt (fst e) (fst f) /\ codes E vt (snd e) (snd f)) m es /\
      Forall (fun f => ok true (fst f)) es /\ Forall (fun f => ok (forallb (fun e => has_ord (fst e) && has_ord (snd e)) m) (snd f)) es /\
      forall acc, enc_entries (enc E kt) (enc E vt) m acc = inr (fold_left (fun a e => bt_insert k_cmp (fst e) (snd e) a) es acc).
  Proof.
    induction 1 as [|[d e] m [H1 H2] HF IH]; intros T A; [exists []; repeat split; constructor|].
    cbn [forallb fst snd] in T. apply andb_true_iff in T as [T1 T2]. apply andb_true_iff in T1 as [T1 T3]. apply andb_true_iff in T1 as [T1 T4]. cbn [fst snd] in *.
    destruct (H1 kt T1) as (k & E1 & C1 & O1); [intros a b c I; apply (A a b); cbn [flat_map fst]; apply in_or_app; left; apply in_or_app; now left|].
    destruct (H2 vt T3) as (v & E2 & C2 & O2); [intros a b c I; apply (A a b); cbn [flat_map snd]; apply in_or_app; left; apply in_or_app; now right|].
    destruct (IH T2) as (es & C & O3 & O4 & F); [intros a b c I; apply (A a b); cbn [flat_map]; apply in_or_app; now right|].
    exists ((k, v) :: es). split; [split; [split; [exact E1|split; assumption]|exact C]|]. split; [constructor; [now rewrite T4 in O1|exact O3]|]. split.
    - cbn [forallb fst snd]. constructor; [|eapply Forall_impl; [|exact O4]; intros a]; [refine (ok_weaken _ _ _ _ O2)|apply ok_weaken]; intros X; apply andb_true_iff in X as [X X']; [|exact X'].
      apply andb_true_iff in X. tauto.
    - intros acc. cbn [enc_entries]. rewrite E1. cbn [ebind]. rewrite E2. cbn [ebind fold_left fst snd]. fold (enc_entries (enc E kt) (enc E vt)). apply F.
  Qed.

  Definition items_ok (d : data) : Prop := match d with DList l | DRecord l => Forall enc_ok l | _ => True end.
  Lemma enc_codes' d : enc_ok d /\ items_ok d.
  Proof.
    assert (FV : forall (vs : list (str * shape)) i n h, forallb (fun v => id_name (fst v) && good_shape (snd v)) vs = true -> nth_error vs i = Some (n, h) -> id_name n = true /\ good_shape h = true).
    { intros vs i n h H N. rewrite forallb_forall in H. specialize (H _ (nth_error_In _ _ N)). now apply andb_true_iff in H. }
    assert (EX : forall k t d, enc E t d = inr k -> codes E t d k -> ok (has_ord d) k -> exists k, enc E t d = inr k /\ codes E t d k /\ ok (has_ord d) k) by (intros; eexists; eauto).
    assert (LF : forall o id v, match v with VUnit | VBool _ | VStr _ | VTuple [] => True | _ => False end -> ok o (Kserd id v)).
    { intros o id v H. apply ok_node; destruct v as [| | | | |[|]| | |]; try contradiction; try (intros _); try reflexivity; constructor. }
    assert (FM : forall m : list (data * data), Forall (fun e => (enc_ok (fst e) /\ items_ok (fst e)) /\ (enc_ok (snd e) /\ items_ok (snd e))) m -> Forall (fun e => enc_ok (fst e) /\ enc_ok (snd e)) m) by (intros m; apply Forall_impl; now intros a [[X _] [Y _]]).
    assert (FF : forall l, Forall (fun d => enc_ok d /\ items_ok d) l -> Forall enc_ok l) by (intros l; apply Forall_impl; now intros a [X _]).
    induction d using data_ind'; (split; [|try exact Logic.I; cbn [items_ok]; now apply FF]); try (apply FF in H); try (apply FM in H); try (destruct IHd as [IHd IHi]); intros t T A.
    all: destruct t as [| |nt| | | | | |t|ts|t|kt vt|q]; try discriminate T; cbn [has_type] in T.
    all: try (eapply EX; [reflexivity|reflexivity|now apply LF]).
    all: try (pose proof (W q) as G; destruct (E q) as [nm|nm t|nm ts|nm fs|vs] eqn:Q; try discriminate T; cbn [good_def] in G).
    - (* unit struct *) eapply EX; [cbn [enc]; rewrite Q; now apply with_id_ok|cbn [codes]; now rewrite Q|now apply LF].
    - (* int *) eapply EX; [reflexivity| |].
      + cbn [codes]. split; [|exact T]. unfold new_int, with_id_unchk, num_of_int. cbn [kval]. destruct (ntype_signed _); auto.
      + pose proof (in_ntype_wf nt n T) as N. apply ok_node; try reflexivity; [exact N| |constructor].
        intros _. unfold num_node. cbn [kval]. unfold exact, ordinary. rewrite N. unfold num_of_int. now destruct (ntype_signed _).
    - (* f64 *) eapply EX; [reflexivity|cbn [codes]; eexists; split; reflexivity|]. apply ok_node; try reflexivity; [exact T|discriminate|constructor].
    - (* f32 *) destruct (f32_number x T) as (y & F & Y). eapply EX; [cbn [enc]; rewrite F; reflexivity|cbn [codes]; eexists; split; [reflexivity|exact F]|]. apply ok_node; try reflexivity; [exact Y|discriminate|constructor].
    - (* bytes *) eapply EX; [reflexivity|reflexivity|]. apply ok_node; try reflexivity; [exact T|constructor].
    - (* Some *) destruct (IHd t T) as (k & E1 & C1 & O1); [intros a b c I; apply (A a b); right; exact I|].
      eapply EX; [cbn [enc]; rewrite E1; reflexivity|cbn [codes]; exists k; split; [reflexivity|exact C1]|]. apply ok_list. now constructor.
    - (* tuple *) destruct (each_ok l H ts T) as (ks & E1 & C1 & O1); [intros a b c I; apply (A a b); right; exact I|].
      eapply EX; [cbn [enc]; rewrite E1; reflexivity|cbn [codes]; exists ks; split; [reflexivity|exact C1]|]. now apply ok_list.
    - (* Vec *) destruct (vec_ok l H t T) as (ks & E1 & C1 & O1); [intros a b c I; apply (A a b); right; exact I|].
      eapply EX; [cbn [enc]; rewrite E1; reflexivity|cbn [codes]; exists ks; split; [reflexivity|exact C1]|]. now apply ok_list.
    - (* tuple struct *) apply andb_true_iff in G as [G _]. apply andb_true_iff in G as [G _].
      destruct (each_ok l H ts T) as (ks & E1 & C1 & O1); [intros a b c I; apply (A a b); right; rewrite Q; exact I|].
      eapply EX; [cbn [enc]; rewrite Q, with_id_ok by exact G; cbn [ebind]; rewrite E1; reflexivity|cbn [codes]; rewrite Q; exists ks; split; [reflexivity|exact C1]|]. now apply ok_list.
    - (* map *) apply andb_true_iff in T as [T S].
      destruct (entries_ok kt vt m H T) as (es & C1 & O1 & O2 & F); [intros a b c I; apply (A a b); right; exact I|].
      assert (P : Permutation (fold_left (fun a e => bt_insert k_cmp (fst e) (snd e) a) es []) es).
      { apply (inserts_perm k_cmp es []); [constructor|]. pose proof (A kt vt m (or_introl eq_refl)) as KA. unfold keys_apart in KA. apply all2_Forall2 in C1.
        clear -KA C1. induction C1 as [|e f m es (E1 & _) C1 IH]; constructor; inversion KA as [|? ? K1 K2]; subst; [|now apply IH].
        clear -E1 C1 K1. induction C1 as [|e' f' m es (E2 & _) C1 IH]; constructor; inversion K1; subst; [|now apply IH].
        intros C. apply (H1 _ _ E1 E2). rewrite k_cmp_anti, C. reflexivity. }
      eapply EX; [cbn [enc]; rewrite F; reflexivity| |].
      + cbn [codes]. eexists. exists es. split; [reflexivity|]. split; [exact P|]. apply all2_Forall2. apply all2_Forall2 in C1. clear -C1. induction C1 as [|e f m es (_ & X & Y) _ IH]; constructor; auto.
      + apply ok_map.
        * apply (fold_inserts_spec _ _ k_lawful). unfold keysP. eapply Forall_impl; [|exact O1]. intros a (_ & _ & X). now apply k_exact_ordinary, X.
        * eapply Permutation_Forall; [apply Permutation_sym; exact P|exact O1].
        * eapply Permutation_Forall; [apply Permutation_sym; exact P|exact O2].
    - (* newtype *) apply andb_true_iff in G as [G _]. destruct (IHd t T) as (k & E1 & C1 & O1); [intros a b c I; apply (A a b); right; rewrite Q; exact I|].
      eapply EX; [cbn [enc]; rewrite Q, E1; cbn [ebind]; now apply with_id_ok|cbn [codes]; rewrite Q; exists k; split; [reflexivity|exact C1]|]. apply ok_list. now constructor.
    - (* struct *) apply andb_true_iff in G as [G D].
      destruct (fields_ok fs l D H T) as (m & E1 & C1 & S1 & O1); [intros a b c I; apply (A a b); right; rewrite Q; exact I|].
      eapply EX; [cbn [enc]; rewrite Q, with_id_ok by exact G; cbn [ebind]; rewrite E1; reflexivity|cbn [codes]; rewrite Q; exists m; split; [reflexivity|exact C1]|]. now apply ok_fields.
    - (* variant *) apply andb_true_iff in G as [D G]. destruct (nth_error vs i) as [[n h]|] eqn:NT; [|discriminate]. destruct (FV vs i n h G NT) as [GN GH].
      destruct h as [|t|ts|fs].
      + destruct d; try discriminate. eapply EX; [cbn [enc]; rewrite Q, NT; now apply with_id_ok|cbn [codes]; rewrite Q, NT; now split|now apply LF].
      + destruct (IHd t T) as (k & E1 & C1 & O1); [intros a b c I; apply (A a b); right; rewrite Q, NT; exact I|].
        eapply EX; [cbn [enc]; rewrite Q, NT, E1; cbn [ebind]; now apply with_id_ok|cbn [codes]; rewrite Q, NT; exists k; split; [reflexivity|exact C1]|]. apply ok_list. now constructor.
      + destruct d as [| | | | | | | | | |l| | | |]; try discriminate.
        cbn [items_ok] in IHi. destruct (each_ok l IHi ts T) as (ks & E1 & C1 & O1); [intros a b c I; apply (A a b); right; rewrite Q, NT; exact I|].
        eapply EX; [cbn [enc]; rewrite Q, NT, with_id_ok by exact GN; cbn [ebind]; rewrite E1; reflexivity|cbn [codes]; rewrite Q, NT; exists ks; split; [reflexivity|exact C1]|]. now apply ok_list.
      + destruct d as [| | | | | | | | | | | | |l|]; try discriminate. cbn [items_ok good_shape] in *.
        destruct (fields_ok fs l GH IHi T) as (m & E1 & C1 & S1 & O1); [intros a b c I; apply (A a b); right; rewrite Q, NT; exact I|].
        eapply EX; [cbn [enc]; rewrite Q, NT, with_id_ok by exact GN; cbn [ebind]; rewrite E1; reflexivity|cbn [codes]; rewrite Q, NT; exists m; split; [reflexivity|exact C1]|]. now apply ok_fields.
  Qed.
  Lemma enc_codes d t : has_type E t d = true -> apart E t d ->
    exists k, enc E t d = inr k /\ codes E t d k /\ ok (has_ord d) k.
  Proof. exact (proj1 (enc_codes' d) t). Qed.
End Enc.
