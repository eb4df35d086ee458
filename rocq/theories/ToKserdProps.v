(** Specification and proofs for the ToKserd conversions. *)
From Verif Require Import Base BaseProps F64 F32 F32Spec F32Props F32Props2 F32Props3 Number NumberSpec BTree Value ToKserd.
Open Scope N_scope.

(** ** Specification vocabulary *)

(** the type is Option or Kserd, up to Box: its values may convert to what
    [None] converts to *)
Fixpoint may_be_none (t : rty) : bool :=
  match t with YOption _ | YKserd => true | YBox t => may_be_none t | _ => false end.
(** no Option<T> in the type with such a T *)
Fixpoint unambiguous (t : rty) : bool :=
  match t with
  | YTuple l => forallb unambiguous l
  | YArray _ t | YVec t | YBox t => unambiguous t
  | YOption t => negb (may_be_none t) && unambiguous t
  | YResult t e => unambiguous t && unambiguous e
  | _ => true
  end.

(** a condition on the f32s of a value *)
Fixpoint f32s (p : f32 -> bool) (v : rval) : bool :=
  match v with
  | RF32 x => p x
  | RTuple l | RArray l | RVec l => forallb (f32s p) l
  | RBox x | RSome x | ROk x | RErr x => f32s p x
  | _ => true
  end.
Definition not_nan (x : f32) : bool := match x with GNaN _ _ => false | _ => true end.

(** ** Proofs *)
Lemma rval_ind' (P : rval -> Prop)
  (Hint : forall t n, P (RInt t n)) (Hf : forall x, P (RF64 x)) (Hg : forall x, P (RF32 x)) (Hu : P RUnit) (Hb : forall b, P (RBool b))
  (Hc : forall c, P (RChar c)) (Hs : forall t, P (RString t)) (Hr : forall t, P (RStr t))
  (Ht : forall l, Forall P l -> P (RTuple l)) (Ha : forall l, Forall P l -> P (RArray l))
  (Hv : forall l, Forall P l -> P (RVec l)) (Hx : forall v, P v -> P (RBox v)) (Hso : forall v, P v -> P (RSome v))
  (Hn : P RNone) (Ho : forall v, P v -> P (ROk v)) (He : forall v, P v -> P (RErr v)) (Hk : forall k, P (RKserd k)) :
  forall v, P v.
Proof.
  fix IH 1. intros [].
  9: { apply Ht. induction l as [|x l IHl]; constructor; [apply IH|exact IHl]. }
  9: { apply Ha. induction l as [|x l IHl]; constructor; [apply IH|exact IHl]. }
  9: { apply Hv. induction l as [|x l IHl]; constructor; [apply IH|exact IHl]. }
  all: first [apply Hint|apply Hf|apply Hg|apply Hu|apply Hb|apply Hc|apply Hs|apply Hr|apply Hn|apply Hk
             |apply Hx, IH|apply Hso, IH|apply Ho, IH|apply He, IH].
Qed.

Lemma try_all_spec (f : rval -> tres kserd) l : Forall (fun v => exists k, f v = inr k) l ->
  exists ks, try_all f l = inr ks /\ Forall2 (fun v k => f v = inr k) l ks.
Proof.
  induction 1 as [|v l [k Hk] HF (ks & E & F)]; [exists []; split; [reflexivity|constructor]|].
  exists (k :: ks). cbn. rewrite Hk. cbn. rewrite E. cbn. split; [reflexivity|now constructor].
Qed.

Lemma into_kserd_ok v : f32s f32_wf v = true -> exists k, into_kserd v = inr k.
Proof.
  induction v using rval_ind'; cbn [f32s]; intros W; try (eexists; reflexivity); try (now apply IHv);
    try (assert (F : Forall (fun v => exists k, into_kserd v = inr k) l)
           by (rewrite Forall_forall in H |- *; rewrite forallb_forall in W; intros v I; exact (H v I (W v I)));
         destruct (try_all_spec _ _ F) as (ks & E & _); cbn; rewrite E; eexists; reflexivity);
    try (destruct (IHv W) as [k E]; cbn; rewrite E; eexists; reflexivity).
  destruct (f32_number x W) as (y & E & _). cbn [into_kserd]. rewrite E. eexists. reflexivity.
Qed.

Definition go_types : list rval -> list rty -> bool :=
  fix go l ts := match l, ts with
    | [], [] => true
    | x :: l', t :: ts' => of_type t x && go l' ts'
    | _, _ => false
    end.
Lemma of_type_tuple l ts : of_type (YTuple ts) (RTuple l) = (1 <=? length l)%nat && (length l <=? 12)%nat && go_types l ts.
Proof. reflexivity. Qed.
Lemma go_types_in l : forall ts, go_types l ts = true -> forall x, In x l -> exists t, of_type t x = true.
Proof.
  induction l as [|a l IH]; intros [|t ts] G x I; try contradiction; [discriminate|]. cbn [go_types] in G. apply andb_true_iff in G as [G1 G2].
  destruct I as [<-|I]; [eauto|]. eapply IH; eassumption.
Qed.

Lemma typed_f32s v : forall t, of_type t v = true -> f32s f32_wf v = true.
Proof.
  induction v using rval_ind'; intros ty T; destruct ty; try discriminate T; cbn [f32s]; try reflexivity; try (cbn [of_type] in T; eauto; fail).
  all: apply forallb_forall; intros x I; rewrite Forall_forall in H.
  - rewrite of_type_tuple in T. apply andb_true_iff in T as [_ T]. destruct (go_types_in _ _ T x I) as [t X]. exact (H x I t X).
  - cbn [of_type] in T. apply andb_true_iff in T as [_ T]. rewrite forallb_forall in T. exact (H x I _ (T x I)).
  - cbn [of_type] in T. rewrite forallb_forall in T. exact (H x I _ (T x I)).
Qed.
Lemma typed_ok t v : of_type t v = true -> exists k, into_kserd v = inr k.
Proof. intros T. exact (into_kserd_ok v (typed_f32s v t T)). Qed.

Lemma try_all_children l : forallb (f32s f32_wf) l = true -> exists ks, try_all into_kserd l = inr ks /\ Forall2 (fun v k => into_kserd v = inr k) l ks.
Proof. intros W. apply try_all_spec. apply Forall_forall. intros x I. apply into_kserd_ok. rewrite forallb_forall in W. now apply W. Qed.

Lemma into_kserd_content :
  (forall t n, in_ntype t n = true -> exists k m, into_kserd (RInt t n) = inr k /\ v_num (kval k) = Some m /\
     num_val m = XFin (n * scale)%Z /\ num_wf m = true) /\
  (forall x, exists k, into_kserd (RF64 x) = inr k /\ v_num (kval k) = Some (Float x)) /\
  (forall x, f32_wf x = true -> exists k y, into_kserd (RF32 x) = inr k /\ v_num (kval k) = Some (Float y) /\ f_display y = g_display x) /\
  (exists k, into_kserd RUnit = inr k /\ v_unit (kval k) = true) /\
  (forall b, exists k, into_kserd (RBool b) = inr k /\ v_bool (kval k) = Some b) /\
  (forall c, exists k, into_kserd (RChar c) = inr k /\ v_ch (kval k) = Some c) /\
  (forall t, exists k, into_kserd (RString t) = inr k /\ v_str (kval k) = Some t) /\
  (forall t, exists k, into_kserd (RStr t) = inr k /\ v_str (kval k) = Some t) /\
  (forall t l, of_type t (RTuple l) = true -> exists k ks, into_kserd (RTuple l) = inr k /\ v_tuple (kval k) = Some ks /\
     Forall2 (fun v k => into_kserd v = inr k) l ks) /\
  (forall t l, of_type t (RArray l) = true -> exists k ks, into_kserd (RArray l) = inr k /\ v_seq (kval k) = Some ks /\
     Forall2 (fun v k => into_kserd v = inr k) l ks) /\
  (forall t l, of_type t (RVec l) = true -> exists k ks, into_kserd (RVec l) = inr k /\ v_seq (kval k) = Some ks /\
     Forall2 (fun v k => into_kserd v = inr k) l ks) /\
  (forall v, into_kserd (RBox v) = into_kserd v) /\
  (forall v, into_kserd (RSome v) = into_kserd v) /\
  (exists k, into_kserd RNone = inr k /\ kid k = Some (s "None") /\ v_tuple (kval k) = Some []) /\
  (forall t v, of_type t v = true -> exists k k', into_kserd v = inr k' /\ into_kserd (ROk v) = inr k /\ kid k = Some (s "Ok") /\ v_tuple (kval k) = Some [k']) /\
  (forall t v, of_type t v = true -> exists k k', into_kserd v = inr k' /\ into_kserd (RErr v) = inr k /\ kid k = Some (s "Err") /\ v_tuple (kval k) = Some [k']) /\
  (forall k, into_kserd (RKserd k) = inr k).
Proof.
  repeat match goal with |- _ /\ _ => split end; intros;
    try (cbn [into_kserd]; first [eexists; split; reflexivity | reflexivity | eexists; repeat split; reflexivity]; fail);
    try (match goal with T : of_type _ _ = true |- _ => apply typed_f32s in T; cbn [f32s] in T; cbn [into_kserd];
           destruct (try_all_children _ T) as (ks & -> & F); eexists; exists ks; repeat split; assumption end);
    try (match goal with T : of_type _ ?w = true |- _ => destruct (typed_ok _ _ T) as [k E]; cbn [into_kserd]; rewrite E; eexists; exists k; repeat split end).
  - assert (W : num_wf (num_of_int t n) = true).
    { destruct t; unfold in_ntype, ntype_min, ntype_max, num_of_int, num_wf, u128_max, i128_min, i128_max in *;
        cbn [ntype_signed ntype_bits] in *;
        rewrite andb_true_iff, !Z.leb_le in *; lia. }
    exists (new_int t n), (num_of_int t n). repeat split; [|exact W].
    unfold num_of_int. now destruct (ntype_signed t).
  - destruct (f32_number x H) as (y & E & _). cbn [into_kserd]. rewrite E. eexists. exists y. repeat split. exact (f32_text x y H E).
Qed.

Ltac unbind_ := match goal with |- tbind ?r _ = inr _ -> _ => destruct r; cbn [tbind]; [discriminate|] end.
Lemma not_none v : forall t k, of_type t v = true -> may_be_none t = false -> into_kserd v = inr k ->
  k <> with_id_unchk (s "None") (VTuple []).
Proof.
  induction v using rval_ind'; intros ty k0 T N; destruct ty; try discriminate T; cbn [may_be_none] in N; try discriminate N;
    cbn [into_kserd]; try (intros [= <-]; discriminate).
  - destruct (f32_to_f64 x); [|discriminate]. intros [= <-]. discriminate.
  - unbind_. intros [= <-]. discriminate.
  - unbind_. intros [= <-]. discriminate.
  - unbind_. intros [= <-]. discriminate.
  - cbn [of_type] in T. eapply IHv; eassumption.
  - destruct (into_kserd v); cbn [tbind]; [discriminate|]. intros [= <-]. discriminate.
  - destruct (into_kserd v); cbn [tbind]; [discriminate|]. intros [= <-]. discriminate.
Qed.

Lemma try_all_inj (f : rval -> tres kserd) l l' ks : try_all f l = inr ks -> try_all f l' = inr ks ->
  Forall2 (fun v v' => exists k, f v = inr k /\ f v' = inr k) l l'.
Proof.
  revert l' ks. induction l as [|v l IH]; intros [|v' l'] ks; cbn.
  - constructor.
  - intros [= <-]. destruct (f v'); cbn; [discriminate|]. destruct (try_all f l'); discriminate.
  - destruct (f v); cbn; [discriminate|]. destruct (try_all f l); cbn; [discriminate|]. intros [= <-]. discriminate.
  - destruct (f v) eqn:E1; cbn; [discriminate|]. destruct (try_all f l) eqn:E2; cbn; [discriminate|]. intros [= <-].
    destruct (f v') eqn:E3; cbn; [discriminate|]. destruct (try_all f l') eqn:E4; cbn; [discriminate|]. intros [= -> ->].
    constructor; [now exists k|]. now apply (IH _ l0).
Qed.

Lemma seq_inj (t : rty) l : unambiguous t = true ->
  Forall (fun v => f32s not_nan v = true -> forall t v' k, of_type t v = true -> of_type t v' = true -> unambiguous t = true ->
            into_kserd v = inr k -> into_kserd v' = inr k -> v = v') l -> forallb (f32s not_nan) l = true ->
  forall l', forallb (of_type t) l = true -> forallb (of_type t) l' = true ->
  Forall2 (fun v v' => exists k, into_kserd v = inr k /\ into_kserd v' = inr k) l l' -> l = l'.
Proof.
  intros U HF NN l' T T' F2. induction F2 as [|v v' l l' (k & E & E') F2 IH]; [reflexivity|].
  cbn [forallb] in *. apply andb_true_iff in T as [T1 T2]. apply andb_true_iff in T' as [T1' T2']. apply andb_true_iff in NN as [N1 N2].
  inversion HF as [|? ? H1 H2]; subst. f_equal; [|now apply IH]. eapply H1; eassumption.
Qed.
Lemma tuple_inj (ts : list rty) l :
  Forall (fun v => f32s not_nan v = true -> forall t v' k, of_type t v = true -> of_type t v' = true -> unambiguous t = true ->
            into_kserd v = inr k -> into_kserd v' = inr k -> v = v') l -> forallb (f32s not_nan) l = true ->
  forall l', forallb unambiguous ts = true -> go_types l ts = true -> go_types l' ts = true ->
  Forall2 (fun v v' => exists k, into_kserd v = inr k /\ into_kserd v' = inr k) l l' -> l = l'.
Proof.
  intros HF NN l' U T T' F2. revert ts U T T'. induction F2 as [|v v' l l' (k & E & E') F2 IH]; [reflexivity|].
  intros [|t ts] U T T'; [discriminate|]. cbn [go_types forallb] in *.
  apply andb_true_iff in T as [T1 T2]. apply andb_true_iff in T' as [T1' T2']. apply andb_true_iff in U as [U1 U2]. apply andb_true_iff in NN as [N1 N2].
  inversion HF as [|? ? H1 H2]; subst. f_equal; [|eapply IH; eassumption]. eapply H1; eassumption.
Qed.

Ltac unbind H := match type of H with tbind ?r _ = inr _ =>
  let E := fresh "E" in destruct r eqn:E; cbn [tbind] in H; [discriminate H|]; injection H as H end.

Lemma into_kserd_inj v : f32s not_nan v = true -> forall t v' k, of_type t v = true -> of_type t v' = true -> unambiguous t = true ->
  into_kserd v = inr k -> into_kserd v' = inr k -> v = v'.
Proof.
  induction v using rval_ind'; intros NN ty v' k0 T T' U K K'; destruct ty; try discriminate T;
    destruct v'; try discriminate T'; cbn [of_type into_kserd unambiguous f32s] in *; try reflexivity;
    unfold new_int, new_f64, new_bool, new_string, new_str, with_id_unchk in *.
  - destruct (ntype_eq_dec t t0); [|discriminate]. destruct (ntype_eq_dec t1 t0); [|discriminate]. subst.
    injection K as <-. injection K' as K'. f_equal. unfold num_of_int in K'.
    destruct (ntype_signed t0); congruence.
  - congruence.
  - destruct (f32_to_f64 x) as [y|] eqn:E; [|discriminate]. destruct (f32_to_f64 x0) as [y'|] eqn:E'; [|discriminate].
    injection K as <-. injection K' as ->. f_equal. apply (f32_distinct x x0 y T T'); try assumption. intros sg p ->. discriminate NN.
  - congruence.
  - congruence.
  - congruence.
  - congruence.
  - unbind K. unbind K'. subst k0. injection K' as ->.
    change (of_type (YTuple l0) (RTuple l) = true) in T. change (of_type (YTuple l0) (RTuple l1) = true) in T'.
    rewrite of_type_tuple in T, T'. apply andb_true_iff in T as [_ T]. apply andb_true_iff in T' as [_ T'].
    f_equal. eapply tuple_inj; try eassumption. eapply try_all_inj; eassumption.
  - unbind K. unbind K'. subst k0. injection K' as ->.
    apply andb_true_iff in T as [_ T]. apply andb_true_iff in T' as [_ T'].
    f_equal. eapply seq_inj; try eassumption. eapply try_all_inj; eassumption.
  - unbind K. unbind K'. subst k0. injection K' as ->.
    f_equal. eapply seq_inj; try eassumption. eapply try_all_inj; eassumption.
  - f_equal. eapply IHv; eassumption.
  - apply andb_true_iff in U as [U1 U2]. f_equal. eapply IHv; eassumption.
  - apply andb_true_iff in U as [U1 U2]. apply negb_true_iff in U1. injection K' as <-.
    exfalso. now apply (not_none _ _ _ T U1 K).
  - apply andb_true_iff in U as [U1 U2]. apply negb_true_iff in U1. injection K as <-.
    exfalso. now apply (not_none _ _ _ T' U1 K').
  - apply andb_true_iff in U as [U1 U2]. unbind K. unbind K'. subst k0. injection K' as ->. f_equal. eapply IHv; eauto.
  - unbind K. unbind K'. subst k0. discriminate.
  - unbind K. unbind K'. subst k0. discriminate.
  - apply andb_true_iff in U as [U1 U2]. unbind K. unbind K'. subst k0. injection K' as ->. f_equal. eapply IHv; eauto.
  - congruence.
Qed.
