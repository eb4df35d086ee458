(** What the provided conversions give is decoded as the value, and is what the
    encoder gives but for ids. *)
From Verif Require Import Base BaseProps F64 F32 F32Spec F32Props F32Props2 F32Props3 Number NumberSpec BTree Value ValueSpec ToKserd ToKserdProps Encode EncodeSpec EncodeProps EncodeProps3 ConvSpec.
Open Scope N_scope.

Section Conv.
  Context (E : decls).

  (** ** decoding *)
  Definition reads (v : rval) : Prop := forall y t, of_type y v = true -> serde_ty E y t -> no_some v = true -> f32s_kept (data_of v) ->
    exists k, into_kserd v = inr k /\ dec E t k = Some (data_of v).

  Lemma kept_list l : f32s_kept (DList (map data_of l)) -> Forall (fun v => f32s_kept (data_of v)) l.
  Proof.
    unfold f32s_kept. cbn [EncodeSpec.f32s]. induction l as [|v l IH]; [constructor|]. cbn [map flat_map]. rewrite Forall_app. intros [A B].
    constructor; [exact A|now apply IH].
  Qed.
  Lemma reads_each l : Forall reads l -> forall ys ts, go_types l ys = true -> Forall2 (serde_ty E) ys ts -> forallb no_some l = true ->
    Forall (fun v => f32s_kept (data_of v)) l ->
    exists ks, try_all into_kserd l = inr ks /\ dec_each (dec E) ts ks = Some (map data_of l).
  Proof.
    induction 1 as [|v l H F IH]; intros [|y ys] ts G T N K; try discriminate G.
    - inversion T; subst. exists []. split; reflexivity.
    - inversion T as [|? t ? ts' T1 T2]; subst. cbn [go_types] in G. apply andb_true_iff in G as [G1 G2].
      cbn [forallb] in N. apply andb_true_iff in N as [N1 N2]. inversion K as [|? ? K1 K2]; subst.
      destruct (H y t G1 T1 N1 K1) as (k & A & B). destruct (IH ys ts' G2 T2 N2 K2) as (ks & C & D).
      exists (k :: ks). cbn [try_all]. rewrite A. cbn [tbind]. fold (try_all into_kserd). rewrite C. cbn [tbind]. split; [reflexivity|].
      cbn [dec_each]. rewrite B. cbn [opt_bind]. fold (dec_each (dec E)). now rewrite D.
  Qed.
  Lemma repeat_types y t l : forallb (of_type y) l = true -> serde_ty E y t ->
    go_types l (repeat y (length l)) = true /\ Forall2 (serde_ty E) (repeat y (length l)) (repeat t (length l)).
  Proof.
    intros H S. induction l as [|v l IH]; [split; [reflexivity|constructor]|]. cbn [forallb] in H. apply andb_true_iff in H as [H1 H2].
    destruct (IH H2) as [A B]. cbn [length repeat go_types]. rewrite H1, A. split; [reflexivity|now constructor].
  Qed.
  Lemma reads_all l : Forall reads l -> forall y t, forallb (of_type y) l = true -> serde_ty E y t -> forallb no_some l = true ->
    Forall (fun v => f32s_kept (data_of v)) l ->
    exists ks, try_all into_kserd l = inr ks /\ dec_all (dec E t) ks = Some (map data_of l).
  Proof.
    induction 1 as [|v l H F IH]; intros y t G T N K.
    - exists []. split; reflexivity.
    - cbn [forallb] in G. apply andb_true_iff in G as [G1 G2].
      cbn [forallb] in N. apply andb_true_iff in N as [N1 N2]. inversion K as [|? ? K1 K2]; subst.
      destruct (H y t G1 T N1 K1) as (k & A & B). destruct (IH y t G2 T N2 K2) as (ks & C & D).
      exists (k :: ks). cbn [try_all]. rewrite A. cbn [tbind]. fold (try_all into_kserd). rewrite C. cbn [tbind]. split; [reflexivity|].
      cbn [dec_all]. rewrite B. cbn [opt_bind]. fold (dec_all (dec E t)). now rewrite D.
  Qed.
  Lemma tuple_any ts ks l : dec_each (dec E) ts ks = Some l -> dec E (TyTuple ts) (knew (VTuple ks)) = Some (DList l).
  Proof. intros H. unfold knew. cbn [dec deserialize_any]. destruct ks as [|k [|k' ks]]; cbn [visit_seq]; now rewrite H. Qed.

  Lemma conv_reads v : reads v.
  Proof.
    induction v using rval_ind'; intros y0 t0 T S N K; inversion S; subst; try (cbn in T; discriminate); cbn [into_kserd data_of no_some] in *;
      try (eexists; split; [reflexivity|reflexivity]).
    - (* integers *) cbn [of_type] in T. destruct (ntype_eq_dec t t1); [|discriminate]. subst t1. cbn [andb] in T.
      eexists. split; [reflexivity|]. destruct (int_decodes t n (Some (ntype_name t)) T) as [A B].
      unfold new_int, with_id_unchk, num_of_int. destruct (ntype_signed t); cbn [dec]; rewrite ?A, ?B; reflexivity.
    - (* f32 *) cbn [of_type] in T. destruct (f32_number x T) as (y & A & _). rewrite A. eexists. split; [reflexivity|].
      unfold with_id_unchk. cbn [dec]. unfold deserialize_f32. cbn [kval as_f64 option_map]. unfold f32s_kept in K. cbn [EncodeSpec.f32s] in K. inversion K; subst.
      now rewrite (f32_back x y T).
    - (* tuples *) rewrite of_type_tuple in T. apply andb_true_iff in T as [_ T].
      destruct (reads_each l H ys ts T) as (ks & A & B); [assumption|exact N|now apply kept_list|].
      rewrite A. cbn [tbind]. eexists. split; [reflexivity|]. now apply tuple_any.
    - (* arrays *) cbn [of_type] in T. apply andb_true_iff in T as [T1 T]. rewrite !andb_true_iff in T1. destruct T1 as [[L _] _]. apply Nat.eqb_eq in L. subst n.
      match goal with X : serde_ty E ?y ?t |- _ => destruct (repeat_types y t l T X) as [G1 G2] end.
      destruct (reads_each l H _ _ G1 G2) as (ks & A & B); [exact N|now apply kept_list|].
      rewrite A. cbn [tbind]. eexists. split; [reflexivity|]. unfold with_id_unchk. cbn [dec deserialize_any visit_seq]. now rewrite B.
    - (* Vec *) cbn [of_type] in T. destruct (reads_all l H y t T) as (ks & A & B); [assumption|exact N|now apply kept_list|].
      rewrite A. cbn [tbind]. eexists. split; [reflexivity|]. unfold with_id_unchk. cbn [dec deserialize_any visit_seq]. now rewrite B.
    - (* Box *) cbn [of_type] in T. now apply (IHv y).
    - (* Ok *) cbn [of_type] in T. destruct (IHv y t T) as (k & A & B); try assumption. rewrite A. cbn [tbind]. eexists. split; [reflexivity|].
      unfold with_id_unchk. cbn [dec]. match goal with X : E q = _ |- _ => rewrite X end. cbn [variant_id kid opt_bind]. unfold str. change (option_map (DVariant 0) (dec E t k) = Some (DVariant 0 (data_of v))). now rewrite B.
    - (* Err *) cbn [of_type] in T. destruct (IHv z u T) as (k & A & B); try assumption. rewrite A. cbn [tbind]. eexists. split; [reflexivity|].
      unfold with_id_unchk. cbn [dec]. match goal with X : E q = _ |- _ => rewrite X end. cbn [variant_id kid opt_bind]. unfold str. change (option_map (DVariant 1) (dec E u k) = Some (DVariant 1 (data_of v))). now rewrite B.
  Qed.

  (** ** encoding *)
  Definition agrees (v : rval) : Prop := forall y t, of_type y v = true -> serde_ty E y t -> no_some v = true -> no_array v = true ->
    exists k k', into_kserd v = inr k /\ enc E t (data_of v) = inr k' /\ erase k = erase k'.
  Lemma agrees_each l : Forall agrees l -> forall ys ts, go_types l ys = true -> Forall2 (serde_ty E) ys ts -> forallb no_some l = true -> forallb no_array l = true ->
    exists ks ks', try_all into_kserd l = inr ks /\ enc_each (enc E) ts (map data_of l) = inr ks' /\ map erase ks = map erase ks'.
  Proof.
    induction 1 as [|v l H F IH]; intros [|y ys] ts G T N K; try discriminate G.
    - inversion T; subst. exists [], []. repeat split.
    - inversion T as [|? t ? ts' T1 T2]; subst. cbn [go_types] in G. apply andb_true_iff in G as [G1 G2].
      cbn [forallb] in N, K. apply andb_true_iff in N as [N1 N2]. apply andb_true_iff in K as [K1 K2].
      destruct (H y t G1 T1 N1 K1) as (k & k' & A & B & C). destruct (IH ys ts' G2 T2 N2 K2) as (ks & ks' & A' & B' & C').
      exists (k :: ks), (k' :: ks'). cbn [try_all map enc_each]. rewrite A, B. cbn [tbind ebind]. fold (try_all into_kserd). fold (enc_each (enc E)). rewrite A', B'.
      cbn [tbind ebind]. rewrite C, C'. repeat split.
  Qed.
  Lemma agrees_all l : Forall agrees l -> forall y t, forallb (of_type y) l = true -> serde_ty E y t -> forallb no_some l = true -> forallb no_array l = true ->
    exists ks ks', try_all into_kserd l = inr ks /\ enc_all (enc E t) (map data_of l) = inr ks' /\ map erase ks = map erase ks'.
  Proof.
    induction 1 as [|v l H F IH]; intros y t G T N K.
    - exists [], []. repeat split.
    - cbn [forallb] in G. apply andb_true_iff in G as [G1 G2].
      cbn [forallb] in N, K. apply andb_true_iff in N as [N1 N2]. apply andb_true_iff in K as [K1 K2].
      destruct (H y t G1 T N1 K1) as (k & k' & A & B & C). destruct (IH y t G2 T N2 K2) as (ks & ks' & A' & B' & C').
      exists (k :: ks), (k' :: ks'). cbn [try_all map enc_all]. rewrite A, B. cbn [tbind ebind]. fold (try_all into_kserd). fold (enc_all (enc E t)). rewrite A', B'.
      cbn [tbind ebind]. rewrite C, C'. repeat split.
  Qed.

  Lemma conv_agrees v : agrees v.
  Proof.
    induction v using rval_ind'; intros y0 t0 T S N K; inversion S; subst; try (cbn in T; discriminate); cbn [into_kserd data_of no_some no_array] in *;
      try (do 2 eexists; split; [reflexivity|]; split; reflexivity); try discriminate K; try discriminate N.
    - cbn [of_type] in T. destruct (ntype_eq_dec t t1); [|discriminate]. subst t1. do 2 eexists. split; [reflexivity|]. split; [reflexivity|].
      unfold new_int, with_id_unchk. cbn [erase]. do 2 f_equal. unfold num_of_int. now destruct t.
    - cbn [of_type] in T. destruct (f32_number x T) as (y & A & _). cbn [enc]. rewrite A. do 2 eexists. split; [reflexivity|]. split; reflexivity.
    - rewrite of_type_tuple in T. apply andb_true_iff in T as [_ T].
      destruct (agrees_each l H ys ts T) as (ks & ks' & A & B & C); [assumption|exact N|exact K|].
      cbn [enc]. rewrite A, B. cbn [tbind ebind]. do 2 eexists. split; [reflexivity|]. split; [reflexivity|]. unfold knew. cbn [erase]. now rewrite C.
    - cbn [of_type] in T. destruct (agrees_all l H y t T) as (ks & ks' & A & B & C); [assumption|exact N|exact K|].
      cbn [enc]. rewrite A, B. cbn [tbind ebind]. do 2 eexists. split; [reflexivity|]. split; [reflexivity|]. unfold knew, with_id_unchk. cbn [erase]. now rewrite C.
    - cbn [of_type] in T. now apply (IHv y).
    - cbn [of_type] in T. destruct (IHv y t T) as (k & k' & A & B & C); try assumption. rewrite A. cbn [tbind enc].
      match goal with X : E q = _ |- _ => rewrite X end. cbn [nth_error]. rewrite B. cbn [ebind]. do 2 eexists. split; [reflexivity|]. split; [reflexivity|].
      unfold with_id_unchk. cbn [erase map]. now rewrite C.
    - cbn [of_type] in T. destruct (IHv z u T) as (k & k' & A & B & C); try assumption. rewrite A. cbn [tbind enc].
      match goal with X : E q = _ |- _ => rewrite X end. cbn [nth_error]. rewrite B. cbn [ebind]. do 2 eexists. split; [reflexivity|]. split; [reflexivity|].
      unfold with_id_unchk. cbn [erase map]. now rewrite C.
  Qed.
End Conv.

(** ** Some is not read back *)
Lemma not_some v : no_kserd v = true -> forall k, into_kserd v = inr k -> kid k <> Some (s "Some").
Proof.
  induction v using rval_ind'; cbn [no_kserd into_kserd]; intros N k0 E0; try (injection E0 as <-; vm_compute; discriminate); try (now apply IHv).
  - injection E0 as <-. destruct t; vm_compute; discriminate.
  - destruct (f32_to_f64 x); [|discriminate]. injection E0 as <-. vm_compute. discriminate.
  - destruct (try_all _ l); [discriminate|]. injection E0 as <-. vm_compute. discriminate.
  - destruct (try_all _ l); [discriminate|]. injection E0 as <-. vm_compute. discriminate.
  - destruct (try_all _ l); [discriminate|]. injection E0 as <-. vm_compute. discriminate.
  - destruct (into_kserd v); [discriminate|]. injection E0 as <-. vm_compute. discriminate.
  - destruct (into_kserd v); [discriminate|]. injection E0 as <-. vm_compute. discriminate.
Qed.
Lemma some_lost E t v k d : no_kserd v = true -> into_kserd (RSome v) = inr k -> dec E (TyOption t) k = Some d -> d = DNone.
Proof.
  intros N A D. cbn [into_kserd] in A. pose proof (not_some v N k A) as X. destruct k as [i w]. cbn [kid] in X. cbn [dec deserialize_any] in D.
  destruct w as [|b|n|u|b|l|m|l|m]; cbn [visit_unit visit_bool visit_num visit_str visit_bytes visit_seq visit_map visit_fields] in D;
    try discriminate D; try (destruct n; discriminate D); [now injection D|].
  destruct l as [|x [|x' l]]; cbn [visit_seq visit_none visit_some visit_newtype] in D; [| |discriminate D].
  - destruct i as [i|]; [|discriminate D]. destruct (str_eqb i _); [now injection D|discriminate D].
  - destruct i as [i|]; [|discriminate D]. destruct (str_eqb i (s "Some")) eqn:Q; [|discriminate D]. apply str_eqb_eq in Q. subst i. now destruct X.
Qed.

Lemma into_kserd_ids t : forall v k, of_type t v = true -> into_kserd v = inr k -> names_type t (kid k).
Proof.
  assert (G : forall (A B : Type) (x : tres A) (f : A -> B) y, tbind x (fun a => inr (f a)) = inr y -> exists a, y = f a).
  { intros A B [e|a] f y H; [discriminate|]. injection H as <-. eauto. }
  intros v. revert t. induction v; intros ty k0 T E; destruct ty; try discriminate T; cbn [into_kserd] in E.
  all: try (injection E as <-; constructor; fail).
  all: try (apply G in E as (a & ->); constructor; fail).
  - cbn [of_type] in T. destruct (ntype_eq_dec t t0) as [->|]; [|discriminate T]. injection E as <-. constructor.
  - destruct (f32_to_f64 x); [|discriminate E]. injection E as <-. constructor.
  - constructor. now apply IHv.
  - apply nt_some. now apply IHv.
Qed.
