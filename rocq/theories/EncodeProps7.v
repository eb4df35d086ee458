(** Proofs about encoding and decoding: the fields of a struct, the elements of a
    tuple. *)
From Verif Require Import Base BaseProps F64 Number BTree Value ValueSpec Encode EncodeSpec EncodeProps EncodeProps2 EncodeProps3 EncodeProps4.
From Coq Require Import Permutation.
Open Scope N_scope.

Lemma position_sound {A} (l : list (str * A)) : forall n i a, position n l = Some (i, a) -> nth_error l i = Some (n, a).
Proof.
  induction l as [|[m b] l IH]; intros n i a H; [discriminate|]. cbn [position] in H. destruct (str_eqb n m) eqn:X.
  - injection H as <- <-. apply str_eqb_eq in X. now subst.
  - destruct (position n l) as [[j c]|] eqn:Y; [|discriminate]. cbn [option_map] in H. injection H as <- <-. now apply IH.
Qed.
Lemma take_iff il : forall fs i l, take_fields i fs il = Some l <-> length l = length fs /\
  forall j n t, nth_error fs j = Some (n, t) -> exists d, nth_error l j = Some d /\
    match find (fun e => Nat.eqb (i + j) (fst e)) il with Some (_, d') => d' = d | None => absent t = Some d end.
Proof.
  induction fs as [|[n t] fs IH]; intros i l; cbn [take_fields].
  - split; [intros [= <-]; split; [reflexivity|intros [|j]; discriminate]|]. intros [L _]. now destruct l.
  - set (o := match find (fun e => Nat.eqb i (fst e)) il with Some (_, d) => Some d | None => absent t end).
    assert (O : forall d, o = Some d <-> match find (fun e => Nat.eqb (i + 0) (fst e)) il with Some (_, d') => d' = d | None => absent t = Some d end).
    { intros d. unfold o. rewrite Nat.add_0_r. destruct (find _ il) as [[a b]|]; [|reflexivity]. split; congruence. }
    split.
    + intros H. destruct o as [d|]; [|discriminate]. cbn [opt_bind] in H. destruct (take_fields (S i) fs il) as [l'|] eqn:TF; [|discriminate]. cbn [option_map] in H. injection H as <-.
      apply IH in TF as [L F]. split; [cbn [length]; now rewrite L|]. intros [|j] n' t' N; cbn [nth_error] in N.
      * injection N as <- <-. exists d. split; [reflexivity|]. now apply O.
      * destruct (F j n' t' N) as (d' & D & X). exists d'. split; [exact D|]. now replace (i + S j)%nat with (S i + j)%nat by lia.
    + intros [L F]. destruct l as [|d l]; [discriminate|]. destruct (F 0%nat n t eq_refl) as (d' & D & X). injection D as <-. apply O in X. rewrite X. cbn [opt_bind].
      replace (take_fields (S i) fs il) with (Some l); [reflexivity|]. symmetry. apply IH. split; [now injection L|]. intros j n' t' N. destruct (F (S j) n' t' N) as (d' & D & Y). exists d'. split; [exact D|].
      now replace (S i + j)%nat with (i + S j)%nat by lia.
Qed.

Section Fields.
  Context (f : ty -> kserd -> option data) (fs : list (str * ty)).
  Lemma dec_struct_spec : forall m il, dec_struct (field_name fs) f m = Some il ->
    (forall i d, In (i, d) il -> exists n k t, In (n, k) m /\ position n fs = Some (i, t) /\ f t k = Some d) /\
    (forall n k i t, In (n, k) m -> position n fs = Some (i, t) -> exists d, f t k = Some d /\ In (i, d) il).
  Proof.
    induction m as [|[n k] m IH]; intros il H; [injection H as <-; split; [intros i d []|intros n k i t []]|].
    cbn [dec_struct] in H. fold (dec_struct (field_name fs) f) in H. unfold field_name at 1 in H. cbn [opt_bind] in H. destruct (position n fs) as [[i t]|] eqn:P.
    - destruct (f t k) as [d|] eqn:F; [|discriminate]. cbn [opt_bind] in H. destruct (dec_struct (field_name fs) f m) as [il'|]; [|discriminate]. cbn [option_map] in H. injection H as <-. destruct (IH il' eq_refl) as [H1 H2]. split.
      + intros i' d' [[= <- <-]|I]; [exists n, k, t; split; [now left|now split]|]. destruct (H1 i' d' I) as (n' & k' & t' & J & Q). exists n', k', t'. split; [now right|exact Q].
      + intros n' k' i' t' [[= <- <-]|J] Q; [rewrite P in Q; injection Q as <- <-; exists d; split; [exact F|now left]|]. destruct (H2 n' k' i' t' J Q) as (d' & X & Y). exists d'. split; [exact X|now right].
    - destruct (IH il H) as [H1 H2]. split.
      + intros i' d' I. destruct (H1 i' d' I) as (n' & k' & t' & J & Q). exists n', k', t'. split; [now right|exact Q].
      + intros n' k' i' t' [[= <- <-]|J] Q; [congruence|]. now apply (H2 n' k').
  Qed.
  Lemma dec_struct_some : forall m, (forall n k i t, In (n, k) m -> position n fs = Some (i, t) -> exists d, f t k = Some d) -> exists il, dec_struct (field_name fs) f m = Some il.
  Proof.
    induction m as [|[n k] m IH]; intros H; [now exists []|]. cbn [dec_struct]. fold (dec_struct (field_name fs) f). unfold field_name at 1. cbn [opt_bind].
    destruct IH as [il IH]; [intros; eapply H; [right|]; eassumption|]. destruct (position n fs) as [[i t]|] eqn:P; [|now exists il].
    destruct (H n k i t (or_introl eq_refl) P) as [d D]. rewrite D, IH. cbn [opt_bind option_map]. now eexists.
  Qed.
  Lemma dec_struct_NoDup : forall m il, NoDup (map fst m) -> dec_struct (field_name fs) f m = Some il -> NoDup (map fst il).
  Proof.
    induction m as [|[n k] m IH]; intros il N H; [injection H as <-; constructor|]. cbn [map fst] in N. inversion N as [|? ? N1 N2]; subst.
    cbn [dec_struct] in H. fold (dec_struct (field_name fs) f) in H. unfold field_name at 1 in H. cbn [opt_bind] in H. destruct (position n fs) as [[i t]|] eqn:P; [|now apply IH].
    destruct (f t k) as [d|] eqn:F; [|discriminate]. cbn [opt_bind] in H. destruct (dec_struct (field_name fs) f m) as [il'|] eqn:D; [|discriminate]. cbn [option_map] in H. injection H as <-.
    cbn [map fst]. constructor; [|now apply IH]. intros I. apply in_map_iff in I as ([i' d'] & X & I). cbn [fst] in X. subst i'. destruct (proj1 (dec_struct_spec m il' D) i d' I) as (n' & k' & t' & J & Q & _).
    apply position_sound in P, Q. assert (n' = n) by congruence. subst n'. apply N1. now apply (in_map fst) in J.
  Qed.
End Fields.

Lemma find_some_eq i (il : list (nat * data)) j d : find (fun e => Nat.eqb i (fst e)) il = Some (j, d) -> In (i, d) il.
Proof. intros H. apply find_some in H as [I X]. apply Nat.eqb_eq in X. cbn [fst] in X. now subst. Qed.
Lemma fields_iff E fs m l : distinct (map fst fs) = true -> NoDup (map fst m) ->
  (opt_bind (dec_struct (field_name fs) (dec E) m) (dec_record fs) = Some (DRecord l) <->
   length l = length fs /\ forall j n t, nth_error fs j = Some (n, t) -> exists d, nth_error l j = Some d /\
     ((exists k, In (n, k) m /\ dec E t k = Some d) \/ (~ In n (map fst m) /\ d = DNone /\ exists u, t = TyOption u))).
Proof.
  intros D N. pose proof (position_nth fs D) as PN.
  assert (AB : forall t d, absent t = Some d <-> d = DNone /\ exists u, t = TyOption u).
  { intros t d. unfold absent. split; [destruct t; try discriminate; intros [= <-]; split; eauto|intros [-> [u ->]]; reflexivity]. }
  split.
  - intros H. destruct (dec_struct (field_name fs) (dec E) m) as [il|] eqn:DS; [|discriminate]. cbn [opt_bind] in H. unfold dec_record in H. destruct (twice il); [discriminate|].
    destruct (take_fields 0 fs il) as [l'|] eqn:TF; [|discriminate]. cbn [option_map] in H. injection H as ->. apply take_iff in TF as [L F]. destruct (dec_struct_spec _ _ m il DS) as [S1 S2].
    split; [exact L|]. intros j n t X. destruct (F j n t X) as (d & Y & Z). exists d. split; [exact Y|]. cbn [Nat.add] in Z. destruct (find _ il) as [[a b]|] eqn:FD.
    + subst b. apply find_some_eq in FD. destruct (S1 j d FD) as (n' & k & t' & I & P & Q). apply position_sound in P. rewrite X in P. injection P as <- <-. left. eauto.
    + right. apply AB in Z. split; [|exact Z]. intros I. apply in_map_iff in I as ([n' k] & <- & I). cbn [fst] in *. destruct (S2 n' k j t I (PN j n' t X)) as (d' & _ & J).
      apply (find_none _ _ FD) in J. cbn [fst] in J. now rewrite Nat.eqb_refl in J.
  - intros [L F]. destruct (dec_struct_some (dec E) fs m) as [il DS].
    { intros n k i t I P. apply position_sound in P. destruct (F i n t P) as (d & _ & [(k' & J & Q)|(J & _)]); [|exfalso; apply J; now apply (in_map fst) in I].
      exists d. now rewrite (NoDup_fst_eq m n k k' N I J). }
    rewrite DS. cbn [opt_bind]. unfold dec_record. rewrite (twice_NoDup il) by exact (dec_struct_NoDup _ _ m il N DS). destruct (dec_struct_spec _ _ m il DS) as [S1 S2].
    replace (take_fields 0 fs il) with (Some l); [reflexivity|]. symmetry. apply take_iff. split; [exact L|]. intros j n t X. destruct (F j n t X) as (d & Y & Z). exists d. split; [exact Y|]. cbn [Nat.add].
    destruct (find _ il) as [[a b]|] eqn:FD.
    + apply find_some_eq in FD. destruct (S1 j b FD) as (n' & k & t' & I & P & Q). apply position_sound in P. rewrite X in P. injection P as <- <-.
      destruct Z as [(k' & J & Q')|(J & _)]; [|exfalso; apply J; now apply (in_map fst) in I]. rewrite (NoDup_fst_eq m n k k' N I J) in Q. congruence.
    + apply AB. destruct Z as [(k' & J & Q')|(_ & Z)]; [|exact Z]. exfalso. destruct (S2 n k' j t J (PN j n t X)) as (d' & _ & I). apply (find_none _ _ FD) in I. cbn [fst] in I. now rewrite Nat.eqb_refl in I.
Qed.
Lemma struct_iff E q name fs i m l : E q = DefStruct name fs -> distinct (map fst fs) = true -> NoDup (map fst m) ->
  (dec E (TyNamed q) (Kserd i (VCntr m)) = Some (DRecord l) <->
   length l = length fs /\ forall j n t, nth_error fs j = Some (n, t) -> exists d, nth_error l j = Some d /\
     ((exists k, In (n, k) m /\ dec E t k = Some d) \/ (~ In n (map fst m) /\ d = DNone /\ exists u, t = TyOption u))).
Proof. intros Q D N. cbn [dec]. rewrite Q. cbn [deserialize_any visit_fields]. now apply fields_iff. Qed.

(** ** tuples *)
Lemma each_iff (f : ty -> kserd -> option data) : forall ts ks l, dec_each f ts ks = Some l <->
  length l = length ts /\ (length ts <= length ks)%nat /\ forall j t k d, nth_error ts j = Some t -> nth_error ks j = Some k -> nth_error l j = Some d -> f t k = Some d.
Proof.
  induction ts as [|t ts IH]; intros ks l.
  - replace (dec_each f [] ks) with (Some (@nil data)) by (now destruct ks). split; [intros [= <-]; repeat split; [cbn; lia|]; intros [|j]; discriminate|]. intros [L _]. now destruct l.
  - destruct ks as [|k ks]; cbn [dec_each]; [split; [discriminate|cbn [length]; lia]|]. fold (dec_each f). split.
    + intros H. destruct (f t k) as [d|] eqn:F; [|discriminate]. cbn [opt_bind] in H. destruct (dec_each f ts ks) as [l'|] eqn:D; [|discriminate]. cbn [option_map] in H. injection H as <-. apply IH in D as (L & LE & G).
      cbn [length]. repeat split; [lia|lia|]. intros [|j] t' k' d' N1 N2 N3; cbn [nth_error] in *; [congruence|now apply (G j)].
    + intros (L & LE & G). destruct l as [|d l]; [discriminate|]. rewrite (G 0%nat t k d eq_refl eq_refl eq_refl). cbn [opt_bind].
      replace (dec_each f ts ks) with (Some l); [reflexivity|]. symmetry. apply IH. cbn [length] in *. repeat split; [lia|lia|]. intros j. exact (G (S j)).
Qed.
Lemma tuple_iff E ts ks l : dec E (TyTuple ts) (Kserd None (VTuple ks)) = Some (DList l) <->
  length l = length ts /\ (length ts <= length ks)%nat /\
  forall j t k d, nth_error ts j = Some t -> nth_error ks j = Some k -> nth_error l j = Some d -> dec E t k = Some d.
Proof.
  rewrite <- each_iff. replace (dec E (TyTuple ts) (Kserd None (VTuple ks))) with (option_map DList (dec_each (dec E) ts ks)) by (now destruct ks as [|x [|y ks]]).
  destruct (dec_each (dec E) ts ks); cbn [option_map]; split; congruence.
Qed.
Lemma tuple_variant_iff E q vs i name ts ks l : E q = DefEnum vs -> distinct (map fst vs) = true -> nth_error vs i = Some (name, ShTuple ts) ->
  (dec E (TyNamed q) (Kserd (Some name) (VTuple ks)) = Some (DVariant i (DList l)) <->
   length l = length ts /\ length ts = length ks /\
   forall j t k d, nth_error ts j = Some t -> nth_error ks j = Some k -> nth_error l j = Some d -> dec E t k = Some d).
Proof.
  intros Q D N. cbn [dec]. rewrite Q. cbn [variant_id kid opt_bind]. rewrite (position_nth vs D i name _ N). cbn [opt_bind fst snd].
  destruct (Nat.eqb_spec (length ks) (length ts)) as [L|L]; [|split; [discriminate|intros (_ & X & _); congruence]].
  pose proof (each_iff (dec E) ts ks l) as H. destruct (dec_each (dec E) ts ks) as [l'|]; cbn [option_map].
  - split; [intros [= ->]; destruct (proj1 H eq_refl) as (A & _ & B); auto|]. intros (A & B & C). f_equal. f_equal. f_equal. enough (Some l' = Some l) by congruence. apply H. repeat split; auto. lia.
  - split; [discriminate|]. intros (A & B & C). enough (None = Some l) by discriminate. apply H. repeat split; auto. lia.
Qed.
