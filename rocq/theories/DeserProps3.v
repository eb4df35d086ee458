(** What deserialize_any and deserialize_enum tell (C57). *)
From Verif Require Import Base BaseProps F64 F32 F32Spec Number NumberSpec BTree Value Encode Own OwnProps Deser DeserSpec DeserProps DeserProps2.
Open Scope N_scope.

Section Watch.
Context {Er : Type} (E : errors Er).
Notation f := (run E watch).

Definition seen (k : okserd) : Prop := exists c, f WAny k = inr c /\ tells k c.

Lemma any_eq k : f WAny k = decode E watch f MAny WAny k.
Proof. rewrite run_eq. reflexivity. Qed.
Lemma some_eq k : f WSome k = wrap TSome (f WAny k).
Proof. rewrite any_eq, run_eq. reflexivity. Qed.
Lemma newtype_eq k : f WNewtype k = wrap TNewtype (f WAny k).
Proof. rewrite any_eq, run_eq. reflexivity. Qed.

Lemma seq_all l : Forall seen l -> exists cs, Forall2 tells l cs /\
  forall n acc, run_seq watch f (WSeq n acc) l = inr (TSeq n (acc ++ cs)).
Proof.
  induction 1 as [|x l (c & R & T) _ (cs & F & IH)].
  - exists []. split; [constructor|]. intros n acc. now rewrite app_nil_r.
  - exists (c :: cs). split; [now constructor|]. intros n acc. cbn [run_seq seq_step watch]. rewrite R, IH, <- app_assoc. reflexivity.
Qed.

Lemma fields_all m : Forall seen (map snd m) -> exists cs, Forall2 (fun e c => fst c = TField (fst e) /\ tells (snd e) (snd c)) m cs /\
  forall n acc, run_map watch (on_field_name watch) f (WMap n acc) m = inr (TMap n (acc ++ cs)).
Proof.
  induction m as [|[a x] m IH]; cbn [map snd]; intros H.
  - exists []. split; [constructor|]. intros n acc. now rewrite app_nil_r.
  - inversion H as [|? ? (c & R & T) H']; subst. destruct (IH H') as (cs & F & G).
    exists ((TField a, c) :: cs). split; [constructor; [split; [reflexivity|exact T]|exact F]|].
    intros n acc. cbn [run_map map_step value_step on_field_name watch]. rewrite R, G, <- app_assoc. reflexivity.
Qed.

Lemma entries_all m : Forall seen (entry_list m) -> exists cs, Forall2 (fun e c => tells (fst e) (fst c) /\ tells (snd e) (snd c)) m cs /\
  forall n acc, run_map watch f f (WMap n acc) m = inr (TMap n (acc ++ cs)).
Proof.
  induction m as [|[a x] m IH]; intros H.
  - exists []. split; [constructor|]. intros n acc. now rewrite app_nil_r.
  - unfold entry_list in H. cbn [flat_map app fst snd] in H. inversion H as [|? ? (d & R' & T') H1]; subst. inversion H1 as [|? ? (c & R & T) H']; subst.
    destruct (IH H') as (cs & F & G).
    exists ((d, c) :: cs). split; [constructor; [split; assumption|exact F]|].
    intros n acc. cbn [run_map map_step value_step watch]. rewrite R', R, G, <- app_assoc. reflexivity.
Qed.

Lemma watch_any k : seen k.
Proof.
  induction k as [id v IH] using okserd_ind'. unfold seen. rewrite any_eq.
  destruct v as [|b|[n|n|x]|[t|t]|[b|b]|l|m|l|m]; cbn [decode watch on_value ochildren] in *.
  - eexists; split; [reflexivity|constructor].
  - eexists; split; [reflexivity|constructor].
  - eexists; split; [reflexivity|]. constructor. unfold fits64, in_ntype, ntype_min, ntype_max. cbn [ntype_signed ntype_bits].
    replace (n <=? 2 ^ 64 - 1)%Z with (n <? 2 ^ 64)%Z by lia. reflexivity.
  - eexists; split; [reflexivity|]. constructor. unfold fits64, in_ntype, ntype_min, ntype_max. cbn [ntype_signed ntype_bits].
    replace (n <=? 2 ^ (64 - 1) - 1)%Z with (n <? 2 ^ 63)%Z by lia. reflexivity.
  - eexists; split; [reflexivity|constructor].
  - eexists; split; [reflexivity|constructor].
  - eexists; split; [reflexivity|constructor].
  - eexists; split; [reflexivity|constructor].
  - eexists; split; [reflexivity|constructor].
  - destruct (seq_all l IH) as (cs & F & G).
    assert (T : (l = [] -> option_map cow_get id <> Some (s "None")) -> (length l = 1%nat -> id = None) ->
      exists c, run_seq watch f (on_seq watch WAny (length l)) l = inr c /\ tells (OKserd id (OTuple l)) c).
    { intros A B. eexists. split; [apply (G (length l) [])|]. now constructor. }
    destruct l as [|x [|y l]].
    + destruct id as [j|]; cbn [option_map] in *; [|apply T; [discriminate|reflexivity]].
      destruct (str_eqb (cow_get j) (s "None")) eqn:Q.
      * apply str_eqb_eq in Q. eexists. split; [reflexivity|]. constructor. cbn [option_map]. now rewrite Q.
      * apply T; [|discriminate]. intros _ [= X]. rewrite X in Q. discriminate.
    + destruct id as [j|]; cbn [option_map] in *; [|apply T; [discriminate|reflexivity]].
      inversion IH as [|? ? (c & R & Tc) _]; subst. destruct (str_eqb (cow_get j) (s "Some")) eqn:Q.
      * apply str_eqb_eq in Q. cbn [on_some]. rewrite some_eq, R. eexists. split; [reflexivity|]. constructor; [cbn [option_map]; now rewrite Q|exact Tc].
      * cbn [on_newtype]. rewrite newtype_eq, R. eexists. split; [reflexivity|]. econstructor; [reflexivity| |exact Tc]. intros X. rewrite X in Q. discriminate.
    + apply T; discriminate.
  - destruct (fields_all m IH) as (cs & F & G). eexists. split; [apply (G (length m) [])|]. now constructor.
  - destruct (seq_all l IH) as (cs & F & G). eexists. split; [apply (G (length l) [])|]. now constructor.
  - destruct (entries_all m IH) as (cs & F & G). eexists. split; [apply (G (length m) [])|]. now constructor.
Qed.

(** nothing else is told *)
Lemma told_once k : forall c c', tells k c -> tells k c' -> c = c'.
Proof.
  induction k as [id v IH] using okserd_ind'.
  assert (L : forall l cs cs', Forall (fun k => forall c c', tells k c -> tells k c' -> c = c') l -> Forall2 tells l cs -> Forall2 tells l cs' -> cs = cs').
  { clear. intros l cs cs' H F. revert cs'. induction F as [|x c l cs T F IHF]; intros cs' F'; inversion F'; subst; [reflexivity|].
    inversion H; subst. f_equal; auto. }
  intros c c' T T'. destruct v as [|b|[n|n|x]|[t|t]|[b|b]|l|m|l|m]; cbn [ochildren] in *.
  1-9: inversion T; inversion T'; subst; reflexivity.
  - inversion T; subst; inversion T'; subst; try reflexivity; try congruence.
    all: try (match goal with H : [] = [] -> _ |- _ => exfalso; apply (H eq_refl); assumption end).
    all: try (match goal with H : length [_] = _ -> _ |- _ => exfalso; specialize (H eq_refl); subst; discriminate end).
    all: try (f_equal; eapply L; eassumption).
    all: inversion IH; subst; f_equal; auto.
  - inversion T as [| | | | | | | | | | | | | |? ? cs F|]; subst; inversion T' as [| | | | | | | | | | | | | |? ? cs' F'|]; subst. f_equal.
    clear T T'. revert cs' F' IH. induction F as [|e c m cs [A B] F IHF]; intros cs' F' IH; inversion F' as [|? c' ? ? [A' B'] G]; subst; [reflexivity|].
    cbn [map] in IH. inversion IH; subst. destruct c, c'. cbn [fst snd] in *. subst. f_equal; [f_equal; auto|]. auto.
  - inversion T; subst; inversion T'; subst. f_equal. eapply L; eassumption.
  - inversion T as [| | | | | | | | | | | | | | |? ? cs F]; subst; inversion T' as [| | | | | | | | | | | | | | |? ? cs' F']; subst. f_equal.
    clear T T'. revert cs' F' IH. induction F as [|e c m cs [A B] F IHF]; intros cs' F' IH; inversion F' as [|? c' ? ? [A' B'] G]; subst; [reflexivity|].
    unfold entry_list in IH. cbn [flat_map app fst snd] in IH. inversion IH as [|? ? I1 I2]; subst. inversion I2; subst. destruct c, c'. cbn [fst snd] in *. f_equal; [f_equal; auto|]. auto.
Qed.

Lemma any_tells k c : f WAny k = inr c <-> tells k c.
Proof.
  destruct (watch_any k) as (c0 & R & T). rewrite R. split.
  - intros [= <-]. exact T.
  - intros T'. now rewrite (told_once _ _ _ T T').
Qed.

Lemma all_seen (l : list okserd) : Forall seen l.
Proof. apply Forall_forall. intros x _. apply watch_any. Qed.

Lemma enum_eq a k : f (WEnum a) k = decode E watch f MEnum (WEnum a) k.
Proof. rewrite run_eq. reflexivity. Qed.

Lemma tells_all l cs cs' : Forall2 tells l cs -> Forall2 tells l cs' -> cs = cs'.
Proof.
  intros F. revert cs'. induction F as [|x c l cs T F IHF]; intros cs' F'; inversion F'; subst; [reflexivity|].
  f_equal; [eapply told_once; eassumption|auto].
Qed.
Lemma tells_fields (m : list (cow str * okserd)) cs cs' : Forall2 (fun e c => fst c = TField (fst e) /\ tells (snd e) (snd c)) m cs ->
  Forall2 (fun e c => fst c = TField (fst e) /\ tells (snd e) (snd c)) m cs' -> cs = cs'.
Proof.
  intros F. revert cs'. induction F as [|e [a c] m cs [A B] F IHF]; intros cs' F'; inversion F' as [|? [a' c'] ? ? [A' B'] G]; subst; [reflexivity|].
  cbn [fst snd] in *. subst. f_equal; [f_equal; eapply told_once; eassumption|auto].
Qed.

Lemma enum_tells a k c : f (WEnum a) k = inr c <-> tells_variant a k c.
Proof.
  rewrite enum_eq. destruct k as [i v]. cbn [decode on_enum on_variant_name watch].
  destruct (option_map cow_get i) as [j|] eqn:J; [|split; [discriminate|intros T; inversion T; congruence]].
  destruct a as [| |n|]; cbn [wrap].
  - split.
    + destruct v as [| | | | |[|x l]| | |]; try discriminate; intros [= <-]; constructor; auto.
    + intros T. inversion T as [? ? ? J' [-> | ->]| | |]; subst; rewrite J in J'; injection J' as <-; reflexivity.
  - split.
    + destruct v as [| | | | |[|x [|y l]]| | |]; try discriminate. destruct (watch_any x) as (c0 & R & T). change (run E _ WAny x) with (f WAny x). rewrite R. cbn [wrap]. intros [= <-]. now constructor.
    + intros T. inversion T as [|? ? x c0 J' Tx| |]; subst. rewrite J in J'. injection J' as <-. apply any_tells in Tx. change (run E _ WAny x) with (f WAny x). rewrite Tx. reflexivity.
  - split.
    + destruct v as [| | | | |l| | |]; try discriminate. destruct (Nat.eqb_spec (length l) n) as [<-|]; [|discriminate].
      destruct (seq_all l (all_seen l)) as (cs & F & G). match goal with |- context [run_seq ?a ?b ?c l] => change (run_seq a b c l) with (run_seq watch f (WSeq (length l) []) l) end. rewrite (G (length l) []). cbn [wrap app]. intros [= <-]. now constructor.
    + intros T. inversion T as [| |? ? l cs J' F|]; subst. rewrite J in J'. injection J' as <-. rewrite Nat.eqb_refl.
      destruct (seq_all l (all_seen l)) as (cs' & F' & G). match goal with |- context [run_seq ?a ?b ?c l] => change (run_seq a b c l) with (run_seq watch f (WSeq (length l) []) l) end. rewrite (G (length l) []). cbn [wrap app]. now rewrite (tells_all _ _ _ F F').
  - split.
    + destruct v as [| | | | | |m| |]; try discriminate.
      destruct (fields_all m (all_seen _)) as (cs & F & G). match goal with |- context [run_map ?a ?b ?c ?d m] => change (run_map a b c d m) with (run_map watch (on_field_name watch) f (WMap (length m) []) m) end. rewrite (G (length m) []). cbn [wrap app]. intros [= <-]. now constructor.
    + intros T. inversion T as [| | |? ? m cs J' F]; subst. rewrite J in J'. injection J' as <-.
      destruct (fields_all m (all_seen _)) as (cs' & F' & G). match goal with |- context [run_map ?a ?b ?c ?d m] => change (run_map a b c d m) with (run_map watch (on_field_name watch) f (WMap (length m) []) m) end. rewrite (G (length m) []). cbn [wrap app]. now rewrite (tells_fields _ _ _ F F').
Qed.
End Watch.

Lemma newtype_length i l : length l <> 1%nat ->
  run telling watch (WEnum ANewtype) (OKserd (Some i) (OTuple l)) = inl (SaidLength (length l) (s "a tuple with a single element was expected")).
Proof.
  intros H. rewrite enum_eq. cbn [decode on_enum on_variant_name watch option_map]. destruct l as [|x [|y l]]; [reflexivity|now elim H|reflexivity].
Qed.
Lemma wrong_kind Q U (J : impl Q U said) (q v : Q) m w k x : start J q = Call m v (fun r => r) ->
  asked_for m (okval k) = Some w -> found (okval k) = Some x -> run telling J q k = inl (SaidType x w).
Proof.
  intros S A F. rewrite run_eq, S. destruct k as [id val]. cbn [okval] in *. destruct m; try discriminate A; destruct val as [|b|n|c|c|l|l|l|l]; try discriminate A; try discriminate F;
    cbn [asked_for found] in A, F; cbn [decode unexp_err].
  all: try (injection A as <-; injection F as <-; reflexivity).
  - destruct (cow_get c) as [|a [|b r]]; try discriminate A; injection A as <-; injection F as <-; reflexivity.
  - destruct l; [discriminate A|]. injection A as <-. injection F as <-. reflexivity.
Qed.
Lemma variant_length i l n : length l <> n ->
  run telling watch (WEnum (ATuple n)) (OKserd (Some i) (OTuple l)) =
  inl (SaidLength (length l) (s "a tuple with " ++ dec_of_N (N.of_nat n) ++ s " element(s) was expected")%list).
Proof.
  intros H. rewrite enum_eq. cbn [decode on_enum on_variant_name watch option_map].
  destruct (Nat.eqb_spec (length l) n) as [X|_]; [now elim H|]. reflexivity.
Qed.
