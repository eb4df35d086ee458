(** Proofs about encoding and decoding: map keys without enums stay apart. *)
From Verif Require Import Base BaseProps F64 Number NumberSpec NumberProps BTree BTreeProps Value ValueSpec ValueProps ValueProps2 RtProps6 Encode EncodeSpec EncodeProps EncodeProps2 EncodeProps3.
From Coq Require Import Permutation.
Open Scope N_scope.

Lemma list_cmp_eq {A} (f : A -> A -> comparison) a : forall b, list_cmp f a b = Eq -> Forall2 (fun x y => f x y = Eq) a b.
Proof.
  induction a as [|x a IH]; intros [|y b] H; try discriminate; constructor; cbn [list_cmp] in H; destruct (f x y) eqn:F; try discriminate; auto.
Qed.
Lemma int_cmp_eq n m x y : (x = Uint n \/ x = Int n) -> (y = Uint m \/ y = Int m) -> num_cmp x y = Eq -> n = m.
Proof.
  assert (G : forall l r, cmp_uint_to_int l r = Eq -> l = r).
  { intros l r. unfold cmp_uint_to_int, to_u128. destruct (_ && _); [apply Z.compare_eq_iff|discriminate]. }
  intros [-> | ->] [-> | ->]; unfold num_cmp, num_cmp_res; intros H.
  - now apply Z.compare_eq_iff.
  - now apply G.
  - symmetry. apply G. destruct (cmp_uint_to_int m n); auto; discriminate.
  - now apply Z.compare_eq_iff.
Qed.
Lemma bytes_cmp_eq a b : bytes_cmp a b = Eq -> a = b.
Proof. intros H. apply list_cmp_eq in H. induction H as [|x y a b H _ IH]; [reflexivity|]. apply N.compare_eq_iff in H. now subst. Qed.
Lemma bool_cmp_eq a b : bool_cmp a b = Eq -> a = b.
Proof. now destruct a, b. Qed.

Section Inj.
  Context (E : decls) (W : good_decls E).
  Definition inj_ok (d : data) : Prop := forall t d' a b, has_type E t d = true -> has_type E t d' = true -> has_ord d = true -> no_variant d = true ->
    codes E t d a -> codes E t d' b -> k_cmp a b = Eq -> d = d'.

  Lemma each_inj l : Forall inj_ok l -> forall ts l' ks ks', each_of (has_type E) ts l = true -> each_of (has_type E) ts l' = true ->
    forallb has_ord l = true -> forallb no_variant l = true -> each3 (codes E) ts l ks -> each3 (codes E) ts l' ks' -> Forall2 (fun a b => k_cmp a b = Eq) ks ks' -> l = l'.
  Proof.
    induction 1 as [|d l H HF IH]; intros [|t ts] [|d' l'] [|k ks] [|k' ks'] T T' O V C C' K; try discriminate T; try discriminate T'; try destruct C; try destruct C'; [reflexivity|].
    cbn [each_of forallb] in *. apply andb_true_iff in T as [T1 T2]. apply andb_true_iff in T' as [T1' T2']. apply andb_true_iff in O as [O1 O2]. apply andb_true_iff in V as [V1 V2].
    inversion K; subst. f_equal; [now apply (H t d' k k')|now apply (IH ts l' ks ks')].
  Qed.
  Lemma vec_inj t l : Forall inj_ok l -> forall l' ks ks', forallb (has_type E t) l = true -> forallb (has_type E t) l' = true ->
    forallb has_ord l = true -> forallb no_variant l = true -> all2 (codes E t) l ks -> all2 (codes E t) l' ks' -> Forall2 (fun a b => k_cmp a b = Eq) ks ks' -> l = l'.
  Proof.
    induction 1 as [|d l H HF IH]; intros [|d' l'] [|k ks] [|k' ks'] T T' O V C C' K; try destruct C; try destruct C'; try (now inversion K).
    cbn [forallb] in *. apply andb_true_iff in T as [T1 T2]. apply andb_true_iff in T' as [T1' T2']. apply andb_true_iff in O as [O1 O2]. apply andb_true_iff in V as [V1 V2].
    inversion K; subst. f_equal; [now apply (H t d' k k')|now apply (IH l' ks ks')].
  Qed.
  Lemma entries_inj kt vt m : Forall (fun e => inj_ok (fst e) /\ inj_ok (snd e)) m -> forall m' es es',
    forallb (fun e => has_type E kt (fst e) && has_ord (fst e) && has_type E vt (snd e)) m = true ->
    forallb (fun e => has_type E kt (fst e) && has_ord (fst e) && has_type E vt (snd e)) m' = true ->
    forallb (fun e => has_ord (fst e) && has_ord (snd e)) m = true -> forallb (fun e => no_variant (fst e) && no_variant (snd e)) m = true ->
    Forall2 (fun e f => codes E kt (fst e) (fst f) /\ codes E vt (snd e) (snd f)) m es -> Forall2 (fun e f => codes E kt (fst e) (fst f) /\ codes E vt (snd e) (snd f)) m' es' ->
    Forall2 (fun e f => match k_cmp (fst e) (fst f) with Eq => k_cmp (snd e) (snd f) | c => c end = Eq) es es' -> m = m'.
  Proof.
    intros HF. induction HF as [|[d e] m [H1 H2] HF IH]; intros m' es es' T T' O V C C' K.
    - inversion C; subst. inversion K; subst. now inversion C'.
    - inversion C as [|? [a b] ? es1 [CA CB] CR]; subst. inversion K as [|? [a' b'] ? es1' KA KR]; subst. inversion C' as [|[d' e'] ? m1 ? [CA' CB'] CR']; subst.
      cbn [forallb fst snd] in *. apply andb_true_iff in T as [T T2]. apply andb_true_iff in T' as [T' T2']. apply andb_true_iff in O as [O O2]. apply andb_true_iff in V as [V V2].
      apply andb_true_iff in T as [T T1]. apply andb_true_iff in T' as [T' T1']. apply andb_true_iff in T as [T _]. apply andb_true_iff in T' as [T' _].
      apply andb_true_iff in O as [O O1]. apply andb_true_iff in V as [V V1].
      destruct (k_cmp a a') eqn:K1; try discriminate. f_equal; [f_equal; [now apply (H1 kt d' a a')|now apply (H2 vt e' b b')]|now apply (IH m1 es1 es1')].
  Qed.
  Lemma nth_each3 (R : ty -> data -> kserd -> Prop) ts l ks : each3 R ts l ks -> forall j t d, nth_error ts j = Some t -> nth_error l j = Some d -> exists k, nth_error ks j = Some k /\ R t d k.
  Proof.
    revert l ks. induction ts as [|t ts IH]; intros [|d l] [|k ks] C [|j] t' d' N1 N2; try destruct C; try discriminate; cbn [nth_error] in *.
    - injection N1 as ->. injection N2 as ->. eauto.
    - now apply (IH l).
  Qed.
  Lemma combine_nth_in {A B} (a : list A) : forall (b : list B) j x y, nth_error a j = Some x -> nth_error b j = Some y -> In (x, y) (combine a b).
  Proof. induction a as [|x a IH]; intros [|y b] [|j] x' y' N1 N2; try discriminate; cbn [nth_error combine] in *; [left; congruence|right; now apply (IH b j)]. Qed.
  Lemma Forall2_in_l {A B} (R : A -> B -> Prop) l l' x : Forall2 R l l' -> In x l -> exists y, In y l' /\ R x y.
  Proof. induction 1 as [|a b l l' H _ IH]; intros I; [destruct I|]. destruct I as [->|I]; [exists b; firstorder|]. destruct (IH I) as (y & Y & RY). exists y. firstorder. Qed.
  Lemma NoDup_fst_eq {A B} (l : list (A * B)) n x y : NoDup (map fst l) -> In (n, x) l -> In (n, y) l -> x = y.
  Proof.
    induction l as [|[m z] l IH]; intros N I J; [destruct I|]. cbn [map fst] in N. inversion N as [|? ? N1 N2]; subst.
    destruct I as [I|I], J as [J|J]; [congruence| | |now apply IH]; exfalso; apply N1.
    - injection I as -> _. now apply (in_map fst) in J.
    - injection J as -> _. now apply (in_map fst) in I.
  Qed.
  Lemma fields_inj fs l l' m m' : distinct (map fst fs) = true -> Forall inj_ok l -> each_of (has_type E) (map snd fs) l = true -> each_of (has_type E) (map snd fs) l' = true ->
    forallb has_ord l = true -> forallb no_variant l = true -> fields_are (codes E) fs l m -> fields_are (codes E) fs l' m' ->
    Forall2 (fun e f => match str_cmp (fst e) (fst f) with Eq => k_cmp (snd e) (snd f) | c => c end = Eq) m m' -> l = l'.
  Proof.
    intros D H T T' O V (ks & C & P) (ks' & C' & P') K. apply (each_inj l H (map snd fs) l' ks ks'); auto.
    destruct (each3_length _ _ _ _ C) as [L1 L2], (each3_length _ _ _ _ C') as [L1' L2']. rewrite map_length in *.
    assert (ND' : NoDup (map fst m')).
    { eapply Permutation_NoDup; [apply Permutation_map, Permutation_sym; exact P'|]. rewrite combine_fst by (rewrite map_length; lia). now apply distinct_NoDup. }
    assert (G : forall j k k', nth_error ks j = Some k -> nth_error ks' j = Some k' -> k_cmp k k' = Eq).
    { intros j k k' N N'. assert (LJ : (j < length fs)%nat) by (pose proof (proj1 (nth_error_Some ks j)) as X; rewrite N in X; specialize (X ltac:(discriminate)); lia).
      destruct (nth_error (map fst fs) j) as [n|] eqn:NN; [|apply nth_error_None in NN; rewrite map_length in NN; lia].
      pose proof (Permutation_in _ (Permutation_sym P) (combine_nth_in _ _ _ _ _ NN N)) as I. pose proof (Permutation_in _ (Permutation_sym P') (combine_nth_in _ _ _ _ _ NN N')) as I'.
      destruct (Forall2_in_l _ _ _ _ K I) as ([n2 y] & J & Q). cbn [fst snd] in Q. destruct (str_cmp n n2) eqn:S; try discriminate. apply str_cmp_eq in S. subst n2.
      now rewrite (NoDup_fst_eq m' n k' y ND' I' J). }
    assert (LK : length ks = length ks') by lia. clear -G LK. revert ks' G LK. induction ks as [|k ks IH]; intros [|k' ks'] G LK; try discriminate; constructor; [now apply (G O)|].
    apply IH; [|now injection LK]. intros j. exact (G (S j)).
  Qed.

  Lemma codes_inj d : inj_ok d.
  Proof.
    induction d using data_ind'; intros r d' ka kb T T' O V C C' K; try discriminate O; try discriminate V.
    all: destruct r as [| |nt| | | | | |t|ts|t|kt vt|q]; try discriminate T; cbn [has_type codes has_ord no_variant] in T, C, O, V.
    all: try (pose proof (W q) as G; destruct (E q) as [nm|nm t|nm ts|nm fs|vs] eqn:Q; try discriminate T; cbn [good_def] in G).
    all: destruct d' as [|b'|n'|x'|x3'|c'|u'|b'| |d'|l'|m'|d'|l'|i' d']; try discriminate T'; cbn [has_type codes] in T', C'; rewrite ?Q in T', C'; try discriminate T'; try reflexivity.
    all: try (destruct ka as [i v], kb as [j w]; cbn [kval] in C, C'; subst v w; rewrite k_cmp_same in K by reflexivity; cbn [same_cmp] in K).
    - f_equal. now apply bool_cmp_eq.
    - destruct C as [C _], C' as [C' _], ka as [i v], kb as [j w]. cbn [kval] in C, C'. f_equal.
      destruct C as [-> | ->], C' as [-> | ->]; rewrite k_cmp_same in K by reflexivity; cbn [same_cmp] in K; (eapply int_cmp_eq; [| |exact K]; auto).
    - f_equal. apply str_cmp_eq in K. congruence.
    - f_equal. now apply str_cmp_eq in K.
    - f_equal. now apply bytes_cmp_eq.
    - destruct C' as (z & -> & _). subst ka. rewrite k_cmp_same in K by reflexivity. discriminate.
    - destruct C as (z & -> & _). subst kb. rewrite k_cmp_same in K by reflexivity. discriminate.
    - destruct C as (a & -> & C), C' as (b & -> & C'). rewrite k_cmp_same in K by reflexivity. cbn [same_cmp] in K. apply list_cmp_eq in K. inversion K; subst. f_equal. now apply (IHd t d' a b).
    - destruct C as (a & -> & C), C' as (b & -> & C'). rewrite k_cmp_same in K by reflexivity. cbn [same_cmp] in K. apply list_cmp_eq in K. f_equal. now apply (each_inj l H ts l' a b).
    - destruct C as (a & C1 & C), C' as (b & C1' & C'), ka as [i v], kb as [j w]. cbn [kval] in C1, C1'. subst v w. rewrite k_cmp_same in K by reflexivity. cbn [same_cmp] in K. apply list_cmp_eq in K. f_equal. now apply (vec_inj t l H l' a b).
    - destruct C as (a & -> & C), C' as (b & -> & C'). rewrite k_cmp_same in K by reflexivity. cbn [same_cmp] in K. apply list_cmp_eq in K. f_equal. now apply (each_inj l H ts l' a b).
    - destruct C as (es & es1 & C1 & P & C), C' as (es' & es1' & C1' & P' & C'), ka as [i v], kb as [j w]. cbn [kval] in C1, C1'. subst v w. rewrite k_cmp_same in K by reflexivity. cbn [same_cmp] in K. apply list_cmp_eq in K.
      apply all2_Forall2 in C, C'. apply andb_true_iff in T as [T S]. apply andb_true_iff in T' as [T' S'].
      assert (FL : forall m es, Forall2 (fun e f => codes E kt (fst e) (fst f) /\ codes E vt (snd e) (snd f)) m es -> Forall2 (fun f e => codes E kt (fst e) (fst f) /\ codes E vt (snd e) (snd f)) es m) by (clear; induction 1; constructor; auto).
      assert (FL' : forall m es, Forall2 (fun f e => codes E kt (fst e) (fst f) /\ codes E vt (snd e) (snd f)) es m -> Forall2 (fun e f => codes E kt (fst e) (fst f) /\ codes E vt (snd e) (snd f)) m es) by (clear; induction 1; constructor; auto).
      destruct (Permutation_Forall2 (Permutation_sym P) (FL _ _ C)) as (mp & Q1 & F1). destruct (Permutation_Forall2 (Permutation_sym P') (FL _ _ C')) as (mp' & Q1' & F1').
      apply FL' in F1, F1'. assert (FB : forall f (a b : list (data * data)), Permutation a b -> forallb f a = true -> forallb f b = true).
      { intros f a b Pab. rewrite !forallb_forall. intros Hf z Hz. apply Hf. eapply Permutation_in; [apply Permutation_sym; exact Pab|exact Hz]. }
      assert (EQ : mp = mp').
      { apply (entries_inj kt vt mp (Permutation_Forall Q1 H) mp' es es'); auto; eapply FB; eassumption. }
      f_equal. subst mp'.
      transitivity (fold_left (fun a e => bt_insert d_cmp (fst e) (snd e) a) mp []); [symmetry|];
        apply (inserts_sorted_perm (fun _ => True) d_cmp d_lawful); try (apply Forall_forall; now auto); auto; cbn [app]; now apply Permutation_sym.
    - destruct C as (a & -> & C), C' as (b & -> & C'). rewrite k_cmp_same in K by reflexivity. cbn [same_cmp] in K. apply list_cmp_eq in K. inversion K; subst. f_equal. now apply (IHd t d' a b).
    - destruct C as (m & C1 & C), C' as (m' & C1' & C'), ka as [i v], kb as [j w]. cbn [kval] in C1, C1'. subst v w. rewrite k_cmp_same in K by reflexivity. cbn [same_cmp] in K. apply list_cmp_eq in K. apply andb_true_iff in G as [_ G].
      f_equal. now apply (fields_inj fs l l' m m').
  Qed.
End Inj.

(** ** the parts of a value *)
Fixpoint dsize (d : data) : nat :=
  match d with
  | DSome d | DNewtype d | DVariant _ d => S (dsize d)
  | DList l | DRecord l => S (list_sum (map dsize l))
  | DMap m => S (list_sum (map (fun e => dsize (fst e) + dsize (snd e))%nat m))
  | _ => 1%nat
  end.
Lemma sum_in l d : In d l -> (dsize d <= list_sum (map dsize l))%nat.
Proof. induction l as [|x l IH]; intros I; [destruct I|]. cbn [map list_sum fold_right]. fold (list_sum (map dsize l)). destruct I as [->|I]; [lia|]. specialize (IH I). lia. Qed.
Lemma sum_entry m (e : data * data) : In e m -> (dsize (fst e) + dsize (snd e) <= list_sum (map (fun e => dsize (fst e) + dsize (snd e))%nat m))%nat.
Proof. induction m as [|x m IH]; intros I; [destruct I|]. cbn [map list_sum fold_right]. fold (list_sum (map (fun e => dsize (fst e) + dsize (snd e))%nat m)). destruct I as [->|I]; [lia|]. specialize (IH I). lia. Qed.
Lemma dsize_pos d : (0 < dsize d)%nat.
Proof. destruct d; cbn [dsize]; lia. Qed.

Definition part_ok (E : decls) (n : nat) (c : ty * data) : Prop := has_type E (fst c) (snd c) = true /\ (dsize (snd c) < n)%nat.
Lemma parts_each_spec E n l : forall ts, each_of (has_type E) ts l = true -> (list_sum (map dsize l) < n)%nat ->
  exists cs, parts_each (parts E) ts l = flat_map (fun c => parts E (fst c) (snd c)) cs /\ Forall (part_ok E n) cs.
Proof.
  induction l as [|d l IH]; intros [|t ts] T L; try discriminate; [exists []; split; constructor|]. cbn [each_of map list_sum fold_right] in *. fold (list_sum (map dsize l)) in L. apply andb_true_iff in T as [T1 T2].
  destruct (IH ts T2 ltac:(lia)) as (cs & E1 & F). exists ((t, d) :: cs). split; [cbn [parts_each flat_map fst snd]; f_equal; exact E1|]. constructor; [split; [exact T1|cbn [snd]; lia]|exact F].
Qed.
Lemma parts_spec E t d : has_type E t d = true -> exists cs,
  parts E t d = (t, d) :: flat_map (fun c => parts E (fst c) (snd c)) cs /\ Forall (part_ok E (dsize d)) cs /\
  match t, d with TyMap kt vt, DMap m => forall e, In e m -> In (kt, fst e) cs | _, _ => True end.
Proof.
  intros T.
  assert (N : forall p : list (ty * data), p = [(t, d)] -> exists cs, p = (t, d) :: flat_map (fun c => parts E (fst c) (snd c)) cs /\ Forall (part_ok E (dsize d)) cs /\
     match t, d with TyMap kt vt, DMap m => cs = [] | _, _ => True end).
  { intros p ->. exists []. repeat split; [constructor|]. now destruct t, d. }
  assert (ONE : forall t' d', has_type E t' d' = true -> (dsize d' < dsize d)%nat -> exists cs, parts E t' d' = flat_map (fun c => parts E (fst c) (snd c)) cs /\ Forall (part_ok E (dsize d)) cs).
  { intros t' d' T' L. exists [(t', d')]. split; [cbn [flat_map fst snd]; now rewrite app_nil_r|]. constructor; [now split|constructor]. }
  assert (Z : forall p : list (ty * data), (exists cs, p = flat_map (fun c => parts E (fst c) (snd c)) cs /\ Forall (part_ok E (dsize d)) cs) ->
     match t, d with TyMap _ _, DMap _ => False | _, _ => True end ->
     exists cs, (t, d) :: p = (t, d) :: flat_map (fun c => parts E (fst c) (snd c)) cs /\ Forall (part_ok E (dsize d)) cs /\
     match t, d with TyMap kt vt, DMap m => forall e, In e m -> In (kt, fst e) cs | _, _ => True end).
  { intros p (cs & -> & F) B. exists cs. repeat split; [exact F|]. destruct t; auto. destruct d; auto. destruct B. }
  assert (NIL : exists cs, @nil (ty * data) = flat_map (fun c => parts E (fst c) (snd c)) cs /\ Forall (part_ok E (dsize d)) cs) by (exists []; split; constructor).
  destruct t as [| |nt| | | | | |t|ts|t|kt vt|q], d as [|b|n|x|x3|c|u|b| |d|l|m|d|l|i d]; try discriminate T; cbn [has_type] in T; cbn [parts].
  all: try (apply Z; [exact NIL|exact Logic.I]).
  all: try (destruct (E q) as [nm|nm t|nm ts|nm fs|vs] eqn:Q; try discriminate T).
  all: try (apply Z; [|exact Logic.I]); try exact NIL.
  - apply ONE; [exact T|cbn [dsize]; lia].
  - apply parts_each_spec; [exact T|cbn [dsize]; lia].
  - (* Vec *) exists (map (fun x => (t, x)) l). split; [clear; induction l as [|x l IH]; [reflexivity|]; cbn [flat_map map fst snd]; f_equal; exact IH|].
    rewrite forallb_forall in T. apply Forall_map, Forall_forall. intros x Hx. split; cbn [fst snd dsize]; [now apply T|]. pose proof (sum_in l x Hx). lia.
  - (* map *) exists (flat_map (fun e => [(kt, fst e); (vt, snd e)]) m). split; [|split].
    + f_equal. clear. induction m as [|x m IH]; [reflexivity|]. cbn [flat_map app fst snd]. rewrite <- app_assoc. do 2 f_equal. exact IH.
    + apply andb_true_iff in T as [T _]. rewrite forallb_forall in T. apply Forall_forall. intros c Hc. apply in_flat_map in Hc as (e & He & Hc). specialize (T e He). pose proof (sum_entry m e He).
      pose proof (dsize_pos (fst e)). pose proof (dsize_pos (snd e)).
      apply andb_true_iff in T as [T T2]. apply andb_true_iff in T as [T _]. destruct Hc as [<-|[<-|[]]]; split; cbn [fst snd dsize]; auto; lia.
    + intros e He. apply in_flat_map. exists e. split; [exact He|now left].
  - apply parts_each_spec; [exact T|cbn [dsize]; lia].
  - apply ONE; [exact T|cbn [dsize]; lia].
  - apply parts_each_spec; [exact T|cbn [dsize]; lia].
  - destruct (nth_error vs i) as [[n h]|]; [|discriminate]. destruct h as [|t|ts|fs]; [exact NIL|apply ONE; [exact T|cbn [dsize]; lia]| |].
    + destruct d as [| | | | | | | | | |l| | | |]; try discriminate. apply parts_each_spec; [exact T|cbn [dsize]; lia].
    + destruct d as [| | | | | | | | | | | | |l|]; try discriminate. apply parts_each_spec; [exact T|cbn [dsize]; lia].
Qed.

Lemma no_enum_apart E : good_decls E -> forall t d, has_type E t d = true -> no_enum_keys E t d -> apart E t d.
Proof.
  intros W. enough (H : forall n t d, (dsize d < n)%nat -> has_type E t d = true -> no_enum_keys E t d -> apart E t d) by (intros t d; apply (H (S (dsize d))); lia).
  induction n as [|n IH]; intros t d L T NK; [lia|]. destruct (parts_spec E t d T) as (cs & PE & F & MK). rewrite Forall_forall in F.
  assert (SUB : forall c x, In c cs -> In x (parts E (fst c) (snd c)) -> In x (parts E t d)) by (intros c x Hc Hx; rewrite PE; right; apply in_flat_map; eauto).
  assert (AC : forall c, In c cs -> apart E (fst c) (snd c)).
  { intros c Hc. destruct (F c Hc) as [T1 L1]. apply IH; [lia|exact T1|]. intros kt vt m I. apply (NK kt vt m). now apply (SUB c). }
  intros kt vt m I. rewrite PE in I. destruct I as [[= -> ->]|I].
  - cbn [has_type] in T. apply andb_true_iff in T as [T S]. rewrite forallb_forall in T. specialize (NK kt vt m). rewrite PE in NK. specialize (NK (or_introl eq_refl)).
    assert (A : forall e, In e m -> apart E kt (fst e)) by (intros e He; exact (AC _ (MK e He))). clear -W T S NK A.
    assert (G : forall e f, In e m -> In f m -> d_cmp (fst e) (fst f) = Lt -> forall a b, enc E kt (fst e) = inr a -> enc E kt (fst f) = inr b -> k_cmp a b <> Eq).
    { intros e f He Hf LT a b Ea Eb K. pose proof (T e He) as T1. pose proof (T f Hf) as T2. apply andb_true_iff in T1 as [T1 _], T2 as [T2 _]. apply andb_true_iff in T1 as [T1 O1], T2 as [T2 O2].
      destruct (enc_codes E W _ _ T1 (A e He)) as (a' & Ea' & Ca & _). destruct (enc_codes E W _ _ T2 (A f Hf)) as (b' & Eb' & Cb & _). rewrite Ea in Ea'. rewrite Eb in Eb'. injection Ea' as <-. injection Eb' as <-.
      rewrite Forall_forall in NK. pose proof (codes_inj E W (fst e) kt (fst f) a b T1 T2 O1 (NK e He) Ca Cb K) as X. rewrite X, d_cmp_refl in LT. discriminate. }
    clear -S G. unfold keys_apart. revert S G. induction m as [|e m IH]; intros S G; constructor.
    + apply (ascending_cons _ _ d_lawful) in S as [B _]; [|apply Forall_forall; now auto]. unfold below in B. rewrite Forall_forall in *. intros f Hf. apply G; [now left|now right|now apply B].
    + apply (ascending_cons _ _ d_lawful) in S as [_ S]; [|apply Forall_forall; now auto]. apply IH; [exact S|]. intros x y Hx Hy. apply G; now right.
  - apply in_flat_map in I as (c & Hc & I). exact (AC c Hc kt vt m I).
Qed.
