(** Proofs for C75: the decoder of the new types reads what stands for a value of
    the old ones. *)
From Verif Require Import Base BaseProps F64 F32 F32Spec F32Props Number NumberSpec BTree BTreeProps Value ValueSpec ValueProps ValueProps2 Encode EncodeSpec EncodeProps EncodeProps2 EncodeProps3 EvolveSpec.
From Coq Require Import Permutation.
Open Scope N_scope.

Lemma position_some {A} n (l : list (str * A)) : forall i a, position n l = Some (i, a) -> nth_error l i = Some (n, a).
Proof.
  induction l as [|[m b] l IH]; intros i a H; [discriminate|]. cbn [position] in H. destruct (str_eqb n m) eqn:X.
  - apply str_eqb_eq in X. injection H as <- <-. now subst m.
  - destruct (position n l) as [[j c]|] eqn:P; [|discriminate]. injection H as <- <-. cbn [fst snd nth_error]. now apply IH.
Qed.

(** the fields which are there, by their place in the new declaration *)
Lemma dec_struct_some gs f (out : list data) : forall m,
  (forall n k i u, In (n, k) m -> position n gs = Some (i, u) -> exists d, f u k = Some d /\ nth_error out i = Some d) -> NoDup (map fst m) ->
  exists il, dec_struct (field_name gs) f m = Some il /\ NoDup (map fst il) /\
    (forall i d, In (i, d) il <-> nth_error out i = Some d /\ exists n u, In n (map fst m) /\ position n gs = Some (i, u)).
Proof.
  induction m as [|[n k] m IH]; intros H ND; [exists []; split; [reflexivity|]; split; [constructor|]; intros i d; split; [intros []|intros (_ & ? & ? & [] & _)]|].
  cbn [map fst] in ND. inversion ND as [|? ? N1 N2]; subst. destruct IH as (il & D & NI & J); [intros; eapply H; [right; eassumption|eassumption]|exact N2|].
  cbn [dec_struct]. unfold field_name at 1. cbn [opt_bind]. destruct (position n gs) as [[i u]|] eqn:P.
  - destruct (H n k i u (or_introl eq_refl) P) as (d & F & O). rewrite F. cbn [opt_bind]. fold (dec_struct (field_name gs) f). rewrite D. exists ((i, d) :: il). split; [reflexivity|]. split.
    + cbn [map fst]. constructor; [|exact NI]. intros X. apply in_map_iff in X as ([i' d'] & X & Y). cbn [fst] in X. subst i'. apply J in Y as (_ & n' & u' & Y & P').
      apply position_some in P, P'. rewrite P in P'. injection P' as <- _. now apply N1.
    + intros i' d'. cbn [In map fst]. rewrite J. split.
      * intros [[= <- <-]|(X & n' & u' & Y & Z)]; [split; [exact O|]; exists n, u; auto|]. split; [exact X|]. exists n', u'. auto.
      * intros (X & n' & u' & [<-|Y] & Z); [left; rewrite P in Z; injection Z as <- <-; rewrite O in X; now injection X as <-|right]. split; [exact X|]. exists n', u'. auto.
  - fold (dec_struct (field_name gs) f). exists il. split; [exact D|]. split; [exact NI|]. intros i' d'. rewrite J. cbn [In map fst]. split.
    + intros (X & n' & u' & Y & Z). split; [exact X|]. exists n', u'. auto.
    + intros (X & n' & u' & [<-|Y] & Z); [congruence|]. split; [exact X|]. exists n', u'. auto.
Qed.
Lemma find_none i (l : list (nat * data)) : (forall d, ~ In (i, d) l) -> find (fun e => Nat.eqb i (fst e)) l = None.
Proof.
  induction l as [|[j e] l IH]; intros H; [reflexivity|]. cbn [find fst]. destruct (Nat.eqb_spec i j) as [->|X]; [exfalso; apply (H e); now left|]. apply IH. intros d Y. apply (H d). now right.
Qed.
Lemma take_some il : NoDup (map fst il) -> forall fs l i,
  Forall2 (fun g j => exists d, nth_error l j = Some d /\ (In ((i + j)%nat, d) il \/ absent (snd g) = Some d /\ forall d', ~ In ((i + j)%nat, d') il)) fs (seq 0 (length l)) ->
  take_fields i fs il = Some l.
Proof.
  intros N. induction fs as [|[n t] fs IH]; intros [|d l] i L; cbn [length seq] in L; inversion L as [|? ? ? ? (d' & A & B) L']; subst; [reflexivity|]. cbn [take_fields]. cbn [nth_error] in A. injection A as <-. rewrite Nat.add_0_r in B.
  assert (X : match find (fun e => Nat.eqb i (fst e)) il with Some (_, d) => Some d | None => absent t end = Some d).
  { destruct B as [B|[B C]]; [now rewrite (find_NoDup i d)|now rewrite find_none]. }
  rewrite X. cbn [opt_bind]. rewrite (IH l (S i)); [reflexivity|]. rewrite <- seq_shift in L'. clear -L'.
  remember (seq 0 (length l)) as q eqn:Q. clear Q. revert q L'. induction fs as [|g fs IH]; intros [|j q] H; cbn [map] in H; inversion H as [|? ? ? ? (d' & A & B) L]; subst; constructor; auto.
  exists d'. split; [exact A|]. now replace (S i + j)%nat with (i + S j)%nat by lia.
Qed.
Lemma f2_seq {A B} (R : A -> B -> Prop) a b : Forall2 R a b -> forall (P : A -> nat -> Prop),
  (forall j x y, nth_error a j = Some x -> nth_error b j = Some y -> R x y -> P x j) -> Forall2 P a (seq 0 (length b)).
Proof.
  induction 1 as [|x y a b H F IH]; intros P K; cbn [length seq]; constructor; [exact (K 0%nat x y eq_refl eq_refl H)|].
  rewrite <- seq_shift. specialize (IH (fun x j => P x (S j)) (fun j x y A B C => K (S j) x y A B C)). clear -IH. induction IH; constructor; auto.
Qed.
Lemma combine_nth_in {A B} (a : list A) : forall (b : list B) x y, In (x, y) (combine a b) -> exists i, nth_error a i = Some x /\ nth_error b i = Some y.
Proof. induction a as [|p a IH]; intros [|q b] x y H; try destruct H as [[= -> ->]|H]; try destruct H; [now exists 0%nat|]. all: destruct (IH b x y) as (i & H1 & H2); [auto|now exists (S i)]. Qed.
Lemma each3_nth R : forall l ts ks i t k, each3 R ts l ks -> nth_error ts i = Some t -> nth_error ks i = Some k -> exists d, nth_error l i = Some d /\ R t d k.
Proof.
  induction l as [|d l IH]; intros [|t ts] [|k ks] i t' k' H A B; try destruct H; try (destruct i; discriminate).
  destruct i as [|i]; cbn [nth_error] in *; [injection A as <-; injection B as <-; now exists d|]. now apply (IH ts ks).
Qed.
Lemma each_of_nth f : forall l ts i t d, each_of f ts l = true -> nth_error ts i = Some t -> nth_error l i = Some d -> f t d = true.
Proof.
  induction l as [|x l IH]; intros [|t ts] i t' d H A B; try discriminate; try (destruct i; discriminate). cbn [each_of] in H. apply andb_true_iff in H as [H1 H2].
  destruct i as [|i]; cbn [nth_error] in *; [injection A as <-; injection B as <-; exact H1|]. now apply (IH ts i).
Qed.

Section Grow.
  Context (E F : decls) (WE : good_decls E) (WF : good_decls F).
  Definition grows (d : data) : Prop := forall t u e k, has_type E t d = true -> codes E t d k -> becomes E F t u d e -> dec F u k = Some e.

  Lemma each_grow l : Forall grows l -> forall ts us ks l', each_of (has_type E) ts l = true -> each3 (codes E) ts l ks -> slots (becomes E F) ts us l l' -> dec_each (dec F) us ks = Some l'.
  Proof.
    induction 1 as [|d l H HF IH]; intros [|t ts] us [|k ks] l' T C S; try discriminate T; try destruct C; inversion S; subst; try reflexivity.
    cbn [each_of] in T. apply andb_true_iff in T as [T1 T2]. cbn [dec_each]. rewrite (H t u e k) by assumption. cbn [opt_bind]. fold (dec_each (dec F)). now rewrite (IH ts us0 ks l'0).
  Qed.
  Lemma vec_grow l : Forall grows l -> forall t u ks l', forallb (has_type E t) l = true -> all2 (codes E t) l ks -> Forall2 (becomes E F t u) l l' -> dec_all (dec F u) ks = Some l'.
  Proof.
    induction 1 as [|d l H HF IH]; intros t u [|k ks] l' T C S; try destruct C; inversion S; subst; [reflexivity|].
    cbn [forallb] in T. apply andb_true_iff in T as [T1 T2]. cbn [dec_all]. rewrite (H t u y k) by assumption. cbn [opt_bind]. fold (dec_all (dec F u)). now rewrite (IH t u ks l'0).
  Qed.
  Lemma fields_grow fs gs l l' m : distinct (map fst fs) = true -> distinct (map fst gs) = true -> Forall grows l -> each_of (has_type E) (map snd fs) l = true ->
    fields_are (codes E) fs l m -> Forall2 (field_from (becomes E F) fs l) gs l' ->
    opt_bind (dec_struct (field_name gs) (dec F) m) (dec_record gs) = Some (DRecord l').
  Proof.
    intros D DG H T (ks & C & P) B.
    destruct (each3_length _ _ _ _ C) as [L1 L2]. rewrite map_length in L1.
    assert (NM : map fst (combine (map fst fs) ks) = map fst fs) by (apply combine_fst; rewrite map_length; lia).
    assert (PM : Permutation (map fst m) (map fst fs)) by (rewrite <- NM; now apply Permutation_map).
    pose proof (distinct_NoDup _ D) as ND. pose proof (distinct_NoDup _ DG) as NG.
    assert (FB : forall i n u, nth_error gs i = Some (n, u) -> exists e, nth_error l' i = Some e /\ field_from (becomes E F) fs l (n, u) e).
    { clear -B. induction B as [|g e gs l' X _ IH]; intros [|i] n u N; try discriminate; cbn [nth_error] in *; [injection N as ->; now exists e|now apply IH]. }
    destruct (dec_struct_some gs (dec F) l' m) as (il & DS & NI & J).
    - intros n k i u I Q. apply position_some in Q. destruct (FB i n u Q) as (e & Ne & X). exists e. split; [|exact Ne].
      eapply Permutation_in in I; [|exact P]. apply combine_nth_in in I as (j & J1 & J2). rewrite nth_error_map in J1. destruct (nth_error fs j) as [[n' t]|] eqn:Fj; [|discriminate]. cbn [option_map fst] in J1. injection J1 as ->.
      inversion X as [i' n' t' u' d e' X1 X2 X3 E1 E2|n' u' X1 E1 E2]; subst.
      + assert (i' = j).
        { apply (proj1 (NoDup_nth_error _) ND); [rewrite map_length; apply nth_error_Some; congruence|]. now rewrite !nth_error_map, X1, Fj. }
        subst i'. rewrite Fj in X1. injection X1 as <-.
        destruct (each3_nth _ _ _ _ j t k C) as (d' & Y1 & Y2); [now rewrite nth_error_map, Fj|exact J2|]. rewrite X2 in Y1. injection Y1 as <-.
        rewrite Forall_forall in H. apply (H d (nth_error_In _ _ X2) t u e k); [|exact Y2|exact X3]. apply (each_of_nth _ _ _ j t d T); [now rewrite nth_error_map, Fj|exact X2].
      + exfalso. apply X1. apply nth_error_In in Fj. now apply (in_map fst) in Fj.
    - eapply Permutation_NoDup; [apply Permutation_sym; exact PM|exact ND].
    - rewrite DS. cbn [opt_bind]. unfold dec_record. rewrite twice_NoDup by exact NI. rewrite (take_some il NI gs l' 0); [reflexivity|].
      apply (f2_seq _ _ _ B). intros j [n u] e G1 G2 X. exists e. split; [exact G2|]. cbn [Nat.add snd].
      inversion X as [i' n' t' u' d e' X1 X2 X3 E1 E2|n' u' X1 E1 E2]; subst.
      + left. apply J. split; [exact G2|]. exists n, u. split; [|now apply position_nth]. eapply Permutation_in; [apply Permutation_sym; exact PM|]. apply nth_error_In in X1. now apply (in_map fst) in X1.
      + right. split; [reflexivity|]. intros d' Y. apply J in Y as (_ & n' & u'' & Y & Z). apply position_some in Z. rewrite G1 in Z. injection Z as <- _. apply X1. eapply Permutation_in; [exact PM|exact Y].
  Qed.

  Definition items_grow (d : data) : Prop := match d with DList l | DRecord l => Forall grows l | _ => True end.
  Lemma codes_grow' d : grows d /\ items_grow d.
  Proof.
    assert (FF : forall l, Forall (fun d => grows d /\ items_grow d) l -> Forall grows l) by (intros l K; eapply Forall_impl; [|exact K]; now intros a []).
    assert (NS : forall {R} (V : visitor R) n l, length l <> 1%nat -> (length l = O -> str_eqb n (s "None") = false) ->
      deserialize_any V (Kserd (Some n) (VTuple l)) = visit_seq V l).
    { intros R V n [|x [|y l]] H1 H2; cbn [deserialize_any]; [now rewrite H2|now destruct H1|reflexivity]. }
    assert (NN : forall {R} (V : visitor R) l, deserialize_any V (Kserd None (VTuple l)) = visit_seq V l) by (intros R V [|x [|y l]]; reflexivity).
    induction d using data_ind'; (split; [|try exact Logic.I; cbn [items_grow]; now apply FF]); try (apply FF in H); try (destruct IHd as [IHd IHi]); intros r w e k T C B.
    all: inversion B; subst; cbn [has_type codes] in T, C.
    all: try (match goal with X : E ?q = _ |- _ => pose proof (WE q) as G; rewrite X in T, C, G; cbn [good_def] in G end).
    all: try (match goal with X : F ?q = _ |- _ => pose proof (WF q) as G'; rewrite X in G'; cbn [good_def] in G'; pose proof X as FX end).
    all: try (destruct k as [i v]; cbn [kval] in C; subst v; reflexivity).
    - (* unit struct *) subst k. cbn [dec]. now rewrite FX.
    - (* int *) destruct C as [C _], k as [i v]. cbn [kval] in C. cbn [dec]. match goal with X : in_ntype _ n = true, Y : in_ntype ?u n = true |- context [deserialize_int ?u _] => destruct (int_decodes u n i Y) as [I1 I2] end. destruct C as [-> | ->]; [now rewrite I1|now rewrite I2].
    - (* int to f64 *) destruct C as [C _], k as [i v]. cbn [kval] in C. cbn [dec]. unfold deserialize_f64. cbn [kval]. now destruct C as [-> | ->].
    - (* f64 *) destruct C as (n & C & N), k as [i v]. cbn [kval] in C. subst v. cbn [dec]. unfold deserialize_f64. cbn [kval option_map]. now rewrite N.
    - (* f64 to f32 *) destruct C as (n & C & N), k as [i v]. cbn [kval] in C. subst v. cbn [dec]. unfold deserialize_f32. cbn [kval option_map]. now rewrite N.
    - (* f32 *) destruct C as (n & C & N), k as [i v]. cbn [kval] in C. subst v. cbn [dec]. unfold deserialize_f32. cbn [kval option_map]. now rewrite (f32_back x (as_f64 n)).
    - (* f32 to f64 *) destruct C as (n & C & N), k as [i v]. cbn [kval] in C. subst v. cbn [dec]. unfold deserialize_f64. cbn [kval option_map]. match goal with X : f32_to_f64 x = Ret y |- _ => rewrite X in N end. now injection N as ->.
    - (* None *) subst k. reflexivity.
    - (* Some *) destruct C as (x & -> & C). cbn [dec]. match goal with X : becomes _ _ t u d ?e0 |- _ => change (option_map DSome (dec F u x) = Some (DSome e0)); now rewrite (IHd t u e0 x T C X) end.
    - (* tuple *) destruct C as (ks & -> & C). cbn [dec]. rewrite NN. cbn [visit_seq]. now rewrite (each_grow l H ts us ks l').
    - (* Vec *) destruct C as (ks & C & D), k as [i v]. cbn [kval] in C. subst v. cbn [dec deserialize_any visit_seq]. now rewrite (vec_grow l H t u ks l').
    - (* tuple struct *) destruct C as (ks & -> & C). apply andb_true_iff in G as [G G2]. apply andb_true_iff in G as [_ G1]. destruct (each3_length _ _ _ _ C) as [L1 L2].
      apply negb_true_iff in G1, G2. apply Nat.eqb_neq in G1.
      cbn [dec]. rewrite FX, NS; [|lia|intros Z; replace (length ts) with 0%nat in G2 by lia; exact G2]. cbn [visit_seq]. now rewrite (each_grow l H ts us ks l').
    - (* map *) destruct C as (es & es' & C & P & A), k as [i v]. cbn [kval] in C. subst v. apply andb_true_iff in T as [T _].
      match goal with X : Forall2 _ m ?mm |- _ => rename X into B'; rename mm into n' end.
      assert (FD : Forall2 (fun f e => dec F ku (fst f) = Some (fst e) /\ dec F vu (snd f) = Some (snd e)) es' n').
      { apply all2_Forall2 in A. clear -A B' H T. revert es' A T. induction B' as [|e f m n' [B1 B2] _ IH]; intros es' A T; inversion A as [|? y ? es'' [C1 C2] A']; subst; constructor; inversion H as [|? ? H1 H2]; subst;
          cbn [forallb] in T; apply andb_true_iff in T as [T T3]; [|now apply IH]. apply andb_true_iff in T as [T T2]. apply andb_true_iff in T as [T T1]. destruct H1 as [[H1 _] [H3 _]]. split; [now apply (H1 kt)|now apply (H3 vt)]. }
      destruct (Permutation_Forall2 (Permutation_sym P) FD) as (n2 & Q & F').
      cbn [dec deserialize_any visit_map]. rewrite (entries_dec F ku vu es n2).
      2:{ clear -F'. induction F'; constructor; auto. }
      cbn [option_map]. do 2 f_equal. apply (inserts_sorted_perm (fun _ => True) d_cmp d_lawful); [apply Forall_forall; auto|assumption| |reflexivity].
      apply Permutation_sym. eapply perm_trans; [apply Permutation_sym; eassumption|exact Q].
    - (* newtype *) destruct C as (x & -> & C). apply andb_true_iff in G as [_ G]. apply negb_true_iff in G. cbn [dec]. rewrite FX. cbn [deserialize_any]. rewrite G. cbn [visit_newtype]. match goal with X : becomes _ _ t u d ?e0 |- _ => now rewrite (IHd t u e0 x T C X) end.
    - (* struct *) destruct C as (m & C & FA), k as [i v]. cbn [kval] in C. subst v. apply andb_true_iff in G as [_ D]. apply andb_true_iff in G' as [_ D']. cbn [dec]. rewrite FX. cbn [deserialize_any visit_fields]. now apply fields_grow with (fs := fs) (l := l).
    - (* unit variant *) match goal with X : nth_error vs i = _, Y : nth_error ws j = _ |- _ => rewrite X in T, C; rename Y into NT end. apply andb_true_iff in G' as [D' _].
      destruct C as [_ ->]. cbn [dec]. rewrite FX. cbn [variant_id kid opt_bind]. now rewrite (position_nth ws D' j name _ NT).
    - (* newtype variant *) match goal with X : nth_error vs i = _, Y : nth_error ws j = _ |- _ => rewrite X in T, C; rename Y into NT end. apply andb_true_iff in G' as [D' _].
      destruct C as (x & -> & C). cbn [dec]. rewrite FX. cbn [variant_id kid opt_bind]. rewrite (position_nth ws D' j name _ NT). cbn [opt_bind fst snd]. match goal with X : becomes _ _ t u d ?e0 |- _ => now rewrite (IHd t u e0 x T C X) end.
    - (* tuple variant *) match goal with X : nth_error vs i = _, Y : nth_error ws j = _ |- _ => rewrite X in T, C; rename Y into NT end. apply andb_true_iff in G' as [D' _].
      destruct C as (ks & -> & C). cbn [dec]. rewrite FX. cbn [variant_id kid opt_bind]. rewrite (position_nth ws D' j name _ NT). cbn [opt_bind fst snd].
      destruct (each3_length _ _ _ _ C) as [L1 L2]. replace (length ks) with (length us) by lia. rewrite Nat.eqb_refl. cbn [items_grow] in IHi. now rewrite (each_grow l IHi ts us ks l').
    - (* struct variant *) match goal with X : nth_error vs i = _, Y : nth_error ws j = _ |- _ => rewrite X in T, C; rename Y into NT; rename X into NE end. apply andb_true_iff in G' as [D' G']. apply andb_true_iff in G as [_ G].
      rewrite forallb_forall in G, G'. specialize (G _ (nth_error_In _ _ NE)). specialize (G' _ (nth_error_In _ _ NT)). apply andb_true_iff in G as [_ G]. apply andb_true_iff in G' as [_ G']. cbn [snd good_shape] in G, G'.
      destruct C as (m & -> & FA). cbn [dec]. rewrite FX. cbn [variant_id kid opt_bind]. rewrite (position_nth ws D' j name _ NT). cbn [opt_bind fst snd items_grow] in *. now rewrite (fields_grow fs gs l l' m).
  Qed.
  Lemma codes_grow d t u e k : has_type E t d = true -> codes E t d k -> becomes E F t u d e -> dec F u k = Some e.
  Proof. exact (proj1 (codes_grow' d) t u e k). Qed.
End Grow.

Lemma evolves E F t u d e k : good_decls E -> good_decls F -> has_type E t d = true -> apart E t d -> becomes E F t u d e -> enc E t d = inr k -> dec F u k = Some e.
Proof. intros WE WF T A B H. destruct (enc_codes E WE d t T A) as (k' & H' & C & _). rewrite H in H'. injection H' as <-. now apply (codes_grow E F WE WF d t u e k). Qed.
