(** Proofs about line endings: the parser runs in lockstep on two texts which differ
    in their line endings only. *)
From Verif Require Import Base BaseProps F64 Number BTree BTreeProps Value ValueSpec ValueProps ValueProps2 Base91 Nom Parse ParseErr ParseSpec ParseProps MapOrder EolSpec.
Open Scope N_scope.

(** whether all line feeds are written otherwise *)
Class mode : Set := all : bool.
Local Notation eol := (EolSpec.eol all).
Local Notation eol_v := (EolSpec.eol_v all).
Local Notation eol_k := (EolSpec.eol_k all).
Section Mode.
Context {md : mode}.

(** ** texts *)
Lemma eol_app a a' b b' : eol a a' -> eol b b' -> eol (a ++ b) (a' ++ b').
Proof. intros H G. induction H; cbn [app]; try constructor; auto. Qed.
Lemma eol_len t t' : eol t t' -> (length t' = 0 <-> length t = 0)%nat.
Proof. destruct 1; cbn; split; intros; try lia. Qed.
Lemma eol_plain t t' : eol t t' -> mem 10 t = false -> t' = t.
Proof.
  induction 1 as [|c t t' N NA H IH|t t' H IH]; intros M; [reflexivity| |discriminate M].
  unfold mem in *. cbn [existsb] in M. apply orb_false_iff in M as [_ M]. now rewrite (IH M).
Qed.
Lemma no_str_lf_suffix r p : no_str_lf (p ++ r) -> no_str_lf r.
Proof. intros H a b E. apply (H (p ++ a) b). rewrite E. now rewrite <- app_assoc. Qed.

(** the two texts, and the same place in both *)
Definition inp (i i' : str) : Prop := eol i i' /\ no_str_lf i.
Definition step (i i' r r' : str) : Prop := exists p p', i = p ++ r /\ i' = p' ++ r' /\ eol p p'.
Lemma step_refl i i' : step i i' i i'.
Proof. exists [], []. repeat split. constructor. Qed.
Lemma step_trans i i' j j' r r' : step i i' j j' -> step j j' r r' -> step i i' r r'.
Proof.
  intros (p & p' & -> & -> & E) (q & q' & -> & -> & F). exists (p ++ q), (p' ++ q').
  rewrite !app_assoc. repeat split. now apply eol_app.
Qed.
Lemma inp_step i i' r r' : inp i i' -> step i i' r r' -> eol r r' -> inp r r'.
Proof. intros [_ N] (p & p' & -> & _ & _) E. split; [exact E|]. now apply no_str_lf_suffix in N. Qed.
Lemma step_len i i' r r' : step i i' r r' -> Nat.eqb (length r) (length i) = Nat.eqb (length r') (length i').
Proof.
  intros (p & p' & -> & -> & E). rewrite !app_length. pose proof (eol_len _ _ E).
  destruct (Nat.eqb_spec (length r) (length p + length r)), (Nat.eqb_spec (length r') (length p' + length r')); lia.
Qed.

(** ** results; [z]: running out of fuel is possible *)
Definition lk {A B} (z : bool) (i i' : str) (R : A -> B -> Prop) (r : pres A) (r' : pres B) : Prop :=
  match r, r' with
  | PFuel, _ | _, PFuel => z = true
  | POk j a, POk j' a' => step i i' j j' /\ eol j j' /\ R a a'
  | PErr _, PErr _ | PFail _, PFail _ | PPanic, PPanic => True
  | _, _ => False
  end.
Definition lock {A B} (z : bool) (R : A -> B -> Prop) (p : parser A) (p' : parser B) : Prop :=
  forall i i', inp i i' -> lk z i i' R (p i) (p' i').

Lemma lk_weak {A B} z i i' (R Q : A -> B -> Prop) r r' : (forall a b, R a b -> Q a b) -> lk z i i' R r r' -> lk z i i' Q r r'.
Proof. intros H. destruct r, r'; cbn; try tauto. intros (X & Y & Z). auto. Qed.
Lemma lk_fuel {A B} z i i' (R : A -> B -> Prop) r r' : lk false i i' R r r' -> lk z i i' R r r'.
Proof. destruct r, r'; cbn; try tauto; discriminate. Qed.
Lemma lock_weak {A B} z (R Q : A -> B -> Prop) p p' : (forall a b, R a b -> Q a b) -> lock z R p p' -> lock z Q p p'.
Proof. intros H L i i' I. eapply lk_weak; eauto. Qed.
Lemma lock_fuel {A B} z (R : A -> B -> Prop) p p' : lock false R p p' -> lock z R p p'.
Proof. intros L i i' I. apply lk_fuel, L, I. Qed.
Lemma lk_step {A B} z i i' j j' (R : A -> B -> Prop) r r' : step i i' j j' -> lk z j j' R r r' -> lk z i i' R r r'.
Proof. intros S. destruct r, r'; cbn; try tauto. intros (X & Y & Z). split; auto. eapply step_trans; eauto. Qed.
Lemma lk_ok {A B} z i i' (R : A -> B -> Prop) a b : inp i i' -> R a b -> lk z i i' R (POk i a) (POk i' b).
Proof. intros [E _] H. split; auto using step_refl. Qed.
Lemma lk_is_ok {A B} i i' (R : A -> B -> Prop) r r' : lk false i i' R r r' -> is_ok r = is_ok r'.
Proof. destruct r, r'; cbn; try easy; discriminate. Qed.

(** *** combinators *)
Lemma lk_bind {A B C D} z i i' (R : A -> B -> Prop) (Q : C -> D -> Prop) r r' (f : str -> A -> pres C) (f' : str -> B -> pres D) :
  inp i i' -> lk z i i' R r r' ->
  (forall j j' a b, step i i' j j' -> inp j j' -> R a b -> lk z i i' Q (f j a) (f' j' b)) ->
  lk z i i' Q (pbind r f) (pbind r' f').
Proof.
  intros I H G. destruct r, r'; cbn in *; try easy.
  - destruct H as (S & E & HR). apply G; auto. eapply inp_step; eauto.
  - destruct (f rest a); auto.
Qed.
(** the continuation goes on from the new place *)
Lemma lk_bind' {A B C D} z i i' (R : A -> B -> Prop) (Q : C -> D -> Prop) r r' (f : str -> A -> pres C) (f' : str -> B -> pres D) :
  inp i i' -> lk z i i' R r r' ->
  (forall j j' a b, inp j j' -> R a b -> lk z j j' Q (f j a) (f' j' b)) ->
  lk z i i' Q (pbind r f) (pbind r' f').
Proof. intros I H G. eapply lk_bind; eauto. intros j j' a b S J HR. eapply lk_step; eauto. Qed.

Section Combinators.
  Context {A B C D E F : Type} (z : bool).
  Lemma lock_pmap (R : A -> B -> Prop) (Q : C -> D -> Prop) p p' f f' : lock z R p p' -> (forall a b, R a b -> Q (f a) (f' b)) -> lock z Q (pmap p f) (pmap p' f').
  Proof. intros H G i i' I. unfold pmap. eapply lk_bind'; [exact I|apply H, I|]. intros. apply lk_ok; auto. Qed.
  Lemma lock_preceded (R : A -> B -> Prop) (Q : C -> D -> Prop) p p' q q' : lock z R p p' -> lock z Q q q' -> lock z Q (preceded p q) (preceded p' q').
  Proof. intros H G i i' I. unfold preceded. eapply lk_bind'; [exact I|apply H, I|]. intros. now apply G. Qed.
  Lemma lock_terminated (R : A -> B -> Prop) (Q : C -> D -> Prop) p p' q q' : lock z R p p' -> lock z Q q q' -> lock z R (terminated p q) (terminated p' q').
  Proof.
    intros H G i i' I. unfold terminated. eapply lk_bind'; [exact I|apply H, I|]. intros j j' a b J HR.
    eapply lk_bind'; [exact J|apply G, J|]. intros. now apply lk_ok.
  Qed.
  Lemma lock_pair (R : A -> B -> Prop) (Q : C -> D -> Prop) (P : E -> F -> Prop) p p' q q' r r' : lock z R p p' -> lock z Q q q' -> lock z P r r' ->
    lock z (fun x y => R (fst x) (fst y) /\ P (snd x) (snd y)) (separated_pair p q r) (separated_pair p' q' r').
  Proof.
    intros H G K i i' I. unfold separated_pair. eapply lk_bind'; [exact I|apply H, I|]. intros j j' a b J HR.
    eapply lk_bind'; [exact J|apply G, J|]. intros j1 j1' ? ? J1 _. eapply lk_bind'; [exact J1|apply K, J1|]. intros. apply lk_ok; cbn; auto.
  Qed.
  Definition opt_rel (R : A -> B -> Prop) (a : option A) (b : option B) : Prop :=
    match a, b with Some x, Some y => R x y | None, None => True | _, _ => False end.
  Lemma lock_opt (R : A -> B -> Prop) p p' : lock z R p p' -> lock z (opt_rel R) (opt p) (opt p').
  Proof.
    intros H i i' I. specialize (H i i' I). unfold opt. destruct (p i), (p' i'); cbn in *; try easy.
    destruct I. auto using step_refl.
  Qed.
  Lemma lock_cut (R : A -> B -> Prop) p p' : lock z R p p' -> lock z R (cut p) (cut p').
  Proof. intros H i i' I. specialize (H i i' I). unfold cut. destruct (p i), (p' i'); cbn in *; easy. Qed.
  Lemma lock_uncut (R : A -> B -> Prop) p p' : lock z R p p' -> lock z R (uncut p) (uncut p').
  Proof. intros H i i' I. specialize (H i i' I). unfold uncut. destruct (p i), (p' i'); cbn in *; easy. Qed.
  Lemma lock_context (R : A -> B -> Prop) t t' p p' : lock z R p p' -> lock z R (context t p) (context t' p').
  Proof. intros H i i' I. specialize (H i i' I). unfold context. destruct (p i), (p' i'); cbn in *; easy. Qed.
  Lemma lock_alt2 (R : A -> B -> Prop) p p' q q' : lock z R p p' -> lock z R q q' -> lock z R (alt2 p q) (alt2 p' q').
  Proof.
    intros H G i i' I. specialize (H i i' I). specialize (G i i' I). unfold alt2.
    destruct (p i), (p' i'); cbn in *; try easy; destruct (q i), (q' i'); cbn in *; easy.
  Qed.
  Lemma lock_consuming (R : A -> B -> Prop) p p' : lock z R p p' -> lock z R (all_consuming p) (all_consuming p').
  Proof.
    intros H i i' I. unfold all_consuming. eapply lk_bind'; [exact I|apply H, I|]. intros j j' a b J HR.
    pose proof J as [E0 _]. destruct E0; try exact Logic.I. now apply lk_ok.
  Qed.
End Combinators.
Lemma lock_alt5 {A B} z (R : A -> B -> Prop) p1 p2 p3 p4 p5 q1 q2 q3 q4 q5 :
  lock z R p1 q1 -> lock z R p2 q2 -> lock z R p3 q3 -> lock z R p4 q4 -> lock z R p5 q5 -> lock z R (alt5 p1 p2 p3 p4 p5) (alt5 q1 q2 q3 q4 q5).
Proof.
  intros H1 H2 H3 H4 H5 i i' I. specialize (H1 i i' I). specialize (H2 i i' I). specialize (H3 i i' I). specialize (H4 i i' I). specialize (H5 i i' I).
  unfold alt5.
  destruct (p1 i), (q1 i'); cbn in H1 |- *; try easy.
  destruct (p2 i), (q2 i'); cbn in H2 |- *; try easy.
  destruct (p3 i), (q3 i'); cbn in H3 |- *; try easy.
  destruct (p4 i), (q4 i'); cbn in H4 |- *; try easy.
  destruct (p5 i), (q5 i'); cbn in H5 |- *; easy.
  all: repeat match goal with |- context [match ?x with _ => _ end] => destruct x end; easy.
Qed.

(** *** loops *)
Lemma lk_fr {A B} i i' (R : A -> B -> Prop) r : lk true i i' R r PFuel.
Proof. now destruct r. Qed.
Lemma lock_many0 {A B} (R : A -> B -> Prop) p p' : lock true R p p' -> forall n n' acc acc' i i', inp i i' -> Forall2 R acc acc' ->
  lk true i i' (Forall2 R) (many0_loop n p acc i) (many0_loop n' p' acc' i').
Proof.
  intros H. induction n as [|n IH]; intros n' acc acc' i i' I F; [reflexivity|].
  destruct n' as [|n']; [apply lk_fr|].
  cbn [many0_loop]. pose proof (H i i' I) as L. destruct (p i), (p' i'); cbn in L; try easy.
  - destruct L as (S0 & E0 & HR). pose proof (step_len _ _ _ _ S0) as SL. rewrite <- SL. destruct (Nat.eqb (length rest) (length i)); [easy|].
    eapply lk_step; [exact S0|]. apply IH; [eapply inp_step; eassumption|]. apply Forall2_app; [exact F|]. constructor; [exact HR|constructor].
  - apply lk_fr.
  - now apply lk_ok.
Qed.
Lemma lock_sep_loop {A B C D} (R : A -> B -> Prop) (Q : C -> D -> Prop) p p' q q' : lock true R p p' -> lock true Q q q' ->
  forall n n' acc acc' i i', inp i i' -> Forall2 R acc acc' -> lk true i i' (Forall2 R) (sep_loop n q p acc i) (sep_loop n' q' p' acc' i').
Proof.
  intros H G. induction n as [|n IH]; intros n' acc acc' i i' I F; [reflexivity|].
  destruct n' as [|n']; [apply lk_fr|].
  cbn [sep_loop]. pose proof (G i i' I) as L. destruct (q i), (q' i'); cbn in L; try easy.
  - destruct L as (S0 & E0 & HR). pose proof (step_len _ _ _ _ S0) as SL. rewrite <- SL. destruct (Nat.eqb (length rest) (length i)); [easy|].
    assert (J : inp rest rest0) by (eapply inp_step; eassumption).
    pose proof (H _ _ J) as L. destruct (p rest), (p' rest0); cbn in L; try easy.
    + destruct L as (S1 & E1 & HR1). eapply lk_step; [eapply step_trans; [exact S0|exact S1]|].
      apply IH; [eapply inp_step; eassumption|]. apply Forall2_app; [exact F|]. constructor; [exact HR1|constructor].
    + apply lk_fr.
    + now apply lk_ok.
  - apply lk_fr.
  - now apply lk_ok.
Qed.
Lemma lock_sep {A B C D} (R : A -> B -> Prop) (Q : C -> D -> Prop) p p' q q' : lock true R p p' -> lock true Q q q' ->
  lock true (Forall2 R) (separated_list0 q p) (separated_list0 q' p').
Proof.
  intros H G i i' I. unfold separated_list0. pose proof (H i i' I) as L. destruct (p i), (p' i'); cbn in L; try easy.
  - destruct L as (S0 & E0 & HR). eapply lk_step; [exact S0|]. eapply lock_sep_loop; eauto. eapply inp_step; eassumption.
  - apply lk_fr.
  - now apply lk_ok.
Qed.

(** *** characters *)
Definition plain (c : char) : Prop := c <> 10 /\ c <> 13.
Lemma eol_head c r i' : eol (c :: r) i' -> plain c -> exists r', i' = c :: r' /\ eol r r'.
Proof. intros E [N _]. inversion E; subst; [eauto|congruence]. Qed.
Lemma eol_head' i c r' : eol i (c :: r') -> plain c -> exists r, i = c :: r /\ eol r r'.
Proof. intros E [N M]. inversion E; subst; [eauto|congruence]. Qed.
Lemma step_one c r r' : c <> 13 -> (all = true -> c <> 10) -> step (c :: r) (c :: r') r r'.
Proof. intros H G. exists [c], [c]. repeat split. repeat constructor; assumption. Qed.

Lemma lock_pchar z c : plain c -> lock z eq (pchar c) (pchar c).
Proof.
  intros P i i' [E N]. unfold pchar. destruct E as [|x t t' H HA E|t t' E]; [easy| |].
  - destruct (x =? c) eqn:X; [|easy]. apply N.eqb_eq in X as ->. cbn. split; [apply step_one; intros; apply P|auto].
  - destruct P as [P1 P2]. destruct (N.eqb_spec 10 c), (N.eqb_spec 13 c); try congruence. easy.
Qed.
Definition plain_text (t : str) : bool := forallb (fun c => negb (c =? 10) && negb (c =? 13)) t.
Lemma plain_text_eol t : plain_text t = true -> eol t t.
Proof.
  unfold plain_text. induction t as [|c t IH]; cbn [forallb]; intros H; constructor.
  - apply andb_true_iff in H as [H _]. apply andb_true_iff in H as [_ H]. now destruct (N.eqb_spec c 13).
  - intros _. apply andb_true_iff in H as [H _]. apply andb_true_iff in H as [H _]. now destruct (N.eqb_spec c 10).
  - apply IH. now apply andb_true_iff in H as [_ H].
Qed.
Lemma starts_eol t : plain_text t = true -> forall i i', eol i i' -> starts_with t i = starts_with t i' /\
  (starts_with t i = true -> i = t ++ skipn (length t) i /\ i' = t ++ skipn (length t) i' /\ eol (skipn (length t) i) (skipn (length t) i')).
Proof.
  unfold plain_text. induction t as [|c t IH]; intros P i i' E; cbn [starts_with length skipn app].
  - split; [now destruct i, i'|auto].
  - cbn [forallb] in P. apply andb_true_iff in P as [P1 P2]. apply andb_true_iff in P1 as [P0 P1].
    destruct E as [|x i i' H HA E|i i' E]; [split; [reflexivity|discriminate]| |].
    + destruct (IH P2 i i' E) as [X Y]. rewrite X. split; [reflexivity|]. cbn [skipn]. destruct (N.eqb_spec c x); [|discriminate].
      subst x. cbn [andb]. rewrite <- X. intros Z. destruct (Y Z) as (Y1 & Y2 & Y3). split; [exact (f_equal (cons c) Y1)|split; [exact (f_equal (cons c) Y2)|exact Y3]].
    + destruct (N.eqb_spec c 10), (N.eqb_spec c 13); subst; try discriminate. split; [reflexivity|discriminate].
Qed.
Lemma starts_step t i i' : plain_text t = true -> eol i i' -> starts_with t i = true -> step i i' (skipn (length t) i) (skipn (length t) i').
Proof.
  intros P E S. destruct (starts_eol t P i i' E) as [_ H]. destruct (H S) as (A & B & C).
  exists t, t. repeat split; [exact A|exact B|now apply plain_text_eol].
Qed.
Lemma lock_tag z t : plain_text t = true -> lock z eq (tag t) (tag t).
Proof.
  intros P i i' [E N]. unfold tag. destruct (starts_eol t P i i' E) as [X Y]. rewrite <- X.
  destruct (starts_with t i) eqn:S; [|easy]. destruct (Y eq_refl) as (A & B & C). split; [|auto]. now apply starts_step.
Qed.

(** *** runs of characters *)
Definition blind (f : char -> bool) : Prop := f 10 = f 13.
Lemma take_while_eol f i i' : blind f -> eol i i' ->
  exists a b a' b', take_while f i = (a, b) /\ take_while f i' = (a', b') /\ i = a ++ b /\ i' = a' ++ b' /\ eol a a' /\ eol b b' /\ (f 10 = false -> mem 10 a = false).
Proof.
  intros L E. induction E as [|c t t' H HA E IH|t t' E IH]; cbn [take_while].
  - exists [], [], [], []. repeat split; constructor.
  - destruct IH as (a & b & a' & b' & E1 & E2 & -> & -> & E3 & E4 & M). rewrite E1, E2.
    destruct (f c) eqn:F.
    + exists (c :: a), b, (c :: a'), b'. repeat split; try (constructor; assumption); try exact E4.
      intros X. unfold mem in *. cbn [existsb]. rewrite (M X), orb_false_r. destruct (N.eqb_spec 10 c); congruence.
    + exists [], (c :: a ++ b), [], (c :: a' ++ b'). repeat split; constructor; [exact H|exact HA|exact E].
  - destruct IH as (a & b & a' & b' & E1 & E2 & -> & -> & E3 & E4 & M). unfold blind in L. rewrite E1, E2, <- L.
    destruct (f 10) eqn:F.
    + exists (10 :: a), b, (13 :: 10 :: a'), b'. repeat split; try (constructor; assumption); try exact E4. congruence.
    + exists [], (10 :: a ++ b), [], (13 :: 10 :: a' ++ b'). repeat split; constructor; exact E.
Qed.
Lemma lock_take_while z f : blind f -> lock z eol (ptake_while f) (ptake_while f).
Proof.
  intros L i i' [E N]. unfold ptake_while. destruct (take_while_eol f i i' L E) as (a & b & a' & b' & -> & -> & -> & -> & E3 & E4 & _).
  split; [now exists a, a'|auto].
Qed.
Lemma lock_take_while_eq z f : blind f -> f 10 = false -> lock z eq (ptake_while f) (ptake_while f).
Proof.
  intros L F i i' [E N]. unfold ptake_while. destruct (take_while_eol f i i' L E) as (a & b & a' & b' & -> & -> & -> & -> & E3 & E4 & M).
  split; [now exists a, a'|]. split; [exact E4|]. symmetry. apply eol_plain; auto.
Qed.
Lemma lock_take_while1 z f : blind f -> f 10 = false -> lock z eq (ptake_while1 f) (ptake_while1 f).
Proof.
  intros L F i i' [E N]. unfold ptake_while1. destruct (take_while_eol f i i' L E) as (a & b & a' & b' & -> & -> & -> & -> & E3 & E4 & M).
  pose proof (eol_plain _ _ E3 (M F)) as ->. destruct a; [easy|].
  split; [now eexists _, _|]. auto.
Qed.
Lemma lock_alpha1 z : lock z eq alpha1 alpha1.
Proof.
  intros i i' [E N]. unfold alpha1. destruct (take_while_eol is_alpha i i' eq_refl E) as (a & b & a' & b' & -> & -> & -> & -> & E3 & E4 & M).
  pose proof (eol_plain _ _ E3 (M eq_refl)) as ->. destruct a; [easy|].
  split; [now eexists _, _|]. auto.
Qed.
Lemma lock_take_till z d : plain d -> lock z eol (ptake_till (N.eqb d)) (ptake_till (N.eqb d)).
Proof.
  intros [P Q]. apply lock_take_while. unfold blind. destruct (N.eqb_spec d 10), (N.eqb_spec d 13); congruence.
Qed.
Lemma lock_line_ending z : lock z (fun _ _ => True) line_ending line_ending.
Proof.
  intros i i' [E N]. destruct E as [|c t t' H HA E|t t' E]; [easy| |].
  - assert (X : forall u, line_ending (c :: u) = if c =? 10 then POk u [10] else PErr [(c :: u, ENom NkCrLf)]).
    { intros u. destruct (N.eqb_spec c 10) as [->|Hc]; [reflexivity|]. unfold line_ending.
      destruct c as [|p]; [reflexivity|]. do 4 (destruct p as [p|p|]; try reflexivity; try congruence). }
    rewrite !X. destruct (N.eqb_spec c 10); [|easy]. subst. split; [now apply step_one|auto].
  - cbn. split; [|auto]. exists [10], [13; 10]. repeat split. repeat constructor.
Qed.
End Mode.
