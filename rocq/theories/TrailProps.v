(** Proofs about the ends of lines: the parser runs in lockstep on two texts which
    differ in the blanks and carriage returns there only. *)
From Verif Require Import Base BaseProps F64 Number BTree BTreeProps Value ValueSpec ValueProps ValueProps2 Base91 Nom Parse ParseErr ParseSpec ParseProps MapOrder TrailSpec.
Open Scope N_scope.

(** ** texts *)
Lemma trail_plain t t' : trail t t' -> mem 10 t = false -> t' = t.
Proof.
  induction 1 as [|c t t' N H IH|w e t t' B K H IH]; intros M; [reflexivity| |discriminate M].
  unfold mem in *. cbn [existsb] in M. apply orb_false_iff in M as [_ M]. now rewrite (IH M).
Qed.
Lemma trail_plain' t t' : trail t t' -> mem 10 t' = false -> t' = t.
Proof.
  induction 1 as [|c t t' C H IH|w e t t' W E H IH]; intros M; [reflexivity| |].
  - cbn [mem existsb] in M. apply Bool.orb_false_iff in M as [_ M]. f_equal. now apply IH.
  - exfalso. unfold mem in M. rewrite !existsb_app in M. destruct E as [->| ->]; cbn in M; rewrite Bool.orb_true_r in M; discriminate M.
Qed.
Lemma no_str_suffix r p : no_str_blank (p ++ r) -> no_str_blank r.
Proof. intros H a c b E. apply (H (p ++ a) c b). rewrite E. now rewrite <- app_assoc. Qed.
(** a line end in the second text *)
Lemma end_cons w e t' : forallb blank w = true -> e = [10] \/ e = [13; 10] -> exists c u, w ++ e ++ t' = c :: u /\ (blank c = true \/ c = 10 \/ c = 13).
Proof. intros B K. destruct w as [|c w]; cbn [app forallb] in *; [destruct K; subst e; cbn [app]; eauto 6|]. apply andb_true_iff in B as [B _]. eauto. Qed.
Lemma trail_nil_iff t t' : trail t t' -> (t' = [] <-> t = []).
Proof. destruct 1 as [|c t t' N H|w e t t' B K H]; [easy|easy|]. destruct (end_cons w e t' B K) as (c & u & -> & _). easy. Qed.

(** the two texts, and a later place in them *)
Definition inp (i i' : str) : Prop := trail i i' /\ no_str_blank i.
Definition step (i i' r r' : str) : Prop := (exists p, i = p ++ r) /\ (exists p, i' = p ++ r').
Lemma step_refl i i' : step i i' i i'.
Proof. now split; exists []. Qed.
Lemma step_trans i i' j j' r r' : step i i' j j' -> step j j' r r' -> step i i' r r'.
Proof. intros [(p & ->) (p' & ->)] [(q & ->) (q' & ->)]. split; [exists (p ++ q)|exists (p' ++ q')]; now rewrite app_assoc. Qed.
Lemma inp_step i i' r r' : inp i i' -> step i i' r r' -> trail r r' -> inp r r'.
Proof. intros [_ N] [(p & ->) _] E. split; [exact E|]. now apply no_str_suffix in N. Qed.

(** ** results; [z]: running out of fuel is possible *)
Definition lk {A B} (z : bool) (i i' : str) (R : A -> B -> Prop) (r : pres A) (r' : pres B) : Prop :=
  match r, r' with
  | PFuel, _ | _, PFuel => z = true
  | POk j a, POk j' a' => step i i' j j' /\ trail j j' /\ R a a'
  | PErr _, PErr _ | PFail _, PFail _ | PPanic, PPanic => True
  | _, _ => False
  end.
Definition lock {A B} (z : bool) (R : A -> B -> Prop) (p : parser A) (p' : parser B) : Prop :=
  forall i i', inp i i' -> lk z i i' R (p i) (p' i').

Lemma lk_weak {A B} z i i' (R Q : A -> B -> Prop) r r' : (forall a b, R a b -> Q a b) -> lk z i i' R r r' -> lk z i i' Q r r'.
Proof. intros H. destruct r, r'; cbn; try tauto. intros (X & Y & Z). auto. Qed.
Lemma lk_fuel {A B} z i i' (R : A -> B -> Prop) r r' : lk false i i' R r r' -> lk z i i' R r r'.
Proof. destruct r, r'; cbn; try tauto; discriminate. Qed.
Lemma lock_weak {A B} z (R Q : A -> B -> Prop) p p' : (forall a b, R a b -> Q a b) -> lock z R p p' -> lock z Q p p'.
Proof. intros H L i i' I. eapply lk_weak; eauto. Qed.
Lemma lock_fuel {A B} z (R : A -> B -> Prop) p p' : lock false R p p' -> lock z R p p'.
Proof. intros L i i' I. apply lk_fuel, L, I. Qed.
Lemma lk_step {A B} z i i' j j' (R : A -> B -> Prop) r r' : step i i' j j' -> lk z j j' R r r' -> lk z i i' R r r'.
Proof. intros S. destruct r, r'; cbn; try tauto. intros (X & Y & Z). split; auto. eapply step_trans; eauto. Qed.
Lemma lk_ok {A B} z i i' (R : A -> B -> Prop) a b : inp i i' -> R a b -> lk z i i' R (POk i a) (POk i' b).
Proof. intros [E _] H. split; auto using step_refl. Qed.
Lemma lk_is_ok {A B} i i' (R : A -> B -> Prop) r r' : lk false i i' R r r' -> is_ok r = is_ok r'.
Proof. destruct r, r'; cbn; try easy; discriminate. Qed.

(** *** combinators *)
Lemma lk_bind {A B C D} z i i' (R : A -> B -> Prop) (Q : C -> D -> Prop) r r' (f : str -> A -> pres C) (f' : str -> B -> pres D) :
  inp i i' -> lk z i i' R r r' ->
  (forall j j' a b, step i i' j j' -> inp j j' -> R a b -> lk z i i' Q (f j a) (f' j' b)) ->
  lk z i i' Q (pbind r f) (pbind r' f').
Proof.
  intros I H G. destruct r, r'; cbn in *; try easy.
  - destruct H as (S & E & HR). apply G; auto. eapply inp_step; eauto.
  - destruct (f rest a); auto.
Qed.
(** the continuation goes on from the new place *)
Lemma lk_bind' {A B C D} z i i' (R : A -> B -> Prop) (Q : C -> D -> Prop) r r' (f : str -> A -> pres C) (f' : str -> B -> pres D) :
  inp i i' -> lk z i i' R r r' ->
  (forall j j' a b, inp j j' -> R a b -> lk z j j' Q (f j a) (f' j' b)) ->
  lk z i i' Q (pbind r f) (pbind r' f').
Proof. intros I H G. eapply lk_bind; eauto. intros j j' a b S J HR. eapply lk_step; eauto. Qed.

Section Combinators.
  Context {A B C D E F : Type} (z : bool).
  Lemma lock_pmap (R : A -> B -> Prop) (Q : C -> D -> Prop) p p' f f' : lock z R p p' -> (forall a b, R a b -> Q (f a) (f' b)) -> lock z Q (pmap p f) (pmap p' f').
  Proof. intros H G i i' I. unfold pmap. eapply lk_bind'; [exact I|apply H, I|]. intros. apply lk_ok; auto. Qed.
  Lemma lock_preceded (R : A -> B -> Prop) (Q : C -> D -> Prop) p p' q q' : lock z R p p' -> lock z Q q q' -> lock z Q (preceded p q) (preceded p' q').
  Proof. intros H G i i' I. unfold preceded. eapply lk_bind'; [exact I|apply H, I|]. intros. now apply G. Qed.
  Lemma lock_terminated (R : A -> B -> Prop) (Q : C -> D -> Prop) p p' q q' : lock z R p p' -> lock z Q q q' -> lock z R (terminated p q) (terminated p' q').
  Proof.
    intros H G i i' I. unfold terminated. eapply lk_bind'; [exact I|apply H, I|]. intros j j' a b J HR.
    eapply lk_bind'; [exact J|apply G, J|]. intros. now apply lk_ok.
  Qed.
  Lemma lock_pair (R : A -> B -> Prop) (Q : C -> D -> Prop) (P : E -> F -> Prop) p p' q q' r r' : lock z R p p' -> lock z Q q q' -> lock z P r r' ->
    lock z (fun x y => R (fst x) (fst y) /\ P (snd x) (snd y)) (separated_pair p q r) (separated_pair p' q' r').
  Proof.
    intros H G K i i' I. unfold separated_pair. eapply lk_bind'; [exact I|apply H, I|]. intros j j' a b J HR.
    eapply lk_bind'; [exact J|apply G, J|]. intros j1 j1' ? ? J1 _. eapply lk_bind'; [exact J1|apply K, J1|]. intros. apply lk_ok; cbn; auto.
  Qed.
  Definition opt_rel (R : A -> B -> Prop) (a : option A) (b : option B) : Prop :=
    match a, b with Some x, Some y => R x y | None, None => True | _, _ => False end.
  Lemma lock_opt (R : A -> B -> Prop) p p' : lock z R p p' -> lock z (opt_rel R) (opt p) (opt p').
  Proof.
    intros H i i' I. specialize (H i i' I). unfold opt. destruct (p i), (p' i'); cbn in *; try easy.
    destruct I. auto using step_refl.
  Qed.
  Lemma lock_cut (R : A -> B -> Prop) p p' : lock z R p p' -> lock z R (cut p) (cut p').
  Proof. intros H i i' I. specialize (H i i' I). unfold cut. destruct (p i), (p' i'); cbn in *; easy. Qed.
  Lemma lock_uncut (R : A -> B -> Prop) p p' : lock z R p p' -> lock z R (uncut p) (uncut p').
  Proof. intros H i i' I. specialize (H i i' I). unfold uncut. destruct (p i), (p' i'); cbn in *; easy. Qed.
  Lemma lock_context (R : A -> B -> Prop) t t' p p' : lock z R p p' -> lock z R (context t p) (context t' p').
  Proof. intros H i i' I. specialize (H i i' I). unfold context. destruct (p i), (p' i'); cbn in *; easy. Qed.
  Lemma lock_alt2 (R : A -> B -> Prop) p p' q q' : lock z R p p' -> lock z R q q' -> lock z R (alt2 p q) (alt2 p' q').
  Proof.
    intros H G i i' I. specialize (H i i' I). specialize (G i i' I). unfold alt2.
    destruct (p i), (p' i'); cbn in *; try easy; destruct (q i), (q' i'); cbn in *; easy.
  Qed.
  Lemma lock_consuming (R : A -> B -> Prop) p p' : lock z R p p' -> lock z R (all_consuming p) (all_consuming p').
  Proof.
    intros H i i' I. unfold all_consuming. eapply lk_bind'; [exact I|apply H, I|]. intros j j' a b J HR.
    pose proof J as [E0 _]. apply trail_nil_iff in E0. destruct j, j'; try exact Logic.I; [now apply lk_ok|exfalso; now discriminate (proj2 E0 eq_refl)|exfalso; now discriminate (proj1 E0 eq_refl)].
  Qed.
End Combinators.
Lemma lock_alt5 {A B} z (R : A -> B -> Prop) p1 p2 p3 p4 p5 q1 q2 q3 q4 q5 :
  lock z R p1 q1 -> lock z R p2 q2 -> lock z R p3 q3 -> lock z R p4 q4 -> lock z R p5 q5 -> lock z R (alt5 p1 p2 p3 p4 p5) (alt5 q1 q2 q3 q4 q5).
Proof.
  intros H1 H2 H3 H4 H5 i i' I. specialize (H1 i i' I). specialize (H2 i i' I). specialize (H3 i i' I). specialize (H4 i i' I). specialize (H5 i i' I).
  unfold alt5.
  destruct (p1 i), (q1 i'); cbn in H1 |- *; try easy.
  destruct (p2 i), (q2 i'); cbn in H2 |- *; try easy.
  destruct (p3 i), (q3 i'); cbn in H3 |- *; try easy.
  destruct (p4 i), (q4 i'); cbn in H4 |- *; try easy.
  destruct (p5 i), (q5 i'); cbn in H5 |- *; easy.
  all: repeat match goal with |- context [match ?x with _ => _ end] => destruct x end; easy.
Qed.

(** *** loops *)
Lemma lk_fr {A B} i i' (R : A -> B -> Prop) r : lk true i i' R r PFuel.
Proof. now destruct r. Qed.
(** what succeeds takes characters of both texts or of none *)
Definition moves {A B} (p : parser A) (p' : parser B) : Prop :=
  forall i i' r r' a b, inp i i' -> p i = POk r a -> p' i' = POk r' b -> Nat.eqb (length r) (length i) = Nat.eqb (length r') (length i').
Lemma lock_many0 {A B} (R : A -> B -> Prop) p p' : moves p p' -> lock true R p p' -> forall n n' acc acc' i i', inp i i' -> Forall2 R acc acc' ->
  lk true i i' (Forall2 R) (many0_loop n p acc i) (many0_loop n' p' acc' i').
Proof.
  intros MV H. induction n as [|n IH]; intros n' acc acc' i i' I F; [reflexivity|].
  destruct n' as [|n']; [apply lk_fr|].
  cbn [many0_loop]. pose proof (H i i' I) as L. pose proof (MV i i') as SL. destruct (p i), (p' i'); cbn in L; try easy.
  - destruct L as (S0 & E0 & HR). specialize (SL _ _ _ _ I eq_refl eq_refl). rewrite <- SL. destruct (Nat.eqb (length rest) (length i)); [easy|].
    eapply lk_step; [exact S0|]. apply IH; [eapply inp_step; eassumption|]. apply Forall2_app; [exact F|]. constructor; [exact HR|constructor].
  - apply lk_fr.
  - now apply lk_ok.
Qed.
Lemma lock_sep_loop {A B C D} (R : A -> B -> Prop) (Q : C -> D -> Prop) p p' q q' : moves q q' -> lock true R p p' -> lock true Q q q' ->
  forall n n' acc acc' i i', inp i i' -> Forall2 R acc acc' -> lk true i i' (Forall2 R) (sep_loop n q p acc i) (sep_loop n' q' p' acc' i').
Proof.
  intros MV H G. induction n as [|n IH]; intros n' acc acc' i i' I F; [reflexivity|].
  destruct n' as [|n']; [apply lk_fr|].
  cbn [sep_loop]. pose proof (G i i' I) as L. pose proof (MV i i') as SL. destruct (q i), (q' i'); cbn in L; try easy.
  - destruct L as (S0 & E0 & HR). specialize (SL _ _ _ _ I eq_refl eq_refl). rewrite <- SL. destruct (Nat.eqb (length rest) (length i)); [easy|].
    assert (J : inp rest rest0) by (eapply inp_step; eassumption).
    pose proof (H _ _ J) as L. destruct (p rest), (p' rest0); cbn in L; try easy.
    + destruct L as (S1 & E1 & HR1). eapply lk_step; [eapply step_trans; [exact S0|exact S1]|].
      apply IH; [eapply inp_step; eassumption|]. apply Forall2_app; [exact F|]. constructor; [exact HR1|constructor].
    + apply lk_fr.
    + now apply lk_ok.
  - apply lk_fr.
  - now apply lk_ok.
Qed.
Lemma lock_sep {A B C D} (R : A -> B -> Prop) (Q : C -> D -> Prop) p p' q q' : moves q q' -> lock true R p p' -> lock true Q q q' ->
  lock true (Forall2 R) (separated_list0 q p) (separated_list0 q' p').
Proof.
  intros MV H G i i' I. unfold separated_list0. pose proof (H i i' I) as L. destruct (p i), (p' i'); cbn in L; try easy.
  - destruct L as (S0 & E0 & HR). eapply lk_step; [exact S0|]. eapply lock_sep_loop; eauto. eapply inp_step; eassumption.
  - apply lk_fr.
  - now apply lk_ok.
Qed.

(** *** characters *)
Definition plain (c : char) : Prop := c <> 10 /\ c <> 13 /\ blank c = false.
Lemma trail_head c r i' : trail (c :: r) i' -> plain c -> exists r', i' = c :: r' /\ trail r r'.
Proof. intros E [N _]. inversion E; subst; [eauto|congruence]. Qed.
Lemma step_one c r r' : step (c :: r) (c :: r') r r'.
Proof. now split; exists [c]. Qed.

Lemma lock_pchar z c : plain c -> lock z eq (pchar c) (pchar c).
Proof.
  intros P i i' [E N]. unfold pchar. destruct E as [|x t t' H E|w e t t' B K E]; [easy| |].
  - destruct (x =? c) eqn:X; [|easy]. apply N.eqb_eq in X as ->. cbn. split; [apply step_one|auto].
  - destruct (end_cons w e t' B K) as (x & u & -> & X). destruct P as (P1 & P2 & P3). destruct (N.eqb_spec 10 c); [congruence|]. destruct (N.eqb_spec x c); [|easy]. subst. destruct X as [X|[X|X]]; congruence.
Qed.
Definition plain_text (t : str) : bool := forallb (fun c => negb (c =? 10) && negb (c =? 13) && negb (blank c)) t.
Lemma starts_trail t : plain_text t = true -> forall i i', trail i i' -> starts_with t i = starts_with t i' /\
  (starts_with t i = true -> i = t ++ skipn (length t) i /\ i' = t ++ skipn (length t) i' /\ trail (skipn (length t) i) (skipn (length t) i')).
Proof.
  unfold plain_text. induction t as [|c t IH]; intros P i i' E; cbn [starts_with length skipn app].
  - split; [now destruct i, i'|auto].
  - cbn [forallb] in P. apply andb_true_iff in P as [P1 P2]. apply andb_true_iff in P1 as [P0 P3]. apply andb_true_iff in P0 as [P0 P1].
    destruct E as [|x i i' H E|w e i i' B K E]; [split; [reflexivity|discriminate]| |].
    + destruct (IH P2 i i' E) as [X Y]. rewrite X. split; [reflexivity|]. cbn [skipn]. destruct (N.eqb_spec c x); [|discriminate].
      subst x. cbn [andb]. rewrite <- X. intros Z. destruct (Y Z) as (Y1 & Y2 & Y3). split; [exact (f_equal (cons c) Y1)|split; [exact (f_equal (cons c) Y2)|exact Y3]].
    + destruct (end_cons w e i' B K) as (x & u & -> & X). destruct (N.eqb_spec c 10); [subst; discriminate|]. cbn [andb]. split; [|discriminate].
      destruct (N.eqb_spec c x); [|reflexivity]. subst x. exfalso. destruct X as [X|[->| ->]]; [rewrite X in P3; discriminate P3|now apply n|discriminate P1].
Qed.
Lemma starts_step t i i' : plain_text t = true -> trail i i' -> starts_with t i = true -> step i i' (skipn (length t) i) (skipn (length t) i').
Proof. intros P E S. destruct (starts_trail t P i i' E) as [_ H]. destruct (H S) as (A & B & _). split; now exists t. Qed.
Lemma lock_tag z t : plain_text t = true -> lock z eq (tag t) (tag t).
Proof.
  intros P i i' [E N]. unfold tag. destruct (starts_trail t P i i' E) as [X Y]. rewrite <- X.
  destruct (starts_with t i) eqn:S; [|easy]. destruct (Y eq_refl) as (A & B & C). split; [|auto]. now apply starts_step.
Qed.

(** *** runs of characters *)
Definition blind (f : char -> bool) : Prop := f 13 = f 10 /\ f 32 = f 10 /\ f 9 = f 10.
Lemma blank_is c : blank c = true -> c = 32 \/ c = 9.
Proof. unfold blank. destruct (N.eqb_spec c 32), (N.eqb_spec c 9); auto. discriminate. Qed.
Lemma blind_end f w e : blind f -> forallb blank w = true -> e = [10] \/ e = [13; 10] -> forallb (fun c => Bool.eqb (f c) (f 10)) (w ++ e) = true.
Proof.
  intros (F1 & F2 & F3) B K. rewrite forallb_app. apply andb_true_iff. split.
  - rewrite forallb_forall in *. intros c C. apply eqb_true_iff. destruct (blank_is c (B c C)); subst; assumption.
  - destruct K; subst e; cbn [forallb]; rewrite ?F1, !eqb_reflx; reflexivity.
Qed.
Lemma take_while_all f a b : forallb f a = true -> take_while f (a ++ b) = (a ++ fst (take_while f b), snd (take_while f b)).
Proof. induction a as [|c a IH]; cbn [app forallb take_while]; intros H; [now destruct (take_while f b)|]. apply andb_true_iff in H as [-> H]. now rewrite (IH H). Qed.
Lemma trail_app a a' b b' : trail a a' -> trail b b' -> trail (a ++ b) (a' ++ b').
Proof. intros H G. induction H; cbn [app]; [exact G|now constructor|]. rewrite <- !app_assoc. now constructor. Qed.
Lemma take_while_trail f i i' : blind f -> trail i i' ->
  exists a b a' b', take_while f i = (a, b) /\ take_while f i' = (a', b') /\ i = a ++ b /\ i' = a' ++ b' /\ trail a a' /\ trail b b' /\ (f 10 = false -> mem 10 a = false).
Proof.
  intros L E. induction E as [|c t t' H E IH|w e t t' B K E IH]; cbn [take_while].
  - exists [], [], [], []. repeat split; constructor.
  - destruct IH as (a & b & a' & b' & E1 & E2 & -> & -> & E3 & E4 & M). rewrite E1, E2.
    destruct (f c) eqn:F.
    + exists (c :: a), b, (c :: a'), b'. repeat split; try (constructor; assumption); try exact E4.
      intros X. unfold mem in *. cbn [existsb]. rewrite (M X), orb_false_r. destruct (N.eqb_spec 10 c); congruence.
    + exists [], (c :: a ++ b), [], (c :: a' ++ b'). repeat split; constructor; [exact H|exact E].
  - destruct IH as (a & b & a' & b' & E1 & E2 & -> & -> & E3 & E4 & M). pose proof (blind_end f w e L B K) as F0. rewrite E1.
    destruct (f 10) eqn:F.
    + rewrite app_assoc, take_while_all, E2 by (rewrite forallb_forall in *; intros c C; specialize (F0 c C); now destruct (f c)). cbn [fst snd].
      exists (10 :: a), b, ((w ++ e) ++ a'), b'. rewrite <- !app_assoc. repeat split; try (constructor; assumption); try exact E4. congruence.
    + assert (X : take_while f (w ++ e ++ a' ++ b') = ([], w ++ e ++ a' ++ b')).
      { destruct (end_cons w e (a' ++ b') B K) as (c & u & Q & _). rewrite Q. cbn [take_while]. assert (C : In c (w ++ e)).
        { destruct w as [|x w]; cbn [app] in *; [destruct K; subst e|]; injection Q as <- _; now left. }
        rewrite forallb_forall in F0. specialize (F0 c C). destruct (f c); [discriminate|reflexivity]. }
      exists [], (10 :: a ++ b), [], (w ++ e ++ a' ++ b'). repeat split; try assumption; constructor; assumption.
Qed.
Lemma lock_take_while z f : blind f -> lock z trail (ptake_while f) (ptake_while f).
Proof.
  intros L i i' [E N]. unfold ptake_while. destruct (take_while_trail f i i' L E) as (a & b & a' & b' & -> & -> & -> & -> & E3 & E4 & _).
  split; [split; [now exists a|now exists a']|auto].
Qed.
Lemma moves_take_while f : blind f -> moves (ptake_while f) (ptake_while f).
Proof.
  intros L i i' r r' x y [E N]. unfold ptake_while. destruct (take_while_trail f i i' L E) as (a & b & a' & b' & -> & -> & -> & -> & E3 & E4 & _).
  intros [= <- <-] [= <- <-]. apply trail_nil_iff in E3. rewrite !app_length. destruct a as [|c a], a' as [|c' a']; cbn [length Nat.add].
  - now rewrite !Nat.eqb_refl.
  - exfalso. discriminate (proj2 E3 eq_refl).
  - exfalso. discriminate (proj1 E3 eq_refl).
  - destruct (Nat.eqb_spec (length b) (S (length a + length b))), (Nat.eqb_spec (length b') (S (length a' + length b'))); lia.
Qed.
Lemma lock_take_while_eq z f : blind f -> f 10 = false -> lock z eq (ptake_while f) (ptake_while f).
Proof.
  intros L F i i' [E N]. unfold ptake_while. destruct (take_while_trail f i i' L E) as (a & b & a' & b' & -> & -> & -> & -> & E3 & E4 & M).
  split; [split; [now exists a|now exists a']|]. split; [exact E4|]. symmetry. apply trail_plain; auto.
Qed.
Lemma lock_take_while1 z f : blind f -> f 10 = false -> lock z eq (ptake_while1 f) (ptake_while1 f).
Proof.
  intros L F i i' [E N]. unfold ptake_while1. destruct (take_while_trail f i i' L E) as (a & b & a' & b' & -> & -> & -> & -> & E3 & E4 & M).
  pose proof (trail_plain _ _ E3 (M F)) as ->. destruct a; [easy|].
  split; [split; now eexists|]. auto.
Qed.
Lemma blind_alpha : blind is_alpha.
Proof. repeat split. Qed.
Lemma lock_alpha1 z : lock z eq alpha1 alpha1.
Proof.
  intros i i' [E N]. unfold alpha1. destruct (take_while_trail is_alpha i i' blind_alpha E) as (a & b & a' & b' & -> & -> & -> & -> & E3 & E4 & M).
  pose proof (trail_plain _ _ E3 (M eq_refl)) as ->. destruct a; [easy|].
  split; [split; now eexists|]. auto.
Qed.
Lemma lock_take_till z d : plain d -> lock z trail (ptake_till (N.eqb d)) (ptake_till (N.eqb d)).
Proof.
  intros (P & Q & X). apply lock_take_while. assert (d <> 32 /\ d <> 9) as [Y Z] by (split; intros ->; discriminate).
  unfold blind. destruct (N.eqb_spec d 10), (N.eqb_spec d 13), (N.eqb_spec d 32), (N.eqb_spec d 9); try congruence. auto.
Qed.

(** *** blanks *)
Lemma is_blank_blank c : is_blank c = blank c.
Proof. unfold is_blank, blank, mem. cbn [existsb]. now rewrite orb_false_r. Qed.
Lemma skip_trail i i' : trail i i' -> exists a b a' b', take_while is_blank i = (a, b) /\ take_while is_blank i' = (a', b') /\ i = a ++ b /\ i' = a' ++ b' /\ trail b b' /\
  (forall c u, b' = c :: u -> blank c = false) /\ (b = [] \/ (forall u, b <> 10 :: u) -> a' = a).
Proof.
  induction 1 as [|c t t' H E IH|w e t t' B K E _]; cbn [take_while].
  - exists [], [], [], []. repeat split; try constructor. discriminate.
  - rewrite is_blank_blank. destruct (blank c) eqn:C.
    + destruct IH as (a & b & a' & b' & -> & -> & -> & -> & E4 & M & M2). exists (c :: a), b, (c :: a'), b'. repeat split; auto. intros X. now rewrite (M2 X).
    + exists [], (c :: t), [], (c :: t'). repeat split; [now constructor|intros x u [= <- _]; exact C].
  - exists [], (10 :: t), w, (e ++ t'). repeat split.
    + rewrite take_while_all by (rewrite forallb_forall in *; intros c C; rewrite is_blank_blank; auto). destruct K; subst e; cbn; now rewrite app_nil_r.
    + exact (trail_end [] e t t' eq_refl K E).
    + intros c u X. destruct K; subst e; injection X as <- _; reflexivity.
    + intros [X|X]; [discriminate|]. destruct (X t eq_refl).
Qed.
Lemma line_ending_other c u : c <> 10 -> c <> 13 -> line_ending (c :: u) = PErr [(c :: u, ENom NkCrLf)].
Proof.
  intros X Y. unfold line_ending. destruct c as [|p]; [reflexivity|]. do 4 (destruct p as [p|p|]; try reflexivity; try congruence).
Qed.
(** a line end, but for blanks *)
Lemma lock_line_end z : lock z (fun _ _ => True) (ignore_ws line_ending) (ignore_ws line_ending).
Proof.
  intros i i' [E N]. unfold ignore_ws, opt, inline_whitespace, ptake_while. destruct (skip_trail i i' E) as (a & b & a' & b' & -> & -> & -> & -> & E4 & M & _). cbn [pbind].
  destruct E4 as [|c t t' H E4|w e t t' B K E4]; [easy| |].
  - destruct (N.eq_dec c 10) as [->|D]; [|now rewrite !line_ending_other]. cbn. split; [|auto]. split; [exists (a ++ [10])|exists (a' ++ [10])]; now rewrite <- app_assoc.
  - destruct w as [|c w]; [|cbn [forallb app] in *; apply andb_true_iff in B as [B _]; rewrite (M c _ eq_refl) in B; discriminate].
    assert (X : line_ending (e ++ t') = POk t' e) by (destruct K; subst e; reflexivity). cbn [app]. rewrite X. split; [|auto]. split; [exists (a ++ [10])|exists (a' ++ e)]; now rewrite <- app_assoc.
Qed.

(** ** parsers which take something if they succeed *)
Definition slk {A B} (i i' : str) (R : A -> B -> Prop) (r : pres A) (r' : pres B) : Prop :=
  lk true i i' R r r' /\ match r, r' with POk j _, POk j' _ => (length j < length i)%nat /\ (length j' < length i')%nat | _, _ => True end.
Definition slock {A B} (R : A -> B -> Prop) (p : parser A) (p' : parser B) : Prop := forall i i', inp i i' -> slk i i' R (p i) (p' i').
Lemma step_le i i' r r' : step i i' r r' -> (length r <= length i)%nat /\ (length r' <= length i')%nat.
Proof. intros [(p & ->) (q & ->)]. rewrite !app_length. lia. Qed.
Lemma slk_step {A B} i i' j j' (R : A -> B -> Prop) r r' : step i i' j j' -> slk j j' R r r' -> slk i i' R r r'.
Proof. intros S [L M]. split; [now apply (lk_step true i i' j j')|]. apply step_le in S. destruct r, r'; try exact Logic.I. lia. Qed.
Lemma slk_strict {A B} i i' j j' (R : A -> B -> Prop) r r' : step i i' j j' -> (length j < length i)%nat -> (length j' < length i')%nat -> lk true j j' R r r' -> slk i i' R r r'.
Proof.
  intros S X Y L. split; [now apply (lk_step true i i' j j')|]. destruct r, r'; try exact Logic.I. destruct L as (T & _). apply step_le in T. lia.
Qed.
Lemma slk_bind {A B C D} i i' (R : A -> B -> Prop) (Q : C -> D -> Prop) r r' (f : str -> A -> pres C) (f' : str -> B -> pres D) :
  inp i i' -> slk i i' R r r' -> (forall j j' a b, inp j j' -> R a b -> lk true j j' Q (f j a) (f' j' b)) -> slk i i' Q (pbind r f) (pbind r' f').
Proof.
  intros I [L M] G. split; [eapply lk_bind'; eauto|]. destruct r as [j a| | | |], r' as [j' b| | | |]; cbn [pbind]; try exact Logic.I; try (destruct (f j a); exact Logic.I).
  destruct L as (S & E & H). specialize (G j j' a b (inp_step _ _ _ _ I S E) H). destruct (f j a), (f' j' b); try exact Logic.I. destruct G as (T & _). apply step_le in T. lia.
Qed.
Lemma slk_bind2 {A B C D} i i' (R : A -> B -> Prop) (Q : C -> D -> Prop) r r' (f : str -> A -> pres C) (f' : str -> B -> pres D) :
  inp i i' -> lk true i i' R r r' -> (forall j j' a b, inp j j' -> R a b -> slk j j' Q (f j a) (f' j' b)) -> slk i i' Q (pbind r f) (pbind r' f').
Proof.
  intros I L G. split; [eapply lk_bind'; eauto; intros j j' a b J H; apply (G j j' a b J H)|]. destruct r as [j a| | | |], r' as [j' b| | | |]; cbn [pbind]; try exact Logic.I; try (destruct (f j a); exact Logic.I).
  destruct L as (S & E & H). specialize (G j j' a b (inp_step _ _ _ _ I S E) H). destruct G as [_ G]. apply step_le in S. destruct (f j a), (f' j' b); try exact Logic.I. lia.
Qed.
Lemma slock_lock {A B} (R : A -> B -> Prop) p p' : slock R p p' -> lock true R p p'.
Proof. intros H i i' I. apply (H i i' I). Qed.
Lemma slock_moves {A B} (R : A -> B -> Prop) p p' : slock R p p' -> moves p p'.
Proof.
  intros H i i' r r' a b I E E'. destruct (H i i' I) as [_ M]. rewrite E, E' in M. destruct (Nat.eqb_spec (length r) (length i)), (Nat.eqb_spec (length r') (length i')); lia.
Qed.
Lemma slock_pchar c : plain c -> slock eq (pchar c) (pchar c).
Proof.
  intros P i i' I. split; [now apply lock_pchar|]. unfold pchar. destruct i as [|x i], i' as [|x' i']; try exact Logic.I; destruct (x =? c); try exact Logic.I. destruct (x' =? c); [cbn; lia|exact Logic.I].
Qed.
Lemma slock_tag t : plain_text t = true -> t <> [] -> slock eq (tag t) (tag t).
Proof.
  intros P N i i' I. split; [now apply lock_tag|]. unfold tag. destruct (starts_with t i) eqn:S, (starts_with t i') eqn:S'; try exact Logic.I.
  destruct t as [|c t]; [congruence|]. destruct i as [|x i], i' as [|x' i']; try discriminate. cbn [length skipn]. rewrite !skipn_length. lia.
Qed.
Section Strict.
  Context {A B C D E F : Type}.
  Lemma slock_preceded (R : A -> B -> Prop) (Q : C -> D -> Prop) p p' q q' : slock R p p' -> lock true Q q q' -> slock Q (preceded p q) (preceded p' q').
  Proof. intros H G i i' I. unfold preceded. eapply slk_bind; [exact I|apply H, I|]. intros. now apply G. Qed.
  Lemma slock_pair (R : A -> B -> Prop) (Q : C -> D -> Prop) (P : E -> F -> Prop) p p' q q' r r' : lock true R p p' -> slock Q q q' -> lock true P r r' ->
    slock (fun x y => R (fst x) (fst y) /\ P (snd x) (snd y)) (separated_pair p q r) (separated_pair p' q' r').
  Proof.
    intros H G K i i' I. unfold separated_pair. eapply slk_bind2; [exact I|apply H, I|]. intros j j' a b J HR.
    eapply slk_bind; [exact J|apply G, J|]. intros j1 j1' ? ? J1 _. eapply lk_bind'; [exact J1|apply K, J1|]. intros. apply lk_ok; cbn; auto.
  Qed.
  Lemma slock_cut (R : A -> B -> Prop) p p' : slock R p p' -> slock R (cut p) (cut p').
  Proof. intros H i i' I. destruct (H i i' I) as [L M]. split; [apply lock_cut; [now apply slock_lock|exact I]|]. unfold cut. destruct (p i), (p' i'); try exact Logic.I; exact M. Qed.
  Lemma slock_context (R : A -> B -> Prop) t t' p p' : slock R p p' -> slock R (context t p) (context t' p').
  Proof. intros H i i' I. destruct (H i i' I) as [L M]. split; [apply lock_context; [now apply slock_lock|exact I]|]. unfold context. destruct (p i), (p' i'); try exact Logic.I; exact M. Qed.
End Strict.
