(** Proofs about prefixes of texts: what a value is does not depend on what comes after it. *)
From Verif Require Import Base F64 Number BTree Value BaseProps ValueProps2 Base91 Nom Parse ParseProps ParseErr Grammar VGrammar GrammarProps VGrammarProps VAssemble Format FormatProps Syntax SyntaxProps SyntaxProps2 SyntaxProps3 SyntaxProps4 CutSpec.
Open Scope N_scope.

(** both go on the same way up to a character which ends names and spaces *)
Definition hard (c : char) : bool := negb (name_char c) && negb (space c) && negb (num_char c).
Definition share (r r' : str) : Prop := exists w c y y', r = w ++ c :: y /\ r' = w ++ c :: y' /\ hard c = true.
Lemma share_app u r r' : share r r' -> share (u ++ r) (u ++ r').
Proof. intros (w & c & y & y' & -> & -> & H). exists (u ++ w), c, y, y'. now rewrite <- !app_assoc. Qed.
Lemma share_now c y y' : hard c = true -> share (c :: y) (c :: y').
Proof. intros H. now exists [], c, y, y'. Qed.
Lemma share_stop f r r' : share r r' -> stop f r = stop f r'.
Proof. intros ([|a w] & c & y & y' & -> & -> & H); reflexivity. Qed.
Lemma share_starts p r r' : forallb name_char p = true -> share r r' -> starts_with p r = starts_with p r'.
Proof.
  intros P (w & c & y & y' & -> & -> & H). revert p P. induction w as [|a w IH]; intros [|b p] P; cbn [app starts_with]; try reflexivity; cbn [forallb] in P; apply andb_true_iff in P as [P1 P].
  - destruct (N.eqb_spec b c) as [->|]; [|reflexivity]. unfold hard in H. rewrite P1 in H. discriminate.
  - now rewrite (IH p P).
Qed.
Lemma share_opens r r' : share r r' -> opens r = opens r'.
Proof.
  intros (w & c & y & y' & -> & -> & H). induction w as [|a w IH]; cbn [app opens].
  - unfold hard in H. destruct (space c); [now rewrite andb_false_r in H|reflexivity].
  - destruct (space a); [exact IH|reflexivity].
Qed.
Lemma share_take r r' : share r r' -> fst (take_while name_char r) = fst (take_while name_char r') /\ share (snd (take_while name_char r)) (snd (take_while name_char r')).
Proof.
  intros (w & c & y & y' & -> & -> & H). induction w as [|a w IH]; cbn [app take_while].
  - pose proof H as H'. unfold hard in H'. destruct (name_char c); [discriminate|]. split; [reflexivity|now apply share_now].
  - destruct (name_char a) eqn:NA; [|split; [reflexivity|]; now exists (a :: w), c, y, y'].
    destruct (take_while name_char (w ++ c :: y)), (take_while name_char (w ++ c :: y')). cbn [fst snd] in *. destruct IH as [-> IH]. auto.
Qed.
Lemma share_no_head r r' : share r r' -> no_head r = no_head r'.
Proof.
  intros S. unfold no_head. rewrite (share_starts (s "true") r r' eq_refl S), (share_starts (s "false") r r' eq_refl S).
  destruct (share_take r r' S) as [E S']. destruct (take_while name_char r), (take_while name_char r'). cbn [fst snd] in *. subst. now rewrite (share_opens _ _ S').
Qed.
Lemma share_ends v r r' : share r r' -> ends_token v r = ends_token v r'.
Proof. intros S. destruct v; try reflexivity. now apply share_stop. Qed.

(** ** lists *)
Section Lists.
  Context {A : Type} (R : str -> str -> A -> Prop) (n : nat).
  Hypothesis H : forall t r r' a, (length t < n)%nat -> R t r a -> share r r' -> R t r' a.
  Lemma separated_share S u r l : separated_at R S u r l -> (length u < n)%nat -> forall r', share r r' -> separated_at R S u r' l.
  Proof.
    induction 1 as [r|w t a u l r HS HR HU IH]; intros L r' SH; [constructor|]. rewrite !app_length in L. constructor; [exact HS| |apply IH; [lia|exact SH]].
    eapply H; [lia|exact HR|now apply share_app].
  Qed.
  Lemma inline_share t r l : inline_at R t r l -> (length t < n)%nat -> forall r', share r r' -> inline_at R t r' l.
  Proof.
    intros [w r0 B|w u a v l0 w' r0 B HR HS B'] L r' SH; [now constructor|]. rewrite !app_length in L. constructor; auto.
    - eapply H; [lia|exact HR|now do 2 apply share_app].
    - apply (separated_share _ _ _ _ HS); [lia|now apply share_app].
  Qed.
  Lemma concise_share t r l : concise_at R t r l -> (length t < n)%nat -> forall r', share r r' -> concise_at R t r' l.
  Proof.
    intros [w r0 B NL|w u a v l0 w' r0 B NL HR HS B'] L r' SH; [now constructor|]. rewrite !app_length in L. constructor; auto.
    - eapply H; [lia|exact HR|now do 2 apply share_app].
    - apply (separated_share _ _ _ _ HS); [lia|now apply share_app].
  Qed.
End Lists.
Lemma field_share (R : str -> str -> kserd -> Prop) n : (forall t r r' a, (length t < n)%nat -> R t r a -> share r r' -> R t r' a) ->
  forall t r r' a, (length t < n)%nat -> field_at R t r a -> share r r' -> field_at R t r' a.
Proof. intros H t r r' a L F S. destruct F as [name w1 w2 t r k F NW B1 B2 HR]. rewrite !app_length in L. constructor; auto. eapply H; [lia|exact HR|exact S]. Qed.
Lemma entry_share (K R : str -> str -> kserd -> Prop) n : (forall t r r' a, (length t < n)%nat -> K t r a -> share r r' -> K t r' a) ->
  (forall t r r' a, (length t < n)%nat -> R t r a -> share r r' -> R t r' a) ->
  forall t r r' a, (length t < n)%nat -> entry_at K R t r a -> share r r' -> entry_at K R t r' a.
Proof.
  intros HK H t r r' a L F S. destruct F as [tk w1 w2 t r k v B1 B2 RK HR]. rewrite !app_length in L. constructor; auto; [|eapply H; [lia|exact HR|exact S]].
  eapply HK; [lia|exact RK|]. now repeat apply share_app.
Qed.

(** ** values *)
Lemma value_share_n n : forall m t r k, (length t < n)%nat -> value_at m t r k -> forall r', share r r' \/ in_brackets k = true -> value_at m t r' k.
Proof.
  induction n as [|n IH]; intros m t r k L V r' SH; [lia|].
  assert (HV : forall m t r r' k, (length t < n)%nat -> value_at m t r k -> share r r' -> value_at m t r' k) by (intros m0 t0 r0 r0' k0 L0 V0 S0; eapply IH; eauto).
  destruct V as [m id w t v r I B T E|m t v r T E NH|m id w t l r HO HL|m id w t l r HO HL NE AS|m id w t l r HO HL AS|m id w t l r HO HL|id w t l r HO HL|id w t l r HO HL AS|id w t l r HO HL AS|id w t l r HO HL].
  1,2: destruct SH as [SH|C]; [|destruct T; discriminate C].
  - constructor; auto. now rewrite <- (share_ends v r r' SH).
  - constructor; auto; [now rewrite <- (share_ends v r r' SH)|]. now rewrite <- (share_no_head _ _ (share_app t r r' SH)).
  - constructor; auto. rewrite !app_length in L. eapply inline_share; [exact (HV true)|exact HL|cbn in L; lia|now apply share_now].
  - constructor; auto. rewrite !app_length in L. eapply inline_share; [exact (HV true)|exact HL|cbn in L; lia|now apply share_now].
  - constructor; auto. rewrite !app_length in L. eapply inline_share; [exact (field_share _ n (HV true))|exact HL|cbn in L; lia|now apply share_now].
  - constructor; auto. rewrite !app_length in L. eapply inline_share; [exact (entry_share _ _ n (HV false) (HV true))|exact HL|cbn in L; lia|now apply share_now].
  - apply V_seq_lines; auto. rewrite !app_length in L. eapply concise_share; [exact (HV false)|exact HL|cbn in L; lia|now apply share_now].
  - apply V_tuple_lines; auto. rewrite !app_length in L. eapply concise_share; [exact (HV false)|exact HL|cbn in L; lia|now apply share_now].
  - apply V_cntr_lines; auto. rewrite !app_length in L. eapply concise_share; [exact (field_share _ n (HV false))|exact HL|cbn in L; lia|now apply share_now].
  - apply V_map_lines; auto. rewrite !app_length in L. eapply concise_share; [exact (entry_share _ _ n (HV false) (HV false))|exact HL|cbn in L; lia|now apply share_now].
Qed.
Lemma closed_any m t r k r' : value_at m t r k -> in_brackets k = true -> value_at m t r' k.
Proof. intros V C. eapply (value_share_n (S (length t))); [lia|exact V|now right]. Qed.

(** ** tokens *)
Lemma no_head_char c t : name_char c = false -> no_head (c :: t) = true.
Proof. intros H. unfold no_head. cbn [take_while]. rewrite H. cbn [is_id negb orb]. now rewrite !orb_true_r. Qed.
(** what can come after a token without making another one of it *)
Lemma token_more t v r q : token t v -> ends_token v r = true -> no_head (t ++ r) = true ->
  (value_at false t (r ++ q) (Kserd None v)) \/ (exists n, v = VNum n) \/ no_head (t ++ r ++ q) = false.
Proof.
  intros T E NH. destruct (no_head (t ++ r ++ q)) eqn:N; [|auto]. destruct v; try (left; constructor; auto; fail). eauto.
Qed.
Lemma num_words t n r w : token t (VNum n) -> w = s "true" \/ w = s "false" -> starts_with w (t ++ r) = false.
Proof.
  intros T W. inversion T as [| | |u m F P| | |]; subst. destruct (starts_with w (t ++ r)) eqn:E; [exfalso|reflexivity].
  destruct t as [|a t]; [discriminate P|]. cbn [forallb] in F. apply andb_true_iff in F as [F1 F].
  destruct W as [->| ->]; cbn [s map list_ascii_of_string starts_with app] in E; apply andb_true_iff in E as [E1 E]; apply N.eqb_eq in E1; subst a; [discriminate F1|].
  destruct t as [|b t]; [discriminate P|]. cbn [app] in E. apply andb_true_iff in E as [E1 E]; apply N.eqb_eq in E1; subst b.
  destruct t as [|b t]; [discriminate P|]. cbn [app] in E. apply andb_true_iff in E as [E1 E]; apply N.eqb_eq in E1; subst b. discriminate F.
Qed.
Lemma num_token t n x t2 v2 y : token t (VNum n) -> token t2 v2 -> t ++ x = t2 ++ y -> exists n2, v2 = VNum n2.
Proof.
  intros T T2 E. pose proof T as T0. inversion T as [| | |u m F P| | |]; subst. destruct t as [|a t]; [discriminate P|]. cbn [forallb] in F. apply andb_true_iff in F as [F _].
  destruct T2 as [w W| | |u m F2 P2|u M|d u M|u M]; eauto; exfalso.
  - injection E as -> _. discriminate F.
  - pose proof (num_words _ _ x (s "true") T0 (or_introl eq_refl)) as H. rewrite E in H. cbn in H. discriminate.
  - pose proof (num_words _ _ x (s "false") T0 (or_intror eq_refl)) as H. rewrite E in H. cbn in H. discriminate.
  - injection E as -> _. discriminate F.
  - injection E as -> _. discriminate F.
  - injection E as -> _. discriminate F.
Qed.
Lemma split_same (f : char -> bool) a b c d : forallb f a = true -> forallb f c = true -> stops f b -> stops f d -> a ++ b = c ++ d -> a = c /\ b = d.
Proof.
  revert c. induction a as [|x a IH]; intros [|y c] A C B D E; cbn [app forallb] in *.
  - auto.
  - subst b. cbn in B. apply andb_true_iff in C as [C _]. congruence.
  - subst d. cbn in D. apply andb_true_iff in A as [A _]. congruence.
  - injection E as -> E. apply andb_true_iff in A as [_ A]. apply andb_true_iff in C as [_ C]. destruct (IH c A C B D E) as [-> ->]. auto.
Qed.
(** ** the first line *)
Lemma assigns_more t q : assigns t = true -> assigns (t ++ q) = true.
Proof. induction t as [|c t IH]; [discriminate|]. cbn [app assigns]. intros H. apply orb_true_iff in H as [->|H]; [reflexivity|]. apply andb_true_iff in H as [-> H]. now rewrite (IH H), orb_true_r. Qed.
Lemma starts_more p t q : starts_with p t = true -> starts_with p (t ++ q) = true.
Proof. revert t. induction p as [|b p IH]; intros [|c t] H; cbn [starts_with app] in *; try discriminate; try reflexivity. apply andb_true_iff in H as [-> H]. now apply IH. Qed.
Lemma skip_more t q : Grammar.skip_blanks t <> [] -> Grammar.skip_blanks (t ++ q) = Grammar.skip_blanks t ++ q.
Proof. induction t as [|c t IH]; cbn [app Grammar.skip_blanks]; [congruence|]. destruct (blank c); auto. Qed.
Lemma trim_more t q : trim t <> [] -> trim (t ++ q) = trim t ++ q.
Proof. induction t as [|c t IH]; cbn [app trim]; [congruence|]. destruct (space c); auto. Qed.
Lemma take_more t q : snd (take_while name_char t) <> [] -> take_while name_char (t ++ q) = (fst (take_while name_char t), snd (take_while name_char t) ++ q).
Proof.
  induction t as [|c t IH]; cbn [app take_while]; [cbn; congruence|]. destruct (name_char c); [|reflexivity]. destruct (take_while name_char t) as [a b]. cbn [fst snd] in *. intros H. now rewrite (IH H).
Qed.
Lemma bracketed_more t q : bracketed t = true -> bracketed (t ++ q) = true.
Proof.
  destruct t as [|c t]; [discriminate|]. cbn [app bracketed]. intros H. apply andb_true_iff in H as [-> H]. cbn [andb].
  destruct (take_while name_char (Grammar.skip_blanks t)) as [i r] eqn:E. apply andb_true_iff in H as [I S].
  assert (SR : Grammar.skip_blanks r <> []) by (intros X; rewrite X in S; discriminate).
  assert (R : r <> []) by (intros ->; now apply SR).
  assert (ST : Grammar.skip_blanks t <> []) by (intros X; rewrite X in E; cbn in E; congruence).
  rewrite (skip_more _ _ ST), take_more by (rewrite E; exact R). rewrite E. cbn [fst snd]. rewrite I, (skip_more _ _ SR). now apply starts_more.
Qed.
Lemma verbose_more t q : verbose_first t = true -> verbose_first (t ++ q) = true.
Proof.
  unfold verbose_first, verbose_start. intros H. assert (T : trim t <> []) by (intros X; rewrite X in H; discriminate H). rewrite (trim_more _ _ T).
  repeat (apply orb_true_iff in H as [H|H]); [now rewrite (starts_more _ _ _ H)|rewrite (starts_more _ _ q H)|rewrite (assigns_more _ q H)|rewrite (bracketed_more _ q H)]; cbn [orb]; now rewrite ?orb_true_r.
Qed.

Lemma value_forms m t r k : value_at m t r k ->
  (exists id w u v, k = Kserd (Some id) v /\ t = s "<" ++ id ++ s ">" ++ w ++ u /\ is_id id = true /\ blanks w /\ token u v /\ ends_token v r = true) \/
  (exists v, k = Kserd None v /\ token t v /\ ends_token v r = true /\ no_head (t ++ r) = true) \/
  (exists w c u, in_brackets k = true /\ t = head (kid k) w ++ c :: u /\ head_ok (kid k) w /\ opener c = true).
Proof.
  intros H. destruct H as [m id w t v r I B T E|m t v r T E NH|m id w t l r HO HL|m id w t l r HO HL NE AS|m id w t l r HO HL AS|m id w t l r HO HL|id w t l r HO HL|id w t l r HO HL AS|id w t l r HO HL AS|id w t l r HO HL].
  - left. exists id, w, t, v. auto 10.
  - right. left. exists v. auto.
  - right. right. exists w, (ch "["), (t ++ s "]"). auto.
  - right. right. exists w, (ch "("), (t ++ s ")"). auto.
  - right. right. exists w, (ch "("), (t ++ s ")"). auto.
  - right. right. exists w, (ch "{"), (t ++ s "}"). auto.
  - right. right. exists w, (ch "["), (t ++ s "]"). auto.
  - right. right. exists w, (ch "("), (t ++ s ")"). auto.
  - right. right. exists w, (ch "("), (t ++ s ")"). auto.
  - right. right. exists w, (ch "{"), (t ++ s "}"). auto.
Qed.
Lemma opener_hard c : opener c = true -> space c = false /\ name_char c = false /\ mem c (s "([{") = true.
Proof. unfold opener. intros H. split; [|split; [|exact H]]; cbn in H; repeat (apply orb_true_iff in H as [H|H]); try discriminate; apply N.eqb_eq in H; subst; reflexivity. Qed.
Lemma opens_blanks w c r : blanks w -> opener c = true -> opens (w ++ c :: r) = true.
Proof.
  intros B O. destruct (opener_hard c O) as (S & _ & M). induction w as [|a w IH]; cbn [app opens]; [now rewrite S|].
  unfold blanks in B. cbn [forallb] in B. apply andb_true_iff in B as [B1 B]. rewrite (blank_space _ B1). now apply IH.
Qed.
Lemma is_id_names i : is_id i = true -> forallb name_char i = true.
Proof. destruct i; [discriminate|]. cbn [is_id]. now intros H%andb_true_iff. Qed.
Lemma blanks_stop_names w c r : blanks w -> opener c = true -> stops name_char (w ++ c :: r).
Proof. intros B O. destruct w as [|a w]; cbn [app stops]; [now apply opener_hard|]. unfold blanks in B. cbn [forallb] in B. apply andb_true_iff in B as [B _]. unfold blank in B. cbn in B. repeat (apply orb_true_iff in B as [B|B]); try discriminate; apply N.eqb_eq in B; subst; reflexivity. Qed.
(** an id, blanks and a bracket is a head *)
Lemma head_head id w c r : head_ok (Some id) w -> opener c = true -> no_head (id ++ w ++ c :: r) = false.
Proof.
  intros [B P] O. unfold is_id_plain in P. apply andb_true_iff in P as [P P2]. apply andb_true_iff in P as [P P1]. apply negb_true_iff in P1, P2.
  pose proof (is_id_names id P) as NM. pose proof (blanks_stop_names w c r B O) as ST. unfold no_head. rewrite take_while_spec; [|exact NM|exact ST]. rewrite P, (opens_blanks w c r B O). cbn [negb orb].
  assert (X : forall p, forallb name_char p = true -> starts_with p id = false -> starts_with p (id ++ w ++ c :: r) = false).
  { clear - ST. intros p. revert id. induction p as [|b p IH]; intros id NP S; [discriminate|]. cbn [forallb] in NP. apply andb_true_iff in NP as [N1 NP]. destruct id as [|a id]; cbn [app].
    - destruct (w ++ c :: r) as [|x y]; [reflexivity|]. cbn [stops] in ST. cbn [starts_with]. destruct (N.eqb_spec b x) as [->|]; [congruence|reflexivity].
    - cbn [starts_with] in *. destruct (N.eqb b a); [|reflexivity]. cbn [andb] in *. now apply IH. }
  now rewrite (X (s "true") eq_refl P1), (X (s "false") eq_refl P2).
Qed.
Lemma prefix_or {A} (a b c d : list A) : a ++ b = c ++ d -> (exists x, c = a ++ x /\ b = x ++ d) \/ (exists x y, a = c ++ x :: y /\ d = x :: y ++ b).
Proof.
  revert c. induction a as [|x a IH]; intros c E; cbn [app] in *; [left; exists c; auto|].
  destruct c as [|y c]; cbn [app] in *; [right; exists x, a; auto|]. injection E as -> E. destruct (IH c E) as [(z & -> & ->)|(z & u & -> & ->)]; [left; exists z; auto|right; exists z, u; auto].
Qed.

Lemma cut_value t w2 k t' w2' k' q : value_at false t' w2' k' -> spaces w2' -> value_at false t w2 k -> spaces w2 -> t' ++ w2' ++ q = t ++ w2 ->
  (t' = t /\ k' = k /\ w2 = w2' ++ q) \/
  (exists n n', kval k = VNum n /\ kval k' = VNum n' /\ kid k = kid k') \/
  (exists i w y, kid k = Some i /\ in_brackets k = true /\ blanks w /\ i ++ w = (t' ++ w2') ++ y).
Proof.
  intros V' S' V S E.
  assert (SAME : value_at false t' (w2' ++ q) k' -> t' = t /\ k' = k /\ w2 = w2' ++ q).
  { intros X. destruct (value_unique _ _ _ _ _ _ _ E X V) as [-> ->]. apply app_inv_head in E. auto. }
  destruct (value_forms _ _ _ _ V') as [(id & w & u & v & -> & -> & I & B & T & EN)|[(v & -> & T & EN & NH)|(w & c & u & C & _)]].
  - destruct v; try (left; apply SAME; now constructor). right. left.
    destruct (value_forms _ _ _ _ V) as [(id2 & w3 & u3 & v3 & -> & -> & I3 & B3 & T3 & EN3)|[(v3 & -> & T3 & _)|(w3 & c3 & u3 & C & -> & HO & O)]].
    + rewrite <- !app_assoc in E. injection E as E.
      assert (X : id = id2 /\ s ">" ++ w ++ u ++ w2' ++ q = s ">" ++ w3 ++ u3 ++ w2) by (apply (split_same name_char); auto using is_id_names; reflexivity).
      destruct X as [-> X]. injection X as X.
      assert (Y : w = w3 /\ u ++ w2' ++ q = u3 ++ w2).
      { apply (split_same blank); auto; apply starts_blank, starts_app; [apply (token_start _ _ T)|apply (token_start _ _ T3)]. }
      destruct Y as [-> Y]. destruct (num_token _ _ _ _ _ _ T T3 Y) as [n3 ->]. exists n3, n. auto.
    + exfalso. destruct (token_start _ _ T3) as [ST SA]. destruct t as [|a t]; [contradiction|]. injection E as <- _. cbn in SA. discriminate.
    + exfalso. assert (H : starts (head (kid k) w3 ++ c3 :: u3)) by now apply head_starts. destruct HO as [_ HO]. destruct (kid k) as [[|a i]|]; cbn [head app] in *.
      * discriminate HO.
      * injection E as <- _. discriminate HO.
      * injection E as <- _. discriminate O.
  - assert (HEAD : no_head (t' ++ w2' ++ q) = false -> exists i w y, kid k = Some i /\ in_brackets k = true /\ blanks w /\ i ++ w = (t' ++ w2') ++ y).
    { intros NF. rewrite E in NF. destruct (value_forms _ _ _ _ V) as [(id2 & w3 & u3 & v3 & -> & -> & _)|[(v3 & -> & T3 & _ & NT)|(w3 & c3 & u3 & C & -> & HO & O)]].
      - exfalso. change (s "<" ++ id2 ++ s ">" ++ w3 ++ u3) with (ch "<" :: id2 ++ s ">" ++ w3 ++ u3) in NF. cbn [app] in NF. rewrite no_head_char in NF; [discriminate|reflexivity].
      - congruence.
      - destruct (kid k) as [i|] eqn:EK.
        + cbn [head] in E. exists i, w3. assert (E2 : (t' ++ w2') ++ q = (i ++ w3) ++ (c3 :: u3 ++ w2)) by (rewrite <- app_assoc, E, <- app_assoc; reflexivity). destruct (prefix_or _ _ _ _ E2) as [(x & X & _)|(x & y & X & Y)].
          * exists x. repeat split; auto. apply HO.
          * exfalso. injection Y as -> Y. rewrite X in NH. rewrite <- app_assoc in NH. now rewrite (head_head i w3 x y HO O) in NH.
        + exfalso. cbn [head app] in NF. rewrite no_head_char in NF; [discriminate|]. now apply opener_hard. }
    destruct (token_more t' v w2' q T EN NH) as [X|[(n & ->)|X]]; [left; auto| |right; right; auto].
    destruct (no_head (t' ++ w2' ++ q)) eqn:NF; [|right; right; auto]. right. left. rewrite E in NF.
    assert (T0 := T). inversion T0 as [| | |u0 n0 F0 P0| | |]; subst. destruct t' as [|a t']; [discriminate P0|]. cbn [forallb] in F0. apply andb_true_iff in F0 as [F0 _].
    destruct (value_forms _ _ _ _ V) as [(id2 & w3 & u3 & v3 & -> & -> & _)|[(v3 & -> & T3 & _ & NT)|(w3 & c3 & u3 & C & -> & HO & O)]].
    + exfalso. injection E as -> _. discriminate F0.
    + destruct (num_token _ _ _ _ _ _ T T3 E) as [n3 ->]. exists n3, n. auto.
    + exfalso. destruct (kid k) as [i|] eqn:EK.
      * cbn [head] in NF. rewrite <- !app_assoc in NF. cbn [app] in NF. rewrite (head_head i w3 c3 _ HO O) in NF. discriminate.
      * injection E as -> _. pose proof (num_char_opener c3 F0). congruence.
  - left. apply SAME. now apply (closed_any _ _ w2').
Qed.

Theorem cut_text p q k k' : parse p = ParseOk k' -> parse (p ++ q) = ParseOk k -> verbose_first (p ++ q) = false ->
  (spaces q /\ k' = k) \/
  (exists n n', kval k = VNum n /\ kval k' = VNum n' /\ kid k = kid k') \/
  (exists i w1 w x y, kid k = Some i /\ in_brackets k = true /\ blanks w1 /\ blanks w /\ p = w1 ++ x /\ i ++ w = x ++ y).
Proof.
  intros P PQ NV. apply parse_iff in P. apply parse_iff in PQ.
  destruct P as [w1 t' w2' k' B1 V' S' N'|t l a b HI BL B VF]; [|rewrite (verbose_more _ q VF) in NV; discriminate].
  remember ((w1 ++ t' ++ w2') ++ q) as z eqn:EZ. destruct PQ as [w3 t w2 k B3 V S N0|t l a b HI BL B VF]; [|congruence].
  rewrite <- !app_assoc in EZ. destruct (split_same blank w3 (t ++ w2) w1 (t' ++ w2' ++ q)) as [-> E]; auto.
  { apply begins_blank, begins_app. exact (value_at_begins _ _ _ _ V). }
  { apply begins_blank, begins_app. exact (value_at_begins _ _ _ _ V'). }
  destruct (cut_value t w2 k t' w2' k' q V' S' V S (eq_sym E)) as [(-> & -> & ->)|[X|(i & w & y & K & C & W & Y)]].
  - left. unfold spaces in S. rewrite forallb_app in S. apply andb_true_iff in S as [_ S]. auto.
  - auto.
  - right. right. exists i, w1, w, (t' ++ w2'), y. auto 8.
Qed.

Lemma brackets_app a b : has_bracket (a ++ b) = has_bracket a || has_bracket b.
Proof. unfold has_bracket. apply existsb_app. Qed.
Lemma names_no_bracket i : forallb name_char i = true -> has_bracket i = false.
Proof.
  induction i as [|c i IH]; [reflexivity|]. cbn [forallb]. intros H. apply andb_true_iff in H as [H1 H]. unfold has_bracket in *. cbn [existsb]. rewrite (IH H), orb_false_r.
  destruct (mem c (s "([{")) eqn:M; [|reflexivity]. destruct (opener_hard c M) as (_ & N & _). congruence.
Qed.
Lemma blanks_no_bracket w : blanks w -> has_bracket w = false.
Proof.
  unfold blanks. induction w as [|c i IH]; [reflexivity|]. cbn [forallb]. intros H. apply andb_true_iff in H as [H1 H]. unfold has_bracket in *. cbn [existsb]. rewrite (IH H), orb_false_r.
  destruct (mem c (s "([{")) eqn:M; [|reflexivity]. destruct (opener_hard c M) as (N & _ & _). apply blank_space in H1. congruence.
Qed.
Lemma id_no_bracket src k i : parse src = ParseOk k -> verbose_first src = false -> kid k = Some i -> has_bracket i = false.
Proof.
  intros P V K. apply parse_iff in P. destruct P as [w3 t w2 k B3 HV S N0|t l a b HI BL BB VF]; [|congruence].
  destruct (value_forms _ _ _ _ HV) as [(id & w4 & u & v & -> & _ & I & _)|[(v & -> & _)|(w4 & c & u & _ & _ & HO & _)]].
  - cbn [kid] in K. injection K as ->. apply names_no_bracket, is_id_names, I.
  - discriminate K.
  - rewrite K in HO. destruct HO as [_ HO]. unfold is_id_plain in HO. apply andb_true_iff in HO as [HO _]. apply andb_true_iff in HO as [HO _]. apply names_no_bracket, is_id_names, HO.
Qed.
Lemma within_id p i w1 w x y : blanks w1 -> blanks w -> p = w1 ++ x -> i ++ w = x ++ y -> has_bracket i = false -> has_bracket p = false.
Proof.
  intros B1 B -> E H. assert (X : has_bracket (x ++ y) = false) by (rewrite <- E, brackets_app, H, (blanks_no_bracket w B); reflexivity).
  rewrite brackets_app in X. apply orb_false_iff in X as [X _]. now rewrite brackets_app, (blanks_no_bracket w1 B1), X.
Qed.
Theorem cut_rejected p q k : parse (p ++ q) = ParseOk k -> verbose_first (p ++ q) = false -> ~ spaces q -> is_number k = false ->
  in_brackets k = false \/ kid k = None \/ has_bracket p = true -> exists e, parse p = ParseErr e.
Proof.
  intros P V NS NN C. destruct (PropertiesParse.C17_parse_total p) as [[k' P']|E]; [exfalso|exact E].
  destruct (cut_text p q k k' P' P V) as [[S _]|[(n & n' & K & _)|(i & w1 & w & x & y & K & CL & B1 & B & EP & E)]]; [contradiction|unfold is_number in NN; rewrite K in NN; discriminate|].
  destruct C as [C|[C|C]]; [congruence..|]. rewrite (within_id p i w1 w x y B1 B EP E (id_no_bracket _ _ _ P V K)) in C. discriminate.
Qed.
