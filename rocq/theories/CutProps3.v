(** Nothing but spaces can be added to a text in brackets. *)
From Verif Require Import Base F64 Number BTree Value BaseProps ValueProps2 Base91 Nom Parse ParseProps ParseErr Grammar VGrammar GrammarProps VGrammarProps VGrammarProps2 Format Syntax SyntaxProps SyntaxProps2 SyntaxProps3 SyntaxProps4 CutSpec CutProps.
Open Scope N_scope.

Lemma value_square m t r k u : value_at m t r k -> t = ch "[" :: u -> exists u', u = u' ++ s "]".
Proof.
  intros H E.
  assert (X : forall id w c y, head_ok id w -> head id w ++ c :: y = ch "[" :: u -> opener c = true -> id = None /\ c = ch "[" /\ y = u).
  { intros id w c y [_ P] E0 O. destruct id as [[|a i]|]; cbn [head app] in E0; [discriminate P| |].
    - injection E0 as -> _. discriminate P.
    - injection E0 as -> ->. auto. }
  destruct H as [m id w t v r I B T E0|m t v r T E0 NH|m id w t l r HO HL|m id w t l r HO HL NE AS|m id w t l r HO HL AS|m id w t l r HO HL|id w t l r HO HL|id w t l r HO HL AS|id w t l r HO HL AS|id w t l r HO HL].
  - discriminate E.
  - exfalso. subst t. destruct (token_open _ _ T) as [->|O]; [inversion T|discriminate O].
  - apply (X id w (ch "[") (t ++ s "]") HO) in E as (_ & _ & <-); eauto.
  - exfalso. apply (X id w (ch "(") (t ++ s ")") HO) in E as (_ & E & _); [discriminate|reflexivity].
  - exfalso. apply (X id w (ch "(") (t ++ s ")") HO) in E as (_ & E & _); [discriminate|reflexivity].
  - exfalso. apply (X id w (ch "{") (t ++ s "}") HO) in E as (_ & E & _); [discriminate|reflexivity].
  - apply (X id w (ch "[") (t ++ s "]") HO) in E as (_ & _ & <-); eauto.
  - exfalso. apply (X id w (ch "(") (t ++ s ")") HO) in E as (_ & E & _); [discriminate|reflexivity].
  - exfalso. apply (X id w (ch "(") (t ++ s ")") HO) in E as (_ & E & _); [discriminate|reflexivity].
  - exfalso. apply (X id w (ch "{") (t ++ s "}") HO) in E as (_ & E & _); [discriminate|reflexivity].
Qed.
Lemma skip_in t : In (ch "]") t -> In (ch "]") (Grammar.skip_blanks t).
Proof. induction t as [|c t IH]; [auto|]. cbn [Grammar.skip_blanks]. destruct (blank c) eqn:B; [|auto]. intros [->|H]; [discriminate B|auto]. Qed.
Lemma take_in t : In (ch "]") t -> In (ch "]") (snd (take_while name_char t)).
Proof. induction t as [|c t IH]; [auto|]. cbn [take_while]. destruct (name_char c) eqn:B; [|auto]. destruct (take_while name_char t). cbn [snd] in *. intros [->|H]; [discriminate B|auto]. Qed.
Lemma in_some {A} (x : A) t : In x t -> t <> []. Proof. destruct t; [contradiction|discriminate]. Qed.
Lemma bracketed_less u z : bracketed (ch "[" :: (u ++ s "]") ++ z) = true -> bracketed (ch "[" :: u ++ s "]") = true.
Proof.
  cbn [bracketed]. change (ch "[" =? ch "[") with true. cbn [andb]. assert (I : In (ch "]") (u ++ s "]")) by (apply in_or_app; right; now left). set (t := u ++ s "]") in *. clearbody t.
  rewrite (skip_more t z (in_some _ _ (skip_in t I))). apply skip_in in I. set (t1 := Grammar.skip_blanks t) in *. clearbody t1.
  rewrite (take_more t1 z (in_some _ _ (take_in t1 I))). apply take_in in I. destruct (take_while name_char t1) as [i r]. cbn [fst snd] in *.
  rewrite (skip_more r z (in_some _ _ (skip_in r I))). apply skip_in in I. intros H. apply andb_true_iff in H as [-> H]. cbn [andb]. destruct (Grammar.skip_blanks r) as [|x y]; [contradiction|].
  change (s "]") with [ch "]"] in *. cbn [app starts_with] in *. exact H.
Qed.
(** no '=' before the end of the line *)
Definition calm (t : str) : Prop := forallb (fun c => negb (c =? ch "=")) t = true.
Lemma calm_app a b : calm a -> calm b -> calm (a ++ b). Proof. unfold calm. intros A B. rewrite forallb_app. apply andb_true_iff. auto. Qed.
Lemma calm_blanks w : blanks w -> calm w.
Proof. unfold blanks, calm. rewrite !forallb_forall. intros H c Hc. specialize (H c Hc). destruct (N.eqb_spec c (ch "=")) as [->|]; [discriminate H|reflexivity]. Qed.
Lemma calm_names w : forallb name_char w = true -> calm w.
Proof. unfold calm. rewrite !forallb_forall. intros H c Hc. specialize (H c Hc). destruct (N.eqb_spec c (ch "=")) as [->|]; [discriminate H|reflexivity]. Qed.
Lemma calm_assigns a e z : calm a -> eol e -> assigns (a ++ e ++ z) = false.
Proof.
  intros C E. induction a as [|c a IH]; cbn [app].
  - destruct E as [->| ->]; reflexivity.
  - unfold calm in C. cbn [forallb] in C. apply andb_true_iff in C as [C1 C]. apply negb_true_iff in C1. cbn [assigns]. rewrite C1. cbn [orb]. rewrite (IH C). apply andb_false_r.
Qed.
Lemma calm_title h name id : titlef h name id -> calm h.
Proof. intros [w1 nm w2 A B C|w1 nm w2 w3 i w4 A B C D E F]; repeat apply calm_app; auto using calm_blanks, calm_names, is_id_names. reflexivity. Qed.

(** an item of a verbose container is not a text in brackets which does not look verbose *)
Lemma item_not_value n0 i t r t' r' k : item_at n0 t r i -> value_at false t' r' k -> in_brackets k = true -> forall z, t' ++ z = t ++ r -> verbose_first (t' ++ z) = true -> verbose_first t' = true.
Proof.
  intros HI HV C z E VF. assert (BG := value_at_begins _ _ _ _ HV). assert (TR : trim (t' ++ z) = t' ++ z).
  { destruct t' as [|c t']; [contradiction|]. cbn [app trim]. destruct BG as [-> _]. reflexivity. }
  assert (TR' : trim t' = t') by (destruct t' as [|c t']; [contradiction|]; cbn [trim]; destruct BG as [-> _]; reflexivity).
  destruct (value_forms _ _ _ _ HV) as [(id & w & u & v & -> & _ & _ & _ & T & _)|[(v & -> & T & _)|(w & c & u & _ & ET & HO & O)]]; [destruct T; discriminate C..|].
  assert (SQ : forall y, t ++ r = ch "[" :: y -> exists u', t' = ch "[" :: u' ++ s "]").
  { intros y EY. rewrite EY in E. destruct t' as [|a t']; [contradiction|]. injection E as -> _. destruct (value_square _ _ _ _ _ HV eq_refl) as [u' ->]. eauto. }
  assert (DBL : forall y, t ++ r = ch "[" :: ch "[" :: y -> verbose_first t' = true).
  { intros y EY. destruct (SQ _ EY) as [u' EU]. rewrite EY in E. unfold verbose_first. rewrite TR'. unfold verbose_start. assert (SW : starts_with (s "[[") t' = true).
    { rewrite EU in *. destruct u' as [|a u']; cbn [app s map list_ascii_of_string] in E; [injection E as E _; discriminate|]. injection E as -> _. reflexivity. }
    rewrite SW. cbn [orb]. apply orb_true_r. }
  destruct HI as [n w0 id r B I S|n t r name v F|n h name id w0 e t r v TI B EO HB|n h name id w0 e t r v TI B EO HB NK|n h name id w0 e w1 tk k0 w2 w3 t r v TI B EO B1 VK B2 B3 HV2|n h name id w0 e w1 tk k0 w2 w3 e' t r v TI B EO B1 VK B2 B3 EO' HB].
  - exfalso. rewrite ET in E. assert (SH : starts (head (kid k) w ++ c :: u)) by now apply head_starts. destruct (head (kid k) w ++ c :: u) as [|a y]; [contradiction|]. injection E as -> _. discriminate SH.
  - exfalso. inversion F as [nm w1 w2 t0 r0 k0 NM NW B1 B2 HR]; subst. rewrite <- !app_assoc in E. destruct (kid k) as [i|] eqn:EK; cbn [head] in E.
    + rewrite <- !app_assoc in E. destruct HO as [BW P]. unfold is_id_plain in P. apply andb_true_iff in P as [P _]. apply andb_true_iff in P as [P _].
      assert (X : i = name /\ w ++ (c :: u) ++ z = w1 ++ s "=" ++ w2 ++ t0 ++ r).
      { apply (split_same name_char); auto using is_id_names; [now apply blanks_stop_names|]. destruct w1 as [|a w1]; [reflexivity|]. pose proof (blanks_stop_names (a :: w1) (ch "[") [] B1 eq_refl) as X. exact X. }
      destruct X as [-> X]. destruct (split_same blank w ((c :: u) ++ z) w1 (s "=" ++ w2 ++ t0 ++ r)) as [_ Y]; auto; [cbn [app stops]; destruct (opener_hard c O) as (SC & _); unfold blank; destruct (blank c) eqn:BC; [apply blank_space in BC; congruence|exact BC]|reflexivity|]. injection Y as -> _. discriminate O.
    + cbn [app] in E. destruct name as [|a name]; cbn [app] in E.
      * rewrite (NW eq_refl) in E. injection E as -> _. discriminate O.
      * injection E as -> _. cbn [forallb] in NM. apply andb_true_iff in NM as [NM _]. destruct (opener_hard a O) as (_ & N & _). congruence.
  - destruct (SQ _ eq_refl) as [u' EU]. unfold verbose_first. rewrite TR'. unfold verbose_first in VF. rewrite TR in VF. unfold verbose_start in *.
    assert (BR : bracketed (t' ++ z) = true).
    { rewrite E in VF. rewrite <- !app_assoc in VF. rewrite (titlef_first h name id _ TI) in VF.
      replace (s "[" ++ h ++ s "]" ++ w0 ++ e ++ t ++ r) with ((s "[" ++ h ++ s "]" ++ w0) ++ e ++ t ++ r) in VF by (rewrite <- !app_assoc; reflexivity).
      rewrite calm_assigns in VF; [|repeat apply calm_app; try reflexivity; [exact (calm_title _ _ _ TI)|now apply calm_blanks]|exact EO]. rewrite <- !app_assoc in VF. cbn [orb] in VF. rewrite E, <- !app_assoc. exact VF. }
    rewrite EU in *. cbn [app] in BR. rewrite (bracketed_less u' z BR). now rewrite !orb_true_r.
  - apply (DBL (h ++ s "]]" ++ w0 ++ e ++ t ++ r)). rewrite <- !app_assoc. reflexivity.
  - eapply DBL. rewrite <- !app_assoc. reflexivity.
  - eapply DBL. rewrite <- !app_assoc. reflexivity.
Qed.

Theorem nothing_added p q k k' : parse p = ParseOk k' -> verbose_first p = false -> in_brackets k' = true -> parse (p ++ q) = ParseOk k -> spaces q /\ k = k'.
Proof.
  intros P NV C PQ. destruct (verbose_first (p ++ q)) eqn:VQ.
  - exfalso. apply parse_iff in P. apply parse_iff in PQ. destruct P as [w1 t' w2' k' B1 V' S' N'|t l a b HI BL B VF]; [|congruence].
    remember ((w1 ++ t' ++ w2') ++ q) as x eqn:EZ. destruct PQ as [w3 t w2 k B3 V S N0|t l a b HI BL B VF]; [congruence|].
    assert (BG := value_at_begins _ _ _ _ V'). assert (BS : stops space (t' ++ w2' ++ q)) by now apply begins_space, begins_app.
    assert (T1 : trim (t ++ a ++ b) = t' ++ w2' ++ q) by (rewrite EZ, <- !app_assoc; apply trim_app; [apply blanks_spaces; exact B1|exact BS]).
    remember (a ++ b) as ab eqn:EAB. destruct HI as [n r|n w t i u l r LD IT HS].
    + subst r. cbn [app] in T1. assert (X : trim (a ++ b) = []). { rewrite <- (app_nil_r (a ++ b)). apply trim_app; [|exact Logic.I]. apply spaces_app; [now apply blank_lines_spaces|now apply blanks_spaces]. }
      pose proof (eq_trans (eq_sym X) T1) as Y. destruct t'; [contradiction|discriminate Y].
    + rewrite <- !app_assoc in T1. rewrite trim_app in T1; [|eapply lead_spaces; exact LD|].
      2:{ pose proof (item_at_solid _ _ _ _ IT) as SO. destruct t; [contradiction|]. exact SO. }
      assert (VT : verbose_first t' = true).
      { eapply (item_not_value _ _ _ _ _ _ _ IT V' C (w2' ++ q)); [exact (eq_sym T1)|].
        unfold verbose_first in *. rewrite EZ, <- !app_assoc in VF. rewrite (trim_app w1 (t' ++ w2' ++ q)) in VF; [|now apply blanks_spaces|exact BS]. rewrite <- (app_nil_l (t' ++ w2' ++ q)). rewrite trim_app; [exact VF|reflexivity|exact BS]. }
      unfold verbose_first in NV. rewrite (trim_app w1 (t' ++ w2')) in NV; [|now apply blanks_spaces|now apply begins_space, begins_app].
      apply (verbose_more _ w2') in VT. unfold verbose_first in VT. rewrite <- (app_nil_l (t' ++ w2')) in VT. rewrite trim_app in VT; [congruence|reflexivity|now apply begins_space, begins_app].
  - destruct (cut_text p q k k' P PQ VQ) as [[S ->]|[(n & n' & _ & K & _)|(i & w1 & w & x & y & K & CL & B1 & B & EP & E)]]; [auto|unfold in_brackets in C; rewrite K in C; discriminate|].
    exfalso. pose proof (within_id p i w1 w x y B1 B EP E (id_no_bracket _ _ _ PQ VQ K)) as NB. clear - P NV C NB. apply parse_iff in P. destruct P as [w3 t w2 k' B3 HV S N0|t l a b HI BL BB VF]; [|congruence].
    destruct (value_forms _ _ _ _ HV) as [(id & w4 & u & v & -> & _ & _ & _ & T & _)|[(v & -> & T & _)|(w4 & c & u & _ & -> & HO & O)]]; [destruct T; discriminate C..|].
    rewrite !brackets_app in NB. cbn [has_bracket existsb] in NB. unfold opener in O. rewrite O in NB. cbn [orb] in NB. rewrite !orb_true_r in NB. cbn [orb] in NB. rewrite ?orb_true_r in NB. discriminate.
Qed.
