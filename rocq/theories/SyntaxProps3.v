(** The parser accepts the syntax and nothing else: the verbose layout and whole
    documents. *)
From Verif Require Import Base F64 Number BTree Value BaseProps ValueProps2 Base91 Nom Parse ParseProps ParseErr ParseSpec Grammar VGrammar GrammarProps VGrammarProps VAssemble VGrammarProps2 Format FormatProps Syntax SyntaxProps SyntaxProps2.
Open Scope N_scope.

(** ** where a container goes on *)
Lemma next_line_spec t : exists w, t = w ++ next_line t /\ blank_lines w.
Proof. pose proof (skip_lines_ok (S (length t)) t ltac:(lia)) as H. apply skip_lines_inv in H. exact H. Qed.
Lemma next_line_stuck t : at_eol (Grammar.skip_blanks (next_line t)) = false \/ Grammar.skip_blanks (next_line t) = [].
Proof.
  remember (S (length t)) as n eqn:E. assert (L : (length t < n)%nat) by lia. clear E. revert t L. induction n as [|n IH]; intros t L; [lia|].
  assert (D : (at_eol (Grammar.skip_blanks t) = false \/ Grammar.skip_blanks t = []) \/ (at_eol (Grammar.skip_blanks t) = true /\ Grammar.skip_blanks t <> [])).
  { destruct (at_eol (Grammar.skip_blanks t)); [|auto]. destruct (Grammar.skip_blanks t); [auto|]. right. split; [reflexivity|discriminate]. }
  destruct D as [D|[D1 D2]]; [now rewrite next_line_stop|]. destruct (line_ending_cases _ D1 D2) as (e & r & E & ER). destruct (skip_blanks_split t) as (w & W & T).
  rewrite T, ER, next_line_eol by assumption. apply IH. rewrite T, ER, !app_length in L. destruct E as [->| ->]; cbn [length] in L; lia.
Qed.
Lemma all_blank_skip t : forallb blank t = false -> Grammar.skip_blanks t <> [].
Proof. intros H E. destruct (skip_blanks_split t) as (w & W & T). rewrite E, app_nil_r in T. rewrite T in H. unfold blanks in W. congruence. Qed.
Lemma vcf_open inl con nested n r : closes n r = false -> verbose_cntr_field inl con nested n r = field_body inl con nested (Grammar.skip_blanks (next_line r)).
Proof.
  unfold closes. intros H. apply orb_false_iff in H as [H1 H2]. apply negb_false_iff in H2.
  unfold verbose_cntr_field. rewrite skip_lines_ok by lia. cbn [pbind]. pose proof (next_line_stuck r) as K. pose proof (all_blank_skip _ H1) as NE. set (x := next_line r) in *. clearbody x. clear H1.
  pose proof (expect_spec n x) as E. rewrite H2 in E. destruct E as (q & E & _). rewrite E. cbn [pbind]. apply indents_inv in E as (w & -> & W). apply indents_blanks in W.
  rewrite skip_blanks_app in * by assumption. destruct (skip_blanks_split q) as (w' & W' & Q). rewrite Q at 1. rewrite take_blanks by (auto; apply skip_blanks_stop). cbn [pbind].
  destruct K as [K|K]; [|congruence]. destruct (Grammar.skip_blanks q) as [|c u] eqn:EQ; [congruence|]. cbn [orb].
  rewrite ignore_ws_skip, skip_blanks_id by (rewrite <- EQ; apply skip_blanks_stop). destruct (line_ending_err _ (or_introl K)) as [e ->]. reflexivity.
Qed.
Lemma closes_le n m r : (n <= m)%nat -> closes m r = false -> closes n r = false.
Proof.
  induction 1 as [|m L IH]; [auto|]. intros H. apply IH. destruct (closes m r) eqn:E; [|reflexivity]. apply closes_S in E. congruence.
Qed.

Lemma itemf_nonempty n t i : itemf n t i -> t <> [].
Proof.
  intros H. destruct H as [ | ? ? ? ? F| | | | ]; try discriminate. destruct F as [nm w1 w2 u k F1 F2 F3 R]. destruct nm; [|discriminate]. destruct w1; discriminate.
Qed.
Lemma item_at_nonempty n t r i : item_at n t r i -> t <> [].
Proof.
  intros H. destruct H as [ | ? ? ? ? ? F| | | | ]; try discriminate. destruct F as [nm w1 w2 u r k F1 F2 F3 F4 R]. destruct nm; [|discriminate]. destruct w1; discriminate.
Qed.
Lemma many_err {A} (p : parser A) : (forall i r a, p i = POk r a -> (length r < length i)%nat) -> forall fuel acc i e, many0_loop fuel p acc i = PErr e -> False.
Proof.
  intros P. induction fuel as [|fuel IH]; intros acc i e H; [discriminate|]. cbn [many0_loop] in H. destruct (p i) as [r a| | | |] eqn:E; try discriminate.
  apply P in E. replace (Nat.eqb (length r) (length i)) with false in H by (symmetry; apply Nat.eqb_neq; lia). eauto.
Qed.
Lemma vcf_shorter fuel dfuel n i r f :
  verbose_cntr_field (kserd_inline dfuel) (kserd_concise dfuel) (kserd_nested fuel dfuel (S n)) n i = POk r f -> (length r < length i)%nat.
Proof.
  intros H. apply item_inv in H as (w & t & -> & _ & F); [|apply delimited_inv|apply delimited_inv|].
  - apply itemf_nonempty in F. destruct t; [congruence|]. rewrite !app_length. cbn [length]. lia.
  - intros i' r' k' H'. apply nested_inv in H' as (t & -> & [(w & t' & -> & B & D & _)|(l & D & -> & _)]); eexists; (split; [reflexivity|]); now constructor.
Qed.
(** ** an error below does not depend on the indents *)
Lemma nested_err fuel dfuel n i e : kserd_nested fuel dfuel n i = PErr e -> forall fuel' n', kserd_nested (S fuel') dfuel n' i = PErr e.
Proof.
  destruct fuel as [|fuel]; [discriminate|]. cbn [kserd_nested]. rewrite pattern_verbose. cbn [pbind]. destruct (verbose_first i); [|auto].
  intros H. exfalso. unfold cntr_verbose, many0 in H. destruct (many0_loop _ _ _ _) as [r l|e'| | |] eqn:E; try discriminate.
  eapply many_err; [|exact E]. intros i' r' f'. apply vcf_shorter.
Qed.
Lemma bind_err {A B} (e : pres A) (f : str -> A -> pres B) x : pbind e f = PErr x -> e = PErr x \/ exists i a, e = POk i a /\ f i a = PErr x.
Proof. destruct e; cbn [pbind]; intros H; try discriminate; [eauto|]. left. now injection H as ->. Qed.
Lemma field_err fuel dfuel n i e : field_body (kserd_inline dfuel) (kserd_concise dfuel) (kserd_nested fuel dfuel n) i = PErr e ->
  forall fuel' n', exists e', field_body (kserd_inline dfuel) (kserd_concise dfuel) (kserd_nested (S fuel') dfuel n') i = PErr e'.
Proof.
  intros H fuel' n'.
  assert (C : forall t j x, context t (kserd_nested fuel dfuel n) j = PErr x -> exists x', context t (kserd_nested (S fuel') dfuel n') j = PErr x').
  { intros t j x. unfold context. destruct (kserd_nested fuel dfuel n j) eqn:E; try discriminate. rewrite (nested_err _ _ _ _ _ E). eauto. }
  unfold field_body in *. destruct (starts_with (s ":") i); [eauto|]. destruct (starts_with (s "[[") i).
  - apply bind_err in H as [->|(i1 & [name id] & -> & H)]; [eexists; reflexivity|]. cbn [pbind].
    apply bind_err in H as [->|(i2 & y & -> & H)]; [eexists; reflexivity|]. cbn [pbind].
    apply bind_err in H as [->|(i3 & key & -> & H)]; [eexists; reflexivity|]. cbn [pbind]. destruct key as [key|].
    + apply bind_err in H as [H|(i4 & z & _ & H)]; [|discriminate]. unfold context, alt2 in *. destruct (ignore_ws (kserd_concise dfuel) i3); try discriminate.
      unfold preceded in *. destruct (ignore_ws line_ending i3); try discriminate; cbn [pbind] in *; [|eexists; reflexivity].
      destruct (kserd_nested fuel dfuel n rest) eqn:E; try discriminate. rewrite (nested_err _ _ _ _ _ E). eexists; reflexivity.
    + apply bind_err in H as [H|(i4 & z & _ & H)]; [|discriminate]. destruct (C _ _ _ H) as [x X]. rewrite X. eexists; reflexivity.
  - destruct (starts_with (s "[") i); [|eauto].
    apply bind_err in H as [->|(i1 & [name id] & -> & H)]; [eexists; reflexivity|]. cbn [pbind].
    apply bind_err in H as [->|(i2 & y & -> & H)]; [eexists; reflexivity|]. cbn [pbind].
    apply bind_err in H as [H|(i4 & z & _ & H)]; [|discriminate]. destruct (C _ _ _ H) as [x X]. rewrite X. eexists; reflexivity.
Qed.
(** a container stops here although its next line is one of its own *)
Definition stuck (dfuel n : nat) (r : str) : Prop :=
  closes n r = false /\ forall fuel n', exists e, field_body (kserd_inline dfuel) (kserd_concise dfuel) (kserd_nested (S fuel) dfuel n') (Grammar.skip_blanks (next_line r)) = PErr e.
Lemma stuck_le dfuel n m r : (n <= m)%nat -> stuck dfuel m r -> stuck dfuel n r.
Proof. intros L [C S]. split; [now apply (closes_le n m)|exact S]. Qed.
Lemma loop_ends fuel dfuel n r e : verbose_cntr_field (kserd_inline dfuel) (kserd_concise dfuel) (kserd_nested fuel dfuel (S n)) n r = PErr e ->
  closes n r = true \/ stuck dfuel n r.
Proof. destruct (closes n r) eqn:C; [auto|]. rewrite vcf_open by assumption. intros H. right. split; [exact C|]. now apply (field_err _ _ _ _ _ H). Qed.

(** ** keys *)
Lemma key_keyed dfuel i : (length i < dfuel)%nat -> key_parser (kserd_inline dfuel) i = POk i None -> ~ keyed i.
Proof.
  intros L H (w1 & tk & w2 & r & k & -> & B1 & B2 & V). unfold key_parser, opt, terminated in H.
  rewrite GrammarProps.skip_blanks in H; [|exact B1|apply begins_blank, begins_app, (value_at_begins _ _ _ _ V)]. unfold uncut, kserd_inline in H.
  rewrite !app_length in L. rewrite (value_at_takes dfuel true tk _ k V) in H by lia. cbn [pbind] in H. change (s ":" ++ r) with (ch ":" :: r) in H. rewrite blank_char in H by (assumption || reflexivity). discriminate.
Qed.
Lemma not_keyed dfuel i : (length i < dfuel)%nat -> ~ keyed i -> key_parser (kserd_inline dfuel) i = POk i None.
Proof.
  intros L H. apply key_none. unfold kserd_inline. destruct (skip_blanks_split i) as (w & W & E). pose proof (okl_delimited dfuel true (Grammar.skip_blanks i)) as K.
  assert (LE : (length (Grammar.skip_blanks i) < dfuel)%nat) by (rewrite E, app_length in L; lia). specialize (K LE).
  destruct (kserd_delimited dfuel true (Grammar.skip_blanks i)) as [r k| | | |] eqn:D; cbn [no_key sp] in *; auto.
  destruct (starts_with (s ":") (Grammar.skip_blanks r)) eqn:C; [|reflexivity]. exfalso. apply H. apply delimited_at in D as (tk & D & V); [|apply skip_blanks_stop].
  apply starts_char in C as [z C]. destruct (skip_blanks_split r) as (w2 & W2 & E2). exists w, tk, w2, z, k. rewrite C in E2. change (ch ":" :: z) with (s ":" ++ z) in E2. subst r.
  split; [now rewrite E at 1; rewrite D|]. auto.
Qed.

(** ** only the syntax is accepted *)
Section Sound.
  Variables (fuel dfuel n : nat).
  Hypothesis HN : forall i r k, (length i < dfuel)%nat -> kserd_nested fuel dfuel (S n) i = POk r k -> exists t, i = t ++ r /\ (body_at (S n) t r k \/ stuck dfuel (S n) r /\ fuel <> O).
  Lemma item_at_inv i r f : (length i < dfuel)%nat -> verbose_cntr_field (kserd_inline dfuel) (kserd_concise dfuel) (kserd_nested fuel dfuel (S n)) n i = POk r f ->
    exists w t, i = w ++ t ++ r /\ lead n w /\ (item_at n t r (cf_item f) \/ stuck dfuel (S n) r /\ fuel <> O).
  Proof.
    intros LI. unfold verbose_cntr_field. intros H. apply bind_inv in H as (i1 & x1 & E1 & H). apply bind_inv in H as (i2 & x2 & E2 & H). apply bind_inv in H as (i3 & w3 & E3 & H).
    apply skip_lines_inv in E1 as (w1 & -> & BL). apply indents_inv in E2 as (w2 & -> & ID). apply blank_inv in E3 as (-> & B3 & S3).
    assert (L : lead n (w1 ++ w2 ++ w3)) by (now constructor). clear BL ID B3. assert (LI3 : (length i3 < dfuel)%nat) by (rewrite !app_length in LI; lia). clear LI.
    assert (G : (exists t, i3 = t ++ r /\ (item_at n t r (cf_item f) \/ stuck dfuel (S n) r /\ fuel <> O)) -> exists w t, w1 ++ w2 ++ w3 ++ i3 = w ++ t ++ r /\ lead n w /\ (item_at n t r (cf_item f) \/ stuck dfuel (S n) r /\ fuel <> O)).
    { intros (t & -> & F). exists (w1 ++ w2 ++ w3), t. now rewrite <- !app_assoc. }
    apply G. clear G L.
    match type of H with (if ?x then _ else _) = _ => destruct x end; [discriminate|].
    destruct (starts_with (s ":") i3) eqn:C1.
    { apply starts_with_spec in C1 as [i4 ->]. change (tl (s ":" ++ i4)) with i4 in H. apply bind_inv in H as (i5 & id & E & H). injection H as -> <-.
      apply ignore_inv in E as (w & j & -> & B & _ & E). apply ident_false_at in E as (-> & V & S). exists (s ":" ++ w ++ id). split; [now rewrite <- !app_assoc|]. left. constructor; auto. now apply stop_stops. }
    clear C1. destruct (starts_with (s "[[") i3) eqn:C2.
    { clear C2. apply bind_inv in H as (i4 & [fname id] & E & H). apply context_inv, cut_inv, preceded_inv in E as (i5 & x5 & E5 & E). apply tag_inv in E5 as [-> _].
      apply terminated_inv in E as (i6 & x6 & E & E6). eapply title_inv in E; [|exact E6]. destruct E as (h & -> & T). cbn [fst snd] in T.
      apply bind_inv in H as (i7 & e & E7 & H). apply ignore_inv in E7 as (w & j & -> & B & _ & E7). apply eol_inv in E7 as [-> L].
      assert (LI7 : (length i7 < dfuel)%nat) by (rewrite !app_length in LI3; lia).
      apply bind_inv in H as (i8 & key & E8 & H). pose proof E8 as E8'. apply opt_inv in E8 as [(k & -> & E8)|(-> & -> & _)].
      - clear E8'. apply terminated_inv in E8 as (i9 & x9 & E8 & E9). apply ignore_char_inv in E9 as (w2' & -> & B2). apply ignore_inv in E8 as (w1' & j' & -> & B1 & S1 & E8).
        apply uncut_inv, delimited_at in E8 as (tk & -> & D); [|exact S1]. apply bind_inv in H as (i10 & v & E10 & H). injection H as -> <-.
        apply context_inv, alt2_inv in E10 as [E|E].
        + apply ignore_inv in E as (w3' & j2 & -> & B3 & S3' & E). apply delimited_at in E as (t & -> & D2); [|exact S3'].
          exists (s "[[" ++ h ++ s "]]" ++ w ++ e ++ w1' ++ tk ++ w2' ++ s ":" ++ w3' ++ t). split; [rewrite <- !app_assoc; reflexivity|]. left. now apply A_entry.
        + apply preceded_inv in E as (j2 & e' & E & E'). apply ignore_inv in E as (w3' & j3 & -> & B3 & _ & E). apply eol_inv in E as [-> L'].
          apply HN in E' as (t & -> & D2); [|rewrite !app_length in LI7; cbn [length] in LI7; rewrite !app_length in LI7; lia].
          exists (s "[[" ++ h ++ s "]]" ++ w ++ e ++ w1' ++ tk ++ w2' ++ s ":" ++ w3' ++ e' ++ t). split; [rewrite <- !app_assoc; reflexivity|].
          destruct D2 as [D2|D2]; [left|now right]. now apply A_entry_below.
      - apply key_keyed in E8'; [|exact LI7]. apply bind_inv in H as (i10 & v & E10 & H). injection H as -> <-. apply context_inv, HN in E10 as (t & -> & D); [|exact LI7].
        exists (s "[[" ++ h ++ s "]]" ++ w ++ e ++ t). split; [rewrite <- !app_assoc; reflexivity|]. destruct D as [D|D]; [left|now right]. now apply A_elem. }
    clear C2. destruct (starts_with (s "[") i3) eqn:C3.
    { clear C3. apply bind_inv in H as (i4 & [fname id] & E & H). apply preceded_inv in E as (i5 & x5 & E5 & E). apply tag_inv in E5 as [-> _].
      apply terminated_inv in E as (i6 & x6 & E & E6). eapply title_inv in E; [|exact E6]. destruct E as (h & -> & T). cbn [fst snd] in T.
      apply bind_inv in H as (i7 & e & E7 & H). apply ignore_inv in E7 as (w & j & -> & B & _ & E7). apply eol_inv in E7 as [-> L].
      assert (LI7 : (length i7 < dfuel)%nat) by (rewrite !app_length in LI3; lia).
      apply bind_inv in H as (i10 & v & E10 & H). injection H as -> <-. apply context_inv, HN in E10 as (t & -> & D); [|exact LI7].
      exists (s "[" ++ h ++ s "]" ++ w ++ e ++ t). split; [rewrite <- !app_assoc; reflexivity|]. destruct D as [D|D]; [left|now right]. now apply (A_section n h fname id w e t r v). }
    apply bind_inv in H as (i4 & [fname v] & E & H). injection H as -> <-. apply cut_inv in E. apply (field_at_inv (kserd_inline dfuel) (kserd_concise dfuel)) in E as (t & -> & D).
    - exists t. split; [reflexivity|]. left. now constructor.
    - apply delimited_at.
    - apply delimited_at.
    - exact S3.
  Qed.
  Lemma many_at_inv lfuel : forall acc i r l, (length i < dfuel)%nat -> many0_loop lfuel (verbose_cntr_field (kserd_inline dfuel) (kserd_concise dfuel) (kserd_nested fuel dfuel (S n)) n) acc i = POk r l ->
    exists t l', l = acc ++ l' /\ i = t ++ r /\ ((items_at n t r (map cf_item l') /\ closes n r = true) \/ stuck dfuel n r).
  Proof.
    induction lfuel as [|lfuel IH]; intros acc i r l LI H; [discriminate|]. cbn [many0_loop] in H.
    destruct (verbose_cntr_field _ _ _ n i) as [i1 f|e| | |] eqn:E; try discriminate.
    - destruct (Nat.eqb (length i1) (length i)); [discriminate|]. apply item_at_inv in E as (w & t & -> & L & F); [|exact LI].
      rewrite !app_length in LI. destruct F as [F|[F F0]].
      + apply IH in H as (t' & l' & -> & -> & D); [|lia].
        exists (w ++ t ++ t'), (f :: l'). rewrite <- !app_assoc. split; [reflexivity|]. split; [reflexivity|]. destruct D as [[D C]|D]; [|now right]. cbn [map].
        left; split; [now constructor|exact C].
      + (* the body below got stuck, so the loop ends at once *)
        apply (stuck_le dfuel n (S n)) in F; [|lia]. destruct lfuel as [|lfuel]; [discriminate|]. cbn [many0_loop] in H. pose proof F as [FC FE]. rewrite vcf_open in H by assumption.
        destruct fuel as [|fuel']; [congruence|]. destruct (FE fuel' (S n)) as [e FE']. rewrite FE' in H. injection H as -> <-.
        exists (w ++ t), [f]. rewrite <- !app_assoc. auto.
    - injection H as -> ->. exists [], []. rewrite app_nil_r. split; [reflexivity|]. split; [reflexivity|].
      apply loop_ends in E as [E|E]; [left|now right]. split; [constructor|exact E].
  Qed.
  Lemma container_at_inv i r k : (length i < dfuel)%nat -> cntr_verbose (kserd_inline dfuel) (kserd_concise dfuel) (kserd_nested fuel dfuel (S n)) n i = POk r k ->
    exists t, i = t ++ r /\ ((exists l, items_at n t r l /\ closes n r = true /\ k = container l) \/ stuck dfuel n r).
  Proof.
    intros LI. unfold cntr_verbose. intros H. apply bind_inv in H as (j & fs & E & H). injection H as -> <-. apply many_at_inv in E as (t & l' & -> & -> & D); [|exact LI].
    exists t. split; [reflexivity|]. destruct D as [[D C]|D]; [left|now right]. exists (map cf_item l'). cbn [app]. now rewrite assemble_container.
  Qed.
End Sound.
Theorem nested_at_inv fuel dfuel : forall n i r k, (length i < dfuel)%nat -> kserd_nested fuel dfuel n i = POk r k -> exists t, i = t ++ r /\ (body_at n t r k \/ stuck dfuel n r).
Proof.
  induction fuel as [|fuel IH]; intros n i r k LI H; [discriminate|]. cbn [kserd_nested] in H. rewrite pattern_verbose in H. cbn [pbind] in H.
  destruct (verbose_first i) eqn:V.
  - apply container_at_inv in H as (t & -> & D); [exists t; split; [reflexivity|]|..|exact LI].
    + destruct D as [(l & D & C & ->)|D]; [left|now right]. now constructor.
    + intros i' r' k' L' H'. pose proof H' as H2. apply IH in H' as (t & -> & D); [|exact L']. exists t. split; [reflexivity|]. destruct D as [D|D]; [now left|right]. split; [exact D|]. intros ->. discriminate.
  - apply ignore_inv in H as (w & j & -> & B & S & H). apply delimited_at in H as (t & -> & D); [|exact S].
    exists (w ++ t). split; [now rewrite app_assoc|]. left. constructor; auto.
Qed.
Lemma stuck_root dfuel r : stuck dfuel 0 r -> spaces r -> False.
Proof.
  intros [C S] SP. specialize (S O O) as [e S]. destruct (next_line_spec r) as (w & ER & _). unfold closes in C. apply orb_false_iff in C as [C _]. pose proof (all_blank_skip _ C) as NE.
  pose proof (next_line_stuck r) as K. pose proof (skip_blanks_stop (next_line r)) as ST. destruct (skip_blanks_split (next_line r)) as (w2 & _ & E2). rewrite E2 in ER.
  rewrite ER in SP. unfold spaces in SP. rewrite !forallb_app, !andb_true_iff in SP. destruct SP as (_ & _ & SP). destruct (Grammar.skip_blanks (next_line r)) as [|c u]; [congruence|].
  cbn [stops] in ST. cbn [forallb] in SP. apply andb_true_iff in SP as [SP _]. destruct K as [K|K]; [|discriminate]. clear -K ST SP S.
  unfold space in SP. apply mem_In in SP. unfold blank in ST. cbn in SP. repeat (destruct SP as [<-|SP]; [try discriminate|]); try contradiction.
Qed.
Theorem parse_syntax src k : parse src = ParseOk k -> syntax src k.
Proof.
  unfold parse. destruct (kserd_root src) as [r a| | | |] eqn:E; intros H; try discriminate. injection H as <-.
  unfold kserd_root in E. destruct src as [|c src]; [discriminate|]. set (i := c :: src) in *. clearbody i. clear c src.
  unfold all_consuming in E. apply bind_inv in E as (j & x & E & H). destruct j; [|discriminate]. injection H as <- <-.
  apply terminated_inv in E as (j & w & E & H). apply space_inv in H as (-> & B & _). rewrite app_nil_r in *.
  apply nested_at_inv in E as (t & -> & [D|D]); [|exfalso; eapply stuck_root; eassumption|lia].
  inversion D as [n w1 u r v B1 V NV|n u r l I V C]; subst.
  - rewrite <- app_assoc. constructor; auto.
  - unfold closes in C. cbn [indented negb] in C. rewrite orb_false_r in C. destruct (next_line_spec w) as (w1 & EW & BL). set (x := next_line w) in *. clearbody x. subst w. now constructor.
Qed.

(** ** all of the syntax is accepted *)
Lemma titlef_ok h name id cl r : titlef h name id -> (cl = s "]" \/ cl = s "]]") ->
  terminated verbose_field_name_and_identity (ignore_ws (tag cl)) (h ++ cl ++ r) = POk r (name, id).
Proof.
  intros T CL. assert (C : exists z, cl ++ r = ch "]" :: z) by (destruct CL as [->| ->]; eexists; reflexivity). destruct C as [z C].
  assert (TG : forall w, blanks w -> ignore_ws (tag cl) (w ++ cl ++ r) = POk r cl).
  { intros w W. rewrite GrammarProps.skip_blanks; [apply tag_ok|exact W|]. rewrite C. reflexivity. }
  destruct name as [|c name].
  2:{ apply title_ok; [|exact CL]. inversion T; subst; constructor; auto; discriminate. }
  unfold terminated, verbose_field_name_and_identity, context. inversion T as [w1 nm w2 A D E|w1 nm w2 w3 i w4 A D E F G H]; subst; rewrite <- !app_assoc; cbn [app]; rewrite (app_assoc w1).
  - rewrite GrammarProps.skip_blanks; [|now apply blanks_app|now rewrite C]. unfold field_name, ptake_while. rewrite take_names.
    assert (TK : take_while name_char (cl ++ r) = ([], cl ++ r)) by (rewrite C; reflexivity).
    rewrite TK. cbn [pbind]. rewrite ignore_ws_skip, C. rewrite skip_blanks_id by reflexivity. rewrite char_err by discriminate. cbn [pbind].
    rewrite <- C. pose proof (TG [] eq_refl) as T0. cbn [app] in T0. rewrite T0. reflexivity.
  - rewrite GrammarProps.skip_blanks; [|now apply blanks_app|reflexivity]. unfold field_name, ptake_while. rewrite take_names.
    change (s ":" ++ w3 ++ i ++ w4 ++ cl ++ r) with (ch ":" :: (w3 ++ i ++ w4 ++ cl ++ r)). cbn [take_while]. change (name_char (ch ":")) with false. cbv iota. cbn [pbind].
    change (ch ":" :: (w3 ++ i ++ w4 ++ cl ++ r)) with ([] ++ ch ":" :: (w3 ++ i ++ w4 ++ cl ++ r)).
    rewrite blank_char by reflexivity. rewrite GrammarProps.skip_blanks; [|exact F|].
    2:{ apply id_name in G as [G1 G2]. now apply solid_blank, name_solid. }
    rewrite ident_ok; [|exact G|rewrite C; now apply blanks_stop_name]. cbn [pbind]. rewrite TG by assumption. reflexivity.
Qed.
Lemma titlef_first h name id r : titlef h name id -> starts_with (s "[[") (s "[" ++ h ++ s "]" ++ r) = false.
Proof.
  intros T. assert (X : exists c z, h ++ s "]" ++ r = c :: z /\ c <> ch "[").
  { assert (B : forall w x, blanks w -> (exists c z, x = c :: z /\ c <> ch "[") -> exists c z, w ++ x = c :: z /\ c <> ch "[").
    { intros w x W (c & z & -> & N). destruct w as [|d w]; [exists c, z; auto|]. exists d, (w ++ c :: z). split; [reflexivity|]. intros ->. discriminate W. }
    assert (F : forall w x, forallb name_char w = true -> (exists c z, x = c :: z /\ c <> ch "[") -> exists c z, w ++ x = c :: z /\ c <> ch "[").
    { intros w x W (c & z & -> & N). destruct w as [|d w]; [exists c, z; auto|]. exists d, (w ++ c :: z). split; [reflexivity|]. intros ->. discriminate W. }
    destruct T; rewrite <- !app_assoc; (apply B; [assumption|]); (apply F; [assumption|]); (apply B; [assumption|]); eexists; eexists; (split; [reflexivity|discriminate]). }
  destruct X as (c & z & -> & N). change (starts_with (s "[[") (s "[" ++ c :: z)) with ((ch "[" =? c) && true). destruct (N.eqb_spec (ch "[") c) as [<-|]; [congruence|reflexivity].
Qed.
Lemma item_at_solid n t r i : item_at n t r i -> solid t.
Proof.
  intros H. destruct H as [ | ? ? ? ? ? FF| | | | ]; try reflexivity. destruct FF as [nm a1 a2 uu rr kk F1 F2 F3 F4 R].
  destruct nm as [|y nm]; [rewrite (F2 eq_refl); reflexivity|]. cbn [forallb] in F1. apply andb_true_iff in F1 as [F1 _]. apply starts_solid. cbn. now apply name_start.
Qed.
Definition nested_takes (p : parser kserd) (n len dfuel : nat) : Prop :=
  forall t r v, body_at n t r v -> (length t < len)%nat -> (length (t ++ r) < dfuel)%nat -> p (t ++ r) = POk r v.
Lemma item_takes dfuel nested n len w t i rest : nested_takes nested (S n) len dfuel -> lead n w -> item_at n t rest i -> (length t <= len)%nat -> (length (t ++ rest) < dfuel)%nat ->
  exists f, verbose_cntr_field (kserd_inline dfuel) (kserd_concise dfuel) nested n (w ++ t ++ rest) = POk rest f /\ cf_item f = i.
Proof.
  intros NO LE IT L1 L2. rewrite lead_field; [|exact LE|eapply solid_app, item_at_solid; eassumption].
  destruct (dfuel_S _ _ L2) as [df ED].
  unfold field_body. destruct IT as [n w' id r W I S|n t r name v F|n h name id w' e t r v T W EO B|n h name id w' e t r v T W EO B K|n h name id w' e w1 tk k w2 w3 t r v T W EO W1 RK W2 W3 RV|n h name id w' e w1 tk k w2 w3 e' t r v T W EO W1 RK W2 W3 EO' B].
  - exists (CfId id). split; [|reflexivity]. rewrite <- !app_assoc. change (starts_with (s ":") (s ":" ++ w' ++ id ++ r)) with true. cbv iota. change (tl (s ":" ++ w' ++ id ++ r)) with (w' ++ id ++ r).
    apply id_name in I as I'. destruct I' as [I1 I2]. rewrite GrammarProps.skip_blanks; [|exact W|now apply solid_blank, name_solid]. rewrite ident_ok; [reflexivity|exact I|now apply stop_stops].
  - exists (CfDirect name v). split; [|reflexivity].
    assert (NB : forall x p, x = ch "[" \/ x = ch ":" -> starts_with (x :: p) (t ++ r) = false).
    { intros x p X. inversion F as [nm v1 v2 u rr kk FN NW B1 B2 R EQ1 EQ2 EQ3]. subst. destruct name as [|y name].
      - rewrite (NW eq_refl). destruct X as [->| ->]; reflexivity.
      - cbn [forallb] in FN. apply andb_true_iff in FN as [FN _]. cbn [app starts_with]. destruct (N.eqb_spec x y) as [<-|]; [destruct X as [->| ->]; discriminate FN|reflexivity]. }
    change (s ":") with [ch ":"]. change (s "[[") with (ch "[" :: s "["). rewrite !NB by auto. change (s "[") with [ch "["]. rewrite NB by auto. unfold cut.
    rewrite app_length in L2. rewrite (field_at_takes (kserd_inline dfuel) (kserd_concise dfuel) false (value_at false) dfuel (value_at_takes dfuel false) (value_at_begins false) t r (name, v) F) by lia. reflexivity.
  - exists (CfNested name (default_id id v)). split; [|reflexivity]. rewrite !app_length in L1. rewrite !app_length in L2. change (length (s "[")) with 1%nat in *. change (length (s "]")) with 1%nat in *.
    replace ((s "[" ++ h ++ s "]" ++ w' ++ e ++ t) ++ r) with (s "[" ++ h ++ s "]" ++ (w' ++ e ++ t ++ r)) by now rewrite <- !app_assoc.
    change (starts_with (s ":") (s "[" ++ h ++ s "]" ++ (w' ++ e ++ t ++ r))) with false. rewrite (titlef_first _ _ _ _ T). change (starts_with (s "[") (s "[" ++ h ++ s "]" ++ (w' ++ e ++ t ++ r))) with true. cbv iota.
    unfold preceded. rewrite tag_ok. cbn [pbind]. rewrite (titlef_ok h name id (s "]")) by auto. cbn [pbind]. rewrite blank_eol by assumption. cbn [pbind]. unfold context.
    rewrite (NO t r v B); [reflexivity|lia|rewrite app_length; lia].
  - exists (CfSeq id name v). split; [|reflexivity]. rewrite !app_length in L1. rewrite !app_length in L2. change (length (s "[[")) with 2%nat in *. change (length (s "]]")) with 2%nat in *.
    replace ((s "[[" ++ h ++ s "]]" ++ w' ++ e ++ t) ++ r) with (s "[[" ++ h ++ s "]]" ++ (w' ++ e ++ t ++ r)) by now rewrite <- !app_assoc.
    change (starts_with (s ":") (s "[[" ++ h ++ s "]]" ++ (w' ++ e ++ t ++ r))) with false. change (starts_with (s "[[") (s "[[" ++ h ++ s "]]" ++ (w' ++ e ++ t ++ r))) with true. cbv iota.
    unfold preceded at 1. unfold context at 1, cut. rewrite tag_ok. cbn [pbind]. rewrite (titlef_ok h name id (s "]]")) by auto. cbn [pbind]. rewrite blank_eol by assumption. cbn [pbind].
    rewrite not_keyed by (auto; rewrite app_length; lia). cbn [pbind]. unfold context. rewrite (NO t r v B); [reflexivity|lia|rewrite app_length; lia].
  - exists (CfMap id name k v). split; [|reflexivity]. rewrite !app_length in L1. rewrite !app_length in L2. change (length (s "[[")) with 2%nat in *. change (length (s "]]")) with 2%nat in *.
    replace ((s "[[" ++ h ++ s "]]" ++ w' ++ e ++ w1 ++ tk ++ w2 ++ s ":" ++ w3 ++ t) ++ r) with (s "[[" ++ h ++ s "]]" ++ (w' ++ e ++ w1 ++ tk ++ w2 ++ s ":" ++ w3 ++ t ++ r)) by now rewrite <- !app_assoc.
    set (z := w' ++ e ++ w1 ++ tk ++ w2 ++ s ":" ++ w3 ++ t ++ r).
    change (starts_with (s ":") (s "[[" ++ h ++ s "]]" ++ z)) with false. change (starts_with (s "[[") (s "[[" ++ h ++ s "]]" ++ z)) with true. cbv iota.
    unfold preceded at 1. unfold context at 1, cut. rewrite tag_ok. cbn [pbind]. rewrite (titlef_ok h name id (s "]]")) by auto. cbn [pbind]. unfold z. rewrite blank_eol by assumption. cbn [pbind].
    unfold key_parser, opt, terminated. rewrite GrammarProps.skip_blanks; [|exact W1|apply begins_blank, begins_app, (value_at_begins _ _ _ _ RK)]. unfold uncut, kserd_inline.
    rewrite (value_at_takes dfuel true tk _ k RK) by lia. cbn [pbind].
    change (s ":" ++ w3 ++ t ++ r) with (ch ":" :: (w3 ++ t ++ r)). rewrite blank_char by (assumption || reflexivity). cbn [pbind]. unfold context, alt2.
    rewrite GrammarProps.skip_blanks; [|exact W3|apply begins_blank, begins_app, (value_at_begins _ _ _ _ RV)]. unfold kserd_concise.
    rewrite (value_at_takes dfuel false t r v RV) by lia. reflexivity.
  - exists (CfMap id name k v). split; [|reflexivity]. rewrite !app_length in L1. rewrite !app_length in L2. change (length (s "[[")) with 2%nat in *. change (length (s "]]")) with 2%nat in *.
    replace ((s "[[" ++ h ++ s "]]" ++ w' ++ e ++ w1 ++ tk ++ w2 ++ s ":" ++ w3 ++ e' ++ t) ++ r) with (s "[[" ++ h ++ s "]]" ++ (w' ++ e ++ w1 ++ tk ++ w2 ++ s ":" ++ w3 ++ e' ++ t ++ r)) by now rewrite <- !app_assoc.
    set (z := w' ++ e ++ w1 ++ tk ++ w2 ++ s ":" ++ w3 ++ e' ++ t ++ r).
    change (starts_with (s ":") (s "[[" ++ h ++ s "]]" ++ z)) with false. change (starts_with (s "[[") (s "[[" ++ h ++ s "]]" ++ z)) with true. cbv iota.
    unfold preceded at 1. unfold context at 1, cut. rewrite tag_ok. cbn [pbind]. rewrite (titlef_ok h name id (s "]]")) by auto. cbn [pbind]. unfold z. rewrite blank_eol by assumption. cbn [pbind].
    unfold key_parser, opt, terminated. rewrite GrammarProps.skip_blanks; [|exact W1|apply begins_blank, begins_app, (value_at_begins _ _ _ _ RK)]. unfold uncut, kserd_inline.
    rewrite (value_at_takes dfuel true tk _ k RK) by lia. cbn [pbind].
    change (s ":" ++ w3 ++ e' ++ t ++ r) with (ch ":" :: (w3 ++ e' ++ t ++ r)). rewrite blank_char by (assumption || reflexivity). cbn [pbind]. unfold context, alt2.
    assert (D : exists y q, e' ++ t ++ r = y :: q /\ dull y = true) by (destruct EO' as [->| ->]; eexists; eexists; split; reflexivity). destruct D as (y & q & EY & D).
    rewrite GrammarProps.skip_blanks; [|exact W3|rewrite EY; dull D]. unfold kserd_concise. rewrite ED. rewrite EY at 1. destruct (delimited_dull df false y q D) as [e0 ->].
    unfold preceded. rewrite blank_eol by assumption. cbn [pbind]. rewrite (NO t r v B); [reflexivity|lia|rewrite app_length; lia].
Qed.
Lemma items_take dfuel nested n len t r l : nested_takes nested (S n) len dfuel -> items_at n t r l -> closes n r = true -> (length t <= len)%nat -> (length (t ++ r) < dfuel)%nat ->
  forall lfuel acc, (length t < lfuel)%nat -> exists fs, many0_loop lfuel (verbose_cntr_field (kserd_inline dfuel) (kserd_concise dfuel) nested n) acc (t ++ r) = POk r (acc ++ fs) /\ map cf_item fs = l.
Proof.
  intros NO H. revert NO. induction H as [n r|n w t i u l r LE IT _ IH]; intros NO C L1 L2 lfuel acc LF; (destruct lfuel as [|lfuel]; [lia|]); cbn [many0_loop].
  - cbn [app]. destruct (field_closed (kserd_inline dfuel) (kserd_concise dfuel) nested n r C) as [e ->]. exists []. now rewrite app_nil_r.
  - rewrite <- !app_assoc in *. rewrite !app_length in L1, LF. rewrite !app_length in L2.
    destruct (item_takes dfuel nested n len w t i (u ++ r) NO LE IT ltac:(lia) ltac:(rewrite !app_length; lia)) as (f & -> & FI).
    assert (NE : (0 < length t)%nat) by (apply item_at_nonempty in IT; destruct t; [congruence|cbn; lia]).
    replace (Nat.eqb _ _) with false by (symmetry; apply Nat.eqb_neq; rewrite !app_length; lia).
    destruct (IH NO C ltac:(lia) ltac:(rewrite app_length; lia) lfuel (acc ++ [f]) ltac:(lia)) as (fs & -> & FS). exists (f :: fs). rewrite <- app_assoc. split; [reflexivity|]. cbn [map]. congruence.
Qed.
Lemma body_at_takes dfuel : forall fuel n, nested_takes (kserd_nested fuel dfuel n) n fuel dfuel.
Proof.
  induction fuel as [|fuel IH]; intros n t r v B L L2; [lia|]. cbn [kserd_nested]. rewrite pattern_verbose. cbn [pbind]. destruct B as [n w t r v W V F|n t r l H F C].
  - rewrite <- app_assoc in *. rewrite F. rewrite !app_length in L2. rewrite GrammarProps.skip_blanks; [|exact W|apply begins_blank, begins_app, (value_at_begins _ _ _ _ V)].
    apply value_at_takes; [exact V|lia].
  - rewrite F. unfold cntr_verbose, many0. destruct (items_take dfuel (kserd_nested fuel dfuel (S n)) n fuel t r l (IH (S n)) H C ltac:(lia) L2 (S (length (t ++ r))) [] ltac:(rewrite app_length; lia)) as (fs & -> & <-).
    cbn [pbind app]. now rewrite assemble_container.
Qed.
Lemma root_takes t r v : t ++ r <> [] -> body_at 0 t r v -> spaces r -> parse (t ++ r) = ParseOk v.
Proof.
  intros NE B S. unfold parse, kserd_root. destruct (t ++ r) as [|c i] eqn:E; [congruence|]. rewrite <- E. clear c i NE E. unfold all_consuming, terminated.
  rewrite (body_at_takes (Datatypes.S (length (t ++ r))) (Datatypes.S (length (t ++ r))) 0 t r v B); [|rewrite app_length; lia|lia].
  cbn [pbind]. rewrite <- (app_nil_r r) at 1. rewrite take_spaces by (auto; exact Logic.I). reflexivity.
Qed.
Theorem syntax_parse src k : syntax src k -> parse src = ParseOk k.
Proof.
  intros [w1 t w2 v B1 V B2 F|t l w1 w2 H B1 B2 F].
  - rewrite app_assoc. apply root_takes; [|now constructor|exact B2]. pose proof (value_at_begins _ _ _ _ V). destruct t; [contradiction|]. destruct w1; discriminate.
  - apply root_takes; [intros E; rewrite E in F; discriminate|constructor; auto; now apply rest_closes|].
    apply spaces_app; [|now apply blanks_spaces]. clear -B1. induction B1 as [|w e r W E _ IH]; [reflexivity|]. apply spaces_app; [now apply blanks_spaces|]. apply spaces_app; [now apply eol_spaces|exact IH].
Qed.
