(** The parser reads every text of the verbose grammar. *)
From Verif Require Import Base F64 Number BTree Value BaseProps BTreeProps Base91 Nom Parse ParseErr ParseSpec ParseProps Grammar GrammarProps VGrammar VGrammarProps VAssemble.
Open Scope N_scope.

(** texts with something in them *)
Definition firm (t : str) : Prop := exists a c z, t = a ++ c :: z /\ spaces a /\ space c = false.
Lemma firm_tail c t : firm (c :: t) -> space c = true -> firm t.
Proof.
  intros (a & d & z & E & A & D) S. destruct a as [|x a]; cbn [app] in E; injection E as -> ->; [congruence|]. unfold spaces in A. cbn [forallb] in A. apply andb_true_iff in A as [_ A]. now exists a, d, z.
Qed.
Lemma firm_cons c t : firm t -> space c = true -> firm (c :: t).
Proof. intros (a & d & z & -> & A & D) S. exists (c :: a), d, z. split; [reflexivity|]. split; [|exact D]. unfold spaces. cbn [forallb]. now rewrite S. Qed.
Lemma firm_nil : ~ firm []. Proof. intros (a & c & z & E & _). destruct a; discriminate. Qed.
Lemma firm_solid w t : spaces w -> solid t -> firm (w ++ t).
Proof. intros W S. destruct t as [|c t]; [contradiction|]. now exists w, c, t. Qed.
Lemma firm_app a b : firm a -> firm (a ++ b).
Proof. intros (x & c & z & -> & A & D). exists x, c, (z ++ b). split; [|auto]. rewrite <- app_assoc. reflexivity. Qed.
Lemma blank_lines_spaces a : blank_lines a -> spaces a.
Proof. induction 1 as [|w e r W E _ IH]; [reflexivity|]. apply spaces_app; [now apply blanks_spaces|]. apply spaces_app; [now apply eol_spaces|exact IH]. Qed.
Lemma lead_spaces n w : lead n w -> spaces w.
Proof. intros [a b c A B C]. apply spaces_app; [now apply blank_lines_spaces|]. apply spaces_app; apply blanks_spaces; [now apply indents_blanks in B|exact C]. Qed.
Lemma list_firm n t l b : vlist n t l b -> firm t.
Proof.
  intros [n0 w u i b0 c W I|n0 w u i b0 c r l0 b' W I _ _ _ _].
  - apply firm_solid; [eapply lead_spaces; eassumption|eapply item_solid; eassumption].
  - rewrite app_assoc. apply firm_app, firm_solid; [eapply lead_spaces; eassumption|eapply item_solid; eassumption].
Qed.
(** what follows a firm text does not change where it starts *)
Lemma firm_skip t r : firm t -> Grammar.skip_blanks (t ++ r) = Grammar.skip_blanks t ++ r.
Proof.
  intros F. apply skip_blanks_app2. induction t as [|c t IH]; [now apply firm_nil in F|]. cbn [Grammar.skip_blanks]. destruct (blank c) eqn:B; [|discriminate].
  apply IH. eapply firm_tail; [exact F|now apply blank_space].
Qed.
Lemma at_eol_app t r : t <> [] -> at_eol t = true -> at_eol (t ++ r) = true.
Proof. intros NE H. destruct (line_ending_cases t H NE) as (e & z & [->| ->] & ->); reflexivity. Qed.
Lemma firm_line_ends t r : firm t -> line_ends t = true -> line_ends (t ++ r) = true.
Proof.
  intros F H. unfold line_ends in *. rewrite firm_skip by assumption. apply at_eol_app; [|exact H]. intros E. pose proof (firm_skip t [] F) as X. rewrite app_nil_r in X. rewrite E in *.
  clear H X. induction t as [|c t IH]; [now apply firm_nil in F|]. cbn [Grammar.skip_blanks] in E. destruct (blank c) eqn:B; [|discriminate]. apply IH; [|exact E]. eapply firm_tail; [exact F|now apply blank_space].
Qed.
Lemma firm_opens t r : firm t -> opens (t ++ r) = opens t.
Proof. intros (a & c & z & -> & A & D). rewrite <- app_assoc, (spaces_opens a ((c :: z) ++ r)), (spaces_opens a (c :: z)) by assumption. cbn [app opens]. now rewrite D. Qed.
Lemma firm_first r t : firm t -> forall st, firm st -> first_line (st ++ r) (t ++ r) = first_line st t ++ r /\ firm (first_line st t).
Proof.
  remember (length t) as n. assert (L : (length t <= n)%nat) by lia. clear Heqn. revert t L. induction n as [|n IH]; intros t L F st FS.
  - destruct t; [now apply firm_nil in F|cbn in L; lia].
  - destruct t as [|c t]; [now apply firm_nil in F|]. cbn [length] in L. cbn [app first_line]. destruct (blank c) eqn:B.
    + apply IH; [lia|eapply firm_tail; [exact F|now apply blank_space]|exact FS].
    + destruct (N.eqb_spec c 10) as [->|N1].
      * assert (FT : firm t) by (eapply firm_tail; [exact F|reflexivity]). apply IH; [lia|exact FT|exact FT].
      * destruct (N.eqb_spec c 13) as [->|N2]; [|now split].
        assert (FT : firm t) by (eapply firm_tail; [exact F|reflexivity]). destruct t as [|d t]; [now apply firm_nil in FT|]. cbn [app]. destruct (N.eqb_spec d 10) as [->|N3]; [|now split].
        assert (FT2 : firm t) by (eapply firm_tail; [exact FT|reflexivity]). apply IH; [cbn [length] in L; lia|exact FT2|exact FT2].
Qed.
Lemma firm_starts k r t : firm t -> starts_with (repeat 32 k) (t ++ r) = starts_with (repeat 32 k) t /\
  (starts_with (repeat 32 k) t = true -> firm (skipn k t) /\ skipn k (t ++ r) = skipn k t ++ r).
Proof.
  revert t. induction k as [|k IH]; intros t F; cbn [repeat starts_with]; [now split|]. destruct t as [|c t]; [now apply firm_nil in F|]. cbn [app skipn].
  destruct (N.eqb_spec 32 c) as [<-|N]; cbn [andb]; [|split; [reflexivity|discriminate]]. apply IH. eapply firm_tail; [exact F|reflexivity].
Qed.
Lemma firm_indented n r : forall t, firm t -> indented n (t ++ r) = indented n t.
Proof.
  induction n as [|n IH]; intros t F; [reflexivity|]. cbn [indented]. change (s "    ") with (repeat 32 4). destruct (firm_starts 4 r t F) as [E1 E2]. rewrite E1.
  destruct (starts_with (repeat 32 4) t).
  - destruct (E2 eq_refl) as [E3 E4]. rewrite E4. now apply IH.
  - destruct t as [|c t]; [now apply firm_nil in F|]. cbn [app]. destruct (N.eqb_spec c 9) as [->|]; [|reflexivity]. cbn [andb]. apply IH. eapply firm_tail; [exact F|reflexivity].
Qed.
Lemma firm_blank t : firm t -> forallb blank t = false.
Proof.
  intros (a & c & z & -> & A & D). rewrite forallb_app. cbn [forallb]. rewrite (space_blank c D). cbn [andb]. apply andb_false_r.
Qed.
Lemma firm_closes n t r : firm t -> closes n t = true -> closes n (t ++ r) = true.
Proof.
  intros F. unfold closes, next_line. destruct (firm_first r t F t F) as [-> F2]. rewrite firm_blank by assumption. cbn [orb]. intros H.
  rewrite firm_indented by assumption. rewrite H. apply orb_true_r.
Qed.

(** ** lists of items *)
Lemma list_ok dfuel nested n len t l b rest : nested_ok nested (S n) len -> vlist n t l b -> (length t <= len)%nat -> (length t < dfuel)%nat ->
  line_ends rest = true -> (b = true -> opens rest = false) -> closes n rest = true ->
  exists fs, map cf_item fs = l /\
  forall acc fuel, (length (t ++ rest) < fuel)%nat ->
  many0_loop fuel (verbose_cntr_field (kserd_inline dfuel) (kserd_concise dfuel) nested n) acc (t ++ rest) = POk rest (acc ++ fs).
Proof.
  intros NO V. set (p := verbose_cntr_field (kserd_inline dfuel) (kserd_concise dfuel) nested n).
  assert (LT : forall m (w u z : str), solid u -> (length (w ++ u ++ z) < m)%nat -> (1 <= length u)%nat /\ Nat.eqb (length z) (length (w ++ u ++ z)) = false /\ exists k, m = S (S k) /\ (length z < S k)%nat).
  { intros m w u z S L. destruct u as [|c u]; [contradiction|]. rewrite !app_length in *. cbn [length] in *. split; [lia|]. split; [apply Nat.eqb_neq; lia|]. destruct m as [|[|m]]; [lia|lia|]. exists m. split; [reflexivity|]. lia. }
  induction V as [n w u i b c W I|n w u i b c r l b' W I V IH LE OP CL]; intros L1 L2 E O C; rewrite app_length in L1, L2.
  - destruct (item_ok dfuel nested n len w u i b c rest NO W I ltac:(lia) ltac:(lia) E O ltac:(intros _; now apply closes_S)) as (f & P & F).
    exists [f]. cbn [map]. split; [now rewrite F|]. intros acc fuel L. rewrite <- app_assoc in L |- *. destruct (LT fuel w u rest (item_solid _ _ _ _ _ I) L) as (_ & NE & k & -> & _).
    cbn [many0_loop]. fold p in P. rewrite P, NE. destruct (field_closed (kserd_inline dfuel) (kserd_concise dfuel) nested n rest C) as [e X]. fold p in X. now rewrite X.
  - rewrite app_length in L1, L2. pose proof (list_firm _ _ _ _ V) as FR. destruct (IH NO ltac:(lia) ltac:(lia) E O C) as (fs & FS & IH').
    destruct (item_ok dfuel nested n len w u i b c (r ++ rest) NO W I ltac:(lia) ltac:(lia) ltac:(now apply firm_line_ends) ltac:(intros X; rewrite firm_opens by assumption; now apply OP) ltac:(intros X; now apply firm_closes, CL)) as (f & P & F).
    exists (f :: fs). cbn [map]. split; [now rewrite F, FS|]. intros acc fuel L. rewrite <- !app_assoc in L |- *. destruct (LT fuel w u (r ++ rest) (item_solid _ _ _ _ _ I) L) as (_ & NE & k & -> & LK).
    change (many0_loop (S (S k)) p acc (w ++ u ++ r ++ rest)) with
      (match p (w ++ u ++ r ++ rest) with
      | PErr _ => POk (w ++ u ++ r ++ rest) acc | PFail e => PFail e | PPanic => PPanic | PFuel => PFuel
      | POk i1 a => if Nat.eqb (length i1) (length (w ++ u ++ r ++ rest)) then PErr [(w ++ u ++ r ++ rest, ENom NkMany0)] else many0_loop (S k) p (acc ++ [a]) i1 end).
    fold p in P. rewrite P, NE. fold p in IH'. rewrite IH' by exact LK. now rewrite <- app_assoc.
Qed.

(** ** the first line *)
Lemma assigns_app t r : assigns t = true -> assigns (t ++ r) = true.
Proof.
  induction t as [|c t IH]; [discriminate|]. cbn [app assigns]. intros H. apply orb_true_iff in H as [->|H]; [reflexivity|]. apply andb_true_iff in H as [-> H]. rewrite IH by assumption. apply orb_true_r.
Qed.
Lemma starts_app_r p t r : starts_with p t = true -> starts_with p (t ++ r) = true.
Proof.
  revert t. induction p as [|x p IH]; intros t; [reflexivity|]. destruct t as [|c t]; [discriminate|]. cbn [app starts_with]. intros H. apply andb_true_iff in H as [-> H]. now apply IH.
Qed.
Lemma bracketed_app t r : bracketed t = true -> bracketed (t ++ r) = true.
Proof.
  destruct t as [|c t]; [discriminate|]. cbn [app bracketed]. intros H. apply andb_true_iff in H as [-> H]. cbn [andb].
  assert (NE : Grammar.skip_blanks t <> []) by (intros E; rewrite E in H; discriminate). rewrite skip_blanks_app2 by assumption.
  pose proof (take_while_app name_char (Grammar.skip_blanks t)) as A. pose proof (take_while_all name_char (Grammar.skip_blanks t)) as F. pose proof (take_while_rest name_char (Grammar.skip_blanks t)) as R.
  destruct (take_while name_char (Grammar.skip_blanks t)) as [i q]. cbn [fst snd] in *. apply andb_true_iff in H as [I H].
  assert (NQ : q <> []) by (intros ->; discriminate).
  assert (TK : take_while name_char (Grammar.skip_blanks t ++ r) = (i, q ++ r)).
  { rewrite <- A, <- app_assoc. apply take_while_spec; [exact F|]. now apply stops_app. }
  rewrite TK, I. cbn [andb]. rewrite skip_blanks_app2 by (intros E; rewrite E in H; discriminate). now apply starts_app_r.
Qed.
Lemma firm_trim t r : firm t -> trim (t ++ r) = trim t ++ r.
Proof. intros (a & c & z & -> & A & D). rewrite <- app_assoc. cbn [app]. rewrite !trim_app by assumption. reflexivity. Qed.
Lemma verbose_first_app t r : firm t -> verbose_first t = true -> verbose_first (t ++ r) = true.
Proof.
  intros F. unfold verbose_first, verbose_start. rewrite firm_trim by assumption. intros H. apply orb_true_iff in H as [H|H]; [now rewrite starts_app_r|].
  apply orb_true_iff in H as [H|H]; [|rewrite (bracketed_app _ r H), !orb_true_r; reflexivity]. apply orb_true_iff in H as [H|H]; [rewrite (starts_app_r _ _ r H)|rewrite (assigns_app _ r H)]; now rewrite !orb_true_r.
Qed.
Lemma pattern_verbose t : pattern_match_verbose t = POk t (verbose_first t).
Proof.
  unfold pattern_match_verbose, verbose_first, verbose_start. destruct (trim_spec t) as [w ->]. cbn [pbind]. rewrite assign_eq, encased_eq, !orb_assoc. reflexivity.
Qed.
Lemma list_len n t l b : vlist n t l b -> (1 <= length t)%nat.
Proof. intros V. apply list_firm in V. destruct t; [now apply firm_nil in V|cbn; lia]. Qed.

Lemma body_ok dfuel : forall fuel n, (fuel <= dfuel)%nat -> nested_ok (kserd_nested fuel dfuel n) n fuel.
Proof.
  induction fuel as [|fuel IH]; intros n LD t v b c rest B L E O C; [lia|]. cbn [kserd_nested]. rewrite pattern_verbose. cbn [pbind].
  destruct B as [n w u v b W R NV|n t l b V VF].
  - pose proof (reads_start false u v b R) as ST. rewrite app_length in L. rewrite <- app_assoc.
    assert (X : verbose_first (w ++ u ++ rest) = false).
    { unfold verbose_first. rewrite trim_app; [|now apply blanks_spaces|now apply starts_space, starts_app]. rewrite starts_not_colon by now apply starts_app. cbn [orb]. now apply NV. }
    rewrite X. rewrite GrammarProps.skip_blanks; [|exact W|now apply starts_blank, starts_app]. apply (reads_ok dfuel false u v b rest R); [lia|now apply line_ends_ends|exact O].
  - rewrite verbose_first_app; [|eapply list_firm, V|exact VF]. unfold cntr_verbose, many0.
    destruct (list_ok dfuel (kserd_nested fuel dfuel (S n)) n fuel t l b rest (IH (S n) ltac:(lia)) V ltac:(lia) ltac:(lia) E O (C eq_refl)) as (fs & FS & G).
    rewrite G by lia. cbn [pbind app]. now rewrite assemble_container, FS.
Qed.

(** ** documents *)
Lemma rest_closes n r w : blank_lines r -> blanks w -> closes n (r ++ w) = true.
Proof.
  intros R W. unfold closes. rewrite next_line_blank_lines by assumption. rewrite next_line_stop; [now rewrite W|]. right. rewrite <- (app_nil_r w), skip_blanks_app by assumption. reflexivity.
Qed.
Theorem vdocument_ok t k : vdocument t k -> kserd_root t = POk [] k.
Proof.
  intros [u l b r w V VF R W LE]. pose proof (list_len _ _ _ _ V) as L. unfold kserd_root. set (i := u ++ r ++ w).
  assert (NE : i <> []) by (destruct u; [cbn in L; lia|discriminate]). destruct i as [|c0 i0] eqn:EI; [congruence|]. rewrite <- EI. set (n := S (length i)).
  unfold all_consuming, terminated. unfold i. rewrite (body_ok n n 0%nat (le_n n) u (container l) b true (r ++ w)).
  - cbn [pbind]. assert (S : spaces (r ++ w)) by (apply spaces_app; [now apply blank_lines_spaces|now apply blanks_spaces]).
    rewrite <- (app_nil_r (r ++ w)) at 1. rewrite take_spaces; [reflexivity|exact S|exact I].
  - now constructor.
  - unfold n, i. rewrite app_length. lia.
  - exact LE.
  - intros _. assert (S : spaces (r ++ w)) by (apply spaces_app; [now apply blank_lines_spaces|now apply blanks_spaces]). rewrite <- (app_nil_r (r ++ w)), spaces_opens by assumption. reflexivity.
  - intros _. now apply rest_closes.
Qed.
Theorem vdocument_parses t k : vdocument t k -> parse t = ParseOk k.
Proof. intros H. unfold parse. now rewrite (vdocument_ok t k H). Qed.
