(** White space at the ends of a document. *)
From Verif Require Import Base F64 Number BTree Value BaseProps ValueProps2 Base91 Nom Parse ParseProps ParseErr Grammar VGrammar GrammarProps VGrammarProps VAssemble Format FormatProps Syntax SyntaxProps SyntaxProps2 SyntaxProps3 SyntaxProps4 CutSpec CutProps TrailSpec.
Import Grammar.
Open Scope N_scope.

Lemma space_stop f w : spaces w -> (forall c, space c = true -> f c = false) -> stop f w = true.
Proof. intros W F. destruct w as [|c w]; [reflexivity|]. unfold spaces in W. cbn [forallb] in W. apply andb_true_iff in W as [W _]. cbn [stop]. now rewrite (F c W). Qed.
Lemma stop_more f r w : spaces w -> (forall c, space c = true -> f c = false) -> stop f r = true -> stop f (r ++ w) = true.
Proof. intros W F H. destruct r as [|c r]; [now apply space_stop|exact H]. Qed.
Lemma space_in c : space c = true -> c = 32 \/ c = 9 \/ c = 13 \/ c = 10.
Proof.
  unfold space, mem. cbn [existsb]. intros H. repeat (apply orb_true_iff in H as [H|H]); try (apply N.eqb_eq in H); auto. discriminate H.
Qed.
Lemma space_num c : space c = true -> num_char c = false.
Proof. intros H. apply space_in in H as [->|[->|[->| ->]]]; reflexivity. Qed.
Lemma space_name c : space c = true -> name_char c = false.
Proof. intros H. apply space_in in H as [->|[->|[->| ->]]]; reflexivity. Qed.
Lemma opens_spaces w : spaces w -> opens w = false.
Proof. induction w as [|c w IH]; intros W; [reflexivity|]. unfold spaces in *. cbn [forallb opens] in *. apply andb_true_iff in W as [-> W]. auto. Qed.
Lemma opens_end r w : spaces w -> opens (r ++ w) = opens r.
Proof. intros W. induction r as [|c r IH]; [now apply opens_spaces|]. cbn [app opens]. destruct (space c); [exact IH|reflexivity]. Qed.
Lemma take_end u w : spaces w -> take_while name_char (u ++ w) = (fst (take_while name_char u), snd (take_while name_char u) ++ w).
Proof.
  intros W. induction u as [|c u IH]; cbn [app take_while fst snd].
  - destruct w as [|c w]; [reflexivity|]. unfold spaces in W. cbn [forallb take_while] in *. apply andb_true_iff in W as [W _]. now rewrite (space_name c W).
  - destruct (name_char c); [|reflexivity]. rewrite IH. destruct (take_while name_char u). reflexivity.
Qed.
Lemma no_head_end u w : spaces w -> no_head u = true -> no_head (u ++ w) = true.
Proof.
  intros W. unfold no_head. rewrite (take_end u w W). destruct (take_while name_char u) as [i r]. cbn [fst snd]. rewrite (opens_end r w W).
  intros H. apply orb_true_iff in H as [H|H]; [|rewrite H; apply orb_true_r]. apply orb_true_iff in H as [H|H]; rewrite (starts_more _ _ w H); [reflexivity|]. cbn [orb]. now rewrite ?orb_true_r.
Qed.

(** ** values *)
Lemma value_end m t r k w : spaces w -> value_at m t r k -> value_at m t (r ++ w) k.
Proof.
  intros W V. destruct (in_brackets k) eqn:B; [now apply (closed_any m t r)|].
  destruct V as [m id u t v r I U T E|m t v r T E NH|m id u t l r HO HL|m id u t l r HO HL NE AS|m id u t l r HO HL AS|m id u t l r HO HL|id u t l r HO HL|id u t l r HO HL AS|id u t l r HO HL AS|id u t l r HO HL];
    try discriminate B.
  - constructor; auto. destruct v; try exact E. apply stop_more; auto using space_num.
  - constructor; auto; [destruct v; try exact E; apply stop_more; auto using space_num|]. rewrite app_assoc. now apply no_head_end.
Qed.
Lemma field_end m t r f w : spaces w -> field_at (value_at m) t r f -> field_at (value_at m) t (r ++ w) f.
Proof. intros W F. destruct F. constructor; auto. now apply value_end. Qed.
Lemma colon_end a r w y : spaces w -> a ++ s ":" ++ y = r ++ w -> exists y', y = y' ++ w /\ r = a ++ s ":" ++ y'.
Proof.
  intros W E. rewrite app_assoc in E. apply app_eq_app in E as (l & [[E1 E2]|[E1 E2]]).
  - destruct l as [|c l _] using rev_ind.
    + cbn [app] in E2. subst w. rewrite app_nil_r in E1. exists []. split; [reflexivity|now rewrite <- E1].
    + exfalso. rewrite app_assoc in E1. apply app_inj_tail in E1 as [_ <-]. subst w. unfold spaces in W. rewrite !forallb_app in W. cbn in W. rewrite ?andb_false_r in W. discriminate W.
  - exists l. split; [exact E2|]. rewrite E1. now rewrite <- app_assoc.
Qed.
Lemma keyed_end t w : spaces w -> keyed (t ++ w) -> keyed t.
Proof.
  intros W (w1 & tk & w2 & r & k & E & B1 & B2 & V).
  assert (E' : (w1 ++ tk ++ w2) ++ s ":" ++ r = t ++ w) by (rewrite E, <- !app_assoc; reflexivity).
  apply (colon_end _ _ _ _ W) in E' as (y' & -> & ->). exists w1, tk, w2, y', k. split; [now rewrite <- !app_assoc|]. split; [exact B1|]. split; [exact B2|].
  eapply (value_share_n (S (length tk))); [lia|exact V|left; apply share_app; now apply share_now].
Qed.

(** ** the first line *)
Lemma assigns_end t w : spaces w -> assigns (t ++ w) = true -> assigns t = true.
Proof.
  intros W. induction t as [|c t IH]; cbn [app].
  - revert W. induction w as [|c w IH]; intros W; [auto|]. unfold spaces in *. cbn [forallb assigns] in *. apply andb_true_iff in W as [W1 W].
    intros H. apply orb_true_iff in H as [H|H]; [apply N.eqb_eq in H; subst c; discriminate W1|]. apply andb_true_iff in H as [_ H]. now apply IH.
  - cbn [assigns]. intros H. apply orb_true_iff in H as [->|H]; [reflexivity|]. apply andb_true_iff in H as [-> H]. now rewrite (IH H), orb_true_r.
Qed.
Lemma starts_end p t w : spaces w -> forallb (fun c => negb (space c)) p = true -> starts_with p (t ++ w) = true -> starts_with p t = true.
Proof.
  intros W. revert t. induction p as [|b p IH]; intros t P H; [reflexivity|]. cbn [forallb] in P. apply andb_true_iff in P as [P1 P].
  destruct t as [|c t]; cbn [app starts_with] in *.
  - destruct w as [|c w]; [discriminate H|]. unfold spaces in W. cbn [forallb starts_with] in *. apply andb_true_iff in W as [W _]. apply andb_true_iff in H as [H _]. apply N.eqb_eq in H. subst c. rewrite W in P1. discriminate P1.
  - apply andb_true_iff in H as [-> H]. now apply IH.
Qed.
Lemma skip_spaces w : spaces w -> spaces (Grammar.skip_blanks w).
Proof. induction w as [|c w IH]; intros W; [exact W|]. cbn [Grammar.skip_blanks]. destruct (blank c); [|exact W]. apply IH. unfold spaces in *. cbn [forallb] in W. now apply andb_true_iff in W as [_ W]. Qed.
Lemma skip_end t w : spaces w -> exists w', spaces w' /\ Grammar.skip_blanks (t ++ w) = Grammar.skip_blanks t ++ w'.
Proof.
  intros W. destruct (Grammar.skip_blanks t) as [|c u] eqn:E; [|exists w; split; [exact W|rewrite <- E; apply skip_more; rewrite E; discriminate]].
  exists (Grammar.skip_blanks w). split; [now apply skip_spaces|]. induction t as [|d t IH]; [reflexivity|]. cbn [app Grammar.skip_blanks] in *. destruct (blank d); [auto|discriminate E].
Qed.
Lemma bracketed_end t w : spaces w -> bracketed (t ++ w) = true -> bracketed t = true.
Proof.
  intros W. destruct t as [|c t]; cbn [app].
  - destruct w as [|c w]; [auto|]. unfold spaces in W. cbn [forallb bracketed] in *. apply andb_true_iff in W as [W _]. intros H. apply andb_true_iff in H as [H _]. apply N.eqb_eq in H. subst c. discriminate W.
  - cbn [bracketed]. destruct (skip_end t w W) as (w' & W' & ->). rewrite (take_end _ _ W'). destruct (take_while name_char (Grammar.skip_blanks t)) as [i r]. cbn [fst snd].
    destruct (skip_end r w' W') as (w2 & W2 & ->). intros H. apply andb_true_iff in H as [-> H]. apply andb_true_iff in H as [-> H]. cbn [andb]. now apply (starts_end _ _ _ W2).
Qed.
Lemma trim_all w : spaces w -> trim w = [].
Proof. induction w as [|c w IH]; intros W; [reflexivity|]. unfold spaces in *. cbn [forallb trim] in *. apply andb_true_iff in W as [-> W]. auto. Qed.
Lemma verbose_end t w : spaces w -> verbose_first (t ++ w) = verbose_first t.
Proof.
  intros W. destruct (verbose_first t) eqn:V; [now apply verbose_more|]. destruct (verbose_first (t ++ w)) eqn:V'; [|reflexivity]. rewrite <- V. symmetry.
  unfold verbose_first, verbose_start in *. destruct (trim t) as [|c u] eqn:T.
  - exfalso. assert (E : trim (t ++ w) = []).
    { clear - T W. induction t as [|d t IH]; [now apply trim_all|]. cbn [app trim] in *. destruct (space d); [auto|discriminate T]. }
    rewrite E in V'. discriminate V'.
  - rewrite trim_more, T in V' by (rewrite T; discriminate).
    apply orb_true_iff in V' as [H|H]; [rewrite (starts_end (s ":") _ _ W eq_refl H); reflexivity|]. apply orb_true_iff in H as [H|H].
    + apply orb_true_iff in H as [H|H]; [rewrite (starts_end (s "[[") _ _ W eq_refl H)|rewrite (assigns_end _ _ W H)]; cbn [orb]; now rewrite ?orb_true_r.
    + rewrite (bracketed_end _ _ W H). now rewrite !orb_true_r.
Qed.

(** ** the next line *)
Definition open_line (w : str) : Prop := forallb (fun c => blank c || (c =? 10)) w = true.
Definition no_cr (t : str) : Prop := forall x, t <> x ++ [13].
Lemma no_cr_tail a b : no_cr (a ++ b) -> no_cr b.
Proof. intros H x ->. apply (H (a ++ x)). now rewrite app_assoc. Qed.
Lemma open_spaces w : open_line w -> spaces w.
Proof.
  unfold open_line, spaces. rewrite !forallb_forall. intros H c I. specialize (H c I). apply orb_true_iff in H as [H|H]; [|apply N.eqb_eq in H; now subst].
  unfold blank, mem in H. cbn [existsb] in H. repeat (apply orb_true_iff in H as [H|H]); try (apply N.eqb_eq in H; now subst). discriminate H.
Qed.
Lemma open_split w : open_line w -> exists a b, w = a ++ b /\ blank_lines a /\ blanks b.
Proof.
  induction w as [|c w IH]; intros W; [exists [], []; repeat constructor|]. unfold open_line in *. cbn [forallb] in W. apply andb_true_iff in W as [C W].
  destruct (IH W) as (a & b & -> & A & B). apply orb_true_iff in C as [C|C].
  - destruct A as [|w e r BW EO BL]; [exists [], (c :: b); split; [reflexivity|split; [constructor|unfold blanks in *; cbn [forallb]; now rewrite C]]|].
    exists ((c :: w) ++ e ++ r), b. split; [reflexivity|]. split; [|exact B]. constructor; [unfold blanks in *; cbn [forallb]; now rewrite C|exact EO|exact BL].
  - apply N.eqb_eq in C. subst c. exists ([] ++ [10] ++ a), b. split; [reflexivity|]. split; [|exact B]. constructor; [reflexivity|now left|exact A].
Qed.
Lemma first_open w : open_line w -> forall st, forallb blank st = true -> forallb blank (first_line (st ++ w) w) = true.
Proof.
  induction w as [|c w IH]; intros W st S; cbn [first_line]; [now rewrite app_nil_r|]. unfold open_line in W. cbn [forallb] in W. apply andb_true_iff in W as [C W].
  destruct (blank c) eqn:B.
  - replace (st ++ c :: w) with ((st ++ [c]) ++ w) by now rewrite <- app_assoc. apply IH; [exact W|]. rewrite forallb_app, S. cbn [forallb andb]. now rewrite B.
  - cbn [orb] in C. rewrite C. apply (IH W []). reflexivity.
Qed.
Lemma first_end w : open_line w -> forall n r, (length r < n)%nat -> no_cr r -> forall st, forallb blank st = true ->
  (forallb blank (first_line (st ++ r) r) = true /\ forallb blank (first_line (st ++ r ++ w) (r ++ w)) = true) \/
  (forallb blank (first_line (st ++ r) r) = false /\ first_line (st ++ r ++ w) (r ++ w) = first_line (st ++ r) r ++ w).
Proof.
  intros W. induction n as [|n IH]; intros r L N st S; [lia|]. destruct r as [|c r]; cbn [app first_line].
  - left. split; [now rewrite app_nil_r|now apply first_open].
  - assert (N1 : no_cr r) by (apply (no_cr_tail [c]); exact N). cbn [length] in L.
    destruct (blank c) eqn:B.
    + replace (st ++ c :: r) with ((st ++ [c]) ++ r) by now rewrite <- app_assoc. replace (st ++ c :: r ++ w) with ((st ++ [c]) ++ r ++ w) by now rewrite <- app_assoc.
      apply IH; [lia|exact N1|]. rewrite forallb_app, S. cbn [forallb andb]. now rewrite B.
    + destruct (N.eqb_spec c 10) as [->|C10]; [apply (IH r ltac:(lia) N1 []); reflexivity|].
      assert (NB : forall x, forallb blank (st ++ c :: x) = false) by (intros x; rewrite forallb_app; cbn [forallb]; rewrite B; now rewrite andb_false_r).
      destruct (N.eqb_spec c 13) as [->|C13]; [|right; rewrite NB; split; [reflexivity|now rewrite <- app_assoc]].
      destruct r as [|d r]; [exfalso; now apply (N [])|]. cbn [app].
      destruct (N.eqb_spec d 10) as [->|D10]; [|right; rewrite NB; split; [reflexivity|now rewrite <- app_assoc]].
      apply (IH r ltac:(cbn [length] in L; lia) (no_cr_tail [10] r N1) []). reflexivity.
Qed.
Lemma indented_end n : forall t w, open_line w -> forallb blank t = false -> indented n (t ++ w) = indented n t.
Proof.
  induction n as [|n IH]; intros t w W H; [reflexivity|]. destruct t as [|c t]; [discriminate H|].
  cbn [indented app]. cbn [forallb] in H.
  assert (X : starts_with (s "    ") (c :: t ++ w) = starts_with (s "    ") (c :: t) /\ (starts_with (s "    ") (c :: t) = true -> skipn 4 (c :: t ++ w) = skipn 4 (c :: t) ++ w /\ forallb blank (skipn 4 (c :: t)) = false)).
  { change (s "    ") with [32; 32; 32; 32]. cbn [starts_with skipn].
    destruct (N.eqb_spec 32 c) as [<-|]; [|split; [reflexivity|discriminate]]. cbn [andb] in *. destruct t as [|d t]; [discriminate H|]. cbn [app starts_with forallb] in *.
    destruct (N.eqb_spec 32 d) as [<-|]; [|split; [reflexivity|discriminate]]. cbn [andb] in *. destruct t as [|e t]; [discriminate H|]. cbn [app starts_with forallb] in *.
    destruct (N.eqb_spec 32 e) as [<-|]; [|split; [reflexivity|discriminate]]. cbn [andb] in *. destruct t as [|f t]; [discriminate H|]. cbn [app starts_with forallb] in *.
    destruct (N.eqb_spec 32 f) as [<-|]; [|split; [reflexivity|discriminate]]. cbn [andb] in *. auto. }
  destruct X as [X1 X2]. rewrite X1. destruct (starts_with (s "    ") (c :: t)); [destruct (X2 eq_refl) as [X3 X4]; rewrite X3; now apply IH|].
  destruct (N.eqb_spec c 9) as [->|]; [|reflexivity]. cbn [andb] in *. now apply IH.
Qed.
Lemma closes_end n r w : open_line w -> no_cr r -> closes n r = true -> closes n (r ++ w) = true.
Proof.
  intros W N. unfold closes, next_line. destruct (first_end w W (S (length r)) r (Nat.lt_succ_diag_r _) N [] eq_refl) as [[A B]|[A B]]; cbn [app] in *; intros H.
  - now rewrite B.
  - rewrite B. rewrite A in H. cbn [orb] in H. rewrite (indented_end n _ w W A), H. apply orb_true_r.
Qed.

(** ** items *)
Scheme item_at_mut := Minimality for item_at Sort Prop
  with body_at_mut := Minimality for body_at Sort Prop
  with items_at_mut := Minimality for items_at Sort Prop.
Combined Scheme at_mut from item_at_mut, body_at_mut, items_at_mut.
Lemma items_end_all w : open_line w ->
  (forall n t r i, item_at n t r i -> no_cr (t ++ r) -> item_at n t (r ++ w) i) /\
  (forall n t r v, body_at n t r v -> no_cr (t ++ r) -> body_at n t (r ++ w) v) /\
  (forall n t r l, items_at n t r l -> no_cr (t ++ r) -> items_at n t (r ++ w) l).
Proof.
  intros W. pose proof (open_spaces w W) as SW. apply at_mut.
  - intros n u id r B I S N. apply A_id; auto. apply stop_more; auto using space_name.
  - intros n t r name v F N. apply A_field. now apply field_end.
  - intros n h name id u e t r v T B EO _ IH N. apply A_section; auto. apply IH. rewrite <- !app_assoc in N. do 5 apply no_cr_tail in N. exact N.
  - intros n h name id u e t r v T B EO _ IH K N. apply A_elem; auto; [apply IH; rewrite <- !app_assoc in N; do 5 apply no_cr_tail in N; exact N|].
    intros X. apply K. apply (keyed_end _ w SW). now rewrite <- app_assoc.
  - intros n h name id u e w1 tk k w2 w3 t r v T B EO B1 V1 B2 B3 V N. apply A_entry; auto; [|now apply value_end].
    apply (value_end _ _ _ _ w SW) in V1. rewrite <- !app_assoc in V1. exact V1.
  - intros n h name id u e w1 tk k w2 w3 e' t r v T B EO B1 V1 B2 B3 EO' _ IH N. apply A_entry_below; auto.
    + apply (value_end _ _ _ _ w SW) in V1. rewrite <- !app_assoc in V1. exact V1.
    + apply IH. rewrite <- !app_assoc in N. do 11 apply no_cr_tail in N. exact N.
  - intros n u t r v B V F N. apply Body_value; auto; [now apply value_end|]. replace (u ++ t ++ r ++ w) with ((u ++ t ++ r) ++ w) by now rewrite <- !app_assoc. now rewrite (verbose_end _ _ SW).
  - intros n t r l _ IH F C N. apply Body_items; auto; [|apply closes_end; auto; now apply no_cr_tail in N].
    rewrite app_assoc. now rewrite (verbose_end _ _ SW).
  - intros n r N. constructor.
  - intros n u t i v l r L _ IH1 _ IH2 N. rewrite <- !app_assoc in N. apply no_cr_tail in N. constructor; auto.
    + rewrite app_assoc. apply IH1. exact N.
    + apply IH2. now apply no_cr_tail in N.
Qed.

(** ** documents *)
Lemma blank_lines_join a b : blank_lines a -> blank_lines b -> blank_lines (a ++ b).
Proof. induction 1 as [|w e r B E L IH]; intros H; [exact H|]. rewrite <- !app_assoc. constructor; auto. Qed.
Lemma syntax_end t k w : open_line w -> no_cr t -> syntax t k -> syntax (t ++ w) k.
Proof.
  intros W N X. pose proof (open_spaces w W) as SW. destruct X as [w1 t w2 k B V S F|t l w1 w2 I BL B F].
  - rewrite <- !app_assoc. constructor; auto; [now apply value_end| |].
    + unfold spaces in *. now rewrite forallb_app, S.
    + replace (w1 ++ t ++ w2 ++ w) with ((w1 ++ t ++ w2) ++ w) by now rewrite <- !app_assoc. now rewrite (verbose_end _ _ SW).
  - destruct (open_split (w2 ++ w)) as (a & b & E & A & B').
    { unfold open_line in *. rewrite forallb_app, W, andb_true_r. unfold blanks in B. rewrite forallb_forall in *. intros c C. now rewrite (B c C). }
    replace ((t ++ w1 ++ w2) ++ w) with (t ++ (w1 ++ a) ++ b) by (rewrite <- !app_assoc; do 2 f_equal; symmetry; exact E).
    constructor; [|now apply blank_lines_join|exact B'|].
    + replace ((w1 ++ a) ++ b) with ((w1 ++ w2) ++ w) by (rewrite <- !app_assoc; f_equal; exact E). apply (items_end_all w W); [exact I|exact N].
    + replace (t ++ (w1 ++ a) ++ b) with ((t ++ w1 ++ w2) ++ w) by (rewrite <- !app_assoc; do 2 f_equal; exact E). now rewrite (verbose_end _ _ SW).
Qed.
(** blanks before a document, and blank lines before a verbose one *)
Lemma trim_front w t : spaces w -> trim (w ++ t) = trim t.
Proof. induction w as [|c w IH]; intros W; [reflexivity|]. unfold spaces in *. cbn [forallb app trim] in *. apply andb_true_iff in W as [-> W]. auto. Qed.
Lemma verbose_front w t : spaces w -> verbose_first (w ++ t) = verbose_first t.
Proof. intros W. unfold verbose_first. now rewrite (trim_front _ _ W). Qed.
Lemma blanks_spaces w : blanks w -> spaces w.
Proof. intros B. apply open_spaces. unfold open_line, blanks in *. rewrite forallb_forall in *. intros c C. now rewrite (B c C). Qed.
Lemma syntax_front t k w : open_line w -> blanks w \/ verbose_first t = true -> syntax t k -> syntax (w ++ t) k.
Proof.
  intros W H X. pose proof (open_spaces w W) as SW. destruct X as [w1 t w2 k B V S F|t l w1 w2 I BL B F].
  - destruct H as [H|H]; [|congruence]. rewrite app_assoc. constructor; auto; [unfold blanks in *; now rewrite forallb_app, H|].
    rewrite <- app_assoc. now rewrite (verbose_front _ _ SW).
  - clear H. inversion I as [n r|n u t0 i v l0 r L I1 I2]; subst.
    + exfalso. cbn [app] in F. assert (Y : spaces (w1 ++ w2)).
      { unfold spaces in *. rewrite forallb_app. apply andb_true_iff. split; [|now apply blanks_spaces]. clear - BL. induction BL as [|w e r BW EO BL IH]; [reflexivity|].
        rewrite !forallb_app, IH. pose proof (blanks_spaces w BW) as Z. unfold spaces in Z. rewrite Z. destruct EO as [->| ->]; reflexivity. }
      unfold verbose_first in F. rewrite (trim_all _ Y) in F. discriminate F.
    + replace (w ++ (u ++ t0 ++ v) ++ w1 ++ w2) with (((w ++ u) ++ t0 ++ v) ++ w1 ++ w2) by now rewrite <- !app_assoc.
      constructor; auto; [|replace (((w ++ u) ++ t0 ++ v) ++ w1 ++ w2) with (w ++ (u ++ t0 ++ v) ++ w1 ++ w2) by (now rewrite <- !app_assoc); now rewrite (verbose_front _ _ SW)].
      constructor; auto. destruct L as [a b c A IN C]. inversion IN; subst. cbn [app].
      destruct (open_split w W) as (p & q & -> & P & Q). destruct A as [|w0 e r BW EO BR].
      * cbn [app]. replace ((p ++ q) ++ c) with (p ++ [] ++ (q ++ c)) by now rewrite <- !app_assoc. constructor; [exact P|constructor|]. unfold blanks in *. now rewrite forallb_app, Q.
      * replace ((p ++ q) ++ (w0 ++ e ++ r) ++ c) with ((p ++ ((q ++ w0) ++ e ++ r)) ++ [] ++ c) by (cbn [app]; now rewrite <- !app_assoc).
        constructor; [|constructor|exact C]. apply blank_lines_join; [exact P|]. constructor; auto. unfold blanks in *. now rewrite forallb_app, Q.
Qed.

Lemma white_open w : white w = true -> open_line w.
Proof.
  unfold white, open_line. rewrite !forallb_forall. intros H c I. specialize (H c I). unfold Grammar.blank, mem, TrailSpec.blank in *. cbn [existsb].
  destruct (c =? 32), (c =? 9), (c =? 10); try reflexivity; discriminate H.
Qed.
Lemma white_end t k w : white w = true -> ~ ends_in_cr t -> parse t = ParseOk k -> parse (t ++ w) = ParseOk k.
Proof.
  intros W N P. apply parse_iff. apply parse_iff in P. apply syntax_end; [now apply white_open| |exact P]. intros x ->. apply N. now exists x.
Qed.
Lemma white_front t k w : white w = true -> mem 10 w = false \/ verbose_first t = true -> parse t = ParseOk k -> parse (w ++ t) = ParseOk k.
Proof.
  intros W N P. apply parse_iff. apply parse_iff in P. apply syntax_front; [now apply white_open| |exact P]. destruct N as [N|N]; [left|now right].
  unfold blanks. pose proof (white_open w W) as O. unfold open_line in O. rewrite forallb_forall in *. intros c I. specialize (O c I). apply orb_true_iff in O as [O|O]; [exact O|].
  apply N.eqb_eq in O. subst c. exfalso. assert (X : mem 10 w = true) by (unfold mem; apply existsb_exists; exists 10; auto). congruence.
Qed.
