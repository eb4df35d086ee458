(** What is written is not taken for another value: lists. *)
From Verif Require Import Base F64 Number BTree Value BaseProps NumberProps3 Base91 Base91Props Nom Parse Grammar VGrammar GrammarProps Format FormatProps Syntax SyntaxProps SyntaxProps2 Nav Fmt FmtText FmtSpec FmtProps FmtProps2 RtProps RtSpec RtProps2 RtProps3 RtProps4 MisreadSpec.
Open Scope N_scope.

Lemma span_eq f a b a' b' : forallb f a = true -> stops f b -> forallb f a' = true -> stops f b' -> a ++ b = a' ++ b' -> a = a' /\ b = b'.
Proof.
  intros H S H' S' E. pose proof (take_while_spec f a b H S) as X. pose proof (take_while_spec f a' b' H' S') as Y. rewrite E, Y in X. now injection X as -> ->.
Qed.
Lemma blank_eq a b a' b' : blanks a -> stops space b -> blanks a' -> stops space b' -> a ++ b = a' ++ b' -> a = a' /\ b = b'.
Proof. intros H S H' S'. apply span_eq with (f := blank); auto using stops_space_blank. Qed.
Lemma closer_stops c r : closer c = true -> stops space (c :: r).
Proof. intros H. now apply closer_space. Qed.
Lemma begins_closer t c r r' : begins t -> closer c = true -> t ++ r = c :: r' -> False.
Proof. destruct t as [|x t]; [contradiction|]. intros [_ H] C E. injection E as -> _. congruence. Qed.

(** what may follow a text *)
Definition follow (r : str) : Prop :=
  stops name_char r /\ stops Grammar.num_char r /\ stops (fun c => mem c (s "([{=")) (Grammar.skip_blanks r).
Lemma follow_nil : follow []. Proof. repeat split. Qed.
Lemma follow_char c r : mem c (s ",)]}:" ++ [10]) = true -> follow (c :: r).
Proof. intros H. apply mem_In in H. unfold follow. each_char H; repeat split. Qed.
Lemma follow_blanks w c r : blanks w -> closer c = true -> follow (w ++ c :: r).
Proof.
  intros W C. destruct w as [|x w]; [apply follow_char; apply closer_cases in C as [->|[->| ->]]; reflexivity|].
  assert (E : Grammar.skip_blanks ((x :: w) ++ c :: r) = c :: r).
  { revert W. generalize (x :: w) as u. induction u as [|y u IH]; unfold blanks in *; cbn [forallb app]; intros W.
    - cbn [Grammar.skip_blanks]. rewrite space_blank by now apply closer_space. reflexivity.
    - apply andb_true_iff in W as [W1 W2]. cbn [Grammar.skip_blanks]. rewrite W1. auto. }
  unfold follow. rewrite E. unfold blanks in W. cbn [forallb] in W. apply andb_true_iff in W as [W _]. unfold blank in W. apply mem_In in W.
  repeat split; cbn [app stops]; try (each_char W; reflexivity). apply closer_cases in C as [->|[->| ->]]; reflexivity.
Qed.

Section Lists.
  Context {A B : Type} (R : str -> str -> B -> Prop) (g : A -> bool) (I : A -> str) (v : A -> B).
  Hypothesis RB : all_begin R.
  (** whatever is read where the text of [x] stands is [x] *)
  Definition only (x : A) : Prop := begins (I x) /\
    forall t r' k r, follow r -> R t r' k -> t ++ r' = I x ++ r -> t = I x /\ k = v x.
  Variables (c : char) (rest rest' : str).
  Hypothesis C : closer c = true.

  Lemma more_follow l w : blanks w -> follow (more_text g I l ++ w ++ c :: rest).
  Proof. intros W. destruct l as [|x l]; cbn [more_text app]; [now apply follow_blanks|now apply follow_char]. Qed.
  Lemma more_only l : Forall only l -> forall u w' w lk, separated_at R comma u (w' ++ c :: rest') lk -> blanks w' -> blanks w ->
    u ++ w' ++ c :: rest' = more_text g I l ++ w ++ c :: rest -> u ++ w' = more_text g I l ++ w /\ rest' = rest /\ lk = map v l.
  Proof.
    induction 1 as [|x l [HB HX] _ IH]; intros u w' w lk H W' W E; cbn [more_text map] in *.
    - inversion H as [|w1 t a u1 l1 r1 HS HR HU]; subst; cbn [app] in E |- *.
      + apply blank_eq in E as [-> E]; auto using closer_stops. injection E as ->. auto.
      + exfalso. destruct HS as (b1 & b2 & B1 & B2 & ->). rewrite <- !app_assoc in E. apply blank_eq in E as [_ E]; auto using closer_stops; [|reflexivity].
        injection E as <- _. discriminate.
    - inversion H as [|w1 t a u1 l1 r1 HS HR HU]; subst; cbn [app] in E.
      + exfalso. destruct w' as [|y w']; injection E as E _; subst; [discriminate|]. unfold blanks in W'. discriminate.
      + destruct HS as (b1 & b2 & B1 & B2 & ->). destruct b1 as [|y b1]; [|exfalso; injection E as E _; subst y; discriminate].
        cbn [app] in E. injection E as E. rewrite <- !app_assoc in E. pose proof (RB _ _ _ HR) as TB.
        apply blank_eq in E as [-> E]; try (destruct (g x); reflexivity); try (apply begins_space, begins_app; assumption); [|exact B2].
        destruct (HX _ _ _ _ (more_follow l w W) HR E) as [-> ->]. apply app_inv_head in E.
        destruct (IH _ _ _ _ HU W' W E) as (E1 & -> & ->). repeat split. rewrite <- !app_assoc. cbn [app]. rewrite ?E1, <- ?app_assoc, ?E1. reflexivity.
  Qed.
  Lemma first_only c0 l w t lk : Forall only l -> inline_at R t (c :: rest') lk -> blanks c0 -> blanks w ->
    t ++ c :: rest' = first_text g I c0 l ++ w ++ c :: rest -> t = first_text g I c0 l ++ w /\ rest' = rest /\ lk = map v l.
  Proof.
    intros F H B0 W E. destruct F as [|x l [HB HX] F]; cbn [first_text map] in *.
    - inversion H as [w0 r0 HW|w0 t0 a u l1 w' r0 HW HR HU HW']; subst.
      + rewrite app_assoc in E. apply blank_eq in E as [-> E]; auto using closer_stops, blanks_app. injection E as ->. auto.
      + exfalso. pose proof (RB _ _ _ HR) as TB. rewrite <- !app_assoc in E. rewrite (app_assoc c0 w) in E.
        apply blank_eq in E as [_ E]; auto using closer_stops, blanks_app; [|now apply begins_space, begins_app]. now apply begins_closer in E.
    - set (b0 := if g x then pop c0 else c0) in *. assert (BB : blanks b0).
      { unfold b0. destruct (g x); [|exact B0]. unfold blanks, pop in *. rewrite forallb_forall in *. intros d Hd. apply B0. clear -Hd.
        induction c0 as [|e c0 IH]; [contradiction|]. destruct c0; [contradiction|]. cbn [removelast] in Hd. destruct Hd as [->|Hd]; [now left|]. right. auto. }
      inversion H as [w0 r0 HW|w0 t0 a u l1 w' r0 HW HR HU HW']; subst.
      + exfalso. rewrite <- !app_assoc in E. apply blank_eq in E as [_ E]; auto using closer_stops; [|now apply begins_space, begins_app].
        symmetry in E. now apply begins_closer in E.
      + pose proof (RB _ _ _ HR) as TB. rewrite <- !app_assoc in E. apply blank_eq in E as [-> E]; try (apply begins_space, begins_app; assumption); auto.
        destruct (HX _ _ _ _ (more_follow l w W) HR E) as [-> ->]. apply app_inv_head in E.
        destruct (more_only l F _ _ _ _ HU HW' W E) as (E1 & -> & ->). repeat split. rewrite <- !app_assoc. now rewrite E1.
  Qed.
  Lemma lines_follow col l r : follow (lines_text g I col l ++ r).
  Proof. destruct l; now apply follow_char. Qed.
  Lemma gap_eq a b a' b' : spaces a -> stops space b -> spaces a' -> stops space b' -> a ++ b = a' ++ b' -> a = a' /\ b = b'.
  Proof. intros H S H' S'. now apply span_eq with (f := space). Qed.
  Lemma line_sp n : spaces (nl ++ sp n).
  Proof. apply (spaces_app nl); [reflexivity|apply spaces_sp]. Qed.
  Lemma lines_only col l : Forall only l -> forall u w' lk, separated_at R Format.gap u (w' ++ c :: rest') lk -> Format.gap w' ->
    u ++ w' ++ c :: rest' = lines_text g I col l ++ c :: rest -> u ++ w' = lines_text g I col l /\ rest' = rest /\ lk = map v l.
  Proof.
    induction 1 as [|x l [HB HX] _ IH]; intros u w' lk H W E; cbn [lines_text map] in *.
    - inversion H as [|w1 t a u1 l1 r1 [HS _] HR HU]; subst.
      + change ([] ++ w' ++ c :: rest') with (w' ++ c :: rest') in E. apply gap_eq in E as [E1 E2]; auto using closer_stops, line_sp; [|apply W]. injection E2 as ->. auto.
      + exfalso. pose proof (RB _ _ _ HR) as TB. rewrite <- (app_assoc w1), <- (app_assoc t) in E. apply gap_eq in E as [_ E]; auto using closer_stops, line_sp; [|now apply begins_space, begins_app].
        now apply begins_closer in E.
    - set (n := if g x then (col + 3)%nat else (col + 4)%nat) in *. replace ((nl ++ sp n ++ I x ++ lines_text g I col l) ++ c :: rest) with ((nl ++ sp n) ++ I x ++ lines_text g I col l ++ c :: rest) in E by now rewrite <- !app_assoc.
      inversion H as [|w1 t a u1 l1 r1 [HS _] HR HU]; subst.
      + exfalso. change ([] ++ w' ++ c :: rest') with (w' ++ c :: rest') in E. apply gap_eq in E as [_ E]; auto using closer_stops, line_sp; [|apply W|now apply begins_space, begins_app].
        symmetry in E. now apply begins_closer in E.
      + pose proof (RB _ _ _ HR) as TB. rewrite <- (app_assoc w1), <- (app_assoc t) in E.
        apply gap_eq in E as [-> E]; auto using line_sp; try (apply begins_space, begins_app; assumption).
        destruct (HX _ _ _ _ (lines_follow col l _) HR E) as [-> ->]. apply app_inv_head in E.
        destruct (IH _ _ _ HU W E) as (E1 & -> & ->). repeat split. rewrite <- E1. now rewrite <- !app_assoc.
  Qed.
  Lemma concise_only col l t lk : Forall only l -> concise_at R t (c :: rest') lk ->
    t ++ c :: rest' = lines_text g I col l ++ c :: rest -> t = lines_text g I col l /\ rest' = rest /\ lk = map v l.
  Proof.
    intros F H E. inversion H as [w0 r0 HS HN|w0 t0 a u l1 w' r0 HS HN HR HU HW']; subst.
    - apply (lines_only col l F [] t []); [constructor| |exact E]. split; [exact HS|]. intros ->. discriminate.
    - destruct (lines_only col l F (w0 ++ t0 ++ u) w' (a :: l1)) as (E1 & E2 & E3).
      + apply At_next; [|exact HR|exact HU]. split; [exact HS|]. intros ->. discriminate.
      + exact HW'.
      + rewrite <- E. now rewrite <- !app_assoc.
      + rewrite <- E1, <- !app_assoc. auto.
  Qed.
  (** an inline list is not taken for one in lines, nor the other way round *)
  Lemma inline_not_lines t lk : concise_at R t (c :: rest') lk -> forall b Y, blanks b -> stops space Y -> t ++ c :: rest' = b ++ Y -> False.
  Proof.
    intros H b Y BB S E. apply concise_at_line in H. apply (GrammarProps.new_line_app _ (c :: rest')) in H. rewrite E in H. clear -H BB S.
    induction b as [|x b IH]; cbn [app] in H.
    - destruct Y as [|y Y]; [discriminate|]. cbn [stops] in S. unfold space in S. apply mem_not_In in S. cbn [new_line] in H.
      apply orb_true_iff in H as [H|H]; [apply N.eqb_eq in H; subst; apply S; cbn; tauto|]. apply andb_true_iff in H as [H _]. apply orb_true_iff in H as [H|H]; [unfold blank in H; apply mem_In in H; apply S; cbn in *; tauto|apply N.eqb_eq in H; subst; apply S; cbn; tauto].
    - unfold blanks in *. cbn [forallb] in BB. apply andb_true_iff in BB as [B1 B2]. apply IH; [|exact B2]. cbn [new_line] in H. unfold blank in B1. apply mem_In in B1. each_char B1; exact H.
  Qed.
  Lemma lines_not_inline t lk Y : inline_at R t (c :: rest') lk -> t ++ c :: rest' = 10 :: Y -> False.
  Proof.
    intros H E. inversion H as [w0 r0 HW|w0 t0 a u l1 w' r0 HW HR HU HW']; subst.
    - destruct t as [|x t]; injection E as E _; subst; discriminate.
    - pose proof (RB _ _ _ HR) as TB. rewrite <- !app_assoc in E. destruct w0 as [|x w0]; [|injection E as E _; subst; discriminate]. cbn [app] in E.
      destruct t0 as [|x t0]; [contradiction|]. injection E as E _. subst. destruct TB as [TB _]. discriminate.
  Qed.
End Lists.
