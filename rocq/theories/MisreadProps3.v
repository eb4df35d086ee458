(** What is written is not taken for another value: values. *)
From Verif Require Import Base F64 Number BTree Value BaseProps NumberProps3 Base91 Base91Props Nom Parse ParseProps Grammar VGrammar GrammarProps Format FormatProps Syntax SyntaxProps SyntaxProps2 Nav Fmt FmtText FmtSpec FmtProps FmtProps2 RtProps RtSpec RtProps2 RtProps3 RtProps4 MisreadSpec MisreadProps MisreadProps2.
Open Scope N_scope.

Lemma list_only m id w c body v : head_ok id w -> opener c = true ->
  (forall t r' r v', inside m c id t r' v' -> t ++ close c :: r' = body ++ close c :: r -> t = body /\ v' = v) ->
  only (value_at m) (fun _ : unit => head id w ++ c :: body ++ [close c]) (fun _ => Kserd id v) tt.
Proof.
  intros HO O H. split; [now apply starts_begins, head_starts|]. intros t' r' k r _ HV E. rewrite <- app_assoc in E. cbn [app] in E. rewrite <- app_assoc in E. cbn [app] in E.
  destruct (value_head m t' r' k id w c _ HV HO O E) as (t & v' & -> & EX & -> & HI). symmetry in EX. destruct (H _ _ _ _ HI EX) as [-> ->]. auto.
Qed.
Ltac bad := match goal with H : ?a = ?b |- _ => try discriminate H end.
Lemma inside_seq m id t r v : inside m (ch "[") id t r v -> exists l, v = VSeq l /\ (inline_at (value_at true) t (ch "]" :: r) l \/ m = false /\ concise_at (value_at false) t (ch "]" :: r) l).
Proof. intros H. remember (ch "[") as c eqn:E. destruct H; try discriminate E; eauto. Qed.
Lemma inside_map m id t r v : inside m (ch "{") id t r v -> exists l, v = VMap (map_of l) /\ (inline_at (entry_at (value_at false) (value_at true)) t (ch "}" :: r) l \/ m = false /\ concise_at (entry_at (value_at false) (value_at false)) t (ch "}" :: r) l).
Proof. intros H. remember (ch "{") as c eqn:E. destruct H; try discriminate E; eauto. Qed.
Lemma inside_round m id t r v : inside m (ch "(") id t r v ->
  (id = None /\ v = VUnit /\ blanks t)
  \/ (exists l, v = VTuple l /\ (id = None -> l <> []) /\ assigns (trim (t ++ ch ")" :: r)) = false /\ inline_at (value_at true) t (ch ")" :: r) l)
  \/ (exists l, v = VTuple l /\ m = false /\ assigns (trim (t ++ ch ")" :: r)) = false /\ concise_at (value_at false) t (ch ")" :: r) l)
  \/ (exists l, v = VCntr (fields_of l) /\ assigns (trim (t ++ ch ")" :: r)) = true /\ inline_at (field_at (value_at true)) t (ch ")" :: r) l)
  \/ (exists l, v = VCntr (fields_of l) /\ m = false /\ assigns (trim (t ++ ch ")" :: r)) = true /\ concise_at (field_at (value_at false)) t (ch ")" :: r) l).
Proof.
  intros H. remember (ch "(") as c eqn:E. destruct H; try discriminate E; rewrite ?trim_app2, ?assigns_close by reflexivity; eauto 10.
Qed.

(** texts of lists begin, or end at once *)
Section Bodies.
  Context {A : Type} (g : A -> bool) (I : A -> str).
  Lemma first_split c0 l w c r : Forall (fun x => begins (I x)) l -> blanks c0 -> blanks w -> closer c = true ->
    exists b Y, first_text g I c0 l ++ w ++ c :: r = b ++ Y /\ blanks b /\ stops space Y /\ (l = [] \/ begins Y).
  Proof.
    intros F B0 W C. destruct F as [|x l HX _]; cbn [first_text].
    - exists (c0 ++ w), (c :: r). rewrite <- app_assoc. repeat split; auto using blanks_app, closer_stops.
    - exists (if g x then pop c0 else c0), (I x ++ more_text g I l ++ w ++ c :: r). rewrite <- !app_assoc. repeat split; auto using begins_space, begins_app.
      + destruct (g x); [|exact B0]. unfold blanks, pop in *. rewrite forallb_forall in *. intros d Hd. apply B0. clear -Hd.
        induction c0 as [|e c0 IH]; [contradiction|]. destruct c0; [contradiction|]. cbn [removelast] in Hd. destruct Hd as [->|Hd]; [now left|]. right. auto.
  Qed.
End Bodies.
Lemma only_begins {A B} (R : str -> str -> B -> Prop) (I : A -> str) v l : Forall (only R I v) l -> Forall (fun x => begins (I x)) l.
Proof. intros F. eapply Forall_impl; [|exact F]. intros x H. apply H. Qed.

Section Kinds.
  Context {A B : Type} (g : A -> bool) (I : A -> str) (v : A -> B) (c : char) (RT RF : str -> str -> B -> Prop).
  Hypothesis (C : closer c = true) (BT : all_begin RT) (BF : all_begin RF).
  Lemma inline_kind c0 w l m t r' r lk : Forall (only RT I v) l -> blanks c0 -> blanks w ->
    inline_at RT t (c :: r') lk \/ m = false /\ concise_at RF t (c :: r') lk ->
    t ++ c :: r' = (first_text g I c0 l ++ w) ++ c :: r -> t = first_text g I c0 l ++ w /\ lk = map v l.
  Proof.
    intros F B0 W H E. rewrite <- app_assoc in E. destruct H as [H|[_ H]].
    - destruct (first_only RT g I v BT c r r' C c0 l w t lk F H B0 W E) as (E1 & _ & E2). auto.
    - exfalso. destruct (first_split g I c0 l w c r (only_begins _ _ _ _ F) B0 W C) as (b & Y & EY & BB & SY & _). rewrite EY in E. exact (inline_not_lines RF c r' t lk H b Y BB SY E).
  Qed.
  Lemma lines_kind col l m t r' r lk : Forall (only RF I v) l ->
    inline_at RT t (c :: r') lk \/ m = false /\ concise_at RF t (c :: r') lk ->
    t ++ c :: r' = lines_text g I col l ++ c :: r -> t = lines_text g I col l /\ lk = map v l.
  Proof.
    intros F H E. destruct H as [H|[_ H]].
    - exfalso. apply (lines_not_inline RT BT c r' C t lk (tl (lines_text g I col l ++ c :: r)) H). rewrite E. now destruct l.
    - destruct (concise_only RF g I v BF c r r' C col l t lk F H E) as (E1 & _ & E2). auto.
  Qed.
End Kinds.

(** a container's text has its '=' *)
Lemma names_assign n Y : forallb name_char n = true -> assigns (n ++ 32 :: ch "=" :: Y) = true.
Proof.
  induction n as [|c n IH]; cbn [forallb app]; intros H; [reflexivity|]. apply andb_true_iff in H as [H1 H2]. cbn [assigns]. rewrite IH by assumption. rewrite andb_true_r.
  apply orb_true_iff. right. apply negb_true_iff, mem_not_In. intros Q. each_char Q; discriminate H1.
Qed.
Definition tuple_empty (id : option str) : value kserd := match id with Some _ => VTuple [] | None => VUnit end.
Lemma empty_inside m id t r' r v' : inside m (ch "(") id t r' v' -> t ++ ch ")" :: r' = [] ++ ch ")" :: r -> t = [] /\ v' = tuple_empty id.
Proof.
  intros H E. assert (Z : assigns (trim ([] ++ ch ")" :: r)) = false) by reflexivity.
  apply inside_round in H as [(-> & -> & B)|[(l & -> & N & _ & H)|[(l & -> & _ & _ & H)|[(l & -> & X & _)|(l & -> & _ & X & _)]]]].
  - apply (blank_eq t (ch ")" :: r') [] (ch ")" :: r)) in E as [-> _]; try reflexivity; auto.
  - destruct (inline_kind (A := unit) (fun _ => false) (fun _ => []) (fun _ => Kserd None VUnit) (ch ")") (value_at true) (value_at false) eq_refl (value_at_begins true) [] [] [] m t r' r l) as [-> ->]; auto; try reflexivity.
    split; [reflexivity|]. destruct id; [reflexivity|]. elim (N eq_refl). reflexivity.
  - exfalso. exact (inline_not_lines (value_at false) (ch ")") r' t l H [] (ch ")" :: r) eq_refl eq_refl E).
  - rewrite E, Z in X. discriminate.
  - rewrite E, Z in X. discriminate.
Qed.
Definition field_like (T r : str) : Prop := exists name w1 u, T ++ r = name ++ w1 ++ ch "=" :: u /\ forallb name_char name = true /\ blanks w1.
Lemma field_at_like R t r a z : field_at R t r a -> field_like t z.
Proof.
  intros [name w1 w2 u r0 k N _ W1 _ _]. exists name, w1, (w2 ++ u ++ z). rewrite <- !app_assoc. auto.
Qed.
Lemma tuple_inside_inline (g : dk -> bool) I m id x l t r' r v' : Forall (only (value_at true) I norm) (x :: l) -> (forall z, follow z -> shape (I x) z) ->
  inside m (ch "(") id t r' v' -> t ++ ch ")" :: r' = first_text g I [] (x :: l) ++ ch ")" :: r -> t = first_text g I [] (x :: l) /\ v' = VTuple (map norm (x :: l)).
Proof.
  intros F SH H E. pose proof (only_begins _ _ _ _ F) as FB.
  assert (E0 : t ++ ch ")" :: r' = I x ++ more_text g I l ++ ch ")" :: r) by (rewrite E; cbn [first_text]; unfold pop; destruct (g x); cbn [removelast app]; now rewrite <- app_assoc).
  assert (BX : begins (I x)) by (inversion_clear FB; assumption).
  assert (FO : follow (more_text g I l ++ ch ")" :: r)) by (apply (more_follow g I (ch ")") r eq_refl l []); reflexivity).
  apply inside_round in H as [(-> & -> & B)|[(lk & -> & N & _ & H)|[(lk & -> & M & _ & H)|[(lk & -> & X & H)|(lk & -> & _ & X & H)]]]].
  - exfalso. apply (blank_eq t (ch ")" :: r') [] (I x ++ _)) in E0 as [_ E0]; try reflexivity; auto; [|now apply begins_space, begins_app]. symmetry in E0. now apply begins_closer in E0.
  - destruct (inline_kind g I norm (ch ")") (value_at true) (value_at false) eq_refl (value_at_begins true) [] [] (x :: l) m t r' r lk) as [E1 ->]; auto; try reflexivity.
    + now rewrite app_nil_r.
    + rewrite app_nil_r in E1. auto.
  - destruct (inline_kind g I norm (ch ")") (value_at true) (value_at false) eq_refl (value_at_begins true) [] [] (x :: l) m t r' r lk) as [E1 ->]; auto; try reflexivity.
    + now rewrite app_nil_r.
    + rewrite app_nil_r in E1. auto.
  - exfalso. inversion H as [w0 r0 HW|w0 t0 a u l1 w' r0 HW HR HU HW']; subst.
    + apply (blank_eq t (ch ")" :: r') [] (I x ++ _)) in E0 as [_ E0]; try reflexivity; auto; [|now apply begins_space, begins_app]. symmetry in E0. now apply begins_closer in E0.
    + pose proof (field_at_begins _ _ _ _ HR) as TB. rewrite <- !app_assoc in E0. apply (blank_eq w0 _ [] (I x ++ _)) in E0 as [_ E0]; try reflexivity; auto; try (now apply begins_space, begins_app).
      destruct (field_at_like _ _ _ _ (u ++ w' ++ ch ")" :: r') HR) as (name & w1 & q & E1 & N & W1). rewrite E1 in E0.
      exact (shape_not_field (I x) _ name w1 q (SH _ FO) FO N W1 E0).
  - exfalso. apply (inline_not_lines (field_at (value_at false)) (ch ")") r' t lk H [] (I x ++ more_text g I l ++ ch ")" :: r) eq_refl); [now apply begins_space, begins_app|exact E0].
Qed.
Lemma spaces_trim w c r : spaces w -> space c = false -> trim (w ++ c :: r) = c :: r.
Proof. intros H S. induction w as [|x w IH]; unfold spaces in *; cbn [app trim]; [now rewrite S|]. cbn [forallb] in H. apply andb_true_iff in H as [-> H]. auto. Qed.
Lemma tuple_inside_lines (g : dk -> bool) I m id col x l t r' r v' : Forall (only (value_at false) I norm) (x :: l) -> (forall z, follow z -> shape (I x) z) ->
  inside m (ch "(") id t r' v' -> t ++ ch ")" :: r' = lines_text g I col (x :: l) ++ ch ")" :: r -> t = lines_text g I col (x :: l) /\ v' = VTuple (map norm (x :: l)).
Proof.
  intros F SH H E. assert (BX : begins (I x)) by (inversion_clear F as [|? ? [BX _] _]; exact BX).
  assert (E0 : t ++ ch ")" :: r' = 10 :: tl (lines_text g I col (x :: l)) ++ ch ")" :: r) by (rewrite E; reflexivity).
  apply inside_round in H as [(-> & -> & B)|[(lk & -> & N & _ & H)|[(lk & -> & M & _ & H)|[(lk & -> & X & H)|(lk & -> & _ & X & H)]]]].
  - exfalso. destruct t as [|y t]; injection E0 as E0 _; [discriminate|]. subst y. discriminate.
  - exfalso. exact (lines_not_inline (value_at true) (value_at_begins true) (ch ")") r' eq_refl t lk _ H E0).
  - destruct (lines_kind g I norm (ch ")") (value_at true) (value_at false) eq_refl (value_at_begins true) (value_at_begins false) col (x :: l) m t r' r lk F (or_intror (conj M H)) E) as [E1 ->]. auto.
  - exfalso. exact (lines_not_inline _ (field_at_begins (value_at true)) (ch ")") r' eq_refl t lk _ H E0).
  - exfalso. inversion H as [w0 r0 HS HN|w0 t0 a u l1 w' r0 HS HN HR HU HW']; subst.
    + rewrite spaces_trim in X by (auto; reflexivity). discriminate.
    + pose proof (field_at_begins _ _ _ _ HR) as TB. cbn [lines_text] in E. set (n := if g x then (col + 3)%nat else (col + 4)%nat) in *.
      replace ((nl ++ sp n ++ I x ++ lines_text g I col l) ++ ch ")" :: r) with ((nl ++ sp n) ++ I x ++ lines_text g I col l ++ ch ")" :: r) in E by now rewrite <- !app_assoc.
      rewrite <- !(app_assoc w0), <- !(app_assoc t0), <- !(app_assoc u) in E. apply gap_eq in E as [_ E]; auto using line_sp; try (apply begins_space, begins_app; assumption).
      assert (FO : follow (lines_text g I col l ++ ch ")" :: r)) by apply lines_follow.
      destruct (field_at_like _ _ _ _ (u ++ w' ++ ch ")" :: r') HR) as (name & w1 & q & E1 & N & W1). rewrite E1 in E.
      exact (shape_not_field (I x) _ name w1 q (SH _ FO) FO N W1 E).
Qed.
