(** Exactly which texts can be read: nothing else is accepted. *)
From Verif Require Import Base F64 Number NumberSpec BTree Value ValueProps BaseProps NumberProps3 Base91 Base91Props Nom Parse ParseErr ParseProps Grammar VGrammar GrammarProps Format FormatProps Syntax SyntaxProps SyntaxProps2 SyntaxProps3 SyntaxProps4 Nav NavSpec Fmt FmtText FmtSpec FmtProps FmtProps2 RtProps RtSpec RtProps2 RtProps3 RtProps4 MisreadSpec MisreadProps MisreadProps2 MisreadProps3 MisreadProps4 MisreadProps5 LegibleSpec LegibleProps.
Open Scope N_scope.

(** ** lists: what holds of each element where it is read *)
Section Lists.
  Context {A B : Type} (R : str -> str -> B -> Prop) (g : A -> bool) (I : A -> str) (v : A -> B) (P : A -> str -> Prop).
  Hypothesis RB : all_begin R.
  Definition holds (x : A) : Prop := forall r k, follow r -> R (I x) r k -> P x r.
  Fixpoint each_more (l : list A) (e : str) : Prop := match l with [] => True | x :: l => P x (more_text g I l ++ e) /\ each_more l e end.
  Fixpoint each_line (col : nat) (l : list A) (e : str) : Prop := match l with [] => True | x :: l => P x (lines_text g I col l ++ e) /\ each_line col l e end.
  Variables (c : char) (rest rest' : str).
  Hypothesis C : closer c = true.
  Lemma more_holds l : Forall (only R I v) l -> Forall holds l -> forall u w' w lk, separated_at R comma u (w' ++ c :: rest') lk -> blanks w' -> blanks w ->
    u ++ w' ++ c :: rest' = more_text g I l ++ w ++ c :: rest -> each_more l (w ++ c :: rest).
  Proof.
    induction 1 as [|x l [HB HX] _ IH]; intros G u w' w lk H W' W E; cbn [more_text each_more] in *; [exact Logic.I|]. inversion_clear G as [|? ? GX GL].
    inversion H as [|w1 t a u1 l1 r1 HS HR HU]; subst; cbn [app] in E.
    - exfalso. destruct w' as [|y w']; injection E as E _; subst; [discriminate|]. unfold blanks in W'. discriminate.
    - destruct HS as (b1 & b2 & B1 & B2 & ->). destruct b1 as [|y b1]; [|exfalso; injection E as E _; subst y; discriminate].
      cbn [app] in E. injection E as E. rewrite <- !app_assoc in E. pose proof (RB _ _ _ HR) as TB.
      apply blank_eq in E as [-> E]; try (destruct (g x); reflexivity); try (apply begins_space, begins_app; assumption); [|exact B2].
      destruct (HX _ _ _ _ (more_follow g I c rest C l w W) HR E) as [-> _]. apply app_inv_head in E.
      split; [|exact (IH GL _ _ _ _ HU W' W E)]. rewrite E in HR. apply GX in HR; [exact HR|]. now apply more_follow.
  Qed.
  Lemma first_holds c0 l w t lk : Forall (only R I v) l -> Forall holds l -> inline_at R t (c :: rest') lk -> blanks c0 -> blanks w ->
    t ++ c :: rest' = first_text g I c0 l ++ w ++ c :: rest -> each_more l (w ++ c :: rest).
  Proof.
    intros F G H B0 W E. destruct F as [|x l [HB HX] F]; cbn [first_text each_more] in *; [exact Logic.I|]. inversion_clear G as [|? ? GX GL].
    set (b0 := if g x then pop c0 else c0) in *. assert (BB : blanks b0).
    { unfold b0. destruct (g x); [|exact B0]. unfold blanks, pop in *. rewrite forallb_forall in *. intros d Hd. apply B0. clear -Hd.
      induction c0 as [|e c0 IH]; [contradiction|]. destruct c0; [contradiction|]. cbn [removelast] in Hd. destruct Hd as [->|Hd]; [now left|]. right. auto. }
    inversion H as [w0 r0 HW|w0 t0 a u l1 w' r0 HW HR HU HW']; subst.
    - exfalso. rewrite <- !app_assoc in E. apply blank_eq in E as [_ E]; auto using closer_stops; [|now apply begins_space, begins_app].
      symmetry in E. now apply begins_closer in E.
    - pose proof (RB _ _ _ HR) as TB. rewrite <- !app_assoc in E. apply blank_eq in E as [-> E]; try (apply begins_space, begins_app; assumption); auto.
      destruct (HX _ _ _ _ (more_follow g I c rest C l w W) HR E) as [-> _]. apply app_inv_head in E.
      split; [|exact (more_holds l F GL _ _ _ _ HU HW' W E)]. rewrite E in HR. apply GX in HR; [exact HR|]. now apply more_follow.
  Qed.
  Lemma lines_holds col l : Forall (only R I v) l -> Forall holds l -> forall u w' lk, separated_at R Format.gap u (w' ++ c :: rest') lk -> Format.gap w' ->
    u ++ w' ++ c :: rest' = lines_text g I col l ++ c :: rest -> each_line col l (c :: rest).
  Proof.
    induction 1 as [|x l [HB HX] _ IH]; intros G u w' lk H W E; cbn [lines_text each_line] in *; [exact Logic.I|]. inversion_clear G as [|? ? GX GL].
    set (n := if g x then (col + 3)%nat else (col + 4)%nat) in *. replace ((nl ++ sp n ++ I x ++ lines_text g I col l) ++ c :: rest) with ((nl ++ sp n) ++ I x ++ lines_text g I col l ++ c :: rest) in E by now rewrite <- !app_assoc.
    inversion H as [|w1 t a u1 l1 r1 [HS _] HR HU]; subst.
    - exfalso. change ([] ++ w' ++ c :: rest') with (w' ++ c :: rest') in E. apply gap_eq in E as [_ E]; auto using closer_stops, line_sp; [|apply W|now apply begins_space, begins_app].
      symmetry in E. now apply begins_closer in E.
    - pose proof (RB _ _ _ HR) as TB. rewrite <- (app_assoc w1), <- (app_assoc t) in E.
      apply gap_eq in E as [-> E]; auto using line_sp; try (apply begins_space, begins_app; assumption).
      destruct (HX _ _ _ _ (lines_follow g I col l _) HR E) as [-> _]. apply app_inv_head in E.
      split; [|exact (IH GL _ _ _ HU W E)]. rewrite E in HR. apply GX in HR; [exact HR|]. apply lines_follow.
  Qed.
  Lemma concise_holds col l t lk : Forall (only R I v) l -> Forall holds l -> concise_at R t (c :: rest') lk ->
    t ++ c :: rest' = lines_text g I col l ++ c :: rest -> each_line col l (c :: rest).
  Proof.
    intros F G H E. inversion H as [w0 r0 HS HN|w0 t0 a u l1 w' r0 HS HN HR HU HW']; subst.
    - apply (lines_holds col l F G [] t []); [constructor| |exact E]. split; [exact HS|]. intros ->. discriminate.
    - apply (lines_holds col l F G (w0 ++ t0 ++ u) w' (a :: l1)); [|exact HW'|rewrite <- E; now rewrite <- !app_assoc].
      apply At_next; [|exact HR|exact HU]. split; [exact HS|]. intros ->. discriminate.
  Qed.
End Lists.
Section Kinds.
  Context {A B : Type} (g : A -> bool) (I : A -> str) (v : A -> B) (P : A -> str -> Prop) (c : char) (RT RF : str -> str -> B -> Prop).
  Hypothesis (C : closer c = true) (BT : all_begin RT) (BF : all_begin RF).
  Lemma inline_holds c0 w l m t r' r lk : Forall (only RT I v) l -> Forall (holds RT I P) l -> blanks c0 -> blanks w ->
    inline_at RT t (c :: r') lk \/ m = false /\ concise_at RF t (c :: r') lk ->
    t ++ c :: r' = (first_text g I c0 l ++ w) ++ c :: r -> each_more g I P l (w ++ c :: r).
  Proof.
    intros F G B0 W H E. rewrite <- app_assoc in E. destruct H as [H|[_ H]].
    - exact (first_holds RT g I v P BT c r r' C c0 l w t lk F G H B0 W E).
    - exfalso. destruct (first_split g I c0 l w c r (only_begins _ _ _ _ F) B0 W C) as (b & Y & EY & BB & SY & _). rewrite EY in E. exact (inline_not_lines RF c r' t lk H b Y BB SY E).
  Qed.
  Lemma lined_holds col l m t r' r lk : Forall (only RF I v) l -> Forall (holds RF I P) l ->
    inline_at RT t (c :: r') lk \/ m = false /\ concise_at RF t (c :: r') lk ->
    t ++ c :: r' = lines_text g I col l ++ c :: r -> each_line g I P col l (c :: r).
  Proof.
    intros F G H E. destruct H as [H|[_ H]].
    - exfalso. apply (lines_not_inline RT BT c r' C t lk (tl (lines_text g I col l ++ c :: r)) H). rewrite E. now destruct l.
    - exact (concise_holds RF g I v P BF c r r' C col l t lk F G H E).
  Qed.
End Kinds.
Lemma each_more_all {A} g (I : A -> str) (P : A -> str -> Prop) (Q : A -> Prop) l e : (forall x r, P x r -> Q x) -> each_more g I P l e -> Forall Q l.
Proof. intros H. induction l as [|x l IH]; cbn [each_more]; intros F; constructor; [eapply H, F|apply IH, F]. Qed.
Lemma each_line_all {A} g (I : A -> str) (P : A -> str -> Prop) (Q : A -> Prop) col l e : (forall x r, P x r -> Q x) -> each_line g I P col l e -> Forall Q l.
Proof. intros H. induction l as [|x l IH]; cbn [each_line]; intros F; constructor; [eapply H, F|apply IH, F]. Qed.
Lemma each_line_chain {A} g (I : A -> str) (P : A -> str -> Prop) (b op : A -> bool) col l e : (forall x r, P x r -> b x = true -> Grammar.opens r = false) ->
  Forall (fun x => op x = true -> forall z, Grammar.opens (I x ++ z) = true) l -> each_line g I P col l e -> chain (fun x y => negb (b x && op y)) l = true.
Proof.
  intros H F. induction F as [|x l _ F IH]; [reflexivity|]. cbn [each_line]. intros [HX HL]. destruct F as [|y l HY F]; [reflexivity|].
  change (negb (b x && op y) && chain (fun x y => negb (b x && op y)) (y :: l) = true). rewrite IH by exact HL. rewrite andb_true_r. apply negb_true_iff. destruct (b x) eqn:BX; [|reflexivity]. destruct (op y) eqn:OY; [|reflexivity].
  pose proof (H _ _ HX BX) as X. cbn [lines_text] in X. rewrite <- !app_assoc in X. rewrite spaces_opens in X by reflexivity. rewrite spaces_opens in X by apply spaces_sp. now rewrite HY in X.
Qed.

(** ** values *)
Definition reading (d : dk) (r : str) : Prop := d_all legible_node d = true /\ (bare_number d = true -> Grammar.opens r = false).
Lemma field_holds R col (e : str * dk) : all_begin R -> match fst e with [] => false | n => forallb name_char n end = true ->
  only R (fun x => text true x (col e)) norm (snd e) -> holds R (fun x => text true x (col e)) reading (snd e) -> holds (field_at R) (field_text col) (fun e => reading (snd e)) e.
Proof.
  destruct e as [n x]. cbn [fst snd]. intros RB N [BX HX] G r a FO H.
  assert (NN : forallb name_char n = true) by (destruct n; [discriminate|exact N]). remember (field_text col (n, x)) as T eqn:ET. destruct H as [name w1 w2 u r k N1 _ W1 W2 HR]. unfold field_text in ET. cbn [fst snd] in *.
  assert (E1 : name ++ w1 ++ ch "=" :: w2 ++ u ++ r = n ++ [32] ++ ch "=" :: RtProps2.gap x ++ text true x (col (n, x)) ++ r).
  { transitivity ((name ++ w1 ++ s "=" ++ w2 ++ u) ++ r); [now rewrite <- !app_assoc|]. rewrite ET, <- !app_assoc. reflexivity. }
  apply span_eq with (f := name_char) in E1 as [-> E1]; auto; [|now apply blanks_stop_name|reflexivity].
  apply blank_eq in E1 as [-> E1]; try reflexivity; auto. injection E1 as E1.
  apply blank_eq in E1 as [-> E1]; auto using gap_blanks; [|apply begins_space, begins_app, (RB _ _ _ HR)|now apply begins_space, begins_app].
  apply app_inv_tail in E1. subst u. exact (G r k FO HR).
Qed.
Definition entry_reading (e : dk * dk) (r : str) : Prop := d_all legible_node (fst e) = true /\ reading (snd e) r.
Lemma entry_holds K R c col (e : dk * dk) : all_begin R -> only K (fun x => text true x c) norm (fst e) -> only R (fun x => text true x (col e)) norm (snd e) ->
  holds K (fun x => text true x c) reading (fst e) -> holds R (fun x => text true x (col e)) reading (snd e) -> holds (entry_at K R) (entry_text c col) entry_reading e.
Proof.
  destruct e as [x y]. cbn [fst snd]. intros RB [BX HX] [BY HY] GX GY r a FO H. remember (entry_text c col (x, y)) as T eqn:ET. destruct H as [tk w1 w2 u r kk kv W1 W2 HK HR]. unfold entry_text in ET. cbn [fst snd] in *.
  assert (E1 : tk ++ w1 ++ ch ":" :: w2 ++ u ++ r = text true x c ++ ch ":" :: RtProps2.gap y ++ text true y (col (x, y)) ++ r).
  { transitivity ((tk ++ w1 ++ s ":" ++ w2 ++ u) ++ r); [now rewrite <- !app_assoc|]. rewrite ET, <- !app_assoc. reflexivity. }
  assert (FK : follow (ch ":" :: RtProps2.gap y ++ text true y (col (x, y)) ++ r)) by now apply follow_char.
  destruct (HX _ _ _ _ FK HK E1) as [-> _]. apply app_inv_head in E1. change (K (text true x c) (w1 ++ ch ":" :: w2 ++ u ++ r) kk) in HK. pose proof HK as HK'. rewrite E1 in HK'. destruct (GX _ _ FK HK') as [LX _].
  apply (blank_eq w1 _ [] (ch ":" :: _)) in E1 as [-> E1]; try reflexivity; auto. injection E1 as E1.
  apply blank_eq in E1 as [-> E1]; auto using gap_blanks; [|apply begins_space, begins_app, (RB _ _ _ HR)|now apply begins_space, begins_app].
  apply app_inv_tail in E1. subst u. split; [exact LX|exact (GY r kv FO HR)].
Qed.
Lemma list_inside m id w c body r k : opener c = true -> head_ok id w -> value_at m (head id w ++ c :: body ++ [close c]) r k -> exists v, k = Kserd id v /\ inside m c id body r v.
Proof.
  intros O HO H. destruct (value_head m _ r k id w c (body ++ close c :: r) H HO O) as (t & v & E1 & E2 & -> & HI); [rewrite <- app_assoc; cbn [app]; now rewrite <- app_assoc|].
  apply app_inv_tail in E2. subst t. eauto.
Qed.
Lemma opens_bracket c z : mem c (s "([{") = true -> Grammar.opens (c :: z) = true.
Proof. intros H. cbn [Grammar.opens]. apply mem_In in H. each_char H; reflexivity. Qed.
Lemma text_opening d : clear_node d = true -> flat_node d = true -> RtSpec.bracket_first d = true -> forall col z, Grammar.opens (text true d col ++ z) = true.
Proof.
  destruct d as [f id v]. intros S F B col z. unfold RtSpec.bracket_first, shown_id in B. cbn [d_val d_id d_fmt] in *. unfold clear_node, shown_id in S. cbn [d_val d_id d_fmt] in S. unfold flat_node, d_line in *. cbn [d_fmt d_val] in *.
  destruct v as [| | | | |l|l|l|l]; try discriminate; cbn [text prim_text].
  - destruct id as [[|]|]; [reflexivity|discriminate|reflexivity].
  - assert (E : (if f_id f then id else None) = None) by (destruct (if f_id f then id else None); [discriminate|reflexivity]). apply andb_true_iff in S as [_ S].
    destruct (f_line f); [rewrite inline_items by exact S|rewrite (app_assoc (tuple_id f _)), (app_assoc _ (sp col)), concise_items..]; rewrite tuple_head, E, <- !app_assoc; now apply opens_bracket.
  - assert (E : (if f_id f then id else None) = None) by (destruct (if f_id f then id else None); [discriminate|reflexivity]).
    destruct (f_line f); [rewrite inline_fields|rewrite (app_assoc (nonprim_id f _)), (app_assoc _ (sp col)), concise_fields|discriminate]; rewrite nonprim_head, E, <- !app_assoc; now apply opens_bracket.
  - assert (E : (if f_id f then id else None) = None) by (destruct (if f_id f then id else None); [discriminate|reflexivity]). apply andb_true_iff in S as [_ S].
    destruct (f_line f); [rewrite inline_items by exact S|rewrite (app_assoc (nonprim_id f _)), (app_assoc _ (sp col)), concise_items..]; rewrite nonprim_head, E, <- !app_assoc; now apply opens_bracket.
  - assert (E : (if f_id f then id else None) = None) by (destruct (if f_id f then id else None); [discriminate|reflexivity]).
    destruct (f_line f); [rewrite (app_assoc (nonprim_id f _)), inline_entries|rewrite (app_assoc (nonprim_id f _)), (app_assoc _ (sp col)), concise_entries..]; rewrite nonprim_head, E, <- !app_assoc; now apply opens_bracket.
Qed.
Lemma token_number t n : token t (VNum n) -> is_some (num_from_str t) = true.
Proof. intros H. inversion H as [| | |u n' F' P' EU| | |]; subst. now rewrite P'. Qed.
Lemma bare_opens n r : match n with Float (FInf false | FNaN _ _) => true | _ => false end = true -> follow r -> no_head (num_display n ++ r) = true -> Grammar.opens r = false.
Proof.
  intros B (F & _) H. assert (D : exists w, num_display n = w /\ (w = s "inf" \/ w = s "NaN")) by (destruct n as [| |[|[]|]]; try discriminate; (eexists; split; [reflexivity|auto])).
  destruct D as (w & D & DW). rewrite D in H. unfold no_head in H. assert (N : forallb name_char w = true /\ is_id w = true) by (destruct DW as [->| ->]; split; reflexivity). destruct N as [N1 N2].
  rewrite (take_while_spec name_char w r N1 F), N2 in H. replace (starts_with (s "true") (w ++ r)) with false in H by (destruct DW as [->| ->]; reflexivity).
  replace (starts_with (s "false") (w ++ r)) with false in H by (destruct DW as [->| ->]; reflexivity). cbn [orb negb] in H. now apply negb_true_iff in H.
Qed.
Lemma legible_list f id v (l : list dk) : legible_node (DK f id v) = true -> d_children v = l -> Forall (fun x => d_all legible_node x = true) l -> forall r, bare_number (DK f id v) = false -> reading (DK f id v) r.
Proof. intros L <- F r B. split; [now apply d_all_children|]. rewrite B. discriminate. Qed.
Lemma text_reading d : d_all clear_node d = true -> d_all flat_node d = true -> forall m col, (m = true -> d_line d = Inline) ->
  forall r k, follow r -> value_at m (text true d col) r k -> reading d r.
Proof.
  induction d as [f id v IH] using dk_ind'. intros S F m col M r k FO HV.
  destruct (text_exactly (DK f id v) S F m col M) as [_ KE]. destruct (KE _ _ _ _ FO HV eq_refl) as [_ EK]. clear KE.
  apply d_all_children in S as [S SC]. apply d_all_children in F as [F FC].
  assert (G : Forall (fun x => forall m col, (m = true -> d_line x = Inline) -> forall r k, follow r -> value_at m (text true x col) r k -> reading x r) (d_children v)) by (rewrite Forall_forall in *; intros x Hx; exact (IH x Hx (SC x Hx) (FC x Hx))). clear IH.
  assert (X : Forall (fun x => forall m col, (m = true -> d_line x = Inline) -> exactly m (text true x col) (norm x)) (d_children v)).
  { rewrite Forall_forall in *. intros x Hx. apply text_exactly; auto. }
  assert (O : Forall (fun x => RtSpec.bracket_first x = true -> forall c z, Grammar.opens (text true x c ++ z) = true) (d_children v)).
  { rewrite Forall_forall in *. intros x Hx B c z. apply text_opening; eauto using all_here. }
  assert (Q : Forall (fun x => d_all legible_node x = true -> forall c, scan (text true x c) = sign x) (d_children v)).
  { rewrite Forall_forall in *. intros x Hx L c. apply text_sign; auto. apply fine_all; auto. }
  assert (BG : Forall (fun x => forall c, begins (text true x c)) (d_children v)).
  { rewrite Forall_forall in *. intros x Hx c. apply text_begins; auto. }
  clear SC FC. pose proof S as S0. unfold clear_node, shown_id in S. cbn [d_val d_id d_fmt] in S. unfold flat_node, d_line in F. cbn [d_fmt d_val] in F.
  destruct v as [|b|n|t|b|l|l|l|l]; cbn [text prim_text d_children] in *.
  - split; [reflexivity|discriminate].
  - split; [reflexivity|discriminate].
  - destruct (prim_at m f id (num_display n) (VNum (reread n)) S (num_fit _ n)) as [_ H]. destruct (H _ _ _ _ FO HV eq_refl) as (_ & _ & T & N). apply token_number in T. split.
    + change (is_some (num_from_str (num_display n)) && true = true). now rewrite T.
    + unfold bare_number, shown_id. cbn [d_val d_fmt d_id]. intros B. destruct (if f_id f then id else None); [destruct n as [| |[|[]|]]; discriminate|]. now apply (bare_opens n r); auto.
  - split; [reflexivity|discriminate].
  - split; [reflexivity|discriminate].
  - apply andb_true_iff in S as [S SL]. unfold d_line in *. cbn [d_fmt] in *. destruct l as [|x l]; [split; [|discriminate]; unfold legible_node; cbn; unfold d_line; cbn; now destruct (f_line f)|].
    cbn [norm] in EK. apply (f_equal kval) in EK. cbn [kval] in EK.
    assert (LINES : f_line f <> Inline -> m = false -> value_at m (head (if f_id f then id else None) [] ++ ch "(" :: lines_text drops (fun x => text true x (col + 4)) col (x :: l) ++ [close (ch "(")]) r k -> reading (DK f id (VTuple (x :: l))) r).
    { intros NI -> H. apply list_inside in H as (v & -> & H); [|reflexivity|now apply id_head_ok]. cbn [kval] in EK. subst v.
      set (I := fun x => text true x (col + 4)) in *. set (T := lines_text drops I col (x :: l)) in *.
      assert (OX : Forall (only (value_at false) I norm) (x :: l)) by (rewrite Forall_forall in *; intros y Hy; apply exactly_only; apply X; [assumption|discriminate]).
      assert (HX : Forall (holds (value_at false) I reading) (x :: l)) by (rewrite Forall_forall in *; intros y Hy; intros r0 k0; apply G; [assumption|discriminate]).
      assert (HH : assigns (trim T ++ s ")") = false /\ (inline_at (value_at true) T (ch ")" :: r) (map norm (x :: l)) \/ false = false /\ concise_at (value_at false) T (ch ")" :: r) (map norm (x :: l)))).
      { apply inside_round in H as [(_ & H & _)|[(lk & H & _ & NA & HI)|[(lk & H & _ & NA & HI)|[(lk & H & _)|(lk & H & _)]]]]; try discriminate H; injection H as <-; rewrite trim_app2, assigns_close in NA by reflexivity; auto. }
      destruct HH as [NA HI]. pose proof (lined_holds drops I norm reading (ch ")") (value_at true) (value_at false) eq_refl (value_at_begins true) (value_at_begins false) col (x :: l) false T r r _ OX HX HI eq_refl) as EL.
      assert (LA : Forall (fun x => d_all legible_node x = true) (x :: l)) by (eapply each_line_all; [|exact EL]; intros y r0 HY; apply HY).
      apply (legible_list _ _ _ (x :: l)); [|reflexivity|exact LA|reflexivity]. unfold legible_node, d_line. cbn [d_val d_fmt].
      assert (CH : chain apart (x :: l) = true) by (eapply (each_line_chain drops I reading bare_number RtSpec.bracket_first); [|eapply Forall_impl; [|exact O]; intros y HY B z; now apply HY|exact EL]; intros y r0 HY; apply HY).
      rewrite CH. inversion_clear Q as [|? ? Q1 _]. inversion_clear LA as [|? ? L1 _]. inversion_clear BG as [|? ? B1 _].
      rewrite assigns_scan in NA. unfold T in NA. assert (SC : scan (trim (lines_text drops I col (x :: l)) ++ s ")") = match sign x with Some b => Some b | None => Some false end).
      { assert (SX : scan (I x) = sign x) by now apply Q1. specialize (B1 (col + 4)%nat). cbn [lines_text]. rewrite (app_assoc nl), trim_app; [|apply line_sp|now apply begins_space, begins_app].
        rewrite <- app_assoc, scan_app, SX. destruct (sign x); [reflexivity|]. destruct l; reflexivity. }
      rewrite SC in NA. cbn [andb firstn map first_some]. destruct (f_line f); [congruence|..]; destruct (sign x) as [[]|]; try discriminate NA; reflexivity. }
    destruct (f_line f) eqn:EL; [|destruct m; [specialize (M eq_refl); discriminate|]..].
    + clear LINES. pose proof (inline_children f (VTuple (x :: l)) F EL) as L. cbn [d_children] in L. rewrite inline_items, tuple_head, <- !app_assoc in HV by assumption.
      change (value_at m (head (if f_id f then id else None) [] ++ ch "(" :: first_text drops (fun x => text true x col) [] (x :: l) ++ [close (ch "(")]) r k) in HV.
      apply list_inside in HV as (v & -> & H); [|reflexivity|now apply id_head_ok]. cbn [kval] in EK. subst v.
      set (I := fun x => text true x col) in *. set (T := first_text drops I [] (x :: l)) in *.
      assert (OX : Forall (only (value_at true) I norm) (x :: l)) by (rewrite Forall_forall in *; intros y Hy; apply exactly_only; apply X; [assumption|]; intros _; now apply L).
      assert (HX : Forall (holds (value_at true) I reading) (x :: l)) by (rewrite Forall_forall in *; intros y Hy; intros r0 k0; apply G; [assumption|]; intros _; now apply L).
      assert (HH : assigns (trim T ++ s ")") = false /\ (inline_at (value_at true) T (ch ")" :: r) (map norm (x :: l)) \/ m = false /\ concise_at (value_at false) T (ch ")" :: r) (map norm (x :: l)))).
      { apply inside_round in H as [(_ & H & _)|[(lk & H & _ & NA & HI)|[(lk & H & M0 & NA & HI)|[(lk & H & _)|(lk & H & _)]]]]; try discriminate H; injection H as <-; rewrite trim_app2, assigns_close in NA by reflexivity; auto. }
      destruct HH as [NA HI]. pose proof (inline_holds drops I norm reading (ch ")") (value_at true) (value_at false) eq_refl (value_at_begins true) [] [] (x :: l) m T r r _ OX HX eq_refl eq_refl HI) as EM.
      specialize (EM ltac:(now rewrite app_nil_r)).
      assert (LA : Forall (fun x => d_all legible_node x = true) (x :: l)) by (eapply each_more_all; [|exact EM]; intros y r0 HY; apply HY).
      apply (legible_list _ _ _ (x :: l)); [|reflexivity|exact LA|reflexivity]. unfold legible_node, d_line. cbn [d_val d_fmt]. rewrite EL.
      assert (SC : Forall (fun y => scan (I y) = sign y) (x :: l)) by (rewrite Forall_forall in *; intros y Hy; apply Q; auto).
      rewrite assigns_scan, trim_id, scan_app in NA.
      * unfold T in NA. rewrite (first_scan drops I sign (x :: l) SC) in NA. destruct (first_some _) as [[]|]; [discriminate|reflexivity..].
      * unfold T. cbn [first_text]. unfold pop. inversion_clear BG as [|? ? B1 _]. destruct (drops x); cbn [app removelast]; apply begins_space, begins_app, B1.
    + apply LINES; [discriminate|reflexivity|]. rewrite (app_assoc (tuple_id f _)), (app_assoc _ (sp col)), concise_items, tuple_head, <- !app_assoc in HV. exact HV.
    + apply LINES; [discriminate|reflexivity|]. rewrite (app_assoc (tuple_id f _)), (app_assoc _ (sp col)), concise_items, tuple_head, <- !app_assoc in HV. exact HV.
  - apply andb_true_iff in S as [S SL]. unfold d_line in *. cbn [d_fmt] in *. destruct l as [|x l]; [split; [reflexivity|discriminate]|]. set (L0 := x :: l) in *.
    cbn [norm] in EK. unfold L0 in EK at 1. apply (f_equal kval) in EK. cbn [kval] in EK. fold L0 in EK. rewrite Forall_map in G, X.
    assert (FIN : Forall (fun e => d_all legible_node (snd e) = true) L0 -> reading (DK f id (VCntr L0)) r).
    { intros LA. apply (legible_list _ _ _ (map snd L0)); [reflexivity|reflexivity|now rewrite Forall_map|reflexivity]. }
    assert (FO1 : forall m0 c, (m0 = true -> Forall (fun x => d_line x = Inline) (map snd L0)) -> Forall (only (field_at (value_at m0)) (field_text c) read_field) L0).
    { intros m0 c L. rewrite Forall_forall in X. rewrite forallb_forall in SL. apply Forall_forall. intros e He. apply field_only; [apply value_at_begins|now apply SL|]. apply exactly_only. apply X; [exact He|].
      intros E. specialize (L E). rewrite Forall_map, Forall_forall in L. now apply L. }
    assert (FH1 : forall m0 c, (m0 = true -> Forall (fun x => d_line x = Inline) (map snd L0)) -> Forall (holds (field_at (value_at m0)) (field_text c) (fun e => reading (snd e))) L0).
    { intros m0 c L. rewrite Forall_forall in X, G. rewrite forallb_forall in SL. apply Forall_forall. intros e He.
      assert (LE : m0 = true -> d_line (snd e) = Inline) by (intros E; specialize (L E); rewrite Forall_map, Forall_forall in L; now apply L).
      apply field_holds; [apply value_at_begins|now apply SL|apply exactly_only; now apply X|]. intros r0 k0. now apply G. }
    assert (KIND : forall T m0, inside m0 (ch "(") (if f_id f then id else None) T r (VCntr (fields_of (map read_field L0))) ->
      exists lk, inline_at (field_at (value_at true)) T (ch ")" :: r) lk \/ m0 = false /\ concise_at (field_at (value_at false)) T (ch ")" :: r) lk).
    { intros T m0 H. apply inside_round in H as [(_ & H & _)|[(lk & H & _)|[(lk & H & _)|[(lk & _ & _ & HI)|(lk & _ & M0 & _ & HI)]]]]; try discriminate H; eauto. }
    destruct (f_line f) eqn:EL; [|destruct m; [specialize (M eq_refl); discriminate|]|discriminate F].
    + pose proof (inline_children f (VCntr L0) F EL) as L. cbn [d_children] in L. rewrite inline_fields, nonprim_head, <- !app_assoc in HV.
      change (value_at m (head (if f_id f then id else None) [32] ++ ch "(" :: first_text never (field_text (fun _ => col)) [] L0 ++ [close (ch "(")]) r k) in HV.
      apply list_inside in HV as (v & -> & H); [|reflexivity|now apply id_head_ok]. cbn [kval] in EK. subst v. apply KIND in H as (lk & H). apply FIN.
      pose proof (inline_holds never (field_text (fun _ => col)) read_field (fun e => reading (snd e)) (ch ")") (field_at (value_at true)) (field_at (value_at false)) eq_refl (field_at_begins _) [] [] L0 m _ r r lk (FO1 true _ (fun _ => L)) (FH1 true _ (fun _ => L)) eq_refl eq_refl H) as EM.
      specialize (EM ltac:(now rewrite app_nil_r)). eapply each_more_all; [|exact EM]. intros y r0 HY. apply HY.
    + rewrite (app_assoc (nonprim_id f _)), (app_assoc _ (sp col)), concise_fields, nonprim_head, <- !app_assoc in HV.
      change (value_at false (head (if f_id f then id else None) [32] ++ ch "(" :: lines_text never (field_text (fun e => (col + 4 + (length (fst e) + 3))%nat)) col L0 ++ [close (ch "(")]) r k) in HV.
      apply list_inside in HV as (v & -> & H); [|reflexivity|now apply id_head_ok]. cbn [kval] in EK. subst v. apply KIND in H as (lk & H). apply FIN.
      assert (NI : false = true -> Forall (fun x => d_line x = Inline) (map snd L0)) by discriminate.
      pose proof (lined_holds never (field_text (fun e => (col + 4 + (length (fst e) + 3))%nat)) read_field (fun e => reading (snd e)) (ch ")") (field_at (value_at true)) (field_at (value_at false)) eq_refl (field_at_begins _) (field_at_begins _) col L0 false _ r r lk (FO1 false _ NI) (FH1 false _ NI) H eq_refl) as EM.
      eapply each_line_all; [|exact EM]. intros y r0 HY. apply HY.
  - apply andb_true_iff in S as [S SL]. unfold d_line in *. cbn [d_fmt] in *.
    assert (LINES : f_line f <> Inline -> m = false -> value_at m (head (if f_id f then id else None) [32] ++ ch "[" :: lines_text drops (fun x => text true x (col + 4)) col l ++ [close (ch "[")]) r k -> reading (DK f id (VSeq l)) r).
    { intros NI -> H. apply list_inside in H as (v & -> & H); [|reflexivity|now apply id_head_ok]. apply inside_seq in H as (lk & -> & H).
      set (I := fun x => text true x (col + 4)) in *.
      assert (OX : Forall (only (value_at false) I norm) l) by (rewrite Forall_forall in *; intros y Hy; apply exactly_only; apply X; [assumption|discriminate]).
      assert (HX : Forall (holds (value_at false) I reading) l) by (rewrite Forall_forall in *; intros y Hy; intros r0 k0; apply G; [assumption|discriminate]).
      pose proof (lined_holds drops I norm reading (ch "]") (value_at true) (value_at false) eq_refl (value_at_begins true) (value_at_begins false) col l false _ r r _ OX HX H eq_refl) as EL.
      apply (legible_list _ _ _ l); [|reflexivity|eapply each_line_all; [|exact EL]; intros y r0 HY; apply HY|reflexivity]. unfold legible_node, d_line. cbn [d_val d_fmt].
      assert (CH : chain apart l = true) by (eapply (each_line_chain drops I reading bare_number RtSpec.bracket_first); [|eapply Forall_impl; [|exact O]; intros y HY B z; now apply HY|exact EL]; intros y r0 HY; apply HY).
      now destruct (f_line f). }
    destruct (f_line f) eqn:EL; [|destruct m; [specialize (M eq_refl); discriminate|]..].
    + clear LINES. pose proof (inline_children f (VSeq l) F EL) as L. cbn [d_children] in L. rewrite inline_items, nonprim_head, <- !app_assoc in HV by assumption.
      change (value_at m (head (if f_id f then id else None) [32] ++ ch "[" :: first_text drops (fun x => text true x col) [] l ++ [close (ch "[")]) r k) in HV.
      apply list_inside in HV as (v & -> & H); [|reflexivity|now apply id_head_ok]. apply inside_seq in H as (lk & -> & H). set (I := fun x => text true x col) in *.
      assert (OX : Forall (only (value_at true) I norm) l) by (rewrite Forall_forall in *; intros y Hy; apply exactly_only; apply X; [assumption|]; intros _; now apply L).
      assert (HX : Forall (holds (value_at true) I reading) l) by (rewrite Forall_forall in *; intros y Hy; intros r0 k0; apply G; [assumption|]; intros _; now apply L).
      pose proof (inline_holds drops I norm reading (ch "]") (value_at true) (value_at false) eq_refl (value_at_begins true) [] [] l m _ r r _ OX HX eq_refl eq_refl H) as EM.
      specialize (EM ltac:(now rewrite app_nil_r)).
      apply (legible_list _ _ _ l); [|reflexivity|eapply each_more_all; [|exact EM]; intros y r0 HY; apply HY|reflexivity]. unfold legible_node, d_line. cbn [d_val d_fmt]. now rewrite EL.
    + apply LINES; [discriminate|reflexivity|]. rewrite (app_assoc (nonprim_id f _)), (app_assoc _ (sp col)), concise_items, nonprim_head, <- !app_assoc in HV. exact HV.
    + apply LINES; [discriminate|reflexivity|]. rewrite (app_assoc (nonprim_id f _)), (app_assoc _ (sp col)), concise_items, nonprim_head, <- !app_assoc in HV. exact HV.
  - unfold d_line in *. cbn [d_fmt] in *.
    assert (FO1 : forall m0 c0 c, (m0 = true -> Forall (fun x => d_line x = Inline) (entry_list l)) -> Forall (only (entry_at (value_at false) (value_at m0)) (entry_text c0 c) read_entry) l).
    { intros m0 c0 c L. rewrite Forall_forall in X. apply Forall_forall. intros e He. apply in_entry_list in He as [H1 H2]. apply entry_only; [apply value_at_begins|apply exactly_only; apply X; [exact H1|discriminate]|].
      apply exactly_only. apply X; [exact H2|]. intros E. specialize (L E). rewrite Forall_forall in L. now apply L. }
    assert (FH1 : forall m0 c0 c, (m0 = true -> Forall (fun x => d_line x = Inline) (entry_list l)) -> Forall (holds (entry_at (value_at false) (value_at m0)) (entry_text c0 c) entry_reading) l).
    { intros m0 c0 c L. rewrite Forall_forall in X, G. apply Forall_forall. intros e He. apply in_entry_list in He as [H1 H2].
      assert (LE : m0 = true -> d_line (snd e) = Inline) by (intros E; specialize (L E); rewrite Forall_forall in L; now apply L).
      apply entry_holds; [apply value_at_begins|apply exactly_only; apply X; [exact H1|discriminate]|apply exactly_only; now apply X|intros r0 k0; apply G; [exact H1|discriminate]|intros r0 k0; now apply G]. }
    assert (FIN : match f_line f with Inline => true | _ => chain (fun e e' => apart (snd e) (fst e')) l end = true -> Forall (fun e => d_all legible_node (fst e) = true /\ d_all legible_node (snd e) = true) l -> reading (DK f id (VMap l)) r).
    { intros CH LA. apply (legible_list _ _ _ (entry_list l)); [exact CH|reflexivity|now apply Forall_entries|reflexivity]. }
    assert (LINES : f_line f <> Inline -> m = false -> value_at m (head (if f_id f then id else None) [32] ++ ch "{" :: lines_text key_drops (entry_text (col + 4) (val_col col)) col l ++ [close (ch "{")]) r k -> reading (DK f id (VMap l)) r).
    { intros NI -> H. apply list_inside in H as (v & -> & H); [|reflexivity|now apply id_head_ok]. apply inside_map in H as (lk & -> & H).
      assert (NL : false = true -> Forall (fun x => d_line x = Inline) (entry_list l)) by discriminate.
      pose proof (lined_holds key_drops (entry_text (col + 4) (val_col col)) read_entry entry_reading (ch "}") (entry_at (value_at false) (value_at true)) (entry_at (value_at false) (value_at false)) eq_refl (entry_at_begins _ _ (value_at_begins false)) (entry_at_begins _ _ (value_at_begins false)) col l false _ r r lk (FO1 false _ _ NL) (FH1 false _ _ NL) H eq_refl) as EL.
      apply FIN; [|eapply each_line_all; [|exact EL]; intros y r0 [H1 [H2 _]]; auto].
      assert (CH : chain (fun e e' => apart (snd e) (fst e')) l = true).
      { apply (each_line_chain key_drops (entry_text (col + 4) (val_col col)) entry_reading (fun e => bare_number (snd e)) (fun e => RtSpec.bracket_first (fst e)) col l (ch "}" :: r)); [intros y r0 [_ [_ HY]]; exact HY| |exact EL].
        apply Forall_forall. intros e He B z. unfold entry_text. rewrite <- app_assoc. rewrite Forall_forall in O. now apply O; [apply in_entry_list in He as [He _]|]. }
      now destruct (f_line f). }
    destruct (f_line f) eqn:EL; [|destruct m; [specialize (M eq_refl); discriminate|]..].
    + clear LINES. pose proof (inline_children f (VMap l) F EL) as L. cbn [d_children] in L. rewrite (app_assoc (nonprim_id f _)), inline_entries, nonprim_head, <- !app_assoc in HV.
      rewrite (app_assoc (first_text _ _ _ _)) in HV. set (w0 := if nonempty l then s " " else []) in *. assert (W0 : blanks w0) by (unfold w0; destruct l; reflexivity).
      change (value_at m (head (if f_id f then id else None) [32] ++ ch "{" :: (first_text key_drops (entry_text col (fun _ => col)) w0 l ++ w0) ++ [close (ch "{")]) r k) in HV.
      apply list_inside in HV as (v & -> & H); [|reflexivity|now apply id_head_ok]. apply inside_map in H as (lk & -> & H).
      pose proof (inline_holds key_drops (entry_text col (fun _ => col)) read_entry entry_reading (ch "}") (entry_at (value_at false) (value_at true)) (entry_at (value_at false) (value_at false)) eq_refl (entry_at_begins _ _ (value_at_begins false)) w0 w0 l m _ r r lk (FO1 true _ _ (fun _ => L)) (FH1 true _ _ (fun _ => L)) W0 W0 H eq_refl) as EM.
      apply FIN; [reflexivity|eapply each_more_all; [|exact EM]; intros y r0 [H1 [H2 _]]; auto].
    + apply LINES; [discriminate|reflexivity|]. rewrite (app_assoc (nonprim_id f _)), (app_assoc _ (sp col)), concise_entries, nonprim_head, <- !app_assoc in HV. exact HV.
    + apply LINES; [discriminate|reflexivity|]. rewrite (app_assoc (nonprim_id f _)), (app_assoc _ (sp col)), concise_entries, nonprim_head, <- !app_assoc in HV. exact HV.
Qed.

(** ** documents *)
Lemma sequence_first x col : clear_node x = true -> flat_node x = true -> RtSpec.bracket_first x && match d_val x with VSeq _ => true | _ => false end = true -> exists X, text true x col = ch "[" :: X.
Proof.
  destruct x as [f id v]. intros S F B. apply andb_true_iff in B as [B K]. unfold RtSpec.bracket_first, shown_id in B. cbn [d_val d_id d_fmt] in *. unfold clear_node, shown_id in S. cbn [d_val d_id d_fmt] in S. unfold flat_node, d_line in *. cbn [d_fmt d_val] in *.
  destruct v as [| | | | | | |l|]; try discriminate. cbn [text]. apply andb_true_iff in S as [_ S].
  assert (E : (if f_id f then id else None) = None) by (destruct (if f_id f then id else None); [discriminate|reflexivity]).
  destruct (f_line f); [rewrite inline_items by exact S|rewrite (app_assoc (nonprim_id f _)), (app_assoc _ (sp col)), concise_items..]; rewrite nonprim_head, E; now eexists.
Qed.
Lemma word_id x col : word_only x = true -> is_id (text true x col) = true.
Proof.
  destruct x as [f id v]. unfold word_only, bare_number, shown_id. cbn [d_val d_id d_fmt]. intros H.
  assert (E : match v with VBool _ | VNum _ => prim_id f id | _ => [] end = []).
  { unfold prim_id. destruct (f_id f), id, v; (reflexivity || discriminate). }
  destruct v as [|b|n| | | | | |]; try (destruct (if f_id f then id else None); discriminate); cbn [text prim_text]; rewrite E; cbn [app].
  - destruct b; reflexivity.
  - destruct n as [| |[|[] |]]; (reflexivity || (destruct (if f_id f then id else None); discriminate)).
Qed.
Lemma root_safe d : d_all clear_node d = true -> d_all flat_node d = true -> looks (text true d 0) = false -> safe_root d = true.
Proof.
  destruct d as [f id v]. intros S F L. apply d_all_children in S as [S SC]. apply d_all_children in F as [F FC]. unfold safe_root, clear_node, flat_node, d_line, shown_id in *. cbn [d_val d_id d_fmt] in *.
  destruct v as [| | | | | | |[|x l]|]; try reflexivity. destruct (f_line f) eqn:EL; [|reflexivity..]. destruct (if f_id f then id else None) as [i|] eqn:EI; [reflexivity|].
  apply andb_true_iff in S as [_ S]. cbn [text] in L. rewrite EL, inline_items, nonprim_head, EI in L by exact S. cbn [head app d_children] in *. inversion_clear SC as [|? ? SX _]. inversion_clear FC as [|? ? FX _].
  cbn [first_shown] in S. apply negb_true_iff in S. cbn [first_text] in L. rewrite S in L. cbn [app] in L.
  change (looks (ch "[" :: (text true x 0 ++ more_text drops (fun x => text true x 0) l) ++ s "]") = false) in L. rewrite <- app_assoc in L.
  rewrite looks_bracket in L by (apply stops_space_blank, begins_space, begins_app, text_begins; assumption). apply orb_false_iff in L as [L1 L2]. apply andb_true_iff. split; apply negb_true_iff.
  - destruct (RtSpec.bracket_first x && _) eqn:B; [|reflexivity]. destruct (sequence_first x 0 (all_here _ _ SX) (all_here _ _ FX) B) as [X E]. rewrite E in L1. discriminate.
  - destruct (word_only x) eqn:W; [|reflexivity]. destruct l; [|reflexivity]. exfalso. cbn [more_text app] in L2. unfold wordy in L2. rewrite (take_while_spec name_char (text true x 0) (s "]") (word_text x W 0) eq_refl) in L2.
    rewrite (word_id x 0 W) in L2. discriminate.
Qed.
Theorem text_legible d k : tidy d -> parse (text true d 0) = ParseOk k -> legible d = true.
Proof.
  intros TD P. apply parse_iff in P. pose proof (text_begins d 0 (proj1 TD) (proj2 TD)) as BT. remember (text true d 0) as T eqn:ET. destruct P as [w1 t w2 k W1 HV W2 NV|t l w1 w2 HI W1 W2 _].
  - destruct (spaces_begins w1 (t ++ w2) _ (blanks_spaces _ W1) BT eq_refl) as [-> _]. cbn [app] in *. destruct TD as [S F].
    destruct (text_exactly d S F false 0) as [_ X]; [discriminate|]. destruct (X t w2 k [] follow_nil HV) as [-> _]; [now rewrite app_nil_r|].
    assert (w2 = []) as -> by (rewrite <- (app_nil_r (text true d 0)) in ET at 2; now apply app_inv_head in ET). rewrite app_nil_r in *.
    assert (M : false = true -> d_line d = Inline) by discriminate. destruct (text_reading d S F false 0 M [] k follow_nil HV) as [L _].
    unfold verbose_first in NV. rewrite trim_id in NV by now apply begins_space. apply orb_false_iff in NV as [_ NV].
    unfold verbose_start in NV. apply orb_false_iff in NV as [NV N3]. apply orb_false_iff in NV as [N1 N2].
    unfold legible, legible_root. rewrite each_all, L. cbn [andb]. rewrite assigns_scan, text_sign in N2 by (auto using fine_all). rewrite (root_safe d S F) by (unfold looks; now rewrite N1, N3). destruct (sign d) as [[]|]; [discriminate|reflexivity..].
  - exfalso. remember (w1 ++ w2) as r eqn:ER. inversion HI as [n0 r0 EN ET0|n0 w t0 i u l0 r0 L HA _ EN]; subst n0; subst t.
    + cbn [app] in *. destruct (spaces_begins r [] r) as [Z _]; [|exact BT|apply app_nil_r|].
      * rewrite ER. unfold spaces. rewrite forallb_app. apply andb_true_iff. split; [now apply blank_lines_spaces|now apply blanks_spaces].
      * rewrite Z in BT. contradiction.
    + rewrite <- !app_assoc in *. destruct (spaces_begins w (t0 ++ u ++ r) _ (lead_spaces _ _ L) BT eq_refl) as [-> _].
      exact (item_not_text d _ _ _ _ TD HA ET).
Qed.
