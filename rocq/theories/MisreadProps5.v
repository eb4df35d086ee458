(** What is written is not taken for another value: whole documents. *)
From Verif Require Import Base F64 Number BTree Value BaseProps NumberProps3 Base91 Base91Props Nom Parse ParseErr ParseProps Grammar VGrammar GrammarProps Format FormatProps Syntax SyntaxProps SyntaxProps2 SyntaxProps3 SyntaxProps4 Nav Fmt FmtText FmtSpec FmtProps FmtProps2 RtProps RtSpec RtProps2 RtProps3 RtProps4 MisreadSpec MisreadProps MisreadProps2 MisreadProps3 MisreadProps4.
Open Scope N_scope.

(** ** texts which begin with a bracket *)
Lemma head_bracket id w c Z X : head_ok id w -> head id w ++ c :: Z = ch "[" :: X -> id = None /\ c = ch "[" /\ Z = X.
Proof.
  intros [B H] E. destruct id as [[|x i]|]; cbn [head app] in E.
  - discriminate H.
  - exfalso. apply plain_name in H as [H _]. cbn [forallb] in H. apply andb_true_iff in H as [H _]. injection E as -> _. discriminate.
  - injection E as -> ->. auto.
Qed.
Lemma prim_bracket f id tok X : (forall Y, tok <> ch "[" :: Y) -> prim_id f id ++ tok <> ch "[" :: X.
Proof. intros H E. unfold prim_id in E. destruct (f_id f); [destruct id as [i|]; [discriminate|]|]; now apply H in E. Qed.
Lemma bracket_first d col X : clear_node d = true -> flat_node d = true -> text true d col = ch "[" :: X ->
  exists f id l, d = DK f id (VSeq l) /\ (if f_id f then id else None) = None.
Proof.
  destruct d as [f id v]. intros S F E. unfold clear_node, shown_id in S. cbn [d_val d_id d_fmt] in S. unfold flat_node, d_line in F. cbn [d_fmt d_val] in F.
  destruct v as [|b|n|t|b|l|l|l|l]; cbn [text prim_text] in E; [exfalso..|idtac|exfalso].
  - destruct id as [[|x i]|]; [discriminate| |discriminate]. apply plain_name in S as [S _]. cbn [forallb] in S. apply andb_true_iff in S as [S _]. injection E as -> _. discriminate.
  - revert E. apply prim_bracket. destruct b; discriminate.
  - revert E. apply prim_bracket. intros Y E. pose proof (display_num_chars n) as H. rewrite E in H. discriminate.
  - apply andb_true_iff in S as [_ S]. unfold clear_string in S. revert E. apply prim_bracket. intros Y. unfold str_text. destruct (delimiter t) as [d|]; [|discriminate]. destruct (d =? 34) eqn:D; [|discriminate]. apply N.eqb_eq in D as ->. discriminate.
  - revert E. apply prim_bracket. discriminate.
  - apply andb_true_iff in S as [S SL]. unfold d_line in SL; cbn [d_fmt] in SL; destruct (f_line f).
    + rewrite inline_items, tuple_head, <- !app_assoc in E by assumption. apply (head_bracket _ [] (ch "(")) in E as (_ & E & _); [discriminate|now apply id_head_ok].
    + rewrite (app_assoc (tuple_id f _)), (app_assoc _ (sp col)), concise_items, tuple_head, <- !app_assoc in E. apply (head_bracket _ [] (ch "(")) in E as (_ & E & _); [discriminate|now apply id_head_ok].
    + rewrite (app_assoc (tuple_id f _)), (app_assoc _ (sp col)), concise_items, tuple_head, <- !app_assoc in E. apply (head_bracket _ [] (ch "(")) in E as (_ & E & _); [discriminate|now apply id_head_ok].
  - apply andb_true_iff in S as [S SL]. destruct (f_line f); try discriminate F.
    + rewrite inline_fields, nonprim_head, <- !app_assoc in E. apply (head_bracket _ [32] (ch "(")) in E as (_ & E & _); [discriminate|now apply id_head_ok].
    + rewrite (app_assoc (nonprim_id f _)), (app_assoc _ (sp col)), concise_fields, nonprim_head, <- !app_assoc in E. apply (head_bracket _ [32] (ch "(")) in E as (_ & E & _); [discriminate|now apply id_head_ok].
  - exists f, id, l. split; [reflexivity|]. apply andb_true_iff in S as [S SL]. unfold d_line in SL; cbn [d_fmt] in SL; destruct (f_line f).
    + rewrite inline_items, nonprim_head, <- !app_assoc in E by assumption. apply (head_bracket _ [32] (ch "[")) in E as (E & _); [exact E|now apply id_head_ok].
    + rewrite (app_assoc (nonprim_id f _)), (app_assoc _ (sp col)), concise_items, nonprim_head, <- !app_assoc in E. apply (head_bracket _ [32] (ch "[")) in E as (E & _); [exact E|now apply id_head_ok].
    + rewrite (app_assoc (nonprim_id f _)), (app_assoc _ (sp col)), concise_items, nonprim_head, <- !app_assoc in E. apply (head_bracket _ [32] (ch "[")) in E as (E & _); [exact E|now apply id_head_ok].
  - destruct (f_line f).
    + rewrite (app_assoc (nonprim_id f _)), inline_entries, nonprim_head, <- !app_assoc in E. apply (head_bracket _ [32] (ch "{")) in E as (_ & E & _); [discriminate|now apply id_head_ok].
    + rewrite (app_assoc (nonprim_id f _)), (app_assoc _ (sp col)), concise_entries, nonprim_head, <- !app_assoc in E. apply (head_bracket _ [32] (ch "{")) in E as (_ & E & _); [discriminate|now apply id_head_ok].
    + rewrite (app_assoc (nonprim_id f _)), (app_assoc _ (sp col)), concise_entries, nonprim_head, <- !app_assoc in E. apply (head_bracket _ [32] (ch "{")) in E as (_ & E & _); [discriminate|now apply id_head_ok].
Qed.

(** what follows the bracket of such a list *)
Inductive seq_text (P : dk -> Prop) : list dk -> str -> Prop :=
| Seq_inline l col : Forall (fun x => forall c r, follow r -> shape (text true x c) r) l -> Forall (fun x => forall c, begins (text true x c)) l -> Forall P l -> seq_text P l (first_text drops (fun x => text true x col) [] l ++ s "]")
| Seq_lines l T : seq_text P l (10 :: T).
Lemma text_begins d col : d_all clear_node d = true -> d_all flat_node d = true -> begins (text true d col).
Proof. intros S F. destruct (text_exactly d S F false col) as [B _]; [discriminate|exact B]. Qed.
Lemma all_here p d : d_all p d = true -> p d = true.
Proof. destruct d. intros H. now apply d_all_children in H as [H _]. Qed.
Definition tidy (d : dk) : Prop := d_all clear_node d = true /\ d_all flat_node d = true.
Definition flat_line (d : dk) : Prop := tidy d /\ d_line d = Inline.
Lemma seq_inside d col X : tidy d -> text true d col = ch "[" :: X -> exists f id l, d = DK f id (VSeq l) /\ (Forall (fun x => d_line x = Inline) l \/ d_line d <> Inline) /\ seq_text flat_line l X.
Proof.
  intros [S F] E. destruct (bracket_first d col X (all_here _ _ S) (all_here _ _ F) E) as (f & id & l & -> & I). exists f, id, l. split; [reflexivity|].
  apply d_all_children in S as [S SC]. apply d_all_children in F as [F FC]. cbn [d_children] in *. unfold clear_node, shown_id in S. cbn [d_val d_id d_fmt] in S. unfold flat_node in F. unfold d_line in *. cbn [d_fmt d_val] in *.
  apply andb_true_iff in S as [S SL]. cbn [text] in E. destruct (f_line f) eqn:EL.
  - assert (L : Forall (fun x => d_line x = Inline) l). { now apply (inline_children f (VSeq l)). }
    split; [now left|].
    rewrite inline_items, nonprim_head, <- !app_assoc, I in E by assumption. cbn [head app] in E. apply (f_equal (@tl _)) in E. change (first_text drops (fun x : dk => text true x col) [] l ++ s "]" = X) in E. rewrite <- E. rewrite Forall_forall in SC, FC, L. constructor; apply Forall_forall; intros x Hx.
    + apply text_shape; eauto using all_here.
    + intros c. apply text_begins; auto.
    + repeat split; auto.
  - split; [right; discriminate|]. rewrite (app_assoc (nonprim_id f _)), (app_assoc _ (sp col)), concise_items, nonprim_head, <- !app_assoc, I in E.
    destruct l as [|x l]; [discriminate F|]. apply (f_equal (@tl _)) in E. cbn [head app tl s map list_ascii_of_string lines_text] in E. rewrite <- E. apply Seq_lines.
  - split; [right; discriminate|]. rewrite (app_assoc (nonprim_id f _)), (app_assoc _ (sp col)), concise_items, nonprim_head, <- !app_assoc, I in E.
    destruct l as [|x l]; [discriminate F|]. apply (f_equal (@tl _)) in E. cbn [head app tl s map list_ascii_of_string lines_text] in E. rewrite <- E. apply Seq_lines.
Qed.
(** a title in front of the text of such a list ends where the list ends *)
Lemma titlef_first h name id x r Y : titlef h name id -> name_char x = false -> blank x = false -> x <> ch ":" -> h ++ ch "]" :: Y = x :: r -> x = ch "]" /\ Y = r.
Proof.
  intros H N B C E. destruct H as [w1 name w2 W1 HN W2|w1 name w2 w3 id w4 W1 HN W2 W3 I W4]; rewrite <- !app_assoc in E.
  - destruct w1 as [|y w1]; [|injection E as -> _; unfold blanks in W1; cbn [forallb] in W1; rewrite B in W1; discriminate]. cbn [app] in E.
    destruct name as [|y name]; [|injection E as -> _; cbn [forallb] in HN; rewrite N in HN; discriminate]. cbn [app] in E.
    destruct w2 as [|y w2]; [|injection E as -> _; unfold blanks in W2; cbn [forallb] in W2; rewrite B in W2; discriminate]. cbn [app] in E. injection E as <- <-. auto.
  - exfalso. destruct w1 as [|y w1]; [|injection E as -> _; unfold blanks in W1; cbn [forallb] in W1; rewrite B in W1; discriminate]. cbn [app] in E.
    destruct name as [|y name]; [|injection E as -> _; cbn [forallb] in HN; rewrite N in HN; discriminate]. cbn [app] in E.
    destruct w2 as [|y w2]; [|injection E as -> _; unfold blanks in W2; cbn [forallb] in W2; rewrite B in W2; discriminate]. cbn [app] in E. apply (f_equal (hd 0)) in E. now elim C.
Qed.
Lemma more_first {A} (g : A -> bool) I l r : exists Z, more_text g I l ++ ch "]" :: r = ch "," :: Z \/ more_text g I l ++ ch "]" :: r = ch "]" :: r /\ l = [].
Proof. destruct l as [|x l]; [exists []; now right|]. cbn [more_text]. destruct (g x); eexists; left; reflexivity. Qed.
Lemma title_list P l X Z h name id Y : seq_text P l X -> titlef h name id -> h ++ ch "]" :: Y = X ++ Z -> Y = Z.
Proof.
  intros HS HT E. destruct HS as [l col Q B _|l T].
  - rewrite <- app_assoc in E. destruct l as [|x l]; cbn [first_text] in E.
    + change (h ++ ch "]" :: Y = ch "]" :: Z) in E. apply (titlef_first _ _ _ _ _ _ HT) in E as [_ E]; try reflexivity; auto; discriminate.
    + assert (E0 : h ++ ch "]" :: Y = text true x col ++ more_text drops (fun x => text true x col) l ++ ch "]" :: Z) by (rewrite E, <- !app_assoc; destruct (drops x); reflexivity). clear E. rename E0 into E.
      inversion_clear Q as [|? ? Q1 _]. inversion_clear B as [|? ? B1 _].
      assert (FO : follow (more_text drops (fun x => text true x col) l ++ ch "]" :: Z)).
      { destruct (more_first drops (fun x => text true x col) l Z) as (Z' & [->|[-> _]]); now apply follow_char. }
      destruct (shape_not_title _ _ _ _ _ _ (Q1 col _ FO) (B1 col) HT E) as (w & W & D).
      destruct (more_first drops (fun x => text true x col) l Z) as (Z' & [M|[M _]]); rewrite M in D; destruct D as [D|[q D]]; destruct w as [|y w]; cbn [app] in D.
      1-4: injection D; intros; subst; discriminate.
      all: try (injection D; intros; subst; unfold blanks in W; cbn [forallb] in W; discriminate).
      injection D as D. auto.
  - exfalso. cbn [app] in E. apply (titlef_first _ _ _ _ _ _ HT) in E as [E _]; try reflexivity; discriminate.
Qed.
Lemma blank_lines_spaces w : blank_lines w -> spaces w.
Proof.
  induction 1 as [|w e r W E _ IH]; [reflexivity|]. unfold spaces in *. rewrite !forallb_app, IH, andb_true_r. apply andb_true_iff. split; [|destruct E as [->| ->]; reflexivity].
  unfold blanks in W. rewrite forallb_forall in *. intros c Hc. apply blank_space. now apply W.
Qed.
Lemma lead_spaces n w : lead n w -> spaces w.
Proof.
  intros [a b c A B C]. apply blank_lines_spaces in A. unfold spaces in *. rewrite !forallb_app, A. cbn [andb]. apply andb_true_iff. split; [clear -B; induction B as [|n u _ IH|n u _ IH]; [reflexivity|rewrite forallb_app, IH; reflexivity|cbn [forallb]; rewrite IH; reflexivity]|].
  unfold blanks in C. rewrite forallb_forall in *. intros x Hx. apply blank_space. now apply C.
Qed.
Lemma spaces_begins w r T : spaces w -> begins T -> w ++ r = T -> w = [] /\ r = T.
Proof. intros S B E. destruct w as [|c w]; [auto|]. subst T. destruct B as [B _]. unfold spaces in S. cbn [forallb] in S. rewrite B in S. discriminate. Qed.
Lemma eol_long w e (t : str) : eol e -> w ++ e ++ t <> [].
Proof. intros [->| ->] H; apply app_eq_nil in H as [_ H]; discriminate. Qed.
Lemma item_not_text d n t r i : tidy d -> item_at n t r i -> t ++ r = text true d 0 -> False.
Proof.
  intros TD H E. pose proof (text_shape d (all_here _ _ (proj1 TD)) (all_here _ _ (proj2 TD)) 0%nat [] follow_nil) as SH. pose proof (text_begins d 0 (proj1 TD) (proj2 TD)) as BT.
  assert (TW : forall h name id Y, titlef h name id -> text true d 0 = ch "[" :: h ++ ch "]" :: Y -> Y = []).
  { intros h name id Y HT E1. destruct (seq_inside d 0 _ TD E1) as (f & id0 & l & -> & _ & HS). apply (title_list _ _ _ [] _ _ _ _ HS HT). now rewrite app_nil_r. }
  assert (TT : forall h name id Y, titlef h name id -> text true d 0 = ch "[" :: ch "[" :: h ++ ch "]" :: ch "]" :: Y -> Y = []).
  { intros h name id Y HT E1. destruct (seq_inside d 0 _ TD E1) as (f & id0 & l & -> & _ & HS). remember (ch "[" :: h ++ ch "]" :: ch "]" :: Y) as T eqn:ET. destruct HS as [l col Q B P|l T]; [|discriminate].
    destruct l as [|x l]; [discriminate|].
    assert (E2 : text true x col ++ more_text drops (fun x => text true x col) l ++ [ch "]"] = ch "[" :: h ++ ch "]" :: ch "]" :: Y) by (rewrite <- ET; cbn [first_text]; rewrite <- !app_assoc; destruct (drops x); reflexivity).
    inversion_clear B as [|? ? B1 _]. inversion_clear P as [|? ? [TX _] _]. specialize (B1 col). destruct (text true x col) as [|y X] eqn:EX; [contradiction|]. cbn [app] in E2. injection E2 as -> E2.
    destruct (seq_inside x col X TX EX) as (f2 & id2 & l2 & -> & _ & HS2). symmetry in E2. apply (title_list _ _ _ _ _ _ _ _ HS2 HT) in E2.
    destruct (more_first drops (fun x => text true x col) l []) as (Z' & [M|[M _]]); change (ch "]" :: Y = more_text drops (fun x => text true x col) l ++ ch "]" :: []) in E2; rewrite M in E2; [discriminate|]. now injection E2. }
  destruct H as [n w id r W I _|n t r name v F|n h name id w e t r v HT W He HB|n h name id w e t r v HT W He HB _|n h name id w e w1 tk k w2 w3 t r v HT W He W1 HK W2 W3 HV|n h name id w e w1 tk k w2 w3 e' t r v HT W He W1 HK W2 W3 He' HB].
  - destruct SH as (a & Z & E1 & A & ST & D). rewrite app_nil_r, <- E in E1. destruct a as [|y a]; [|cbn [app s map list_ascii_of_string] in E1; injection E1 as <- _; discriminate].
    cbn [app] in E1. destruct D as [->|(w' & b & Y & -> & B1 & B2 & B3)]; [discriminate|]. destruct w' as [|y w']; cbn [app] in E1; injection E1 as <- _; discriminate.
  - inversion F as [name0 w1 w2 u r0 v0 N1 N2 W1 W2 HR]; subst. apply (shape_not_field _ [] name w1 (w2 ++ u ++ r) SH follow_nil); auto. rewrite app_nil_r, <- E, <- !app_assoc. reflexivity.
  - assert (E1 : text true d 0 = ch "[" :: h ++ ch "]" :: w ++ e ++ t ++ r) by (rewrite <- E, <- !app_assoc; reflexivity). apply (TW _ _ _ _ HT) in E1. now apply eol_long in E1.
  - assert (E1 : text true d 0 = ch "[" :: ch "[" :: h ++ ch "]" :: ch "]" :: w ++ e ++ t ++ r) by (rewrite <- E, <- !app_assoc; reflexivity). apply (TT _ _ _ _ HT) in E1. now apply eol_long in E1.
  - assert (E1 : text true d 0 = ch "[" :: ch "[" :: h ++ ch "]" :: ch "]" :: w ++ e ++ w1 ++ tk ++ w2 ++ s ":" ++ w3 ++ t ++ r) by (rewrite <- E, <- !app_assoc; reflexivity). apply (TT _ _ _ _ HT) in E1. now apply eol_long in E1.
  - assert (E1 : text true d 0 = ch "[" :: ch "[" :: h ++ ch "]" :: ch "]" :: w ++ e ++ w1 ++ tk ++ w2 ++ s ":" ++ w3 ++ e' ++ t ++ r) by (rewrite <- E, <- !app_assoc; reflexivity). apply (TT _ _ _ _ HT) in E1. now apply eol_long in E1.
Qed.
Theorem text_read d k : tidy d -> parse (text true d 0) = ParseOk k -> k = norm d.
Proof.
  intros TD P. apply parse_iff in P. pose proof (text_begins d 0 (proj1 TD) (proj2 TD)) as BT. remember (text true d 0) as T eqn:ET. destruct P as [w1 t w2 k W1 HV W2 _|t l w1 w2 HI W1 W2 _].
  - destruct (spaces_begins w1 (t ++ w2) _ (blanks_spaces _ W1) BT eq_refl) as [-> _]. cbn [app] in *.
    destruct (text_exactly d (proj1 TD) (proj2 TD) false 0) as [_ X]; [discriminate|]. destruct (X t w2 k [] follow_nil HV) as [_ ->]; [|reflexivity]. now rewrite app_nil_r.
  - exfalso. remember (w1 ++ w2) as r eqn:ER. inversion HI as [n0 r0 EN ET0|n0 w t0 i u l0 r0 L HA _ EN]; subst n0; subst t.
    + cbn [app] in *. destruct (spaces_begins r [] r) as [Z _]; [|exact BT|apply app_nil_r|].
      * rewrite ER. unfold spaces. rewrite forallb_app. apply andb_true_iff. split; [now apply blank_lines_spaces|now apply blanks_spaces].
      * rewrite Z in BT. contradiction.
    + rewrite <- !app_assoc in *. destruct (spaces_begins w (t0 ++ u ++ r) _ (lead_spaces _ _ L) BT eq_refl) as [-> _].
      exact (item_not_text d _ _ _ _ TD HA ET).
Qed.
