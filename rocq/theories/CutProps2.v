(** Incomplete texts of formatters. *)
From Verif Require Import Base F64 Number BTree Value BaseProps ValueProps2 Base91 Nom Parse ParseProps ParseErr Grammar VGrammar GrammarProps VGrammarProps Format Syntax SyntaxProps SyntaxProps2 CutSpec CutProps.
From Verif Require Import Nav Fmt Formatter FmtText FmtSpec FmtProps FormatterProps FormatterProps3 FormatterProps4 RtSpec RtProps2 RtProps3 RtProps4 RtProps5 RtProps6 RtProps7.
Open Scope N_scope.

Lemma trim_blanks w t : blanks w -> starts t -> trim (w ++ t) = t.
Proof.
  intros B S. induction w as [|c w IH]; cbn [app].
  - apply starts_space in S. destruct t as [|c t]; [reflexivity|]. cbn [stops trim] in *. now rewrite S.
  - unfold blanks in B. cbn [forallb] in B. apply andb_true_iff in B as [B1 B]. cbn [trim]. rewrite (blank_space _ B1). auto.
Qed.
Lemma document_first t k : document t k -> verbose_first t = false.
Proof.
  intros [w1 u w2 k0 b B H S V]. pose proof (reads_start _ _ _ _ H) as ST. unfold verbose_first. rewrite (trim_blanks w1 (u ++ w2) B (starts_app _ _ ST)), V, orb_false_r.
  destruct u as [|c u]; [contradiction|]. cbn [app]. cbn [starts] in ST. change (s ":") with [58]. cbn [starts_with]. rewrite andb_true_r. destruct (N.eqb_spec 58 c) as [<-|]; [discriminate ST|reflexivity].
Qed.

Definition ends_in (t : str) : Prop := exists z c, t = z ++ [c] /\ space c = false.
Lemma ends_in_app a b : ends_in b -> ends_in (a ++ b).
Proof. intros (z & c & -> & H). exists (a ++ z), c. now rewrite app_assoc. Qed.
Lemma ends_in_one c : space c = false -> ends_in [c].
Proof. intros H. now exists [], c. Qed.
Lemma text_end d : d_line d <> Verbose -> is_number (undeco d) = false -> writable_node d = true -> ends_in (text true d 0).
Proof.
  destruct d as [f id v]. intros L N W. change (f_line f <> Verbose) in L.
  destruct v as [|b|n|t|b|l|m|l|m]; cbn [text prim_text].
  - repeat apply ends_in_app. exists (s "("), (ch ")"). split; reflexivity.
  - apply ends_in_app. destruct b; [exists (s "tru"), (ch "e")|exists (s "fals"), (ch "e")]; split; reflexivity.
  - discriminate N.
  - apply ends_in_app. unfold writable_node in W. cbn [d_val] in W. unfold str_text. destruct (delimiter t) as [d|] eqn:E; [|discriminate W].
    repeat apply ends_in_app. apply ends_in_one. apply find_some in E as [E _].
    assert (A : forallb (fun c => negb (space c)) delimiters = true) by (vm_compute; reflexivity). rewrite forallb_forall in A. apply A in E. now apply negb_true_iff in E.
  - repeat apply ends_in_app. now apply ends_in_one.
  - destruct (f_line f); repeat apply ends_in_app; now apply ends_in_one.
  - destruct (f_line f); [| |congruence]; repeat apply ends_in_app; now apply ends_in_one.
  - destruct (f_line f); repeat apply ends_in_app; now apply ends_in_one.
  - destruct (f_line f); repeat apply ends_in_app; now apply ends_in_one.
Qed.
Lemma ends_not_spaces p q : ends_in (p ++ q) -> q <> [] -> ~ spaces q.
Proof.
  intros (z & c & E & H) NE S. destruct q as [|x q] using rev_ind; [congruence|]. rewrite app_assoc in E. apply app_inj_tail in E as [_ ->].
  unfold spaces in S. rewrite forallb_app in S. apply andb_true_iff in S as [_ S]. cbn [forallb] in S. rewrite H in S. discriminate.
Qed.
Lemma norm_number d : is_number (norm d) = is_number (undeco d).
Proof. destruct d as [f id v]. destruct v as [|b|n|t|b|l|m|l|m]; try reflexivity; cbn [norm undeco]; try (destruct l); try (destruct m); try (destruct id as [[|]|]); try (destruct (f_id f)); try reflexivity. Qed.
Lemma norm_kid d : kid (undeco d) = None -> kid (norm d) = None.
Proof. destruct d as [f id v]. cbn [undeco kid]. intros ->. destruct v as [|b|n|t|b|l|m|l|m]; cbn [norm]; destruct (f_id f); try (destruct l); try (destruct m); reflexivity. Qed.
Lemma norm_leaf d : in_brackets (undeco d) = false -> kval (undeco d) <> VUnit -> in_brackets (norm d) = false.
Proof. destruct d as [f id v]. destruct v as [|b|n|t|b|l|m|l|m]; cbn [norm undeco kval in_brackets]; intros; try reflexivity; try congruence; discriminate. Qed.

Theorem written_cut k fm t : reachable k fm -> (forall i, line_of fm i <> Some Verbose) -> text_safe (deco (fm_fmts fm) 0 k) = true -> is_number k = false ->
  fm_write fm [] = LRet t -> forall p q, t = p ++ q -> q <> [] -> kid k = None \/ (in_brackets k = false /\ kval k <> VUnit) \/ has_bracket p = true -> exists e, parse p = ParseErr e.
Proof.
  intros R V T N E p q -> NE C. destruct (layout_document k fm R V T) as (t' & E' & DD). rewrite E in E'. injection E' as <-.
  assert (U : undeco (deco (fm_fmts fm) 0 k) = k) by apply undeco_deco.
  apply (cut_rejected p q (norm (deco (fm_fmts fm) 0 k))).
  - now apply document_parses.
  - now apply (document_first _ _ DD).
  - apply ends_not_spaces with (p := p); [|exact NE]. pose proof (safe_strings k fm T) as S. rewrite (fm_write_text k fm [] (reachable_finv k fm R) S) in E. injection E as E. rewrite <- E. apply ends_in_app.
    apply text_end.
    + intros H. apply (V 0%nat). apply line_of_at. rewrite <- H. change (shown k fm) with (D (fm_fmts fm) (0%nat, (info_default, k))). apply (D_line k _ (0%nat, (info_default, k))); [apply (reachable_finv k fm R)|apply root_ok].
    + now rewrite shown_undeco.
    + pose proof (shown_writable k (fm_fmts fm) _ (proj2 (reachable_finv k fm R)) S (root_ok k)) as W. unfold writable in W. unfold shown. destruct (FmtProps.D _ _) as [f id v]. rewrite d_all_unfold in W. now apply andb_true_iff in W.
  - now rewrite norm_number, U.
  - rewrite <- U in C. destruct C as [C|[[C1 C2]|C]]; [right; left; now apply norm_kid|left; now apply norm_leaf|auto].
Qed.
