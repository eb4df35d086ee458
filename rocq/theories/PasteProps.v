(** Proofs about texts put together from others. *)
From Verif Require Import Base F64 Number BTree Value BaseProps ValueProps2 Base91 Nom Parse ParseProps ParseErr Grammar VGrammar GrammarProps VGrammarProps VGrammarProps2 Format Syntax SyntaxProps SyntaxProps2 SyntaxProps3 SyntaxProps4 CutSpec CutProps CutProps3 PasteSpec.
Open Scope N_scope.

Lemma tidy_spaces a b : tidy (a ++ b) -> spaces b -> b = [].
Proof.
  intros (z & c & E & H) S. destruct b as [|x q] using rev_ind; [reflexivity|]. rewrite app_assoc in E. apply app_inj_tail in E as [_ ->].
  unfold spaces in S. rewrite forallb_app in S. apply andb_true_iff in S as [_ S]. cbn [forallb] in S. rewrite H in S. discriminate.
Qed.
Lemma stands_at t k : stands t k -> exists w u, t = w ++ u /\ blanks w /\ value_at false u [] k.
Proof.
  intros (P & V & T). apply parse_iff in P. destruct P as [w1 u w2 k B HV S N|u l a b HI BL B VF]; [|congruence].
  assert (w2 = []) as -> by (rewrite app_assoc in T; exact (tidy_spaces _ _ T S)). exists w1, u. now rewrite app_nil_r.
Qed.
(** the character after a value changes nothing, unless a word comes before a bracket *)
Lemma word_or_rest u : (forallb name_char u = true) \/ exists a c b, u = a ++ c :: b /\ forallb name_char a = true /\ name_char c = false.
Proof.
  induction u as [|x u IH]; [left; reflexivity|]. destruct (name_char x) eqn:N; [|right; exists [], x, u; auto].
  destruct IH as [F|(a & c & b & -> & F & C)]; [left; cbn [forallb]; now rewrite N|right; exists (x :: a), c, b]. cbn [forallb app]. now rewrite N.
Qed.
Lemma opens_tail r x : ~ spaces r -> opens (r ++ x) = opens r.
Proof.
  intros H. induction r as [|c r IH]; [elim H; reflexivity|]. cbn [app opens]. destruct (space c) eqn:S; [|reflexivity]. apply IH. intros X. apply H. unfold spaces in *. cbn [forallb]. now rewrite S.
Qed.
Lemma starts_tail p a x : name_char x = false -> forallb name_char p = true -> forall y, starts_with p (a ++ x :: y) = starts_with p a.
Proof.
  intros N. revert a. induction p as [|b p IH]; intros [|c a] P y; cbn [app starts_with]; try reflexivity; cbn [forallb] in P; apply andb_true_iff in P as [P1 P].
  - destruct (N.eqb_spec b x) as [->|]; [congruence|reflexivity].
  - now rewrite (IH a P y).
Qed.
Lemma no_head_tail u x y : tidy u -> name_char x = false -> no_head u = true -> (is_id u = true -> opens (x :: y) = false) -> no_head (u ++ x :: y) = true.
Proof.
  intros T NX NH W. unfold no_head in *. rewrite !(starts_tail _ u x NX) by reflexivity. destruct (starts_with (s "true") u); [reflexivity|]. destruct (starts_with (s "false") u); [reflexivity|]. cbn [orb] in *.
  destruct (word_or_rest u) as [F|(a & c & b & -> & F & C)].
  - rewrite take_while_spec by assumption. destruct (is_id u); [|reflexivity]. now rewrite (W eq_refl).
  - rewrite <- app_assoc. cbn [app]. rewrite (take_while_spec name_char a (c :: b)) in NH by assumption. rewrite (take_while_spec name_char a (c :: b ++ x :: y)) by assumption.
    change (c :: b ++ x :: y) with ((c :: b) ++ x :: y). rewrite opens_tail; [exact NH|]. intros S. pose proof (tidy_spaces _ _ T S). discriminate.
Qed.
Lemma tidy_tail w u : tidy (w ++ u) -> u <> [] -> tidy u.
Proof.
  intros (z & c & E & H) N. destruct u as [|x u] using rev_ind; [congruence|]. rewrite app_assoc in E. apply app_inj_tail in E as [_ ->]. now exists u, c.
Qed.
Lemma value_then u k x y : value_at false u [] k -> tidy u -> name_char x = false -> num_char x = false -> (is_id u = true -> opens (x :: y) = false) -> value_at false u (x :: y) k.
Proof.
  intros V T NX MX W. destruct (in_brackets k) eqn:C; [exact (closed_any _ _ _ _ _ V C)|].
  assert (EN : forall v, ends_token v (x :: y) = true) by (intros []; cbn [ends_token stop]; rewrite ?MX; reflexivity).
  destruct (value_forms _ _ _ _ V) as [(id & w & t & v & -> & -> & I & B & TK & _)|[(v & -> & TK & _ & NH)|(w & c & t & CL & _)]]; [now constructor| |congruence].
  constructor; auto. rewrite app_nil_r in NH. now apply no_head_tail.
Qed.

(** ** lists of lines *)
Lemma lines_cons t ts : lines (t :: ts) = t ++ [10] ++ lines ts.
Proof. unfold lines. cbn [flat_map]. now rewrite <- app_assoc. Qed.
Section Lines.
  Context {A : Type} (R : str -> str -> A -> Prop) (rest : str).
  Inductive good : list str -> list A -> Prop :=
  | G_nil : good [] []
  | G_cons w u a ts l : blanks w -> R u ([10] ++ lines ts ++ rest) a -> good ts l -> good ((w ++ u) :: ts) (a :: l).
  Lemma good_separated ts l : good ts l -> exists u, [10] ++ lines ts = u ++ [10] /\ separated_at R gap u ([10] ++ rest) l.
  Proof.
    induction 1 as [|w u a ts l B H G (u1 & E & S)]; [exists []; split; [reflexivity|constructor]|].
    exists (([10] ++ w) ++ u ++ u1). split.
    - rewrite lines_cons, <- !app_assoc. do 3 f_equal. exact E.
    - constructor; [split; [apply spaces_app; [reflexivity|now apply blanks_spaces]|discriminate]| |exact S].
      rewrite (app_assoc u1), <- E, <- app_assoc. exact H.
  Qed.
  Lemma good_concise ts l : good ts l -> concise_at R ([10] ++ lines ts) rest l.
  Proof.
    intros [|w u a ts' l' B H G]; [now constructor|]. destruct (good_separated ts' l' G) as (u1 & E & S).
    replace ([10] ++ lines ((w ++ u) :: ts')) with (([10] ++ w) ++ u ++ u1 ++ [10]) by (rewrite lines_cons, <- !app_assoc, E; reflexivity).
    constructor; auto.
    - apply spaces_app; [reflexivity|now apply blanks_spaces].
    - rewrite (app_assoc u1), <- E, <- app_assoc. exact H.
    - split; [reflexivity|discriminate].
  Qed.
End Lines.

Lemma trim_value w u r k : blanks w -> value_at false u r k -> trim (w ++ u) = u.
Proof. intros B V. apply trim_app; [now apply blanks_spaces|]. apply begins_space. exact (value_at_begins _ _ _ _ V). Qed.
Lemma opens_value w u r k x : blanks w -> value_at false u r k -> opens (w ++ u ++ x) = opens_bracket (w ++ u).
Proof.
  intros B V. unfold opens_bracket. rewrite (trim_value w u r k B V). pose proof (value_at_begins _ _ _ _ V) as BG. destruct u as [|c u]; [contradiction|]. destruct BG as [SC _].
  induction w as [|a w IH]; cbn [app opens].
  - now rewrite SC.
  - unfold blanks in B. cbn [forallb] in B. apply andb_true_iff in B as [B1 B]. rewrite (blank_space _ B1). now apply IH.
Qed.
Lemma opens_space c t : space c = true -> opens (c :: t) = opens t.
Proof. intros H. cbn [opens]. now rewrite H. Qed.
(** the lines after a line *)
Definition first_opens (ls : list (str * str)) : bool := match ls with e :: _ => opens_bracket (fst e) | [] => false end.
Lemma apart_cons e ls : apart (e :: ls) = true -> (bare_word (snd e) = true -> first_opens ls = false) /\ apart ls = true.
Proof.
  destruct ls as [|e' ls]; [cbn; auto|]. intros H. change (negb (bare_word (snd e) && opens_bracket (fst e')) && apart (e' :: ls) = true) in H. apply andb_true_iff in H as [H1 H]. split; [|exact H].
  intros W. rewrite W in H1. cbn [andb] in H1. apply negb_true_iff in H1. exact H1.
Qed.
Lemma stands_then t k z : stands t k -> (bare_word t = true -> opens z = false) -> exists w u, t = w ++ u /\ blanks w /\ value_at false u (10 :: z) k.
Proof.
  intros S H. destruct (stands_at t k S) as (w & u & -> & B & V). exists w, u. split; [reflexivity|]. split; [exact B|].
  apply value_then; auto.
  - apply (tidy_tail w); [apply S|]. pose proof (value_at_begins _ _ _ _ V) as BG. intros ->. contradiction.
  - intros I. rewrite opens_space by reflexivity. apply H. unfold bare_word. now rewrite (trim_value w u _ _ B V).
Qed.
Lemma opens_stands t k z : stands t k -> opens (t ++ z) = opens_bracket t.
Proof. intros S. destruct (stands_at t k S) as (w & u & -> & B & V). rewrite <- app_assoc. exact (opens_value w u _ _ z B V). Qed.

Section Blocks.
  Variable rest : str.
  Hypothesis REST : opens rest = false.
  Lemma seq_good ts ks : Forall2 stands ts ks -> apart (map (fun t => (t, t)) ts) = true -> good (value_at false) rest ts ks.
  Proof.
    induction 1 as [|t k ts ks S F IH]; intros AP; [constructor|]. cbn [map] in AP. apply apart_cons in AP as [W AP]. cbn [fst snd] in W.
    destruct (stands_then t k (lines ts ++ rest) S) as (w & u & -> & B & V); [|constructor; [exact B|exact V|exact (IH AP)]].
    intros BW. specialize (W BW). destruct F as [|t' k' ts ks S' F]; [exact REST|]. rewrite lines_cons, <- app_assoc, (opens_stands t' k' _ S'). exact W.
  Qed.
  Lemma name_opens n z : a_name n -> opens (n ++ z) = false.
  Proof.
    intros [N F]. destruct n as [|c n]; [congruence|]. cbn [forallb] in F. apply andb_true_iff in F as [F _]. cbn [app opens].
    destruct (space c) eqn:S; [exfalso|]. { pose proof (name_start c F) as X. unfold start_char in X. rewrite S in X. discriminate. }
    destruct (mem c (s "([{")) eqn:M; [|reflexivity]. destruct (opener_hard c M) as (_ & X & _). congruence.
  Qed.
  Lemma fields_good fs ks : fields_stand fs ks ->
    good (field_at (value_at false)) rest (map (fun e => fst e ++ s " = " ++ snd e) fs) ks.
  Proof.
    induction 1 as [|[n t] [n' k] fs ks (N & E & S) F IH]; [constructor|]. cbn [fst snd] in *. subst n'. cbn [map fst snd].
    set (ls := map (fun e => fst e ++ s " = " ++ snd e) fs) in *.
    destruct (stands_then t k (lines ls ++ rest) S) as (w & u & -> & B & V).
    { intros _. destruct F as [|[n2 t2] k2 fs ks (N2 & _) F]; [exact REST|]. unfold ls. cbn [map fst snd]. rewrite lines_cons, <- !app_assoc. now apply name_opens. }
    replace (n ++ s " = " ++ w ++ u) with ([] ++ (n ++ [32] ++ s "=" ++ ([32] ++ w) ++ u)) by reflexivity.
    constructor; [reflexivity| |exact IH]. destruct N as [N1 N2]. constructor; auto; try reflexivity; congruence.
  Qed.
  Lemma entries_good es ks : entries_stand es ks -> apart es = true ->
    good (entry_at (value_at false) (value_at false)) rest (map (fun e => fst e ++ s ": " ++ snd e) es) ks.
  Proof.
    induction 1 as [|[a t] [ka k] es ks (SA & S) F IH]; intros AP; [constructor|]. apply apart_cons in AP as [W AP]. specialize (IH AP). cbn [fst snd] in *. cbn [map fst snd].
    set (ls := map (fun e => fst e ++ s ": " ++ snd e) es) in *.
    destruct (stands_then t k (lines ls ++ rest) S) as (w & u & -> & B & V).
    { intros BW. specialize (W BW). destruct F as [|[a2 t2] [k1 k2] es ks (SA2 & _) F]; [exact REST|]. unfold ls. cbn [map fst snd] in *. rewrite lines_cons, <- !app_assoc. rewrite (opens_stands a2 _ _ SA2). exact W. }
    destruct (stands_at a ka SA) as (wa & ua & -> & BA & VA).
    replace ((wa ++ ua) ++ s ": " ++ w ++ u) with (wa ++ (ua ++ [] ++ s ":" ++ ([32] ++ w) ++ u)) by (rewrite <- !app_assoc; reflexivity).
    constructor; [exact BA| |exact IH]. constructor; auto; try reflexivity.
    cbn [app]. apply value_then; auto. apply (tidy_tail wa); [apply SA|]. pose proof (value_at_begins _ _ _ _ VA) as BG. intros ->. contradiction.
  Qed.
End Blocks.

(** ** blocks *)
Lemma assigns_nl t z : assigns t = false -> assigns (t ++ 10 :: z) = false.
Proof. induction t as [|c t IH]; [reflexivity|]. cbn [app assigns]. intros H. apply orb_false_iff in H as [-> H]. cbn [orb]. apply andb_false_iff in H as [->|H]; [reflexivity|]. rewrite (IH H). apply andb_false_r. Qed.
Lemma assigns_names t z : forallb name_char t = true -> assigns (t ++ s " = " ++ z) = true.
Proof.
  induction t as [|c t IH]; [reflexivity|]. cbn [forallb]. intros H. apply andb_true_iff in H as [H1 H]. cbn [app assigns]. rewrite (IH H), andb_true_r.
  destruct (mem c (s "<>(){}'""" ++ [13; 10])) eqn:M; [exfalso|now rewrite orb_true_r]. cbn in M. repeat (apply orb_true_iff in M as [M|M]); try discriminate; apply N.eqb_eq in M; subst; discriminate H1.
Qed.
Lemma block_document id o body c k : id_fits id -> (o = "("%string \/ o = "["%string \/ o = "{"%string) ->
  (forall w, head_ok id w -> value_at false (head id w ++ s o ++ ([10] ++ body) ++ s c) [] k) -> parse (block id o body c) = ParseOk k.
Proof.
  intros F O H. apply parse_iff. set (w := [32]). assert (HO : head_ok id w) by (split; [reflexivity|exact F]). specialize (H w HO).
  assert (E : block id o body c = head id w ++ s o ++ ([10] ++ body) ++ s c) by (unfold block, head; destruct id; rewrite <- ?app_assoc; reflexivity).
  rewrite E. rewrite <- (app_nil_r (head id w ++ _)). apply (Syntax_value [] _ []); [reflexivity|exact H|reflexivity|]. rewrite app_nil_r. cbn [app].
  assert (OP : exists x, s o = [x] /\ opener x = true /\ x <> ch "=") by (destruct O as [->|[->| ->]]; eexists; repeat split; discriminate). destruct OP as (x & -> & OX & NX).
  assert (ST : starts (head id w ++ x :: 10 :: body ++ s c)) by now apply head_starts.
  unfold verbose_first. match goal with |- context [trim ?y] => replace y with (head id w ++ x :: 10 :: body ++ s c) by (rewrite <- ?app_assoc; reflexivity) end. rewrite <- (app_nil_l (head id w ++ _)). rewrite (trim_app [] _ eq_refl (starts_space _ ST)). unfold verbose_start.
  assert (AS : assigns (head id w ++ x :: 10 :: body ++ s c) = false).
  { assert (C : calm (head id w ++ [x])). { apply calm_app; [destruct id as [i|]; [|reflexivity]; cbn [head]; apply calm_app; [|reflexivity]; apply calm_names; destruct HO as [_ P]; unfold is_id_plain in P; apply andb_true_iff in P as [P _]; apply andb_true_iff in P as [P _]; now apply is_id_names|]. unfold calm. cbn [forallb]. destruct (N.eqb_spec x (ch "=")); [congruence|reflexivity]. }
    replace (head id w ++ x :: 10 :: body ++ s c) with ((head id w ++ [x]) ++ [10] ++ body ++ s c) by (rewrite <- app_assoc; reflexivity). apply calm_assigns; [exact C|now left]. }
  rewrite AS. destruct id as [[|a i]|]; cbn [head app] in *.
  - destruct HO as [_ P]. discriminate P.
  - assert (X : forall y z, starts_with (ch "[" :: y) (a :: z) = false /\ starts_with (s ":") (a :: z) = false /\ bracketed (a :: z) = false).
    { intros y z. destruct HO as [_ P]. unfold is_id_plain in P. apply andb_true_iff in P as [P _]. apply andb_true_iff in P as [P _]. apply is_id_names in P. cbn [forallb] in P. apply andb_true_iff in P as [P _]. change (s ":") with [58]. cbn [starts_with bracketed].
      destruct (N.eqb_spec (ch "[") a) as [<-|N1]; [discriminate P|]. destruct (N.eqb_spec 58 a) as [<-|N2]; [discriminate P|]. destruct (N.eqb_spec a (ch "[")) as [->|N3]; [congruence|]. auto. }
    destruct (X (s "[") ((i ++ w) ++ x :: 10 :: body ++ s c)) as (A1 & A2 & A3). change (s "[[") with (ch "[" :: s "["). now rewrite A1, A2, A3.
  - change (s ":") with [58]. change (s "[[") with [ch "["; ch "["]. cbn [starts_with bracketed]. destruct O as [->|[->| ->]]; unfold opener in OX; cbn in OX; repeat (apply orb_true_iff in OX as [OX|OX]); try discriminate; apply N.eqb_eq in OX; subst x; reflexivity.
Qed.

Lemma head_fits id : id_fits id -> head_ok id [32].
Proof. intros F. split; [reflexivity|exact F]. Qed.
Theorem paste_seq id ts ks : id_fits id -> Forall2 stands ts ks -> apart (map (fun t => (t, t)) ts) = true ->
  parse (block id "[" (lines ts) "]") = ParseOk (Kserd id (VSeq ks)).
Proof.
  intros F H A. apply block_document; auto. intros w HO. apply V_seq_lines; [exact HO|]. rewrite app_nil_r. apply good_concise. now apply seq_good.
Qed.
Lemma lines_assign ts ks : Forall2 stands ts ks -> assigns (trim ([10] ++ lines ts) ++ s ")") = false.
Proof.
  intros [|t k ts' ks' S _]; [reflexivity|]. destruct (stands_at t k S) as (w & u & -> & B & V).
  rewrite lines_cons. replace ([10] ++ (w ++ u) ++ [10] ++ lines ts') with (([10] ++ w) ++ u ++ [10] ++ lines ts') by now rewrite <- !app_assoc.
  rewrite trim_app; [|apply spaces_app; [reflexivity|now apply blanks_spaces]|].
  2:{ pose proof (value_at_begins _ _ _ _ V) as BG. destruct u as [|c u]; [contradiction|]. apply BG. }
  rewrite <- app_assoc. apply assigns_nl. destruct S as (_ & VF & _). unfold verbose_first in VF. rewrite (trim_value w u _ _ B V) in VF. unfold verbose_start in VF.
  apply orb_false_iff in VF as [_ VF]. apply orb_false_iff in VF as [VF _]. apply orb_false_iff in VF as [_ VF]. exact VF.
Qed.
Theorem paste_tuple id ts ks : id_fits id -> Forall2 stands ts ks -> apart (map (fun t => (t, t)) ts) = true ->
  parse (block id "(" (lines ts) ")") = ParseOk (Kserd id (VTuple ks)).
Proof.
  intros F H A. apply block_document; auto. intros w HO. apply V_tuple_lines; [exact HO| |now apply (lines_assign ts ks)]. rewrite app_nil_r. apply good_concise. now apply seq_good.
Qed.
Theorem paste_map id es ks : id_fits id -> entries_stand es ks -> apart es = true ->
  parse (block id "{" (entry_lines es) "}") = ParseOk (Kserd id (VMap (map_of ks))).
Proof.
  intros F H A. apply block_document; auto. intros w HO. apply V_map_lines; [exact HO|]. rewrite app_nil_r. apply good_concise. now apply entries_good.
Qed.
Lemma name_space n : a_name n -> match n with c :: _ => space c = false | [] => False end.
Proof.
  intros [N F]. destruct n as [|c n]; [congruence|]. cbn [forallb] in F. apply andb_true_iff in F as [F _].
  destruct (space c) eqn:S; [|reflexivity]. pose proof (name_start c F) as X. unfold start_char in X. rewrite S in X. discriminate.
Qed.
Lemma trim_name w n z : spaces w -> a_name n -> trim (w ++ n ++ z) = n ++ z.
Proof. intros W N. apply trim_app; [exact W|]. apply name_space in N. destruct n; [contradiction|exact N]. Qed.
Lemma first_field fs ks : fields_stand fs ks -> fs <> [] -> exists n z, field_lines fs = n ++ s " = " ++ z /\ a_name n.
Proof.
  intros [|[n t] k fs' ks' (N & _) _] NE; [congruence|]. exists n, (t ++ [10] ++ field_lines fs'). split; [|exact N].
  unfold field_lines. cbn [map fst snd]. now rewrite lines_cons, <- !app_assoc.
Qed.
Theorem paste_cntr id fs ks : id_fits id -> fields_stand fs ks -> fs <> [] ->
  parse (block id "(" (field_lines fs) ")") = ParseOk (Kserd id (VCntr (fields_of ks))).
Proof.
  intros F H NE. apply block_document; auto. intros w HO. apply V_cntr_lines; [exact HO| |].
  - rewrite app_nil_r. apply good_concise. now apply fields_good.
  - destruct (first_field fs ks H NE) as (n & z & -> & N). rewrite trim_name by (exact N || reflexivity). rewrite <- !app_assoc. apply assigns_names, N.
Qed.
