(** The parser reads what the verbose grammar says. *)
From Verif Require Import Base F64 Number BTree Value BaseProps BTreeProps ValueProps2 Base91 Nom Parse ParseErr ParseSpec ParseProps Grammar GrammarProps VGrammar.
Open Scope N_scope.

(** ** lines *)
Lemma line_ending_ok e r : eol e -> line_ending (e ++ r) = POk r e.
Proof. intros [->| ->]; reflexivity. Qed.
Lemma eol_spaces e : eol e -> spaces e.
Proof. intros [->| ->]; reflexivity. Qed.
Lemma eol_stop e r : eol e -> stops blank (e ++ r).
Proof. intros [->| ->]; reflexivity. Qed.
Lemma skip_blanks_app w t : blanks w -> Grammar.skip_blanks (w ++ t) = Grammar.skip_blanks t.
Proof.
  intros B. unfold blanks in B. induction w as [|c w IH]; [reflexivity|]. cbn [forallb] in B. apply andb_true_iff in B as [B1 B2].
  cbn [app Grammar.skip_blanks]. rewrite B1. auto.
Qed.
Lemma skip_blanks_id t : stops blank t -> Grammar.skip_blanks t = t.
Proof. destruct t as [|c t]; [reflexivity|]. cbn. now intros ->. Qed.
Lemma blank_eol w e r : blanks w -> eol e -> ignore_ws line_ending (w ++ e ++ r) = POk r e.
Proof. intros W E. rewrite GrammarProps.skip_blanks by (auto using eol_stop). now apply line_ending_ok. Qed.
Lemma line_ending_cases t : at_eol t = true -> t <> [] -> exists e r, eol e /\ t = e ++ r.
Proof.
  unfold at_eol, eol. destruct t as [|c t]; [congruence|]. intros H _.
  destruct (N.eqb_spec c 10) as [->|N1]; [exists [10], t; auto|]. destruct (N.eqb_spec c 13) as [->|N2].
  - destruct t as [|c t]; [discriminate|]. destruct (N.eqb_spec c 10) as [->|N3]; [exists [13; 10], t; auto|].
    exfalso. revert H. destruct c as [|p]; [discriminate|]. repeat (destruct p as [p|p|]; try discriminate). congruence.
  - exfalso. destruct c as [|p]; [discriminate|]. repeat (destruct p as [p|p|]; try discriminate); congruence.
Qed.
Lemma line_ending_err t : (at_eol t = false \/ t = []) -> exists e, line_ending t = PErr e.
Proof.
  intros [H| ->]; [|eexists; reflexivity]. unfold at_eol, line_ending in *. destruct t as [|c t]; [discriminate|]. destruct c as [|p]; [eauto|].
  repeat (destruct p as [p|p|]; try (eexists; reflexivity); try discriminate).
  all: destruct t as [|d t]; [eexists; reflexivity|]; destruct d as [|q]; [eexists; reflexivity|]; repeat (destruct q as [q|q|]; try (eexists; reflexivity); try discriminate).
Qed.
Lemma first_line_skip start t : first_line start t = first_line start (Grammar.skip_blanks t).
Proof. induction t as [|c t IH]; [reflexivity|]. cbn [first_line Grammar.skip_blanks]. destruct (blank c) eqn:B; [exact IH|]. cbn [first_line]. now rewrite B. Qed.
Lemma first_line_eol start e r : eol e -> first_line start (e ++ r) = next_line r.
Proof. intros [->| ->]; reflexivity. Qed.
Lemma first_line_stop start t : stops blank t -> (at_eol t = false \/ t = []) -> first_line start t = start.
Proof.
  intros B [H| ->]; [|reflexivity]. destruct t as [|c t]; [reflexivity|]. cbn [stops] in B. cbn [first_line]. rewrite B.
  destruct (N.eqb_spec c 10) as [->|N1]; [discriminate|]. destruct (N.eqb_spec c 13) as [->|N2]; [|reflexivity].
  destruct t as [|d t]; [reflexivity|]. destruct (N.eqb_spec d 10) as [->|N3]; [discriminate|reflexivity].
Qed.
Lemma next_line_eol w e r : blanks w -> eol e -> next_line (w ++ e ++ r) = next_line r.
Proof.
  intros W E. unfold next_line at 1. rewrite first_line_skip, skip_blanks_app by assumption. rewrite skip_blanks_id by now apply eol_stop. now apply first_line_eol.
Qed.
Lemma next_line_blank_lines a t : blank_lines a -> next_line (a ++ t) = next_line t.
Proof. induction 1 as [|w e r W E _ IH]; [reflexivity|]. rewrite <- !app_assoc, next_line_eol by assumption. exact IH. Qed.
Lemma next_line_stop t : (at_eol (Grammar.skip_blanks t) = false \/ Grammar.skip_blanks t = []) -> next_line t = t.
Proof. intros H. unfold next_line. rewrite first_line_skip. apply first_line_stop; [apply skip_blanks_stop|exact H]. Qed.
Lemma skip_lines_ok fuel : forall i, (length i < fuel)%nat -> skip_lines fuel i = POk (next_line i) tt.
Proof.
  induction fuel as [|fuel IH]; intros i L; [lia|]. cbn [skip_lines]. unfold opt. rewrite ignore_ws_skip.
  destruct (skip_blanks_spec i) as [w W]. unfold inline_whitespace, ptake_while in W.
  pose proof (take_while_app is_blank i) as A. pose proof (take_while_all is_blank i) as F. destruct (take_while is_blank i) as [a b]. injection W as -> ->. cbn [fst snd] in *.
  assert (D : (at_eol (Grammar.skip_blanks i) = false \/ Grammar.skip_blanks i = []) \/ (at_eol (Grammar.skip_blanks i) = true /\ Grammar.skip_blanks i <> [])).
  { destruct (at_eol (Grammar.skip_blanks i)); [|auto]. destruct (Grammar.skip_blanks i); [auto|]. right. split; [reflexivity|discriminate]. }
  destruct D as [D|[D1 D2]].
  - destruct (line_ending_err _ D) as [e ->]. cbn [pbind]. now rewrite next_line_stop.
  - destruct (line_ending_cases _ D1 D2) as (e & r & E & ER). rewrite ER, line_ending_ok by assumption. cbn [pbind]. rewrite <- A, ER.
    rewrite next_line_eol by assumption. apply IH. rewrite <- A, ER in L. rewrite !app_length in L. destruct E as [->| ->]; cbn [length] in L; lia.
Qed.
Lemma indents_blanks n w : indents n w -> blanks w.
Proof. induction 1 as [|n w _ IH|n w _ IH]; [reflexivity|exact IH|exact IH]. Qed.
Lemma expect_ok n w r : indents n w -> expect_indents n (w ++ r) = POk r tt.
Proof. induction 1 as [|n w _ IH|n w _ IH]; [reflexivity|exact IH|exact IH]. Qed.
Lemma expect_spec n : forall t, if indented n t then exists r, expect_indents n t = POk r tt /\ (exists w, t = w ++ r) else exists e, expect_indents n t = PErr e.
Proof.
  induction n as [|n IH]; intros t.
  - cbn. exists t. split; [reflexivity|now exists []].
  - cbn [indented expect_indents]. unfold alt2. destruct (starts_with (s "    ") t) eqn:E.
    + assert (T : tag (s "    ") t = POk (skipn 4 t) (s "    ")) by (unfold tag; now rewrite E). rewrite T. cbn [pbind].
      specialize (IH (skipn 4 t)). destruct (indented n (skipn 4 t)); [|exact IH].
      destruct IH as (r & IH & w & W). exists r. split; [exact IH|]. exists (firstn 4 t ++ w). rewrite <- app_assoc, <- W. symmetry. apply firstn_skipn.
    + assert (T : tag (s "    ") t = PErr [(t, ENom NkTag)]) by (unfold tag; now rewrite E). rewrite T. destruct t as [|c t]; [eexists; reflexivity|].
      destruct (N.eqb_spec c 9) as [->|NE]; cbn [andb].
      * change (tag [9] (9 :: t)) with (POk t [9]). cbn [pbind]. specialize (IH t). destruct (indented n t); [|exact IH].
        destruct IH as (r & IH & w & W). exists r. split; [exact IH|]. exists (9 :: w). cbn [app]. now rewrite <- W.
      * assert (T2 : tag [9] (c :: t) = PErr [(c :: t, ENom NkTag)]).
        { unfold tag. change (starts_with [9] (c :: t)) with ((9 =? c) && true). destruct (N.eqb_spec 9 c); [congruence|reflexivity]. }
        rewrite T2. eexists; reflexivity.
Qed.
Lemma indented_S n : forall t, indented n t = false -> indented (S n) t = false.
Proof.
  induction n as [|n IH]; [discriminate|]. intros t H. cbn [indented] in H. change (indented (S (S n)) t) with (if starts_with (s "    ") t then indented (S n) (skipn 4 t)
           else match t with c :: t' => (c =? 9) && indented (S n) t' | [] => false end). destruct (starts_with (s "    ") t); [now apply IH|].
  destruct t as [|c t]; [reflexivity|]. destruct (c =? 9); [|reflexivity]. cbn [andb] in *. now apply IH.
Qed.
Lemma closes_S n r : closes n r = true -> closes (S n) r = true.
Proof.
  unfold closes. intros H. apply orb_true_iff in H as [H|H]; [now rewrite H|]. apply negb_true_iff in H. rewrite (indented_S _ _ H). apply orb_true_r.
Qed.
Lemma line_ends_ends r : line_ends r = true -> ends r = true.
Proof.
  unfold line_ends. destruct r as [|c r]; [reflexivity|]. cbn [Grammar.skip_blanks ends]. destruct (blank c) eqn:B; [now rewrite (blank_space c B)|].
  intros H. destruct (line_ending_cases _ H ltac:(discriminate)) as (e & r' & [->| ->] & E); injection E as -> _; reflexivity.
Qed.
Lemma line_ends_split r : line_ends r = true -> exists w u, r = w ++ u /\ blanks w /\ (u = [] \/ exists e z, eol e /\ u = e ++ z).
Proof.
  unfold line_ends. intros H. destruct (split_blanks r) as (w & u & -> & W & S). exists w, u. split; [reflexivity|]. split; [exact W|].
  rewrite skip_blanks_app, skip_blanks_id in H by assumption. destruct u as [|c u]; [now left|]. right. apply line_ending_cases; [exact H|discriminate].
Qed.

(** where a container ends *)
Lemma field_closed inl con nested n r : closes n r = true -> exists e, verbose_cntr_field inl con nested n r = PErr e.
Proof.
  intros H. unfold verbose_cntr_field. rewrite skip_lines_ok by lia. cbn [pbind]. pose proof (expect_spec n (next_line r)) as E.
  unfold closes in H. destruct (indented n (next_line r)); [|destruct E as [e ->]; eexists; reflexivity].
  rewrite orb_false_r in H. destruct E as (q & -> & w & W). cbn [pbind]. rewrite W, forallb_app in H. apply andb_true_iff in H as [_ H].
  rewrite <- (app_nil_r q). rewrite take_blanks; [|exact H|exact I]. cbn [pbind]. eexists; reflexivity.
Qed.

(** ** no value starts with a line end or a colon *)
Definition dull (c : char) : bool := mem c [10; 13; ch ":"].
Lemma dull_cases c : dull c = true -> c = 10 \/ c = 13 \/ c = ch ":".
Proof. unfold dull. rewrite mem_In. cbn. intuition. Qed.
Ltac dull H := apply dull_cases in H as [->|[->| ->]]; (reflexivity || discriminate).
Lemma prim_dull c r : dull c = true -> exists e, prim (c :: r) = PErr e.
Proof.
  intros H. unfold prim, context, separated_pair, opt. destruct (angle_err (c :: r)) as [e ->]; [dull H|]. cbn [pbind].
  change (c :: r) with ([] ++ c :: r). rewrite take_blanks by (try reflexivity; dull H). cbn [pbind].
  unfold prim_value, context, alt5, pmap. destruct (unit_err (c :: r)) as [e1 ->]; [dull H|].
  destruct (boolean_err (c :: r)) as [e2 ->]; try dull H. destruct (num_err c r) as [e3 ->]; [dull H|]. cbn [pbind].
  assert (P : exists e4, pstring (c :: r) = PErr e4).
  { unfold pstring, context. replace (starts_with (s "str") (c :: r)) with false by dull H.
    unfold parse_str, preceded. rewrite char_err by dull H. cbn [pbind]. eauto. }
  destruct P as [e4 ->]. cbn [pbind]. unfold barr, context, preceded, tag. replace (starts_with (s "b91'") (c :: r)) with false by dull H. cbn [pbind]. eauto.
Qed.
Lemma pattern_dull c r : dull c = true -> exists p, pattern_match_delimited (c :: r) = POk (c :: r) p.
Proof.
  intros H. unfold pattern_match_delimited. replace (starts_with (s "true") (c :: r)) with false by dull H. replace (starts_with (s "false") (c :: r)) with false by dull H. cbn [orb].
  unfold opt at 1. destruct (angle_err (c :: r)) as [e ->]; [dull H|]. cbn [pbind]. unfold opt. destruct (ident_err (c :: r)) as [e' ->]; [dull H|]. cbn [pbind].
  destruct (trim_spec (c :: r)) as [w ->]. cbn [pbind]. set (u := trim (c :: r)). destruct (hd 32 u =? ch "["); [eexists; reflexivity|].
  destruct (hd 32 u =? ch "{"); [eexists; reflexivity|]. destruct (hd 32 u =? ch "("); [|eexists; reflexivity]. destruct (is_ok _); [eexists; reflexivity|].
  destruct (trim_spec (tl u)) as [w' ->]. cbn [pbind]. destruct (recognise_field_assign _); eexists; reflexivity.
Qed.
Lemma delimited_dull fuel m c r : dull c = true -> exists e, kserd_delimited (S fuel) m (c :: r) = PErr e.
Proof.
  intros H. cbn [kserd_delimited]. unfold delimited_body. destruct (pattern_dull c r H) as [p ->]. cbn [pbind].
  assert (O : forall q A (k : option str -> str -> pres A), q = ch "(" \/ q = ch "[" \/ q = ch "{" ->
    exists e, (let? (i, x) := opt (ident false) (c :: r) in let? (i, _) := ignore_ws (pchar q) i in k x i) = PErr e).
  { intros q A k Q. unfold opt. destruct (ident_err (c :: r)) as [e ->]; [dull H|]. cbn [pbind]. rewrite ignore_ws_skip, skip_blanks_id by dull H.
    rewrite char_err; [eexists; reflexivity|]. destruct Q as [->|[->| ->]]; dull H. }
  destruct p; [apply O; auto|apply O; auto|apply O; auto|apply O; auto|now apply prim_dull].
Qed.

(** ** when there is no key *)
Definition key_parser (inl : parser kserd) : parser (option kserd) := opt (terminated (ignore_ws (uncut inl)) (ignore_ws (pchar (ch ":")))).
Definition no_key (r : pres kserd) : Prop :=
  match r with POk r _ => starts_with (s ":") (Grammar.skip_blanks r) = false | PErr _ | PFail _ => True | _ => False end.
Lemma colon_err t : starts_with (s ":") t = false -> exists e, pchar (ch ":") t = PErr e.
Proof.
  destruct t as [|c t]; [eexists; reflexivity|]. change (starts_with (s ":") (c :: t)) with ((ch ":" =? c) && true). rewrite andb_true_r. intros H. apply N.eqb_neq in H.
  rewrite char_err by congruence. eauto.
Qed.
Lemma key_none inl i : no_key (inl (Grammar.skip_blanks i)) -> key_parser inl i = POk i None.
Proof.
  intros H. unfold key_parser, opt, terminated. rewrite ignore_ws_skip. unfold uncut. destruct (inl (Grammar.skip_blanks i)) as [r k|e|e| |]; cbn [no_key] in H; try contradiction; try reflexivity.
  cbn [pbind]. rewrite ignore_ws_skip. destruct (colon_err _ H) as [e ->]. reflexivity.
Qed.
Lemma name_not c d : name_char c = true -> name_char d = false -> (d =? c) = false.
Proof. intros H K. apply N.eqb_neq. intros ->. congruence. Qed.
Lemma names_then name w1 x : forallb name_char name = true -> blanks w1 -> starts_with (s ":") (Grammar.skip_blanks (name ++ w1 ++ s "=" ++ x)) = false.
Proof.
  intros F B. destruct name as [|c name]; cbn [app].
  - rewrite skip_blanks_app by assumption. reflexivity.
  - cbn [forallb] in F. apply andb_true_iff in F as [F _]. assert (NB : blank c = false) by (apply space_blank; apply name_start in F; unfold start_char in F; apply negb_true_iff, orb_false_iff in F; tauto).
    cbn [Grammar.skip_blanks]. rewrite NB. change (starts_with (s ":") (c :: (name ++ w1 ++ s "=" ++ x))) with ((ch ":" =? c) && true).
    destruct (N.eqb_spec (ch ":") c) as [<-|]; [discriminate F|reflexivity].
Qed.
Lemma take_part f name z : forallb name_char name = true -> stops f z -> exists name1 name2, name = name1 ++ name2 /\ take_while f (name ++ z) = (name1, name2 ++ z).
Proof.
  intros F S. induction name as [|c name IH]; cbn [app].
  - exists [], []. split; [reflexivity|]. destruct z as [|d z]; [reflexivity|]. cbn in S |- *. now rewrite S.
  - cbn [forallb] in F. apply andb_true_iff in F as [F1 F2]. cbn [take_while]. destruct (f c).
    + destruct (IH F2) as (n1 & n2 & -> & ->). exists (c :: n1), n2. auto.
    + exists [], (c :: name). auto.
Qed.
Lemma prefix_part p name z : starts_with p (name ++ z) = true -> forallb name_char p = true -> stops name_char z -> exists r, name = p ++ r.
Proof.
  revert name. induction p as [|x p IH]; intros name; [exists name; reflexivity|]. cbn [starts_with forallb]. intros H F S. apply andb_true_iff in F as [F1 F2].
  destruct name as [|c name]; cbn [app] in H.
  - destruct z as [|d z]; [discriminate|]. apply andb_true_iff in H as [H _]. apply N.eqb_eq in H. subst d. cbn in S. congruence.
  - apply andb_true_iff in H as [H1 H2]. apply N.eqb_eq in H1. subst c. destruct (IH name H2 F2 S) as [r ->]. now exists r.
Qed.
Lemma eq_not_opener w x : blanks w -> opener (hd 32 (trim (w ++ s "=" ++ x))) = false.
Proof. intros W. rewrite trim_app; [reflexivity|now apply blanks_spaces|reflexivity]. Qed.
Lemma pattern_name name w1 x : name <> [] -> forallb name_char name = true -> blanks w1 ->
  pattern_match_delimited (name ++ w1 ++ s "=" ++ x) = POk (name ++ w1 ++ s "=" ++ x) NpNone.
Proof.
  intros NE F B. destruct (starts_with (s "true") (name ++ w1 ++ s "=" ++ x)) eqn:E1; [unfold pattern_match_delimited; now rewrite E1|].
  destruct (starts_with (s "false") (name ++ w1 ++ s "=" ++ x)) eqn:E2; [unfold pattern_match_delimited; now rewrite E1, E2|].
  destruct name as [|c name]; [congruence|]. pose proof F as F0. cbn [forallb] in F. apply andb_true_iff in F as [F1 F2].
  assert (NS : space c = false) by (apply name_start in F1; unfold start_char in F1; apply negb_true_iff, orb_false_iff in F1; tauto).
  assert (A : stops (N.eqb (ch "<")) ((c :: name) ++ w1 ++ s "=" ++ x)) by now apply name_not.
  destruct (id_head c) eqn:H.
  - assert (I : is_id (c :: name) = true) by (unfold is_id; fold (id_head c); now rewrite H, F0).
    apply (pattern_none _ (w1 ++ s "=" ++ x) (Some (c :: name))); auto; [|now apply eq_not_opener].
    unfold opt. rewrite ident_ok; [reflexivity|exact I|]. now apply blanks_stop_name.
  - apply (pattern_none _ ((c :: name) ++ w1 ++ s "=" ++ x) None); auto.
    + unfold opt. destruct (ident_err ((c :: name) ++ w1 ++ s "=" ++ x)) as [e ->]; [exact H|reflexivity].
    + cbn [app trim]. rewrite NS. cbn [hd]. destruct (opener c) eqn:O; [|reflexivity]. apply opener_name in O. congruence.
Qed.
Lemma name_no_key fuel m name w1 x : name <> [] -> forallb name_char name = true -> starts_with (s "str") name = false -> blanks w1 ->
  no_key (kserd_delimited (S fuel) m (name ++ w1 ++ s "=" ++ x)).
Proof.
  intros NE F ST B. cbn [kserd_delimited]. unfold delimited_body. rewrite pattern_name by assumption. cbn [pbind].
  set (z := w1 ++ s "=" ++ x). set (i := name ++ z). assert (ZN : stops name_char z) by now apply blanks_stop_name.
  assert (C : exists c u, i = c :: u /\ name_char c = true) by (destruct name as [|c name]; [congruence|]; cbn [forallb] in F; apply andb_true_iff in F as [F _]; now exists c, (name ++ z)).
  destruct C as (c & u & EI & FC).
  assert (NB : blank c = false) by (apply space_blank; apply name_start in FC; unfold start_char in FC; apply negb_true_iff, orb_false_iff in FC; tauto).
  unfold prim, context, separated_pair, opt. destruct (angle_err i) as [e ->]; [rewrite EI; now apply name_not|]. cbn [pbind].
  replace (inline_whitespace i) with (@POk str i []) by (symmetry; apply (take_blanks [] i); [reflexivity|rewrite EI; exact NB]). cbn [pbind].
  unfold prim_value, context, alt5, pmap. destruct (unit_err i) as [e1 ->]; [rewrite EI; now apply name_not|]. cbn [pbind].
  unfold boolean, context, alt2, pmap.
  destruct (starts_with (s "true") i) eqn:T1.
  { unfold tag at 1. rewrite T1. cbn [pbind]. destruct (prefix_part _ name z T1 eq_refl ZN) as [q ->]. rewrite forallb_app in F. apply andb_true_iff in F as [_ F].
    change (skipn (length (s "true")) i) with (q ++ z). cbn [kserd_ctor no_key]. now apply names_then. }
  destruct (starts_with (s "false") i) eqn:T2.
  { unfold tag at 1. rewrite T1. cbn [pbind]. unfold tag at 1. rewrite T2. cbn [pbind]. destruct (prefix_part _ name z T2 eq_refl ZN) as [q ->]. rewrite forallb_app in F. apply andb_true_iff in F as [_ F].
    change (skipn (length (s "false")) i) with (q ++ z). cbn [kserd_ctor no_key]. now apply names_then. }
  unfold tag at 1. rewrite T1. cbn [pbind]. unfold tag at 1. rewrite T2. cbn [pbind].
  unfold num, context. assert (ZM : stops is_num_char z).
  { unfold z. destruct w1 as [|d w1]; [reflexivity|]. unfold blanks in B. cbn [forallb] in B. apply andb_true_iff in B as [B _]. apply mem_In in B. each_char B. }
  destruct (take_part is_num_char name z F ZM) as (n1 & n2 & EN & TK). fold i in TK. rewrite TK.
  destruct (num_from_str n1) as [n|].
  { cbn [pbind kserd_ctor no_key]. apply names_then; [|exact B]. rewrite EN, forallb_app in F. now apply andb_true_iff in F. }
  cbn [pbind]. unfold pstring. replace (starts_with (s "str") i) with false.
  2:{ destruct (starts_with (s "str") i) eqn:T3; [|reflexivity]. destruct (prefix_part _ name z T3 eq_refl ZN) as [q EQ]. rewrite EQ in ST. discriminate ST. }
  unfold context, parse_str, preceded. rewrite EI. rewrite char_err by (intros ->; discriminate FC). cbn [pbind].
  unfold barr, context, preceded, tag. replace (starts_with (s "b91'") (c :: u)) with false; [exact I|]. rewrite <- EI. symmetry.
  destruct (starts_with (s "b91'") i) eqn:T4; [|reflexivity]. exfalso. unfold i in T4.
  apply prefix_app in T4 as [T4|(q & EQ & T4)].
  - apply (starts_forall name_char) in T4; [discriminate T4|exact F].
  - destruct q as [|y q]; [rewrite app_nil_r in EQ; rewrite <- EQ in F; discriminate F|].
    assert (Y : In y (s "b91'")) by (rewrite EQ; apply in_or_app; right; now left).
    destruct z as [|d z0] eqn:EZ; [discriminate|]. cbn [starts_with] in T4. apply andb_true_iff in T4 as [T4 _]. apply N.eqb_eq in T4. subst d.
    unfold z in EZ. destruct w1 as [|d w1]; cbn [app s map list_ascii_of_string] in EZ.
    + injection EZ as <- _. cbn in Y. intuition discriminate.
    + injection EZ as -> _. unfold blanks in B. cbn [forallb] in B. apply andb_true_iff in B as [B _]. cbn in Y. repeat (destruct Y as [Y|Y]; [subst y; discriminate B|]). contradiction.
Qed.
Lemma skip_blanks_app2 a b : Grammar.skip_blanks a <> [] -> Grammar.skip_blanks (a ++ b) = Grammar.skip_blanks a ++ b.
Proof. induction a as [|c a IH]; [intros H; now elim H|]. cbn [app Grammar.skip_blanks]. destruct (blank c); [exact IH|reflexivity]. Qed.
Lemma skip_blanks_split r : exists w, blanks w /\ r = w ++ Grammar.skip_blanks r.
Proof. destruct (split_blanks r) as (w & x & -> & W & S). exists w. split; [exact W|]. now rewrite skip_blanks_app, skip_blanks_id. Qed.
Lemma starts_char c t : starts_with [c] t = true -> exists r, t = c :: r.
Proof. destruct t as [|d t]; [discriminate|]. cbn [starts_with]. rewrite andb_true_r. intros H. apply N.eqb_eq in H. subst d. eauto. Qed.
Lemma keyless_no_key fuel m t rest : keyless t = true -> no_key (kserd_delimited (S fuel) m (Grammar.skip_blanks (t ++ rest))).
Proof.
  unfold keyless. intros H. rewrite skip_blanks_app2 by (intros E; now rewrite E in H). destruct (Grammar.skip_blanks t) as [|c u]; [discriminate|].
  fold (dull c) in H. destruct (dull c) eqn:D; cbn [orb] in H.
  - cbn [app]. destruct (delimited_dull fuel m c (u ++ rest) D) as [e ->]. exact I.
  - pose proof (take_while_app name_char (c :: u)) as A. pose proof (take_while_all name_char (c :: u)) as F.
    destruct (take_while name_char (c :: u)) as [name r]. cbn [fst snd] in *. rewrite !andb_true_iff, !negb_true_iff in H. destruct H as [[H1 H2] H3].
    destruct (skip_blanks_split r) as (w & W & ER). apply starts_char in H3 as [x EX]. rewrite EX in ER.
    assert (EQ : (c :: u) ++ rest = name ++ w ++ s "=" ++ (x ++ rest)) by (rewrite <- A, ER, <- !app_assoc; reflexivity). rewrite EQ.
    apply name_no_key; auto. intros ->. discriminate.
Qed.

(** ** a value where only an inline one is allowed *)
Lemma new_line_dull t r : new_line t = true -> exists c z, Grammar.skip_blanks (t ++ r) = c :: z /\ dull c = true /\ space c = true.
Proof.
  induction t as [|c t IH]; [discriminate|]. cbn [new_line app Grammar.skip_blanks]. intros H. destruct (blank c) eqn:B.
  - apply IH. apply orb_true_iff in H as [H|H]; [apply N.eqb_eq in H; subst c; discriminate|now apply andb_true_iff in H].
  - exists c, (t ++ r). split; [reflexivity|]. cbn [orb] in H. destruct (N.eqb_spec c 10) as [->|_]; [split; reflexivity|]. cbn [orb] in H.
    apply andb_true_iff in H as [H _]. apply N.eqb_eq in H. subst c. split; reflexivity.
Qed.
Definition outcome_at (rest : str) (r : pres kserd) : Prop := match r with POk r _ => r = rest | PErr _ | PFail _ => True | _ => False end.
Lemma closer_err t r d : new_line t = true -> space d = false -> exists e, ignore_ws (pchar d) (t ++ r) = PErr e.
Proof.
  intros H S. rewrite ignore_ws_skip. destruct (new_line_dull t r H) as (c & z & -> & _ & SC). rewrite char_err; [eexists; reflexivity|]. intros ->. congruence.
Qed.
Lemma sep_none {A B} (sep : parser B) (p : parser A) i e : p i = PErr e -> separated_list0 sep p i = POk i [].
Proof. unfold separated_list0. now intros ->. Qed.
Lemma reads_forced fuel t k b rest : reads false t k b -> (length t < fuel)%nat -> ends rest = true -> (b = true -> opens rest = false) ->
  outcome_at rest (kserd_delimited fuel true (t ++ rest)).
Proof.
  intros H L E O. assert (D : reads true t k b \/ exists id w c u d l, t = head id w ++ ch c :: u ++ [ch d] /\ head_ok id w /\ new_line u = true /\
     ((c = "["%char /\ d = "]"%char) \/ (c = "{"%char /\ d = "}"%char) \/ (c = "("%char /\ d = ")"%char)) /\ l = true).
  { remember false as m. destruct H; try (left; econstructor; eassumption); right.
    - destruct H0 as [N _]. exists id, w, "["%char, t, "]"%char, true. repeat split; auto; apply H.
    - destruct H0 as [N _]. exists id, w, "("%char, t, ")"%char, true. repeat split; auto; apply H.
    - destruct H0 as [N _]. exists id, w, "("%char, t, ")"%char, true. repeat split; auto; apply H.
    - destruct H0 as [N _]. exists id, w, "{"%char, t, "}"%char, true. repeat split; auto; apply H. }
  destruct D as [D|D]; [rewrite (reads_ok fuel true t k b rest D L E O); reflexivity|].
  destruct D as (id & w & c & u & d & l & -> & HO & NL & CD & _). clear H k.
  rewrite !app_length in L. cbn [length] in L. rewrite app_length in L. cbn [length] in L. destruct fuel as [|[|fuel]]; [lia|lia|]. set (n := S fuel).
  change (kserd_delimited (S n)) with (fun m => delimited_body (kserd_delimited n true) (kserd_delimited n false) m). cbv beta. unfold delimited_body.
  replace ((head id w ++ ch c :: u ++ [ch d]) ++ rest) with (head id w ++ ch c :: u ++ (ch d :: rest)) by (rewrite <- !app_assoc; cbn [app]; now rewrite <- app_assoc).
  set (x := ch d :: rest).
  assert (OC : opener (ch c) = true) by (destruct CD as [[-> _]|[[-> _]|[-> _]]]; reflexivity).
  assert (SD : space (ch d) = false) by (destruct CD as [[_ ->]|[[_ ->]|[_ ->]]]; reflexivity).
  assert (EL : forall m, exists e, ignore_ws (kserd_delimited n m) (u ++ x) = PErr e).
  { intros m. rewrite ignore_ws_skip. destruct (new_line_dull u x NL) as (y & z & -> & DY & _). now apply delimited_dull. }
  destruct (closer_err u x (ch d) NL SD) as [ed ED].
  rewrite pattern_head by assumption. cbn [pbind].
  assert (FI : exists e, ignore_ws (kvp_field (kserd_delimited n true) (kserd_delimited n false) true) (u ++ x) = PErr e).
  { rewrite ignore_ws_skip. destruct (new_line_dull u x NL) as (y & z & -> & DY & _). unfold kvp_field, context, separated_pair, field_name, ptake_while. cbn [take_while].
    replace (is_name_char y) with false by dull DY. cbn [pbind]. rewrite ignore_ws_skip, skip_blanks_id by dull DY. rewrite char_err by dull DY. eexists; reflexivity. }
  assert (MI : exists e, ignore_ws (kvp_kserd (kserd_delimited n true) (kserd_delimited n false) true) (u ++ x) = PErr e).
  { rewrite ignore_ws_skip. destruct (new_line_dull u x NL) as (y & z & -> & DY & _). unfold kvp_kserd, context, separated_pair, alt2.
    destruct (delimited_dull fuel false y z DY) as [e1 E1]. destruct (delimited_dull fuel true y z DY) as [e2 E2]. unfold n. rewrite E1, E2. eexists; reflexivity. }
  destruct (EL true) as [el ELt]. destruct FI as [ef FI]. destruct MI as [em MI].
  destruct CD as [[-> ->]|[[-> ->]|[-> ->]]].
  - change (ch "[" =? ch "[") with true. cbn [pbind]. unfold seq_delimited. rewrite head_open by assumption. rewrite andb_false_r. unfold inline_list_kserds, context, cut, terminated.
    rewrite (sep_none _ _ _ _ ELt). cbn [pbind]. rewrite ED. exact I.
  - change (ch "{" =? ch "[") with false. change (ch "{" =? ch "{") with true. cbn [pbind]. unfold map_delimited. rewrite head_open by assumption. rewrite andb_false_r. unfold inline_map_kserds, context, terminated.
    rewrite (sep_none _ _ _ _ MI). cbn [pbind]. rewrite ED. exact I.
  - change (ch "(" =? ch "[") with false. change (ch "(" =? ch "{") with false.
    replace (match id with Some _ => false | None => is_ok _ end) with false by (symmetry; destruct id; [reflexivity|]; now apply line_not_unit).
    destruct (assigns (trim (u ++ x))).
    + unfold cntr_delimited. rewrite head_open by assumption. rewrite andb_false_r. unfold inline_cntr_kserds, context, terminated. rewrite (sep_none _ _ _ _ FI). cbn [pbind]. rewrite ED. exact I.
    + unfold tuple. rewrite head_open by assumption. rewrite andb_false_r. unfold inline_list_kserds, context, cut, terminated. rewrite (sep_none _ _ _ _ ELt). cbn [pbind]. rewrite ED. exact I.
Qed.

(** ** items *)
Definition cf_item (f : container_field) : item :=
  match f with
  | CfId id => It_id id
  | CfDirect n v | CfNested n v => It_field n v
  | CfSeq id n v => It_elem id n v
  | CfMap id n k v => It_entry id n k v
  end.
(** [verbose_cntr_field] after the indents *)
Definition field_body (inl con nested : parser kserd) : parser container_field :=
  fun i =>
      if starts_with (s ":") i then
        let? (i, id) := ignore_ws (ident false) (tl i) in POk i (CfId id)
      else if starts_with (s "[[") i then
        let? (i, (fname, id)) :=
          context (s "field name. expecting 'field_name[:identity]'")
            (cut (preceded (tag (s "[[")) (terminated verbose_field_name_and_identity (ignore_ws (tag (s "]]")))))) i in
        let? (i, _) := ignore_ws line_ending i in
        let? (i, key) := key_parser inl i in
        match key with
        | Some key =>
            let? (i, v) := context (s "verbose map entry")
                             (alt2 (ignore_ws con) (preceded (ignore_ws line_ending) nested)) i in
            POk i (CfMap id fname key v)
        | None =>
            let? (i, v) := context (s "verbose sequence entry") nested i in
            POk i (CfSeq id fname v)
        end
      else if starts_with (s "[") i then
        let? (i, (fname, id)) :=
          preceded (tag (s "[")) (terminated verbose_field_name_and_identity (ignore_ws (tag (s "]")))) i in
        let? (i, _) := ignore_ws line_ending i in
        let? (i, v) := context (s "nested container") nested i in
        POk i (CfNested fname (Kserd (match kid v with Some x => Some x | None => id end) (kval v)))
      else
        let? (i, (fname, v)) := cut (kvp_field inl con false) i in
        POk i (CfDirect fname v).
Definition solid (t : str) : Prop := match t with [] => False | c :: _ => space c = false end.
Lemma solid_app t r : solid t -> solid (t ++ r). Proof. destruct t; [contradiction|auto]. Qed.
Lemma solid_blank t : solid t -> stops blank t. Proof. destruct t as [|c t]; [contradiction|]. apply space_blank. Qed.
Lemma solid_eol t : solid t -> at_eol t = false.
Proof.
  intros H. destruct (at_eol t) eqn:E; [|reflexivity]. destruct t as [|c t]; [contradiction|]. destruct (line_ending_cases _ E ltac:(discriminate)) as (e & r & [->| ->] & X); injection X as -> _; discriminate.
Qed.
Lemma starts_solid t : starts t -> solid t.
Proof. intros H. apply starts_space in H as H'. destruct t; [contradiction|exact H']. Qed.
Lemma lead_field inl con nested n w t : lead n w -> solid t -> verbose_cntr_field inl con nested n (w ++ t) = field_body inl con nested t.
Proof.
  intros [a b c A B C] S. unfold verbose_cntr_field. rewrite skip_lines_ok by lia. cbn [pbind]. rewrite <- !app_assoc.
  rewrite next_line_blank_lines by assumption. rewrite next_line_stop.
  2:{ left. rewrite app_assoc, skip_blanks_app by (apply blanks_app; [now apply indents_blanks in B|exact C]). rewrite skip_blanks_id by now apply solid_blank. now apply solid_eol. }
  rewrite expect_ok by assumption. cbn [pbind]. rewrite take_blanks by (auto using solid_blank). cbn [pbind].
  rewrite ignore_ws_skip, skip_blanks_id by now apply solid_blank. destruct (line_ending_err t (or_introl (solid_eol t S))) as [e ->]. cbn [is_ok].
  destruct t as [|x t]; [contradiction|]. reflexivity.
Qed.
Lemma title_solid h name id : title h name id -> exists w1 z, h = w1 ++ name ++ z /\ blanks w1 /\ name <> [] /\ forallb name_char name = true.
Proof. intros [w1 nm w2 A B C D|w1 nm w2 w3 i w4 A B C D E F G]; exists w1; eexists; repeat split; eauto. Qed.
Lemma name_solid name z : name <> [] -> forallb name_char name = true -> solid (name ++ z).
Proof. destruct name as [|c name]; [congruence|]. cbn [forallb]. intros _ H. apply andb_true_iff in H as [H _]. apply starts_solid. cbn. now apply name_start. Qed.
Lemma title_ok h name id cl r : title h name id -> (cl = s "]" \/ cl = s "]]") ->
  terminated verbose_field_name_and_identity (ignore_ws (tag cl)) (h ++ cl ++ r) = POk r (name, id).
Proof.
  intros T CL. assert (C : exists z, cl ++ r = ch "]" :: z) by (destruct CL as [->| ->]; eexists; reflexivity). destruct C as [z C].
  assert (TG : forall w, blanks w -> ignore_ws (tag cl) (w ++ cl ++ r) = POk r cl).
  { intros w W. rewrite GrammarProps.skip_blanks; [apply tag_ok|exact W|]. rewrite C. reflexivity. }
  unfold terminated, verbose_field_name_and_identity, context. destruct T as [w1 nm w2 A B D E|w1 nm w2 w3 i w4 A B D E F G H]; rewrite <- !app_assoc.
  - rewrite GrammarProps.skip_blanks; [|exact A|now apply solid_blank, name_solid]. unfold field_name, ptake_while. rewrite take_names.
    assert (TK : take_while name_char (nm ++ w2 ++ cl ++ r) = (nm, w2 ++ cl ++ r)) by (apply take_while_spec; [exact D|rewrite C; now apply blanks_stop_name]).
    rewrite TK. cbn [pbind]. rewrite ignore_ws_skip, skip_blanks_app, C by assumption. rewrite skip_blanks_id by reflexivity. rewrite char_err by discriminate. cbn [pbind].
    rewrite <- C, TG by assumption. reflexivity.
  - rewrite GrammarProps.skip_blanks; [|exact A|now apply solid_blank, name_solid]. unfold field_name, ptake_while. rewrite take_names.
    assert (TK : take_while name_char (nm ++ w2 ++ s ":" ++ w3 ++ i ++ w4 ++ cl ++ r) = (nm, w2 ++ s ":" ++ w3 ++ i ++ w4 ++ cl ++ r)) by (apply take_while_spec; [exact D|now apply blanks_stop_name]).
    rewrite TK. cbn [pbind]. change (s ":" ++ w3 ++ i ++ w4 ++ cl ++ r) with (ch ":" :: (w3 ++ i ++ w4 ++ cl ++ r)). rewrite blank_char by (assumption || reflexivity). rewrite GrammarProps.skip_blanks; [|exact F|].
    2:{ apply id_name in G as [G1 G2]. now apply solid_blank, name_solid. }
    rewrite ident_ok; [|exact G|rewrite C; now apply blanks_stop_name]. cbn [pbind]. rewrite TG by assumption. reflexivity.
Qed.
Lemma title_first h name id r : title h name id -> exists c z, h ++ r = c :: z /\ (blank c = true \/ name_char c = true).
Proof.
  intros T. apply title_solid in T as (w1 & z & -> & B & N & F). rewrite <- !app_assoc. destruct w1 as [|c w1]; cbn [app].
  - destruct name as [|c name]; [congruence|]. cbn [forallb] in F. apply andb_true_iff in F as [F _]. cbn [app]. eauto.
  - unfold blanks in B. cbn [forallb] in B. apply andb_true_iff in B as [B _]. eauto.
Qed.
Lemma item_solid n t i b c : vitem n t i b c -> solid t.
Proof.
  intros H. destruct H; try reflexivity. apply starts_solid. eapply field_start. eassumption.
Qed.

Definition nested_ok (p : parser kserd) (n len : nat) : Prop :=
  forall t v b c rest, body n t v b c -> (length t < len)%nat -> line_ends rest = true -> (b = true -> opens rest = false) ->
  (c = true -> closes n rest = true) -> p (t ++ rest) = POk rest v.
Lemma dfuel_S n m : (n < m)%nat -> exists k, m = S k. Proof. destruct m; [lia|eauto]. Qed.
Lemma body_key dfuel n t v b c rest : body n t v b c -> (c = true -> keyless t = true) -> (length t < dfuel)%nat -> line_ends rest = true ->
  (b = true -> opens rest = false) -> key_parser (kserd_inline dfuel) (t ++ rest) = POk (t ++ rest) None.
Proof.
  intros H K L E O. apply key_none. destruct (dfuel_S _ _ L) as [f ->]. destruct H as [n w t v b W R _|n t l b _ _].
  - pose proof (reads_start false t v b R) as ST. rewrite <- app_assoc, skip_blanks_app, skip_blanks_id; [|now apply starts_blank, starts_app|exact W].
    rewrite app_length in L. pose proof (reads_forced (S f) t v b rest R ltac:(lia) (line_ends_ends _ E) O) as F. unfold kserd_inline.
    destruct (kserd_delimited (S f) true (t ++ rest)) as [r k|e|e| |]; cbn in F |- *; auto. subst r. unfold line_ends in E. destruct (Grammar.skip_blanks rest) as [|c u]; [reflexivity|].
    destruct (line_ending_cases _ E ltac:(discriminate)) as (e & z & [->| ->] & X); injection X as -> _; reflexivity.
  - now apply keyless_no_key, K.
Qed.
Lemma item_ok dfuel nested n len w t i b c rest : nested_ok nested (S n) len -> lead n w -> vitem n t i b c -> (length t <= len)%nat -> (length t < dfuel)%nat ->
  line_ends rest = true -> (b = true -> opens rest = false) -> (c = true -> closes (S n) rest = true) ->
  exists f, verbose_cntr_field (kserd_inline dfuel) (kserd_concise dfuel) nested n (w ++ t ++ rest) = POk rest f /\ cf_item f = i.
Proof.
  intros NO LE IT L1 L2 E O C. rewrite lead_field; [|exact LE|eapply solid_app, item_solid; eassumption]. pose proof (line_ends_ends _ E) as E'.
  destruct (dfuel_S _ _ L2) as [df ED].
  assert (DB : forall h name id cl r, title h name id -> starts_with (s "[[") (s "[" ++ h ++ cl ++ r) = false).
  { intros h name id cl r T. destruct (title_first h name id (cl ++ r) T) as (x & z & EX & X). rewrite EX. change (starts_with (s "[[") (s "[" ++ x :: z)) with ((ch "[" =? x) && true).
    destruct (N.eqb_spec (ch "[") x) as [<-|]; [destruct X; discriminate|reflexivity]. }
  unfold field_body. destruct IT as [n w' id W I|n t name v b F|n h name id w' e t v b c T W EO B|n h name id w' e t v b c T W EO B K|n h name id w' e w1 tk k bk w2 w3 t v b T W EO W1 RK W2 W3 RV|n h name id w' e w1 tk k bk w2 w3 e' t v b c T W EO W1 RK W2 W3 EO' B].
  - exists (CfId id). split; [|reflexivity]. rewrite <- !app_assoc. change (starts_with (s ":") (s ":" ++ w' ++ id ++ rest)) with true. cbv iota. change (tl (s ":" ++ w' ++ id ++ rest)) with (w' ++ id ++ rest).
    apply id_name in I as I'. destruct I' as [I1 I2]. rewrite GrammarProps.skip_blanks; [|exact W|now apply solid_blank, name_solid]. rewrite ident_ok; [reflexivity|exact I|now apply ends_not_name].
  - exists (CfDirect name v). split; [|reflexivity]. pose proof (field_start _ _ _ _ F) as ST. rewrite starts_not_colon by now apply starts_app.
    assert (NB : forall p, starts_with (ch "[" :: p) (t ++ rest) = false).
    { intros p. inversion F as [nm v1 v2 u kk bb N FN B1 B2 R EQ1 EQ2 EQ3]. subst. destruct name as [|x name]; [congruence|]. cbn [forallb] in FN. apply andb_true_iff in FN as [FN _].
      cbn [app starts_with]. destruct (N.eqb_spec (ch "[") x) as [<-|]; [discriminate FN|reflexivity]. }
    pose proof (NB (s "[")) as NB1. pose proof (NB []) as NB2. change (ch "[" :: s "[") with (s "[[") in NB1. change [ch "["] with (s "[") in NB2. rewrite NB1, NB2. unfold cut.
    rewrite (field_accepts (kserd_inline dfuel) (kserd_concise dfuel) false (reads false) dfuel (reads_ok dfuel false) (reads_start false) t (name, v) b rest F L2 E' O). reflexivity.
  - exists (CfNested name (default_id id v)). split; [|reflexivity].
    replace ((s "[" ++ h ++ s "]" ++ w' ++ e ++ t) ++ rest) with (s "[" ++ h ++ s "]" ++ (w' ++ e ++ t ++ rest)) by now rewrite <- !app_assoc.
    change (starts_with (s ":") (s "[" ++ h ++ s "]" ++ (w' ++ e ++ t ++ rest))) with false. rewrite (DB _ _ _ _ _ T). change (starts_with (s "[") (s "[" ++ h ++ s "]" ++ (w' ++ e ++ t ++ rest))) with true. cbv iota.
    unfold preceded. rewrite tag_ok. cbn [pbind]. rewrite (title_ok h name id (s "]")) by auto. cbn [pbind]. rewrite blank_eol by assumption. cbn [pbind]. unfold context.
    rewrite (NO t v b c rest B); [reflexivity| |exact E|exact O|exact C]. rewrite !app_length in L1. change (length (s "[")) with 1%nat in L1. lia.
  - exists (CfSeq id name v). split; [|reflexivity]. rewrite !app_length in L1, L2. change (length (s "[[")) with 2%nat in *. change (length (s "]]")) with 2%nat in *.
    replace ((s "[[" ++ h ++ s "]]" ++ w' ++ e ++ t) ++ rest) with (s "[[" ++ h ++ s "]]" ++ (w' ++ e ++ t ++ rest)) by now rewrite <- !app_assoc.
    change (starts_with (s ":") (s "[[" ++ h ++ s "]]" ++ (w' ++ e ++ t ++ rest))) with false. change (starts_with (s "[[") (s "[[" ++ h ++ s "]]" ++ (w' ++ e ++ t ++ rest))) with true. cbv iota.
    unfold preceded at 1. unfold context at 1, cut. rewrite tag_ok. cbn [pbind]. rewrite (title_ok h name id (s "]]")) by auto. cbn [pbind]. rewrite blank_eol by assumption. cbn [pbind].
    rewrite (body_key dfuel (S n) t v b c rest B K ltac:(lia) E O). cbn [pbind]. unfold context. rewrite (NO t v b c rest B); [reflexivity|lia|exact E|exact O|exact C].
  - exists (CfMap id name k v). split; [|reflexivity]. rewrite !app_length in L1, L2. change (length (s "[[")) with 2%nat in *. change (length (s "]]")) with 2%nat in *.
    replace ((s "[[" ++ h ++ s "]]" ++ w' ++ e ++ w1 ++ tk ++ w2 ++ s ":" ++ w3 ++ t) ++ rest) with (s "[[" ++ h ++ s "]]" ++ (w' ++ e ++ w1 ++ tk ++ w2 ++ s ":" ++ w3 ++ t ++ rest)) by now rewrite <- !app_assoc.
    set (z := w' ++ e ++ w1 ++ tk ++ w2 ++ s ":" ++ w3 ++ t ++ rest).
    change (starts_with (s ":") (s "[[" ++ h ++ s "]]" ++ z)) with false. change (starts_with (s "[[") (s "[[" ++ h ++ s "]]" ++ z)) with true. cbv iota.
    unfold preceded at 1. unfold context at 1, cut. rewrite tag_ok. cbn [pbind]. rewrite (title_ok h name id (s "]]")) by auto. cbn [pbind]. unfold z. rewrite blank_eol by assumption. cbn [pbind].
    unfold key_parser, opt, terminated. rewrite GrammarProps.skip_blanks; [|exact W1|now apply starts_blank, starts_app, (reads_start true _ _ _ RK)]. unfold uncut, kserd_inline.
    rewrite (reads_ok dfuel true tk k bk); [|exact RK|lia|now apply blanks_ends|intros _; rewrite spaces_opens by (now apply blanks_spaces); reflexivity]. cbn [pbind].
    change (s ":" ++ w3 ++ t ++ rest) with (ch ":" :: (w3 ++ t ++ rest)). rewrite blank_char by (assumption || reflexivity). cbn [pbind]. unfold context, alt2.
    rewrite GrammarProps.skip_blanks; [|exact W3|now apply starts_blank, starts_app, (reads_start false _ _ _ RV)]. unfold kserd_concise.
    rewrite (reads_ok dfuel false t v b); [reflexivity|exact RV|lia|exact E'|exact O].
  - exists (CfMap id name k v). split; [|reflexivity]. rewrite !app_length in L1, L2. change (length (s "[[")) with 2%nat in *. change (length (s "]]")) with 2%nat in *.
    replace ((s "[[" ++ h ++ s "]]" ++ w' ++ e ++ w1 ++ tk ++ w2 ++ s ":" ++ w3 ++ e' ++ t) ++ rest) with (s "[[" ++ h ++ s "]]" ++ (w' ++ e ++ w1 ++ tk ++ w2 ++ s ":" ++ w3 ++ e' ++ t ++ rest)) by now rewrite <- !app_assoc.
    set (z := w' ++ e ++ w1 ++ tk ++ w2 ++ s ":" ++ w3 ++ e' ++ t ++ rest).
    change (starts_with (s ":") (s "[[" ++ h ++ s "]]" ++ z)) with false. change (starts_with (s "[[") (s "[[" ++ h ++ s "]]" ++ z)) with true. cbv iota.
    unfold preceded at 1. unfold context at 1, cut. rewrite tag_ok. cbn [pbind]. rewrite (title_ok h name id (s "]]")) by auto. cbn [pbind]. unfold z. rewrite blank_eol by assumption. cbn [pbind].
    unfold key_parser, opt, terminated. rewrite GrammarProps.skip_blanks; [|exact W1|now apply starts_blank, starts_app, (reads_start true _ _ _ RK)]. unfold uncut, kserd_inline.
    rewrite (reads_ok dfuel true tk k bk); [|exact RK|lia|now apply blanks_ends|intros _; rewrite spaces_opens by (now apply blanks_spaces); reflexivity]. cbn [pbind].
    change (s ":" ++ w3 ++ e' ++ t ++ rest) with (ch ":" :: (w3 ++ e' ++ t ++ rest)). rewrite blank_char by (assumption || reflexivity). cbn [pbind]. unfold context, alt2.
    assert (D : exists y q, e' ++ t ++ rest = y :: q /\ dull y = true) by (destruct EO' as [->| ->]; eexists; eexists; split; reflexivity). destruct D as (y & q & EY & D).
    rewrite GrammarProps.skip_blanks; [|exact W3|rewrite EY; dull D]. unfold kserd_concise. rewrite ED. rewrite EY at 1. destruct (delimited_dull df false y q D) as [e0 ->].
    unfold preceded. rewrite blank_eol by assumption. cbn [pbind]. rewrite (NO t v b c rest B); [reflexivity|lia|exact E|exact O|exact C].
Qed.
