(** The parser accepts what is in the syntax: values. *)
From Verif Require Import Base F64 Number BTree Value BaseProps ValueProps2 Base91 Nom Parse ParseProps ParseErr Grammar VGrammar GrammarProps VGrammarProps VAssemble Format FormatProps Syntax SyntaxProps.
Open Scope N_scope.

(** ** primitives *)
Lemma num_not_word p t r n : p = s "true" \/ p = s "false" -> forallb num_char t = true -> num_from_str t = Some n -> stops num_char r -> starts_with p (t ++ r) = false.
Proof.
  intros P F E S. destruct (starts_with p (t ++ r)) eqn:X; [|reflexivity]. exfalso. apply prefix_app in X as [X|(q & -> & X)].
  - pose proof (starts_forall num_char _ _ X F). destruct P as [-> | ->]; discriminate.
  - destruct q as [|c q]; [rewrite app_nil_r in P; destruct P as [-> | ->]; discriminate|]. destruct r as [|d r]; [discriminate|]. cbn [starts_with] in X. apply andb_true_iff in X as [X _]. apply N.eqb_eq in X. subst d.
    cbn [stops] in S. destruct P as [P|P]; cbn in P.
    all: destruct t as [|x t]; [vm_compute in E; discriminate|]; injection P as -> P.
    all: try discriminate.
Qed.
Lemma prim_value_token t v r : token t v -> ends_token v r = true -> prim_value (t ++ r) = POk r v.
Proof.
  intros T E. destruct T as [w W| | |t n F P|t M|d t M|t M].
  4: { cbn [ends_token] in E. apply stop_stops in E. unfold prim_value, context, alt5, pmap. destruct (unit_err (t ++ r)) as [e ->].
       { destruct t as [|c t]; [vm_compute in P; discriminate|]. cbn [app stops forallb] in *. apply andb_true_iff in F as [F _]. destruct (N.eqb_spec (ch "(") c) as [<-|]; [discriminate|reflexivity]. }
       destruct (boolean_err (t ++ r)) as [e' ->]; try (eapply num_not_word; eauto).
       rewrite (num_ok t n r F P E). reflexivity. }
  all: match goal with |- prim_value ?x = _ => idtac end.
  - unfold prim_value, context, alt5, pmap, unit_value, context, pmap, preceded. rewrite <- app_assoc. change (s "(" ++ (w ++ s ")") ++ r) with (ch "(" :: (w ++ s ")") ++ r). rewrite char_ok. cbn [pbind].
    unfold cut, terminated. rewrite <- app_assoc. change (s ")" ++ r) with (ch ")" :: r). rewrite take_blanks by (auto; reflexivity). cbn [pbind]. rewrite char_ok. reflexivity.
  - reflexivity.
  - reflexivity.
  - pose proof (T_str t M) as T. clear E. unfold prim_value, context, alt5, pmap. change ((s """" ++ t ++ s """") ++ r) with (34 :: (t ++ s """") ++ r). destruct (unit_err (34 :: (t ++ s """") ++ r)) as [e ->]; [reflexivity|].
    destruct (boolean_err (34 :: (t ++ s """") ++ r)) as [e' ->]; try reflexivity.
    assert (E2 : exists e2, num (34 :: (t ++ s """") ++ r) = PErr e2) by (apply num_err; reflexivity). destruct E2 as [e2 ->]. cbn [pbind].
    unfold pstring, context. change (starts_with (s "str") (34 :: (t ++ s """") ++ r)) with false. cbn [andb].
    rewrite <- app_assoc. change (s """" ++ r) with (34 :: r). rewrite parse_str_ok by assumption. reflexivity.
  - unfold prim_value, context, alt5, pmap. pose (i := s "str" ++ d :: t ++ d :: r). replace ((s "str" ++ [d] ++ t ++ [d]) ++ r) with i by (unfold i; now rewrite <- !app_assoc).
    destruct (unit_err i) as [e ->]; [reflexivity|]. destruct (boolean_err i) as [e' ->]; try reflexivity.
    assert (E2 : exists e2, num i = PErr e2) by (apply num_err; reflexivity). destruct E2 as [e2 ->]. cbn [pbind].
    unfold pstring, context. change (starts_with (s "str") i) with true. change (skipn 3 i) with (d :: t ++ d :: r). cbn [hd]. rewrite parse_str_ok by assumption. reflexivity.
  - unfold prim_value, context, alt5, pmap. pose (i := s "b91'" ++ t ++ s "'" ++ r). replace ((s "b91'" ++ t ++ s "'") ++ r) with i by (unfold i; now rewrite <- !app_assoc). destruct (unit_err i) as [e ->]; [reflexivity|]. destruct (boolean_err i) as [e' ->]; try reflexivity.
    assert (E2 : exists e2, num i = PErr e2) by (apply num_err; reflexivity). destruct E2 as [e2 ->]. cbn [pbind].
    assert (P : exists e3, pstring i = PErr e3). { unfold pstring, context. change (starts_with (s "str") i) with false. change i with (98 :: tl i). unfold parse_str, preceded. rewrite char_err by discriminate. cbn [pbind]. eauto. } destruct P as [e3 ->]. cbn [pbind].
    unfold barr, context, preceded. unfold i. rewrite tag_ok. cbn [pbind]. unfold cut, terminated, pmap, ptake_till, ptake_while.
    change (s "'" ++ r) with (ch "'" :: r). change 39 with (ch "'"). rewrite take_until by assumption. cbn [pbind]. rewrite char_ok. reflexivity.
Qed.
Lemma token_open t v : token t v -> v = VUnit \/ stops opener t.
Proof.
  intros [w W| | |u n F P|u M|d u M|u M]; auto; try (right; reflexivity). right. destruct u as [|c u]; [exact I|]. cbn [forallb] in F.
  apply andb_true_iff in F as [F _]. now apply num_char_opener.
Qed.
Lemma pattern_token t v r : token t v -> no_head (t ++ r) = true -> pattern_match_delimited (t ++ r) = POk (t ++ r) NpNone.
Proof.
  intros T N. destruct (token_start t v T) as [ST SA]. destruct (token_open t v T) as [->|O].
  { inversion T as [w B| | | | | |]; subst. replace ((s "(" ++ w ++ s ")") ++ r) with (head None [] ++ ch "(" :: (w ++ ch ")" :: r)) by (cbn [head app s map list_ascii_of_string]; now rewrite <- app_assoc).
    rewrite pattern_head by (try reflexivity; split; auto; reflexivity). rewrite unit_ok by assumption. reflexivity. }
  destruct (starts_with (s "true") (t ++ r)) eqn:T1; [unfold pattern_match_delimited; now rewrite T1|].
  destruct (starts_with (s "false") (t ++ r)) eqn:T2; [unfold pattern_match_delimited; now rewrite T1, T2|].
  unfold no_head in N. rewrite T1, T2 in N. cbn [orb] in N. destruct t as [|c t]; [contradiction|]. destruct (id_head c) eqn:H.
  - pose proof (ident_prefix c (t ++ r) H) as P. change (c :: t ++ r) with ((c :: t) ++ r) in P.
    pose proof (take_while_app name_char ((c :: t) ++ r)) as A1. pose proof (take_while_all name_char ((c :: t) ++ r)) as A2.
    destruct (take_while name_char ((c :: t) ++ r)) as [x y]. cbn [fst snd] in *. apply ident_false_inv in P as P'. destruct P' as [_ P']. rewrite P' in N. cbn [negb orb] in N. apply negb_true_iff in N.
    eapply pattern_none; [exact T1|exact T2|exact SA|unfold opt; rewrite P; reflexivity|]. now rewrite <- opens_trim.
  - destruct (ident_err ((c :: t) ++ r)) as [e EE]; [exact H|].
    eapply pattern_none; [exact T1|exact T2|exact SA|unfold opt; rewrite EE; reflexivity|]. apply starts_space in ST. cbn [app trim stops] in *. rewrite ST. exact O.
Qed.
Lemma prim_token t v r : token t v -> ends_token v r = true -> prim (t ++ r) = POk r (Kserd None v).
Proof.
  intros T E. destruct (token_start t v T) as [S A]. unfold prim, context, separated_pair.
  assert (SA : stops (N.eqb (ch "<")) (t ++ r)) by (destruct t; [contradiction|exact A]).
  unfold opt. destruct (angle_err (t ++ r) SA) as [e ->]. cbn [pbind].
  change (t ++ r) with ([] ++ (t ++ r)). rewrite take_blanks; [|reflexivity|apply starts_blank, starts_app; exact S]. cbn [pbind app].
  rewrite prim_value_token with (v := v) by assumption. reflexivity.
Qed.
Lemma prim_named_token id w t v r : is_id id = true -> blanks w -> token t v -> ends_token v r = true ->
  prim (s "<" ++ id ++ s ">" ++ w ++ t ++ r) = POk r (Kserd (Some id) v).
Proof.
  intros H B T E. destruct (token_start t v T) as [S A]. unfold prim, context, separated_pair.
  unfold opt. rewrite angle_ok by assumption. cbn [pbind]. rewrite take_blanks; [|exact B|apply starts_blank, starts_app; exact S]. cbn [pbind].
  rewrite prim_value_token with (v := v) by assumption. cbn [pbind]. now apply ctor_ok.
Qed.

(** ** lists *)
Definition takes {A} (p : parser A) (R : str -> str -> A -> Prop) (n : nat) : Prop :=
  forall t r a, R t r a -> (length t < n)%nat -> p (t ++ r) = POk r a.
Definition begins (t : str) : Prop := match t with [] => False | c :: _ => space c = false /\ closer c = false end.
Definition all_begin {A} (R : str -> str -> A -> Prop) : Prop := forall t r a, R t r a -> begins t.
Lemma begins_app a b : begins a -> begins (a ++ b). Proof. destruct a; [contradiction|auto]. Qed.
Lemma begins_space t : begins t -> stops space t.
Proof. destruct t; [contradiction|]. now intros [H _]. Qed.
Lemma begins_blank t : begins t -> stops blank t.
Proof. intros H. now apply stops_space_blank, begins_space. Qed.
Lemma starts_begins t : starts t -> begins t.
Proof.
  destruct t as [|c t]; [contradiction|]. intros H. split; [now apply (starts_space (c :: t))|]. cbn [starts] in H. unfold start_char in H. apply negb_true_iff, orb_false_iff in H as [_ H].
  apply not_true_is_false. intros C. apply closer_cases in C as [->|[->| ->]]; discriminate.
Qed.
Lemma concise_at_line {A} (R : str -> str -> A -> Prop) t r l : concise_at R t r l -> new_line t = true.
Proof. intros H. inversion H; subst; [assumption|]. now apply GrammarProps.new_line_app. Qed.
Section ListsOk.
  Context {A : Type} (R : str -> str -> A -> Prop) (p : parser A) (n : nat).
  Hypothesis ACC : takes p R n.
  Hypothesis REJ : rejects p.
  Hypothesis ST : all_begin R.
  Variables (c : char) (rest : str).
  Hypothesis CL : closer c = true.

  Lemma inline_loop_at u x l : separated_at R comma u x l -> (exists w, blanks w /\ x = w ++ c :: rest) -> (length u < n)%nat -> forall acc fuel, (length u < fuel)%nat ->
    sep_loop fuel (ignore_ws (pchar (ch ","))) (ignore_ws p) acc (u ++ x) = POk x (acc ++ l).
  Proof.
    induction 1 as [x|w t a u l x (w1 & w2 & B1 & B2 & ->) HR HM IH]; intros X LN acc fuel LF; (destruct fuel as [|fuel]; [lia|]); cbn [sep_loop].
    - destruct X as (w & B & ->). cbn [app]. rewrite skip_blanks by (auto; cbn; now apply space_blank, closer_space).
      rewrite char_err by (apply closer_cases in CL as [->|[->| ->]]; discriminate). now rewrite app_nil_r.
    - replace (((w1 ++ s "," ++ w2) ++ t ++ u) ++ x) with (w1 ++ ch "," :: w2 ++ t ++ u ++ x) by (rewrite <- !app_assoc; reflexivity).
      rewrite !app_length in LN, LF. cbn [length s map list_ascii_of_string] in LN, LF.
      rewrite blank_char by (auto; reflexivity). replace (Nat.eqb _ _) with false by (symmetry; apply Nat.eqb_neq; lens; lia).
      rewrite skip_blanks by (auto; apply begins_blank, begins_app, (ST _ _ _ HR)).
      rewrite (ACC t (u ++ x) a) by (auto; lia).
      rewrite (IH X ltac:(lia) (acc ++ [a]) fuel ltac:(lia)). now rewrite <- app_assoc.
  Qed.
  Lemma inline_at_ok t l : inline_at R t (c :: rest) l -> (length t < n)%nat ->
    exists w, blanks w /\ separated_list0 (ignore_ws (pchar (ch ","))) (ignore_ws p) (t ++ c :: rest) = POk (w ++ c :: rest) l.
  Proof.
    intros H LN. inversion H as [w r B|w t' a u l' w' r B HR HM B']; subst; unfold separated_list0.
    - exists t. split; [exact B|]. rewrite skip_blanks by (auto; cbn; now apply space_blank, closer_space). destruct (REJ c rest CL) as [e ->]. reflexivity.
    - rewrite <- !app_assoc. rewrite !app_length in LN. rewrite skip_blanks by (auto; apply begins_blank, begins_app, (ST _ _ _ HR)).
      rewrite (ACC t' (u ++ w' ++ c :: rest) a) by (auto; lia). exists w'. split; [exact B'|].
      rewrite (inline_loop_at u (w' ++ c :: rest) l'); [reflexivity|exact HM|eauto|lia|rewrite app_length; lia].
  Qed.
  Lemma inline_at_line t l : inline_at R t (c :: rest) l -> new_line (t ++ c :: rest) = false.
  Proof.
    intros H. inversion H as [w r B|w t' a u l' w' r B HR HM B']; subst.
    - apply new_line_blanks; [exact B|]. now apply closer_space.
    - rewrite <- !app_assoc. apply new_line_blanks; [exact B|]. apply begins_space, begins_app, (ST _ _ _ HR).
  Qed.
  Lemma concise_loop_at u x l : separated_at R gap u x l -> (exists w, gap w /\ x = w ++ c :: rest) -> (length u < n)%nat -> forall acc fuel, (length u < fuel)%nat ->
    sep_loop fuel multiline_whitespace p acc (u ++ x) = POk x (acc ++ l).
  Proof.
    induction 1 as [x|w t a u l x [B NE] HR HM IH]; intros X LN acc fuel LF; (destruct fuel as [|fuel]; [lia|]); cbn [sep_loop].
    - destruct X as (w & [B NE] & ->). cbn [app]. rewrite take_spaces by (auto; now apply closer_space). replace (Nat.eqb _ _) with false.
      + destruct (REJ c rest CL) as [e ->]. now rewrite app_nil_r.
      + symmetry. apply Nat.eqb_neq. rewrite app_length. destruct w; [congruence|]. cbn [length]. lia.
    - rewrite <- !app_assoc. rewrite !app_length in LN, LF. rewrite take_spaces by (auto; apply begins_space, begins_app, (ST _ _ _ HR)).
      assert (W1 : (0 < length w)%nat) by (destruct w; [congruence|cbn; lia]).
      replace (Nat.eqb _ _) with false by (symmetry; apply Nat.eqb_neq; rewrite (app_length w); lia).
      rewrite (ACC t (u ++ x) a); [|exact HR|lia]. rewrite (IH X ltac:(lia) (acc ++ [a]) fuel ltac:(lia)). now rewrite <- app_assoc.
  Qed.
  Lemma concise_at_ok t l : concise_at R t (c :: rest) l -> (length t < n)%nat ->
    preceded multiline_whitespace (terminated (separated_list0 multiline_whitespace p) multiline_whitespace) (t ++ c :: rest) = POk (c :: rest) l.
  Proof.
    intros H LN. unfold preceded, terminated, separated_list0. inversion H as [w r B NL|w t' a u l' w' r B NL HR HM G]; subst.
    - rewrite take_spaces by (auto; now apply closer_space). cbn [pbind]. destruct (REJ c rest CL) as [e ->]. cbn [pbind].
      change (c :: rest) with ([] ++ c :: rest) at 1. rewrite take_spaces by (try reflexivity; now apply closer_space). reflexivity.
    - rewrite <- !app_assoc. rewrite !app_length in LN. rewrite take_spaces by (auto; apply begins_space, begins_app, (ST _ _ _ HR)). cbn [pbind].
      rewrite (ACC t' (u ++ w' ++ c :: rest) a); [|exact HR|lia].
      rewrite (concise_loop_at u (w' ++ c :: rest) l'); [|exact HM|eauto|lia|rewrite app_length; lia].
      cbn [pbind]. destruct G as [G _]. rewrite take_spaces by (auto; now apply closer_space). reflexivity.
  Qed.
  Lemma concise_at_cut t l : concise_at R t (c :: rest) l -> (length t < n)%nat ->
    preceded multiline_whitespace (cut (terminated (separated_list0 multiline_whitespace p) multiline_whitespace)) (t ++ c :: rest) = POk (c :: rest) l.
  Proof.
    intros HM LN. pose proof (concise_at_ok t l HM LN) as H. unfold preceded in *. destruct (multiline_whitespace _) as [i a|?|?| |]; cbn [pbind] in *; try discriminate.
    unfold cut. now rewrite H.
  Qed.
  Lemma inline_at_not_unit t l : inline_at R t (c :: rest) l -> l <> [] -> is_ok (unit_value (ch "(" :: t ++ c :: rest)) = false.
  Proof.
    intros H NE. inversion H as [w r B|w t' a u l' w' r B HR HM B']; subst; [congruence|]. pose proof (ST _ _ _ HR) as SB. destruct t' as [|d t']; [contradiction|].
    rewrite <- !app_assoc. cbn [app]. apply unit_not_ok; [apply (begins_blank (d :: t') SB)|exact B|]. intros ->. destruct SB as [_ SB]. discriminate.
  Qed.
End ListsOk.

(** ** fields and entries *)
Lemma field_at_begins R : all_begin (field_at R).
Proof.
  intros t r a [name w1 w2 u r' k F NW _ _ _]. destruct name as [|c name].
  - rewrite (NW eq_refl). split; reflexivity.
  - cbn [forallb] in F. apply andb_true_iff in F as [F _]. apply starts_begins. now apply name_start.
Qed.
Lemma field_at_takes inl con (fi : bool) R n : takes (if fi then inl else con) R n -> all_begin R -> takes (kvp_field inl con fi) (field_at R) n.
Proof.
  intros H ST t rest a HF L. destruct HF as [name w1 w2 u rest k F _ B1 B2 HR]. unfold kvp_field, context, separated_pair, field_name, ptake_while.
  replace ((name ++ w1 ++ s "=" ++ w2 ++ u) ++ rest) with (name ++ w1 ++ ch "=" :: w2 ++ u ++ rest) by (rewrite <- !app_assoc; reflexivity).
  rewrite take_while_spec; [|now rewrite <- forallb_names|].
  2:{ eapply stops_weak; [|apply (blanks_stop_name w1 (ch "=") (w2 ++ u ++ rest)); [exact B1|reflexivity]]. intros c. rewrite name_char_eq. auto. }
  cbn [pbind]. rewrite blank_char by (auto; reflexivity). cbn [pbind]. rewrite skip_blanks; [|exact B2|apply begins_blank, begins_app, (ST _ _ _ HR)].
  unfold cut. rewrite !app_length in L. rewrite (H u rest k HR) by lia. reflexivity.
Qed.
Lemma entry_at_begins K R : all_begin K -> all_begin (entry_at K R).
Proof. intros H t r a [tk w1 w2 u r' k v _ _ HK _]. apply begins_app. exact (H _ _ _ HK). Qed.
Lemma entry_at_takes inl con (fi : bool) K R n : takes con K n -> takes (if fi then inl else con) R n -> all_begin R -> takes (kvp_kserd inl con fi) (entry_at K R) n.
Proof.
  intros HK H ST t rest a HF L. destruct HF as [tk w1 w2 u rest k v B1 B2 RK HR]; cbn [app] in RK. unfold kvp_kserd, context, separated_pair, alt2.
  replace ((tk ++ w1 ++ s ":" ++ w2 ++ u) ++ rest) with (tk ++ w1 ++ ch ":" :: w2 ++ u ++ rest) by (rewrite <- !app_assoc; reflexivity).
  rewrite !app_length in L. change (s ":" ++ w2 ++ u ++ rest) with (ch ":" :: w2 ++ u ++ rest) in *. rewrite (HK tk (w1 ++ ch ":" :: w2 ++ u ++ rest) k) by (exact RK || lia).
  cbn [pbind]. rewrite blank_char by (auto; reflexivity). cbn [pbind]. rewrite skip_blanks; [|exact B2|apply begins_blank, begins_app, (ST _ _ _ HR)].
  rewrite (H u rest v HR) by lia. reflexivity.
Qed.
Lemma value_at_begins m : all_begin (value_at m).
Proof.
  intros t r k H. destruct H; apply starts_begins; try (apply head_starts; [assumption|reflexivity]).
  - reflexivity.
  - now destruct (token_start t v H).
Qed.
Lemma value_at_takes fuel : forall m, takes (kserd_delimited fuel m) (value_at m) fuel.
Proof.
  induction fuel as [|n IH]; intros m t rest k H L; [lia|].
  assert (n <> 0)%nat as N0. { pose proof (value_at_begins m _ _ _ H) as ST. destruct t as [|c t]; cbn [length] in L; [contradiction|lia]. }
  assert (REJ : forall m, rejects (kserd_delimited n m)). { destruct n as [|n]; [congruence|]. intros m'. apply delimited_rejects. }
  set (inl := kserd_delimited n true). set (con := kserd_delimited n false).
  pose proof (field_at_takes inl con true (value_at true) n (IH true) (value_at_begins true)) as FT.
  pose proof (field_at_takes inl con false (value_at false) n (IH false) (value_at_begins false)) as FF.
  pose proof (entry_at_takes inl con true (value_at false) (value_at true) n (IH false) (IH true) (value_at_begins true)) as ET.
  pose proof (entry_at_takes inl con false (value_at false) (value_at false) n (IH false) (IH false) (value_at_begins false)) as EF.
  pose proof (entry_at_begins (value_at false) (value_at true) (value_at_begins false)) as EB.
  pose proof (entry_at_begins (value_at false) (value_at false) (value_at_begins false)) as EB'.
  pose proof (entry_rejects inl con true (REJ true) (REJ false)) as RT. pose proof (entry_rejects inl con false (REJ true) (REJ false)) as RF.
  cbn [kserd_delimited]. unfold delimited_body. fold inl con.
  destruct H as [m id w t v rest I B T E|m t v rest T E D|m id w t l rest HO HL|m id w t l rest HO HL NU NA|m id w t l rest HO HL NE|m id w t l rest HO HL
                |id w t l rest HO HL|id w t l rest HO HL NA|id w t l rest HO HL NE|id w t l rest HO HL].
  - replace ((s "<" ++ id ++ s ">" ++ w ++ t) ++ rest) with (s "<" ++ id ++ s ">" ++ (w ++ t ++ rest)) by (rewrite <- !app_assoc; reflexivity).
    rewrite pattern_angle by assumption. cbn [pbind]. now apply prim_named_token.
  - rewrite pattern_token with (v := v) by assumption. cbn [pbind]. now apply prim_token.
  - list_case "["%char "]"%char L. unfold seq_delimited. rewrite head_open by (auto; reflexivity).
    rewrite new_line_eq, (inline_at_line _ (value_at_begins true) (ch "]") rest eq_refl t l HL). cbn [andb].
    destruct (inline_at_ok _ _ n (IH true) (REJ true) (value_at_begins true) (ch "]") rest eq_refl t l HL ltac:(lia)) as (w' & B' & G).
    unfold inline_list_kserds, context, cut, terminated. fold inl in G. rewrite G. close_list HO.
  - list_case "("%char ")"%char L. change (ch "(" =? ch "[") with false. change (ch "(" =? ch "{") with false. rewrite tuple_assigns by assumption.
    replace (match id with Some _ => false | None => is_ok _ end) with false by (symmetry; destruct id; [reflexivity|]; apply (inline_at_not_unit _ (value_at_begins true) (ch ")") rest t l HL); auto).
    unfold tuple. rewrite head_open by (auto; reflexivity).
    rewrite new_line_eq, (inline_at_line _ (value_at_begins true) (ch ")") rest eq_refl t l HL). cbn [andb].
    destruct (inline_at_ok _ _ n (IH true) (REJ true) (value_at_begins true) (ch ")") rest eq_refl t l HL ltac:(lia)) as (w' & B' & G).
    unfold inline_list_kserds, context, cut, terminated. fold inl in G. rewrite G. close_list HO.
  - assert (NN : l <> []). { intros ->. inversion HL as [w0 r0 B0|]; subst. clear -NE B0. assert (trim t = []) as X; [|rewrite X in NE; discriminate]. induction t as [|d t IH]; [reflexivity|]. unfold blanks in B0. cbn [forallb] in B0. apply andb_true_iff in B0 as [B1 B2]. cbn [trim]. rewrite (blank_space d B1). apply IH; [|exact B2]. cbn [trim] in NE. now rewrite (blank_space d B1) in NE. }
    list_case "("%char ")"%char L. change (ch "(" =? ch "[") with false. change (ch "(" =? ch "{") with false. rewrite trim_app2, assigns_close, NE by reflexivity.
    replace (match id with Some _ => false | None => is_ok _ end) with false by (symmetry; destruct id; [reflexivity|]; apply (inline_at_not_unit _ (field_at_begins (value_at true)) (ch ")") rest t l HL); auto).
    unfold cntr_delimited. rewrite head_open by (auto; reflexivity).
    rewrite new_line_eq, (inline_at_line _ (field_at_begins (value_at true)) (ch ")") rest eq_refl t l HL). cbn [andb].
    destruct (inline_at_ok _ _ n FT (field_rejects _ _ _) (field_at_begins (value_at true)) (ch ")") rest eq_refl t l HL ltac:(lia)) as (w' & B' & G).
    unfold inline_cntr_kserds, context, cut, terminated. rewrite G. close_list HO.
  - list_case "{"%char "}"%char L. unfold map_delimited. rewrite head_open by (auto; reflexivity).
    rewrite new_line_eq, (inline_at_line _ EB (ch "}") rest eq_refl t l HL). cbn [andb].
    destruct (inline_at_ok _ _ n ET RT EB (ch "}") rest eq_refl t l HL ltac:(lia)) as (w' & B' & G).
    unfold inline_map_kserds, context, cut, terminated. rewrite G. close_list HO.
  - list_case "["%char "]"%char L. unfold seq_delimited. rewrite head_open by (auto; reflexivity).
    rewrite new_line_eq, GrammarProps.new_line_app by (exact (concise_at_line _ _ _ _ HL)). cbn [andb negb].
    pose proof (concise_at_cut _ _ n (IH false) (REJ false) (value_at_begins false) (ch "]") rest eq_refl t l HL ltac:(lia)) as G.
    unfold concise_list_kserds, context, cut at 1, terminated at 1. fold con in G. rewrite G. close_list0 HO.
  - list_case "("%char ")"%char L. change (ch "(" =? ch "[") with false. change (ch "(" =? ch "{") with false. rewrite tuple_assigns by assumption.
    replace (match id with Some _ => false | None => is_ok _ end) with false by (symmetry; destruct id; [reflexivity|]; apply line_not_unit; exact (concise_at_line _ _ _ _ HL)).
    unfold tuple. rewrite head_open by (auto; reflexivity).
    rewrite new_line_eq, GrammarProps.new_line_app by (exact (concise_at_line _ _ _ _ HL)). cbn [andb negb].
    pose proof (concise_at_cut _ _ n (IH false) (REJ false) (value_at_begins false) (ch ")") rest eq_refl t l HL ltac:(lia)) as G.
    unfold concise_list_kserds, context, cut at 1, terminated at 1. fold con in G. rewrite G. close_list0 HO.
  - list_case "("%char ")"%char L. change (ch "(" =? ch "[") with false. change (ch "(" =? ch "{") with false. rewrite trim_app2, assigns_close, NE by reflexivity.
    replace (match id with Some _ => false | None => is_ok _ end) with false by (symmetry; destruct id; [reflexivity|]; apply line_not_unit; exact (concise_at_line _ _ _ _ HL)).
    unfold cntr_delimited. rewrite head_open by (auto; reflexivity).
    rewrite new_line_eq, GrammarProps.new_line_app by (exact (concise_at_line _ _ _ _ HL)). cbn [andb negb].
    pose proof (concise_at_cut _ _ n FF (field_rejects _ _ _) (field_at_begins (value_at false)) (ch ")") rest eq_refl t l HL ltac:(lia)) as G.
    unfold concise_cntr_kserds, context, terminated at 1. rewrite G. close_list0 HO.
  - list_case "{"%char "}"%char L. unfold map_delimited. rewrite head_open by (auto; reflexivity).
    rewrite new_line_eq, GrammarProps.new_line_app by (exact (concise_at_line _ _ _ _ HL)). cbn [andb negb].
    pose proof (concise_at_ok _ _ n EF RF EB' (ch "}") rest eq_refl t l HL ltac:(lia)) as G.
    unfold concise_map_kserds, context, terminated at 1. rewrite G. close_list0 HO.
Qed.
