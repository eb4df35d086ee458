(** The parser reads every text of the grammar. *)
From Verif Require Import Base F64 Number BTree Value BaseProps Base91 Nom Parse Grammar.
Open Scope N_scope.

Lemma name_char_eq c : name_char c = is_name_char c.
Proof. unfold name_char, is_name_char. cbn. rewrite orb_false_r. now rewrite orb_assoc. Qed.
Lemma num_char_eq c : num_char c = is_num_char c. Proof. reflexivity. Qed.
Lemma mem_app c a b : mem c (a ++ b) = mem c a || mem c b.
Proof. unfold mem. apply existsb_app. Qed.

(** the text does not start with a character satisfying [f] *)
Definition stops (f : char -> bool) (t : str) : Prop := match t with [] => True | c :: _ => f c = false end.
Lemma stops_app f a b : a <> [] -> stops f a -> stops f (a ++ b).
Proof. destruct a; [congruence|]. auto. Qed.
Lemma stops_weak (f g : char -> bool) t : (forall c, f c = true -> g c = true) -> stops g t -> stops f t.
Proof. destruct t as [|c t]; cbn; [auto|]. intros H E. destruct (f c) eqn:F; [|reflexivity]. apply H in F. congruence. Qed.

Lemma take_blanks w t : blanks w -> stops blank t -> inline_whitespace (w ++ t) = POk t w.
Proof. intros H S. unfold inline_whitespace, ptake_while. rewrite take_while_spec; [reflexivity|exact H|exact S]. Qed.
Lemma take_spaces w t : spaces w -> stops space t -> multiline_whitespace (w ++ t) = POk t w.
Proof. intros H S. unfold multiline_whitespace, ptake_while. rewrite take_while_spec; [reflexivity|exact H|exact S]. Qed.
Lemma blank_space c : blank c = true -> space c = true.
Proof. unfold blank, space. rewrite !mem_In. cbn. intuition. Qed.
Lemma blanks_spaces w : blanks w -> spaces w.
Proof. unfold blanks, spaces. rewrite !forallb_forall. intros H c Hc. apply blank_space. auto. Qed.
Lemma skip_blanks {A} (p : parser A) w t : blanks w -> stops blank t -> ignore_ws p (w ++ t) = p t.
Proof. intros H S. unfold ignore_ws, opt. rewrite take_blanks by assumption. reflexivity. Qed.
Lemma blanks_app a b : blanks a -> blanks b -> blanks (a ++ b).
Proof. unfold blanks. intros. rewrite forallb_app. now apply andb_true_iff. Qed.
Lemma spaces_app a b : spaces a -> spaces b -> spaces (a ++ b).
Proof. unfold spaces. intros. rewrite forallb_app. now apply andb_true_iff. Qed.

Lemma char_ok c t : pchar c (c :: t) = POk t c.
Proof. unfold pchar. now rewrite N.eqb_refl. Qed.
Lemma char_err c x t : x <> c -> pchar c (x :: t) = PErr [(x :: t, EChar c)].
Proof. intros H. unfold pchar. now rewrite (proj2 (N.eqb_neq x c) H). Qed.
Lemma blank_char c w t : blanks w -> blank c = false -> ignore_ws (pchar c) (w ++ c :: t) = POk t c.
Proof. intros H B. rewrite skip_blanks by (cbn; auto). apply char_ok. Qed.
Lemma tag_ok t r : tag t (t ++ r) = POk r t.
Proof. unfold tag. rewrite starts_with_app, skipn_app, skipn_all, Nat.sub_diag. reflexivity. Qed.

(** ** ids *)
Lemma id_start c t : is_id (c :: t) = true -> (is_alpha c || (c =? ch "_")) = true /\ forallb name_char (c :: t) = true.
Proof. unfold is_id. intros H. now apply andb_true_iff in H. Qed.
Lemma id_name t : is_id t = true -> forallb name_char t = true /\ t <> [].
Proof. destruct t as [|c t]; [discriminate|]. intros H. apply id_start in H as [_ H]. split; [exact H|congruence]. Qed.
Lemma forallb_names t : forallb name_char t = forallb is_name_char t.
Proof. induction t as [|c t IH]; [reflexivity|]. cbn [forallb]. now rewrite name_char_eq, IH. Qed.
Lemma valid_name_ok id r : is_id id = true -> stops name_char r -> valid_name (id ++ r) = POk r id.
Proof.
  intros H S. destruct id as [|c id]; [discriminate|]. pose proof (id_start c id H) as [H1 H2]. unfold valid_name.
  assert (E : exists j x, alt2 alpha1 (tag (s "_")) ((c :: id) ++ r) = POk j x).
  { unfold alt2, alpha1, tag. cbn [app take_while]. destruct (is_alpha c) eqn:Ea.
    - destruct (take_while is_alpha (id ++ r)). eauto.
    - cbn [orb] in H1. apply N.eqb_eq in H1. subst c. change (starts_with (s "_") (ch "_" :: id ++ r)) with true. eauto. }
  destruct E as (j & x & ->). cbn [pbind]. unfold context, cut, ptake_while1.
  rewrite take_while_spec; [reflexivity|now rewrite <- forallb_names|].
  eapply stops_weak; [|exact S]. intros x0. rewrite name_char_eq. auto.
Qed.
Definition id_head (c : char) : bool := is_alpha c || (c =? ch "_").
Lemma valid_name_err t : stops id_head t -> exists e, valid_name t = PErr e.
Proof.
  intros H. unfold valid_name, alt2, alpha1, tag. destruct t as [|c t]; [cbn; eauto|].
  cbn [stops] in H. unfold id_head in H. apply orb_false_iff in H as [H1 H2]. cbn [take_while starts_with s map list_ascii_of_string].
  rewrite H1. change (N_of_ascii "_") with (ch "_"). rewrite (N.eqb_sym (ch "_") c), H2. cbn. eauto.
Qed.
Lemma ident_ok id r : is_id id = true -> stops name_char r -> ident false (id ++ r) = POk r id.
Proof. intros. unfold ident, context. now rewrite valid_name_ok. Qed.
Lemma ident_err t : stops id_head t -> exists e, ident false t = PErr e.
Proof. intros H. unfold ident, context. destruct (valid_name_err t H) as [e ->]. eauto. Qed.
Lemma name_not_gt : name_char (ch ">") = false. Proof. reflexivity. Qed.
Lemma angle_ok id r : is_id id = true -> ident true (s "<" ++ id ++ s ">" ++ r) = POk r id.
Proof.
  intros H. unfold ident, context, preceded. change (s "<" ++ id ++ s ">" ++ r) with (ch "<" :: id ++ ch ">" :: r). rewrite char_ok. cbn [pbind].
  unfold cut, terminated. rewrite valid_name_ok by (auto; reflexivity). cbn [pbind]. rewrite char_ok. reflexivity.
Qed.
Lemma angle_err t : stops (N.eqb (ch "<")) t -> exists e, ident true t = PErr e.
Proof.
  intros H. unfold ident, context, preceded, pchar at 1. destruct t as [|c t]; [cbn; eauto|]. cbn [stops] in H. rewrite N.eqb_sym, H. cbn. eauto.
Qed.

(** ** tokens *)
Lemma take_until d t r : mem d t = false -> take_while (fun c => negb (d =? c)) (t ++ d :: r) = (t, d :: r).
Proof.
  intros H. apply take_while_spec.
  - apply forallb_forall. intros c Hc. destruct (N.eqb_spec d c) as [<-|]; [|reflexivity]. apply mem_not_In in H. contradiction.
  - now rewrite N.eqb_refl.
Qed.
Lemma parse_str_ok d t r : mem d t = false -> parse_str d (d :: t ++ d :: r) = POk r t.
Proof.
  intros H. unfold parse_str, preceded. rewrite char_ok. cbn [pbind]. unfold cut, terminated, ptake_till, ptake_while.
  rewrite take_until by assumption. cbn [pbind]. rewrite char_ok. reflexivity.
Qed.
Lemma num_ok t n r : forallb num_char t = true -> num_from_str t = Some n -> stops num_char r -> num (t ++ r) = POk r n.
Proof.
  intros H E S. unfold num, context. rewrite take_while_spec by assumption. now rewrite E.
Qed.
Lemma num_err c t : num_char c = false -> exists e, num (c :: t) = PErr e.
Proof. intros H. unfold num, context. cbn [take_while]. change (is_num_char c) with (num_char c). rewrite H. cbn. eauto. Qed.
Lemma ends_not_num r : ends r = true -> stops num_char r.
Proof.
  destruct r as [|c r]; cbn [ends stops]; [auto|]. unfold space, mem, existsb. cbn [s map list_ascii_of_string N_of_ascii N_of_digits]. intros H.
  repeat (apply orb_true_iff in H as [H|H]); try discriminate; apply N.eqb_eq in H; subst c; reflexivity.
Qed.
Lemma ends_not_name r : ends r = true -> stops name_char r.
Proof.
  destruct r as [|c r]; cbn [ends stops]; [auto|]. unfold space, mem, existsb. cbn [s map list_ascii_of_string N_of_ascii N_of_digits]. intros H.
  repeat (apply orb_true_iff in H as [H|H]); try discriminate; apply N.eqb_eq in H; subst c; reflexivity.
Qed.
Lemma prefix_app p t r : starts_with p (t ++ r) = true -> starts_with p t = true \/ (exists q, p = t ++ q /\ starts_with q r = true).
Proof.
  revert t. induction p as [|x p IH]; intros t; [left; reflexivity|]. destruct t as [|y t]; [intros H; right; exists (x :: p); auto|].
  cbn [app starts_with]. intros H. apply andb_true_iff in H as [H1 H2]. apply N.eqb_eq in H1. subst y. rewrite N.eqb_refl.
  destruct (IH _ H2) as [H|(q & -> & H)]; [left; now rewrite H|right; exists q; auto].
Qed.
Lemma starts_forall (f : char -> bool) p t : starts_with p t = true -> forallb f t = true -> forallb f p = true.
Proof.
  revert t. induction p as [|x p IH]; intros t; [auto|]. destruct t as [|y t]; cbn [starts_with]; [discriminate|]. intros H F.
  apply andb_true_iff in H as [H1 H2]. apply N.eqb_eq in H1. subst y. cbn [forallb] in *. apply andb_true_iff in F as [F1 F2]. rewrite F1. eauto.
Qed.
(** a number is not mistaken for a boolean *)
Lemma num_not_prefix p t r : forallb num_char t = true -> stops name_char r -> forallb name_char p = true -> forallb num_char p = false ->
  starts_with p (t ++ r) = false.
Proof.
  intros F S P N. destruct (starts_with p (t ++ r)) eqn:E; [|reflexivity]. apply prefix_app in E as [E|(q & -> & E)].
  - pose proof (starts_forall num_char _ _ E F). congruence.
  - rewrite forallb_app in P, N. apply andb_true_iff in P as [_ P]. rewrite F in N. cbn [andb] in N. destruct q as [|x q]; [discriminate|].
    destruct r as [|y r]; cbn [starts_with stops] in *; [discriminate|]. apply andb_true_iff in E as [E _]. apply N.eqb_eq in E. subst y.
    cbn [forallb] in P. rewrite S in P. discriminate.
Qed.
Definition num_of {A} (p : parser A) := p.

Ltac orelse := unfold alt5, pmap.
Lemma boolean_err t : starts_with (s "true") t = false -> starts_with (s "false") t = false -> exists e, boolean t = PErr e.
Proof. intros H1 H2. unfold boolean, context, alt2, pmap, tag. rewrite H1, H2. cbn. eauto. Qed.
Lemma unit_err t : stops (N.eqb (ch "(")) t -> exists e, unit_value t = PErr e.
Proof.
  intros H. unfold unit_value, context, pmap, preceded, pchar at 1. destruct t as [|c t]; [cbn; eauto|]. cbn [stops] in H. rewrite N.eqb_sym, H. cbn. eauto.
Qed.
Lemma prim_value_ok t v r : token t v -> ends r = true -> prim_value (t ++ r) = POk r v.
Proof.
  intros T E. unfold prim_value, context. destruct T as [w W| | |t n F P|t M|d t M|t M]; orelse.
  - unfold unit_value, context, pmap, preceded. rewrite <- app_assoc. change (s "(" ++ (w ++ s ")") ++ r) with (ch "(" :: (w ++ s ")") ++ r). rewrite char_ok. cbn [pbind].
    unfold cut, terminated. rewrite <- app_assoc. change (s ")" ++ r) with (ch ")" :: r). rewrite take_blanks by (auto; reflexivity). cbn [pbind]. rewrite char_ok. reflexivity.
  - reflexivity.
  - reflexivity.
  - assert (S := ends_not_name r E). destruct (unit_err (t ++ r)) as [e ->].
    { destruct t as [|c t]; [discriminate|]. cbn [app stops forallb] in *. apply andb_true_iff in F as [F _]. destruct (N.eqb_spec (ch "(") c) as [<-|]; [discriminate|reflexivity]. }
    destruct (boolean_err (t ++ r)) as [e' ->]; try (apply num_not_prefix; auto; reflexivity).
    rewrite (num_ok t n r F P (ends_not_num r E)). reflexivity.
  - change ((s """" ++ t ++ s """") ++ r) with (34 :: (t ++ s """") ++ r). destruct (unit_err (34 :: (t ++ s """") ++ r)) as [e ->]; [reflexivity|].
    destruct (boolean_err (34 :: (t ++ s """") ++ r)) as [e' ->]; try reflexivity.
    assert (E2 : exists e2, num (34 :: (t ++ s """") ++ r) = PErr e2) by (apply num_err; reflexivity). destruct E2 as [e2 ->]. cbn [pbind].
    unfold pstring, context. change (starts_with (s "str") (34 :: (t ++ s """") ++ r)) with false. cbn [andb].
    rewrite <- app_assoc. change (s """" ++ r) with (34 :: r). rewrite parse_str_ok by assumption. reflexivity.
  - pose (i := s "str" ++ d :: t ++ d :: r). replace ((s "str" ++ [d] ++ t ++ [d]) ++ r) with i by (unfold i; now rewrite <- !app_assoc).
    destruct (unit_err i) as [e ->]; [reflexivity|]. destruct (boolean_err i) as [e' ->]; try reflexivity.
    assert (E2 : exists e2, num i = PErr e2) by (apply num_err; reflexivity). destruct E2 as [e2 ->]. cbn [pbind].
    unfold pstring, context. change (starts_with (s "str") i) with true. change (skipn 3 i) with (d :: t ++ d :: r). cbn [hd]. rewrite parse_str_ok by assumption. reflexivity.
  - pose (i := s "b91'" ++ t ++ s "'" ++ r). replace ((s "b91'" ++ t ++ s "'") ++ r) with i by (unfold i; now rewrite <- !app_assoc). destruct (unit_err i) as [e ->]; [reflexivity|]. destruct (boolean_err i) as [e' ->]; try reflexivity.
    assert (E2 : exists e2, num i = PErr e2) by (apply num_err; reflexivity). destruct E2 as [e2 ->]. cbn [pbind].
    assert (P : exists e3, pstring i = PErr e3). { unfold pstring, context. change (starts_with (s "str") i) with false. change i with (98 :: tl i). unfold parse_str, preceded. rewrite char_err by discriminate. cbn [pbind]. eauto. } destruct P as [e3 ->]. cbn [pbind].
    unfold barr, context, preceded. unfold i. rewrite tag_ok. cbn [pbind]. unfold cut, terminated, pmap, ptake_till, ptake_while.
    change (s "'" ++ r) with (ch "'" :: r). change 39 with (ch "'"). rewrite take_until by assumption. cbn [pbind]. rewrite char_ok. reflexivity.
Qed.

(** ** recognising what comes *)
Lemma assign_eq t : recognise_field_assign t = assigns t.
Proof.
  unfold recognise_field_assign, terminated, ptake_while. induction t as [|c t IH]; [reflexivity|].
  cbn [take_while]. cbn [assigns].
  assert (F : (is_alnum c || negb (mem c assign_stop)) = negb (mem c assign_stop)).
  { destruct (mem c assign_stop) eqn:E; [|now rewrite orb_true_r]. rewrite orb_false_r. apply mem_In in E.
    cbn in E. repeat (destruct E as [<-|E]; [reflexivity|]). contradiction. }
  rewrite F. assert (G : mem c assign_stop = (c =? ch "=") || mem c (s "<>(){}'""" ++ [13; 10])).
  { apply eq_true_iff_eq. rewrite orb_true_iff, N.eqb_eq, !mem_In. cbn. intuition. }
  rewrite G. destruct (N.eqb_spec c (ch "=")) as [->|NE]; cbn [orb negb andb]; [reflexivity|].
  destruct (mem c (s "<>(){}'""" ++ [13; 10])); cbn [negb andb].
  - cbn [pbind]. rewrite char_err by assumption. reflexivity.
  - destruct (take_while _ t) as [a r] eqn:E. cbn [pbind] in *. rewrite <- IH. now destruct (pchar (ch "=") r).
Qed.
Lemma assigns_close a r : assigns (a ++ ch ")" :: r) = assigns (a ++ s ")").
Proof. induction a as [|c a IH]; [reflexivity|]. cbn [app assigns]. now rewrite IH. Qed.
Lemma trim_spec t : exists w, multiline_whitespace t = POk (trim t) w.
Proof.
  induction t as [|c t [w IH]]; [exists []; reflexivity|]. unfold multiline_whitespace, ptake_while in *. cbn [take_while trim]. unfold is_wsp in *. unfold space at 1.
  destruct (mem c [32; 9; 13; 10]); [|eauto]. destruct (take_while _ t) as [a b]. injection IH as <- <-. eauto.
Qed.
Lemma trim_app w t : spaces w -> stops space t -> trim (w ++ t) = t.
Proof.
  intros H S. induction w as [|c w IH]; cbn [app].
  - destruct t as [|c t]; [reflexivity|]. cbn [stops] in S. cbn [trim]. now rewrite S.
  - unfold spaces in H. cbn [forallb] in H. apply andb_true_iff in H as [H1 H2]. cbn [trim]. rewrite H1. now apply IH.
Qed.
Lemma trim_app2 a b : stops space b -> trim (a ++ b) = trim a ++ b.
Proof.
  intros S. induction a as [|c a IH]; cbn [app].
  - cbn [trim app]. destruct b as [|c b]; [reflexivity|]. cbn [stops] in S. cbn [trim]. now rewrite S.
  - cbn [trim]. destruct (space c); [exact IH|reflexivity].
Qed.

Lemma not_prefix p id r : starts_with p id = false -> stops name_char r -> forallb name_char p = true -> starts_with p (id ++ r) = false.
Proof.
  intros H S P. destruct (starts_with p (id ++ r)) eqn:E; [|reflexivity]. apply prefix_app in E as [E|(q & -> & E)]; [congruence|].
  destruct q as [|x q]; [rewrite app_nil_r in H; pose proof (starts_with_app id []) as G; rewrite app_nil_r in G; congruence|].
  destruct r as [|y r]; cbn [starts_with stops] in *; [discriminate|]. apply andb_true_iff in E as [E _]. apply N.eqb_eq in E. subst y.
  rewrite forallb_app in P. apply andb_true_iff in P as [_ P]. cbn [forallb] in P. rewrite S in P. discriminate.
Qed.
Definition opener (c : char) : bool := mem c (s "([{").
Lemma opener_cases c : opener c = true -> c = ch "(" \/ c = ch "[" \/ c = ch "{".
Proof. unfold opener. rewrite mem_In. cbn. intuition. Qed.
Lemma blanks_stop_name w c r : blanks w -> name_char c = false -> stops name_char (w ++ c :: r).
Proof.
  intros H N. destruct w as [|x w]; [exact N|]. unfold blanks in H. cbn [forallb] in H. apply andb_true_iff in H as [H _]. cbn [app stops].
  unfold blank in H. apply mem_In in H. cbn in H. destruct H as [<-|[<-|[]]]; reflexivity.
Qed.
Lemma opener_name c : opener c = true -> name_char c = false.
Proof. intros H. apply opener_cases in H as [->|[->| ->]]; reflexivity. Qed.
Lemma opener_space c : opener c = true -> space c = false.
Proof. intros H. apply opener_cases in H as [->|[->| ->]]; reflexivity. Qed.
Lemma space_blank c : space c = false -> blank c = false.
Proof. intros H. destruct (blank c) eqn:E; [|reflexivity]. apply blank_space in E. congruence. Qed.

(** an opening bracket with or without an id before it *)
Lemma head_ident id w c r : head_ok id w -> opener c = true ->
  exists w', blanks w' /\ opt (ident false) (head id w ++ c :: r) = POk (w' ++ c :: r) id.
Proof.
  intros [B H] O. unfold opt. destruct id as [i|]; cbn [head].
  - exists w. split; [exact B|]. rewrite <- app_assoc. unfold is_id_plain in H. apply andb_true_iff in H as [H _]. apply andb_true_iff in H as [H _].
    rewrite ident_ok; [reflexivity|exact H|]. apply blanks_stop_name; [exact B|]. now apply opener_name.
  - exists []. split; [reflexivity|]. cbn [app]. destruct (ident_err (c :: r)) as [e ->]; [|reflexivity].
    apply opener_cases in O as [->|[->| ->]]; reflexivity.
Qed.
Lemma head_open id w c r {A} (k : option str -> str -> pres A) : head_ok id w -> opener c = true ->
  (let? (i, x) := opt (ident false) (head id w ++ c :: r) in let? (i, _) := ignore_ws (pchar c) i in k x i) = k id r.
Proof.
  intros H O. destruct (head_ident id w c r H O) as (w' & B & ->). cbn [pbind]. rewrite blank_char; [reflexivity|exact B|].
  now apply space_blank, opener_space.
Qed.
Lemma head_not_word id w c r p : head_ok id w -> opener c = true -> match id with Some i => starts_with p i = false | None => True end ->
  forallb name_char p = true -> p <> [] -> starts_with p (head id w ++ c :: r) = false.
Proof.
  intros [B H] O HP P NE. destruct id as [i|]; cbn [head].
  - rewrite <- app_assoc. apply not_prefix; auto. apply blanks_stop_name; [exact B|]. now apply opener_name.
  - cbn [app]. destruct p as [|x p]; [congruence|]. cbn [starts_with forallb] in *. destruct (N.eqb_spec x c) as [->|]; [|reflexivity].
    rewrite opener_name in P by assumption. discriminate.
Qed.
Lemma pattern_head id w c r : head_ok id w -> opener c = true ->
  pattern_match_delimited (head id w ++ c :: r) =
  POk (head id w ++ c :: r)
    (if c =? ch "[" then NpSeq else if c =? ch "{" then NpMap
     else if match id with Some _ => false | None => is_ok (unit_value (c :: r)) end then NpNone
     else if assigns (trim r) then NpCntr else NpTuple).
Proof.
  intros H O. pose proof H as [B HI]. unfold pattern_match_delimited. set (orig := head id w ++ c :: r).
  assert (PT : forall p, match id with Some i => starts_with p i = false | None => True end -> forallb name_char p = true -> p <> [] -> starts_with p orig = false).
  { intros p. now apply head_not_word. }
  rewrite !PT; try reflexivity; try discriminate.
  2,3: destruct id as [i|]; [|exact I]; unfold is_id_plain in HI; apply andb_true_iff in HI as [HI H2]; apply andb_true_iff in HI as [HI H1];
       now apply negb_true_iff.
  cbn [orb]. assert (A : opt (ident true) orig = POk orig None).
  { unfold opt. destruct (angle_err orig) as [e ->]; [|reflexivity]. unfold orig. destruct id as [[|x i]|]; cbn [head app stops].
    - discriminate.
    - unfold is_id_plain in HI. apply andb_true_iff in HI as [HI _]. apply andb_true_iff in HI as [HI _]. apply id_start in HI as [_ HI].
      cbn [forallb] in HI. apply andb_true_iff in HI as [HI _]. destruct (N.eqb_spec (ch "<") x) as [<-|]; [discriminate|reflexivity].
    - apply opener_cases in O as [->|[->| ->]]; reflexivity. }
  rewrite A. cbn [pbind]. destruct (head_ident id w c r H O) as (w' & B' & E). fold orig in E. rewrite E. cbn [pbind].
  destruct (trim_spec r) as [w2 T].
  assert (M : multiline_whitespace (w' ++ c :: r) = POk (c :: r) w').
  { apply take_spaces; [now apply blanks_spaces|]. now apply opener_space. }
  destruct id as [i|]; cbn [pbind]; [|replace (w' ++ c :: r) with (c :: r) in * by (unfold orig in E; cbn [head app] in E; unfold opt in E; destruct (ident_err (c :: r)) as [e E']; [apply opener_cases in O as [->|[->| ->]]; reflexivity|rewrite E' in E; congruence]);
    unfold orig at 1; cbn [head app]].
  - rewrite M. cbn [pbind hd]. apply opener_cases in O as [->|[->| ->]]; [|reflexivity|reflexivity].
    cbn [pbind tl]. change (ch "(" =? ch "[") with false. change (ch "(" =? ch "{") with false. rewrite N.eqb_refl. rewrite T. cbn [pbind]. rewrite assign_eq. now destruct (assigns (trim r)).
  - rewrite M. cbn [pbind hd]. apply opener_cases in O as [->|[->| ->]]; [|reflexivity|reflexivity].
    cbn [pbind tl]. change (ch "(" =? ch "[") with false. change (ch "(" =? ch "{") with false. rewrite N.eqb_refl. destruct (is_ok _); [reflexivity|].
    rewrite T. cbn [pbind]. rewrite assign_eq. now destruct (assigns (trim r)).
Qed.

(** ** primitives *)
Definition start_char (c : char) : bool := negb (space c || mem c (s ",)]}:=>'")).
Definition starts (t : str) : Prop := match t with [] => False | c :: _ => start_char c = true end.
Lemma starts_app a b : starts a -> starts (a ++ b). Proof. destruct a; [contradiction|auto]. Qed.
Lemma starts_space t : starts t -> stops space t.
Proof. destruct t as [|c t]; [contradiction|]. cbn. unfold start_char. intros H. apply negb_true_iff, orb_false_iff in H. tauto. Qed.
Lemma starts_blank t : starts t -> stops blank t.
Proof. intros H. eapply stops_weak; [apply blank_space|]. now apply starts_space. Qed.
Lemma num_char_cases c : num_char c = true -> is_digit c = true \/ In c (s "-.einfNa").
Proof. unfold num_char. rewrite orb_true_iff, mem_In. tauto. Qed.
Lemma digit_cases c : is_digit c = true -> In c (s "0123456789").
Proof.
  unfold is_digit. intros H. assert (C : c = 48 \/ c = 49 \/ c = 50 \/ c = 51 \/ c = 52 \/ c = 53 \/ c = 54 \/ c = 55 \/ c = 56 \/ c = 57) by lia.
  cbn. intuition.
Qed.
Lemma num_char_in c : num_char c = true -> In c (s "0123456789-.einfNa").
Proof.
  intros H. apply num_char_cases in H as [H|H]; [apply digit_cases in H|]; cbn in H |- *; intuition.
Qed.
Ltac each_char H := cbn in H; repeat (destruct H as [<-|H]; [try reflexivity|]); try contradiction.
Lemma num_char_start c : num_char c = true -> start_char c = true.
Proof. intros H. apply num_char_in in H. each_char H. Qed.
Lemma num_char_space c : num_char c = true -> space c = false.
Proof. intros H. apply num_char_in in H. each_char H. Qed.
Lemma num_char_opener c : num_char c = true -> opener c = false.
Proof. intros H. apply num_char_in in H. each_char H. Qed.
Lemma num_char_angle c : num_char c = true -> (ch "<" =? c) = false.
Proof. intros H. apply num_char_in in H. each_char H. Qed.
Lemma token_start t v : token t v -> starts t /\ stops (N.eqb (ch "<")) t.
Proof.
  intros [w W| | |u n F P|u M|d u M|u M]; try (split; reflexivity). destruct u as [|c u]; [discriminate|]. cbn [forallb] in F.
  apply andb_true_iff in F as [F _]. split; [now apply num_char_start|now apply num_char_angle].
Qed.
Lemma opens_trim t : opens t = opener (hd 32 (trim t)).
Proof. induction t as [|c t IH]; [reflexivity|]. cbn [opens trim]. destruct (space c) eqn:E; [exact IH|reflexivity]. Qed.
Lemma opener_false c : opener c = false -> (c =? ch "[") = false /\ (c =? ch "{") = false /\ (c =? ch "(") = false.
Proof.
  unfold opener. intros H. apply mem_not_In in H. cbn in H. repeat split; apply N.eqb_neq; intros ->; apply H; auto.
Qed.
Lemma pattern_none orig i x : starts_with (s "true") orig = false -> starts_with (s "false") orig = false ->
  stops (N.eqb (ch "<")) orig -> opt (ident false) orig = POk i x -> opener (hd 32 (trim i)) = false ->
  pattern_match_delimited orig = POk orig NpNone.
Proof.
  intros H1 H2 HA E O. unfold pattern_match_delimited. rewrite H1, H2. cbn [orb].
  assert (A : opt (ident true) orig = POk orig None). { unfold opt. destruct (angle_err orig HA) as [e ->]. reflexivity. }
  rewrite A. cbn [pbind]. rewrite E. cbn [pbind].
  assert (EN : x = None -> i = orig). { intros ->. unfold opt in E. destruct (ident false orig); congruence. }
  destruct (trim_spec i) as [w T]. apply opener_false in O as (O1 & O2 & O3).
  destruct x as [x|]; cbn [pbind]; [|rewrite <- (EN eq_refl)]; rewrite T; cbn [pbind]; rewrite O1, O2, O3; reflexivity.
Qed.
Lemma pattern_angle id r : is_id id = true ->
  pattern_match_delimited (s "<" ++ id ++ s ">" ++ r) = POk (s "<" ++ id ++ s ">" ++ r) NpNone.
Proof.
  intros H. unfold pattern_match_delimited. change (starts_with (s "true") (s "<" ++ id ++ s ">" ++ r)) with false.
  change (starts_with (s "false") (s "<" ++ id ++ s ">" ++ r)) with false. cbn [orb]. unfold opt at 1. rewrite angle_ok by assumption. cbn [pbind].
  destruct (trim_spec r) as [w ->]. cbn [pbind]. set (c := hd 32 (trim r)). destruct (c =? ch "["); [reflexivity|]. destruct (c =? ch "{"); [reflexivity|].
  destruct (c =? ch "("); [|reflexivity]. destruct (is_ok _); [reflexivity|]. destruct (trim_spec (tl (trim r))) as [w' ->]. cbn [pbind].
  now destruct (recognise_field_assign _).
Qed.
Lemma unit_ok w r : blanks w -> unit_value (ch "(" :: w ++ ch ")" :: r) = POk r tt.
Proof.
  intros H. unfold unit_value, context, pmap, preceded. rewrite char_ok. cbn [pbind]. unfold cut, terminated.
  rewrite take_blanks by (auto; reflexivity). cbn [pbind]. rewrite char_ok. reflexivity.
Qed.
Lemma ident_prefix c t : id_head c = true -> let (a, r) := take_while name_char (c :: t) in ident false (c :: t) = POk r a.
Proof.
  intros H. assert (N : name_char c = true).
  { unfold id_head in H. apply orb_true_iff in H as [H|H]; [unfold name_char, is_alnum; now rewrite H|]. apply N.eqb_eq in H. now subst c. }
  destruct (take_while name_char (c :: t)) as [a r] eqn:E. pose proof (take_while_app name_char (c :: t)) as A. pose proof (take_while_all name_char (c :: t)) as B.
  pose proof (take_while_rest name_char (c :: t)) as C. rewrite E in *. cbn [fst snd] in *. rewrite <- A. apply ident_ok; [|exact C].
  cbn [take_while] in E. rewrite N in E. destruct (take_while name_char t). injection E as <- <-. unfold is_id. fold (id_head c). now rewrite H, B.
Qed.
Lemma take_while_mid f a b : forallb f a = false -> exists c x y, a = x ++ c :: y /\ f c = false /\ take_while f (a ++ b) = (x, c :: y ++ b).
Proof.
  induction a as [|c a IH]; [discriminate|]. cbn [forallb app take_while]. destruct (f c) eqn:E; cbn [andb].
  - intros H. destruct (IH H) as (d & x & y & -> & F & ->). exists d, (c :: x), y. auto.
  - intros _. exists c, [], a. auto.
Qed.
Lemma pattern_plain t v r : token t v -> (forall d u, t = s "str" ++ d :: u -> plain_delim d = true) -> ends r = true ->
  (bare t v = true -> opens r = false) -> pattern_match_delimited (t ++ r) = POk (t ++ r) NpNone.
Proof.
  intros T D E W. destruct T as [w B| | |u n F P|u M|d u M|u M].
  - replace ((s "(" ++ w ++ s ")") ++ r) with (head None [] ++ ch "(" :: (w ++ ch ")" :: r)) by (cbn [head app s map list_ascii_of_string]; now rewrite <- app_assoc).
    rewrite pattern_head by (try reflexivity; split; auto; reflexivity). rewrite unit_ok by assumption. reflexivity.
  - reflexivity.
  - reflexivity.
  - assert (S := ends_not_name r E). destruct u as [|c u]; [discriminate|]. pose proof F as F0. cbn [forallb] in F. apply andb_true_iff in F as [F _].
    assert (T1 : forall p, forallb name_char p = true -> forallb num_char p = false -> starts_with p ((c :: u) ++ r) = false) by (intros; now apply num_not_prefix).
    destruct (id_head c) eqn:I.
    + pose proof (ident_prefix c (u ++ r) I) as H. change (c :: u ++ r) with ((c :: u) ++ r) in *.
      destruct (forallb name_char (c :: u)) eqn:NC.
      * rewrite take_while_spec in H by assumption. eapply pattern_none; [apply T1; reflexivity|apply T1; reflexivity|now apply num_char_angle|unfold opt; rewrite H; reflexivity|].
        rewrite <- opens_trim. apply W. cbn [bare]. unfold is_id. fold (id_head c). now rewrite I, NC.
      * destruct (take_while_mid name_char (c :: u) r NC) as (d & x & y & EQ & ND & TW). rewrite TW in H.
        eapply pattern_none; [apply T1; reflexivity|apply T1; reflexivity|now apply num_char_angle|unfold opt; rewrite H; reflexivity|].
        assert (N : num_char d = true). { rewrite EQ in F0. rewrite forallb_app in F0. apply andb_true_iff in F0 as [_ F0]. cbn [forallb] in F0. now apply andb_true_iff in F0. }
        cbn [trim]. rewrite num_char_space by assumption. cbn [hd]. now apply num_char_opener.
    + destruct (ident_err ((c :: u) ++ r)) as [e EE]; [exact I|].
      eapply pattern_none; [apply T1; reflexivity|apply T1; reflexivity|now apply num_char_angle|unfold opt; rewrite EE; reflexivity|].
      cbn [app trim]. rewrite num_char_space by assumption. cbn [hd]. now apply num_char_opener.
  - eapply pattern_none; reflexivity.
  - assert (PD : plain_delim d = true) by (exact (D d _ eq_refl)). unfold plain_delim in PD. apply negb_true_iff, orb_false_iff in PD as [PD P3]. apply orb_false_iff in PD as [P1 P2].
    replace ((s "str" ++ [d] ++ u ++ [d]) ++ r) with (s "str" ++ d :: u ++ d :: r) by now rewrite <- !app_assoc.
    eapply pattern_none; [reflexivity|reflexivity|reflexivity|unfold opt; rewrite ident_ok; [reflexivity|reflexivity|exact P1]|].
    cbn [trim]. rewrite P2. exact P3.
  - replace ((s "b91'" ++ u ++ s "'") ++ r) with (s "b91" ++ ch "'" :: u ++ s "'" ++ r) by (now rewrite <- !app_assoc).
    eapply pattern_none; [reflexivity|reflexivity|reflexivity|unfold opt; rewrite ident_ok; reflexivity|reflexivity].
Qed.
Lemma ctor_ok id v i : match id with Some t => is_id t = true | None => True end -> kserd_ctor id v i = POk i (Kserd id v).
Proof.
  intros H. unfold kserd_ctor, with_id. destruct id as [t|]; [|reflexivity].
  replace (existsb (fun c => mem c id_invalid_chars) t) with false; [reflexivity|]. symmetry. apply not_true_iff_false. intros E.
  apply existsb_exists in E as (c & HC & HM). apply id_name in H as [H _]. rewrite forallb_forall in H. specialize (H c HC).
  apply mem_In in HM. each_char HM; discriminate.
Qed.
Lemma prim_plain t v r : token t v -> ends r = true -> prim (t ++ r) = POk r (Kserd None v).
Proof.
  intros T E. destruct (token_start t v T) as [S A]. unfold prim, context, separated_pair.
  assert (SA : stops (N.eqb (ch "<")) (t ++ r)) by (destruct t; [contradiction|exact A]).
  unfold opt. destruct (angle_err (t ++ r) SA) as [e ->]. cbn [pbind].
  change (t ++ r) with ([] ++ (t ++ r)). rewrite take_blanks; [|reflexivity|apply starts_blank, starts_app; exact S]. cbn [pbind].
  rewrite prim_value_ok with (v := v) by assumption. reflexivity.
Qed.
Lemma prim_named id w t v r : is_id id = true -> blanks w -> token t v -> ends r = true ->
  prim (s "<" ++ id ++ s ">" ++ w ++ t ++ r) = POk r (Kserd (Some id) v).
Proof.
  intros H B T E. destruct (token_start t v T) as [S A]. unfold prim, context, separated_pair.
  unfold opt. rewrite angle_ok by assumption. cbn [pbind]. rewrite take_blanks; [|exact B|apply starts_blank, starts_app; exact S]. cbn [pbind].
  rewrite prim_value_ok with (v := v) by assumption. cbn [pbind]. now apply ctor_ok.
Qed.

(** ** lists *)
Definition accepts {A} (p : parser A) (R : str -> A -> bool -> Prop) (n : nat) : Prop :=
  forall t a b rest, R t a b -> (length t < n)%nat -> ends rest = true -> (b = true -> opens rest = false) -> p (t ++ rest) = POk rest a.
Definition closer (c : char) : bool := mem c (s ")]}").
Definition rejects {A} (p : parser A) : Prop := forall c rest, closer c = true -> exists e, p (c :: rest) = PErr e.
Definition all_start {A} (R : str -> A -> bool -> Prop) : Prop := forall t a b, R t a b -> starts t.
Lemma closer_cases c : closer c = true -> c = ch ")" \/ c = ch "]" \/ c = ch "}".
Proof. unfold closer. rewrite mem_In. cbn. intuition. Qed.
Lemma closer_space c : closer c = true -> space c = false.
Proof. intros H. apply closer_cases in H as [->|[->| ->]]; reflexivity. Qed.
Lemma blanks_ends w x : blanks w -> ends x = true -> ends (w ++ x) = true.
Proof.
  intros B E. destruct w as [|c w]; [exact E|]. unfold blanks in B. cbn [forallb] in B. apply andb_true_iff in B as [B _]. cbn [app ends]. now rewrite blank_space.
Qed.
Lemma spaces_opens w x : spaces w -> opens (w ++ x) = opens x.
Proof.
  intros B. induction w as [|c w IH]; [reflexivity|]. unfold spaces in B. cbn [forallb] in B. apply andb_true_iff in B as [B1 B2]. cbn [app opens]. rewrite B1. now apply IH.
Qed.
Lemma new_line_eq t : recognise_concise t = new_line t.
Proof.
  unfold recognise_concise. induction t as [|c t IH]; [reflexivity|]. cbn [find new_line].
  assert (E : mem c [32; 9; 13] = blank c || (c =? 13)). { unfold blank. cbn. rewrite !orb_false_r. now rewrite orb_assoc. }
  rewrite E. destruct (N.eqb_spec c 10) as [->|N]; [reflexivity|]. destruct (blank c || (c =? 13)); cbn [negb orb andb]; [exact IH|].
  now apply N.eqb_neq.
Qed.
Lemma new_line_blanks w x : blanks w -> stops space x -> new_line (w ++ x) = false.
Proof.
  intros B S. induction w as [|c w IH]; cbn [app].
  - destruct x as [|c x]; [reflexivity|]. cbn [stops] in S. cbn [new_line]. destruct (N.eqb_spec c 10) as [->|_]; [discriminate|].
    rewrite (space_blank c S). destruct (N.eqb_spec c 13) as [->|_]; [discriminate|reflexivity].
  - unfold blanks in B. cbn [forallb] in B. apply andb_true_iff in B as [B1 B2]. cbn [new_line]. rewrite IH by assumption. rewrite andb_false_r, orb_false_r.
    destruct (N.eqb_spec c 10) as [->|_]; [discriminate|reflexivity].
Qed.
Lemma new_line_app t x : new_line t = true -> new_line (t ++ x) = true.
Proof.
  induction t as [|c t IH]; [discriminate|]. cbn [app new_line]. intros H. apply orb_true_iff in H as [->|H]; [reflexivity|].
  apply andb_true_iff in H as [-> H]. rewrite IH by assumption. apply orb_true_r.
Qed.

Ltac lens := repeat progress (rewrite ?app_length; cbn [length]).
Section ListsOk.
  Context {A : Type} (R : str -> A -> bool -> Prop) (p : parser A) (n : nat).
  Hypothesis ACC : accepts p R n.
  Hypothesis REJ : rejects p.
  Hypothesis ST : all_start R.
  Variables (c : char) (rest : str).
  Hypothesis CL : closer c = true.

  Lemma more_follow r l : inline_more R r l -> ends (r ++ c :: rest) = true /\ opens (r ++ c :: rest) = false.
  Proof.
    intros [w B|w1 w2 t a b r' l' B1 B2 _ _]; (split; [|try (rewrite <- app_assoc); rewrite spaces_opens by now apply blanks_spaces]).
    - apply blanks_ends; [exact B|]. apply closer_cases in CL as [->|[->| ->]]; reflexivity.
    - apply closer_cases in CL as [->|[->| ->]]; reflexivity.
    - rewrite <- app_assoc. now apply blanks_ends.
    - reflexivity.
  Qed.
  Lemma inline_loop r l : inline_more R r l -> (length r < n)%nat -> forall acc fuel, (length r < fuel)%nat ->
    exists w, blanks w /\ sep_loop fuel (ignore_ws (pchar (ch ","))) (ignore_ws p) acc (r ++ c :: rest) = POk (w ++ c :: rest) (acc ++ l).
  Proof.
    induction 1 as [w B|w1 w2 t a b r l B1 B2 HR HM IH]; intros LN acc fuel LF; (destruct fuel as [|fuel]; [lia|]); cbn [sep_loop].
    - exists w. split; [exact B|]. rewrite skip_blanks by (auto; cbn; now apply space_blank, closer_space).
      rewrite char_err by (apply closer_cases in CL as [->|[->| ->]]; discriminate). now rewrite app_nil_r.
    - replace ((w1 ++ s "," ++ w2 ++ t ++ r) ++ c :: rest) with (w1 ++ ch "," :: w2 ++ t ++ r ++ c :: rest) by (rewrite <- !app_assoc; reflexivity).
      rewrite !app_length in LN, LF. cbn [length s map list_ascii_of_string] in LN, LF.
      rewrite blank_char by (auto; reflexivity). replace (Nat.eqb _ _) with false by (symmetry; apply Nat.eqb_neq; lens; lia).
      rewrite skip_blanks by (auto; apply starts_blank, starts_app, (ST t a b HR)).
      destruct (more_follow r l HM) as [F1 F2]. rewrite (ACC t a b (r ++ c :: rest)) by (auto; lia).
      destruct (IH ltac:(lia) (acc ++ [a]) fuel ltac:(lia)) as (w & BW & ->). exists w. split; [exact BW|]. now rewrite <- app_assoc.
  Qed.
  Lemma inline_ok t l : inline_list R t l -> (length t < n)%nat ->
    exists w, blanks w /\ separated_list0 (ignore_ws (pchar (ch ","))) (ignore_ws p) (t ++ c :: rest) = POk (w ++ c :: rest) l.
  Proof.
    intros [w B|w t' a b r l' B HR HM] LN; unfold separated_list0.
    - exists w. split; [exact B|]. rewrite skip_blanks by (auto; cbn; now apply space_blank, closer_space). destruct (REJ c rest CL) as [e ->]. reflexivity.
    - rewrite <- !app_assoc. rewrite !app_length in LN. rewrite skip_blanks by (auto; apply starts_blank, starts_app, (ST t' a b HR)).
      destruct (more_follow r l' HM) as [F1 F2]. rewrite (ACC t' a b (r ++ c :: rest)) by (auto; lia).
      destruct (inline_loop r l' HM ltac:(lia) [a] (S (length (r ++ c :: rest)))) as (w' & BW & ->); [rewrite app_length; lia|].
      exists w'. split; [exact BW|reflexivity].
  Qed.
  Lemma inline_line t l : inline_list R t l -> new_line (t ++ c :: rest) = false.
  Proof.
    intros [w B|w t' a b r l' B HR HM].
    - apply new_line_blanks; [exact B|]. now apply closer_space.
    - rewrite <- !app_assoc. apply new_line_blanks; [exact B|]. apply starts_space, starts_app, (ST t' a b HR).
  Qed.

  Lemma cmore_follow r l : concise_more R r l -> ends (r ++ c :: rest) = true.
  Proof.
    assert (G : forall w x, spaces w -> w <> [] -> ends (w ++ x) = true).
    { intros [|d w] x B NE; [congruence|]. unfold spaces in B. cbn [forallb] in B. apply andb_true_iff in B as [B _]. cbn [app ends]. now rewrite B. }
    intros [w B NE|w t a b r' l' B NE _ _]; [|rewrite <- app_assoc]; now apply G.
  Qed.
  Lemma opens_close r : opens r = false -> opens (r ++ c :: rest) = false.
  Proof.
    induction r as [|d r IH]; cbn [app opens].
    - intros _. rewrite closer_space by assumption. apply closer_cases in CL as [->|[->| ->]]; reflexivity.
    - destruct (space d); auto.
  Qed.
  Lemma concise_loop r l : concise_more R r l -> (length r < n)%nat -> forall acc fuel, (length r < fuel)%nat ->
    exists w, spaces w /\ sep_loop fuel multiline_whitespace p acc (r ++ c :: rest) = POk (w ++ c :: rest) (acc ++ l).
  Proof.
    induction 1 as [w B NE|w t a b r l B NE HR HM IH HO]; intros LN acc fuel LF; (destruct fuel as [|fuel]; [lia|]); cbn [sep_loop].
    - exists w. split; [exact B|]. rewrite take_spaces by (auto; now apply closer_space). replace (Nat.eqb _ _) with false.
      + destruct (REJ c rest CL) as [e ->]. now rewrite app_nil_r.
      + symmetry. apply Nat.eqb_neq. rewrite app_length. destruct w; [congruence|]. cbn [length]. lia.
    - rewrite <- !app_assoc. rewrite !app_length in LN, LF. rewrite take_spaces by (auto; apply starts_space, starts_app, (ST t a b HR)).
      assert (W1 : (0 < length w)%nat) by (destruct w; [congruence|cbn; lia]).
      replace (Nat.eqb _ _) with false by (symmetry; apply Nat.eqb_neq; rewrite (app_length w); lia).
      rewrite (ACC t a b (r ++ c :: rest)); [|exact HR|lia|now apply (cmore_follow r l)|intros Hb; apply opens_close; auto].
      destruct (IH ltac:(lia) (acc ++ [a]) fuel ltac:(lia)) as (w' & BW & ->). exists w'. split; [exact BW|]. now rewrite <- app_assoc.
  Qed.
  Lemma concise_ok t l : concise_more R t l -> (length t < n)%nat ->
    preceded multiline_whitespace (terminated (separated_list0 multiline_whitespace p) multiline_whitespace) (t ++ c :: rest) = POk (c :: rest) l.
  Proof.
    intros HM LN. unfold preceded, terminated, separated_list0. destruct HM as [w B NE|w t' a b r l' B NE HR HM HO].
    - rewrite take_spaces by (auto; now apply closer_space). cbn [pbind]. destruct (REJ c rest CL) as [e ->]. cbn [pbind].
      change (c :: rest) with ([] ++ c :: rest) at 1. rewrite take_spaces by (try reflexivity; now apply closer_space). reflexivity.
    - rewrite <- !app_assoc. rewrite !app_length in LN. rewrite take_spaces by (auto; apply starts_space, starts_app, (ST t' a b HR)). cbn [pbind].
      rewrite (ACC t' a b (r ++ c :: rest)); [|exact HR|lia|now apply (cmore_follow r l')|intros Hb; apply opens_close; auto].
      destruct (concise_loop r l' HM ltac:(lia) [a] (S (length (r ++ c :: rest)))) as (w' & BW & ->); [rewrite app_length; lia|].
      cbn [pbind]. rewrite take_spaces by (auto; now apply closer_space). reflexivity.
  Qed.
  Lemma concise_ok_cut t l : concise_more R t l -> (length t < n)%nat ->
    preceded multiline_whitespace (cut (terminated (separated_list0 multiline_whitespace p) multiline_whitespace)) (t ++ c :: rest) = POk (c :: rest) l.
  Proof.
    intros HM LN. pose proof (concise_ok t l HM LN) as H. unfold preceded in *. destruct (multiline_whitespace _) as [i a|?|?| |]; cbn [pbind] in *; try discriminate.
    unfold cut. now rewrite H.
  Qed.
End ListsOk.

(** ** fields and entries *)
Lemma name_start c : name_char c = true -> start_char c = true.
Proof.
  intros H. unfold start_char. apply negb_true_iff, orb_false_iff. split; apply not_true_iff_false; unfold space; rewrite mem_In; intros M; each_char M; discriminate.
Qed.
Lemma field_start (R : str -> kserd -> bool -> Prop) : all_start (field_of R).
Proof.
  intros t a b [name w1 w2 u k b' NE F _ _ _]. destruct name as [|c name]; [congruence|]. cbn [forallb] in F. apply andb_true_iff in F as [F _]. now apply name_start.
Qed.
Lemma field_accepts inl con (fi : bool) (R : str -> kserd -> bool -> Prop) n : accepts (if fi then inl else con) R n -> all_start R -> accepts (kvp_field inl con fi) (field_of R) n.
Proof.
  intros H ST t a b rest [name w1 w2 u k b' NE F B1 B2 HR] L E O. unfold kvp_field, context, separated_pair, field_name, ptake_while.
  replace ((name ++ w1 ++ s "=" ++ w2 ++ u) ++ rest) with (name ++ w1 ++ ch "=" :: w2 ++ u ++ rest) by (rewrite <- !app_assoc; reflexivity).
  rewrite take_while_spec; [|now rewrite <- forallb_names|].
  2:{ eapply stops_weak; [|apply (blanks_stop_name w1 (ch "=") (w2 ++ u ++ rest)); [exact B1|reflexivity]]. intros c. rewrite name_char_eq. auto. }
  cbn [pbind]. rewrite blank_char by (auto; reflexivity). cbn [pbind]. rewrite skip_blanks; [|exact B2|apply starts_blank, starts_app, (ST u k b' HR)].
  unfold cut. rewrite !app_length in L. rewrite (H u k b' rest HR) by (auto; lia). reflexivity.
Qed.
Lemma closer_name c : closer c = true -> name_char c = false.
Proof. intros H. apply closer_cases in H as [->|[->| ->]]; reflexivity. Qed.
Lemma field_rejects inl con fi : rejects (kvp_field inl con fi).
Proof.
  intros c rest H. unfold kvp_field, context, separated_pair, field_name, ptake_while. cbn [take_while]. rewrite <- name_char_eq, closer_name by assumption. cbn [pbind].
  change (c :: rest) with ([] ++ c :: rest). rewrite skip_blanks by (try reflexivity; cbn; now apply space_blank, closer_space).
  rewrite char_err by (apply closer_cases in H as [->|[->| ->]]; discriminate). cbn [pbind]. eauto.
Qed.
Lemma entry_start (K R : str -> kserd -> bool -> Prop) : all_start K -> all_start (entry_of K R).
Proof. intros H t a b [tk w1 w2 u k v bk b' _ _ HK _]. apply starts_app. now apply (H tk k bk). Qed.
Lemma entry_accepts inl con (fi : bool) (K R : str -> kserd -> bool -> Prop) n : accepts con K n -> accepts (if fi then inl else con) R n -> all_start R ->
  accepts (kvp_kserd inl con fi) (entry_of K R) n.
Proof.
  intros HK H ST t a b rest [tk w1 w2 u k v bk b' B1 B2 RK HR] L E O. unfold kvp_kserd, context, separated_pair, alt2.
  replace ((tk ++ w1 ++ s ":" ++ w2 ++ u) ++ rest) with (tk ++ w1 ++ ch ":" :: w2 ++ u ++ rest) by (rewrite <- !app_assoc; reflexivity).
  rewrite !app_length in L. rewrite (HK tk k bk); [|exact RK|lia|now apply blanks_ends|].
  2:{ intros _. rewrite spaces_opens by now apply blanks_spaces. reflexivity. }
  cbn [pbind]. rewrite blank_char by (auto; reflexivity). cbn [pbind]. rewrite skip_blanks; [|exact B2|apply starts_blank, starts_app, (ST u v b' HR)].
  rewrite (H u v b' rest HR) by (auto; lia). reflexivity.
Qed.
Lemma entry_rejects inl con fi : rejects inl -> rejects con -> rejects (kvp_kserd inl con fi).
Proof.
  intros HI HC c rest H. unfold kvp_kserd, context, separated_pair, alt2. destruct (HC c rest H) as [e ->]. destruct (HI c rest H) as [e' ->]. cbn [pbind]. eauto.
Qed.

(** ** the parser *)
Lemma delimited_rejects fuel m : rejects (kserd_delimited (S fuel) m).
Proof.
  intros c rest H. cbn [kserd_delimited]. unfold delimited_body.
  rewrite (pattern_none (c :: rest) (c :: rest) None); try (apply closer_cases in H as [->|[->| ->]]; reflexivity).
  - cbn [pbind]. unfold prim, context, separated_pair, opt. destruct (angle_err (c :: rest)) as [e ->]; [apply closer_cases in H as [->|[->| ->]]; reflexivity|]. cbn [pbind].
    change (c :: rest) with ([] ++ c :: rest). rewrite take_blanks by (try reflexivity; cbn; now apply space_blank, closer_space). cbn [pbind].
    unfold prim_value, context, alt5, pmap. destruct (unit_err (c :: rest)) as [e1 ->]; [apply closer_cases in H as [->|[->| ->]]; reflexivity|].
    destruct (boolean_err (c :: rest)) as [e2 ->]; try (apply closer_cases in H as [->|[->| ->]]; reflexivity).
    destruct (num_err c rest) as [e3 ->]; [apply closer_cases in H as [->|[->| ->]]; reflexivity|]. cbn [pbind].
    assert (P : exists e4, pstring (c :: rest) = PErr e4).
    { unfold pstring, context. replace (starts_with (s "str") (c :: rest)) with false by (apply closer_cases in H as [->|[->| ->]]; reflexivity).
      unfold parse_str, preceded. rewrite char_err by (apply closer_cases in H as [->|[->| ->]]; discriminate). cbn [pbind]. eauto. }
    destruct P as [e4 ->]. cbn [pbind]. unfold barr, context, preceded, tag.
    replace (starts_with (s "b91'") (c :: rest)) with false by (apply closer_cases in H as [->|[->| ->]]; reflexivity). cbn [pbind]. eauto.
Qed.
Lemma head_starts id w c r : head_ok id w -> opener c = true -> starts (head id w ++ c :: r).
Proof.
  intros [_ H] O. destruct id as [[|x i]|]; cbn [head app starts].
  - discriminate.
  - unfold is_id_plain in H. apply andb_true_iff in H as [H _]. apply andb_true_iff in H as [H _]. apply id_name in H as [H _]. cbn [forallb] in H.
    apply andb_true_iff in H as [H _]. now apply name_start.
  - apply opener_cases in O as [->|[->| ->]]; reflexivity.
Qed.
Lemma reads_start m : all_start (reads m).
Proof.
  intros t k b H. destruct H; try (apply head_starts; [assumption|reflexivity]).
  - reflexivity.
  - now destruct (token_start t v H).
Qed.
Lemma head_id_ok id w : head_ok id w -> match id with Some t => is_id t = true | None => True end.
Proof.
  intros [_ H]. destruct id as [i|]; [|exact I]. unfold is_id_plain in H. apply andb_true_iff in H as [H _]. now apply andb_true_iff in H.
Qed.
Lemma head_text id w c t d rest : (head id w ++ [c] ++ t ++ [d]) ++ rest = head id w ++ c :: t ++ d :: rest.
Proof. rewrite <- !app_assoc. reflexivity. Qed.
Lemma unit_not_ok t c r : stops blank (c :: r) -> blanks t -> c <> ch ")" -> is_ok (unit_value (ch "(" :: t ++ c :: r)) = false.
Proof.
  intros S B NE. unfold unit_value, context, pmap, preceded. rewrite char_ok. cbn [pbind]. unfold cut, terminated. rewrite take_blanks by assumption.
  cbn [pbind]. rewrite char_err by assumption. reflexivity.
Qed.
Lemma split_blanks t : exists w x, t = w ++ x /\ blanks w /\ stops blank x.
Proof.
  exists (fst (take_while blank t)), (snd (take_while blank t)). split; [symmetry; apply take_while_app|]. split; [apply take_while_all|apply take_while_rest].
Qed.
(** what follows '(' is not a unit *)
Lemma list_not_unit {A} (R : str -> A -> bool -> Prop) t l d rest : all_start R -> inline_list R t l -> l <> [] ->
  is_ok (unit_value (ch "(" :: t ++ d :: rest)) = false.
Proof.
  intros ST [w B|w u a b r l' B HR HM] NE; [congruence|]. pose proof (ST u a b HR) as S. destruct u as [|c u]; [contradiction|].
  rewrite <- !app_assoc. cbn [app]. apply unit_not_ok; [apply (starts_blank (c :: u) S)|exact B|]. intros ->. discriminate.
Qed.
Lemma line_not_unit t r : new_line t = true -> is_ok (unit_value (ch "(" :: t ++ r)) = false.
Proof.
  intros H. destruct (split_blanks t) as (w & x & -> & B & S). rewrite <- app_assoc.
  assert (X : exists c y, x = c :: y /\ space c = true).
  { revert H. clear S. induction w as [|d w IH]; cbn [app].
    - destruct x as [|c y]; [discriminate|]. cbn [new_line]. intros H. exists c, y. split; [reflexivity|]. destruct (N.eqb_spec c 10) as [->|_]; [reflexivity|].
      cbn [orb] in H. apply andb_true_iff in H as [H _]. apply orb_true_iff in H as [H|H]; [now apply blank_space|]. apply N.eqb_eq in H. now subst c.
    - unfold blanks in B. cbn [forallb] in B. apply andb_true_iff in B as [B1 B2]. cbn [new_line]. intros H. apply (IH B2).
      apply orb_true_iff in H as [H|H]; [apply N.eqb_eq in H; subst d; discriminate|]. now apply andb_true_iff in H. }
  destruct X as (c & y & -> & X). cbn [app]. apply unit_not_ok; [exact S|exact B|]. intros ->. discriminate.
Qed.
Lemma stops_closer c : closer c = true -> stops space [c]. Proof. apply closer_space. Qed.
Lemma name_assigns name w1 x : forallb name_char name = true -> blanks w1 -> assigns (name ++ w1 ++ s "=" ++ x) = true.
Proof.
  intros F B1. induction name as [|d name IH]; cbn [app].
  - induction w1 as [|d w1 IH]; [reflexivity|]. unfold blanks in B1. cbn [forallb] in B1. apply andb_true_iff in B1 as [D B1]. cbn [app assigns]. rewrite IH by assumption.
    unfold blank in D. apply mem_In in D. each_char D.
  - cbn [forallb] in F. apply andb_true_iff in F as [D F]. cbn [assigns]. rewrite IH by exact F.
    destruct (mem d _) eqn:M; [|cbn; apply orb_true_r]. apply mem_In in M. each_char M; discriminate.
Qed.
Lemma field_assigns R u a b x : field_of R u a b -> assigns (u ++ x) = true.
Proof. intros [name w1 w2 y k b' _ F B1 _ _]. rewrite <- !app_assoc. now apply name_assigns. Qed.
Lemma fields_assign R t l x : inline_list (field_of R) t l -> l <> [] -> assigns (trim (t ++ x)) = true.
Proof.
  intros [w B|w u a b r l' B HR HM] NE; [congruence|]. pose proof (field_start R u a b HR) as S. rewrite <- !app_assoc.
  rewrite trim_app; [|now apply blanks_spaces|now apply starts_space, starts_app]. eapply field_assigns, HR.
Qed.
Lemma cfields_assign R t l x : concise_more (field_of R) t l -> l <> [] -> assigns (trim (t ++ x)) = true.
Proof.
  intros [w B N|w u a b r l' B N HR HM HO] NE; [congruence|]. pose proof (field_start R u a b HR) as S. rewrite <- !app_assoc.
  rewrite trim_app; [|assumption|now apply starts_space, starts_app]. eapply field_assigns, HR.
Qed.
Lemma tuple_assigns t r : assigns (trim t ++ s ")") = false -> assigns (trim (t ++ ch ")" :: r)) = false.
Proof. intros H. rewrite trim_app2 by reflexivity. now rewrite assigns_close. Qed.

Ltac list_case o c L :=
  rewrite !app_length in L; cbn [length s map list_ascii_of_string] in L;
  match goal with |- context [pattern_match_delimited ((head ?id ?w ++ ?so ++ ?t ++ ?sc) ++ ?rest)] =>
    replace ((head id w ++ so ++ t ++ sc) ++ rest) with (head id w ++ ch o :: t ++ ch c :: rest) by (rewrite <- !app_assoc; reflexivity)
  end;
  rewrite pattern_head by (auto; reflexivity); cbn [pbind].
Ltac close_list0 HO := cbn [pbind]; match goal with |- context [ignore_ws (pchar ?c) (?c :: ?r)] => rewrite (blank_char c [] r eq_refl eq_refl : ignore_ws (pchar c) (c :: r) = POk r c) end; cbn [pbind]; apply ctor_ok; eapply head_id_ok, HO.
Ltac close_list HO := cbn [pbind]; rewrite blank_char by (auto; reflexivity); cbn [pbind]; apply ctor_ok; eapply head_id_ok, HO.
Lemma reads_ok fuel : forall m, accepts (kserd_delimited fuel m) (reads m) fuel.
Proof.
  induction fuel as [|n IH]; intros m t k b rest H L E O; [lia|].
  assert (n <> 0)%nat as N0. { pose proof (reads_start m t k b H) as ST. destruct t as [|c t]; cbn [length] in L; [contradiction|lia]. }
  assert (REJ : forall m, rejects (kserd_delimited n m)). { destruct n as [|n]; [congruence|]. intros m'. apply delimited_rejects. }
  cbn [kserd_delimited]. unfold delimited_body.
  destruct H as [m id w t v I B T|m t v T D|m id w t l HO HL|m id w t l HO HL NU NA|m id w t l HO HL NE|m id w t l HO HL
                |id w t l HO [NL HL]|id w t l HO [NL HL] NA|id w t l HO [NL HL] NE|id w t l HO [NL HL]].
  - replace ((s "<" ++ id ++ s ">" ++ w ++ t) ++ rest) with (s "<" ++ id ++ s ">" ++ (w ++ t ++ rest)) by (rewrite <- !app_assoc; reflexivity).
    rewrite pattern_angle by assumption. cbn [pbind]. now apply prim_named.
  - rewrite pattern_plain with (v := v) by assumption. cbn [pbind]. now apply prim_plain.
  - list_case "["%char "]"%char L. unfold seq_delimited. rewrite head_open by (auto; reflexivity).
    rewrite new_line_eq, (inline_line (reads true)) with (l := l) by (auto using reads_start; reflexivity). cbn [andb].
    destruct (inline_ok (reads true) _ n (IH true) (REJ true) (reads_start true) (ch "]") rest eq_refl t l HL ltac:(lia)) as (w' & B' & G).
    unfold inline_list_kserds, context, cut, terminated. rewrite G. close_list HO.
  - list_case "("%char ")"%char L. change (ch "(" =? ch "[") with false. change (ch "(" =? ch "{") with false. rewrite tuple_assigns by assumption.
    replace (match id with Some _ => false | None => is_ok _ end) with false by (symmetry; destruct id; [reflexivity|]; apply (list_not_unit (reads true)) with (l := l); auto using reads_start).
    unfold tuple. rewrite head_open by (auto; reflexivity).
    rewrite new_line_eq, (inline_line (reads true)) with (l := l) by (auto using reads_start; reflexivity). cbn [andb].
    destruct (inline_ok (reads true) _ n (IH true) (REJ true) (reads_start true) (ch ")") rest eq_refl t l HL ltac:(lia)) as (w' & B' & G).
    unfold inline_list_kserds, context, cut, terminated. rewrite G. close_list HO.
  - list_case "("%char ")"%char L. change (ch "(" =? ch "[") with false. change (ch "(" =? ch "{") with false. rewrite (fields_assign (reads true) t l) by assumption.
    replace (match id with Some _ => false | None => is_ok _ end) with false by (symmetry; destruct id; [reflexivity|]; apply (list_not_unit (field_of (reads true))) with (l := l); auto using field_start).
    unfold cntr_delimited. rewrite head_open by (auto; reflexivity).
    rewrite new_line_eq, (inline_line (field_of (reads true))) with (l := l) by (auto using field_start, entry_start, reads_start; reflexivity). cbn [andb].
    destruct (inline_ok (field_of (reads true)) _ n (field_accepts (kserd_delimited n true) (kserd_delimited n false) true (reads true) n (IH true) (reads_start true)) (field_rejects _ _ _) (field_start (reads true)) (ch ")") rest eq_refl t l HL ltac:(lia)) as (w' & B' & G).
    unfold inline_cntr_kserds, context, cut, terminated. rewrite G. close_list HO.
  - list_case "{"%char "}"%char L. unfold map_delimited. rewrite head_open by (auto; reflexivity).
    rewrite new_line_eq, (inline_line (entry_of (reads false) (reads true))) with (l := l) by (auto using field_start, entry_start, reads_start; reflexivity). cbn [andb].
    destruct (inline_ok (entry_of (reads false) (reads true)) _ n (entry_accepts (kserd_delimited n true) (kserd_delimited n false) true (reads false) (reads true) n (IH false) (IH true) (reads_start true)) (entry_rejects _ _ _ (REJ true) (REJ false)) (entry_start (reads false) (reads true) (reads_start false)) (ch "}") rest eq_refl t l HL ltac:(lia)) as (w' & B' & G).
    unfold inline_map_kserds, context, cut, terminated. rewrite G. close_list HO.
  - list_case "["%char "]"%char L. unfold seq_delimited. rewrite head_open by (auto; reflexivity).
    rewrite new_line_eq, new_line_app by assumption. cbn [andb negb].
    pose proof (concise_ok_cut (reads false) _ n (IH false) (REJ false) (reads_start false) (ch "]") rest eq_refl t l HL ltac:(lia)) as G.
    unfold concise_list_kserds, context, cut at 1, terminated at 1. rewrite G. close_list0 HO.
  - list_case "("%char ")"%char L. change (ch "(" =? ch "[") with false. change (ch "(" =? ch "{") with false. rewrite tuple_assigns by assumption.
    replace (match id with Some _ => false | None => is_ok _ end) with false by (symmetry; destruct id; [reflexivity|]; now apply line_not_unit).
    unfold tuple. rewrite head_open by (auto; reflexivity).
    rewrite new_line_eq, new_line_app by assumption. cbn [andb negb].
    pose proof (concise_ok_cut (reads false) _ n (IH false) (REJ false) (reads_start false) (ch ")") rest eq_refl t l HL ltac:(lia)) as G.
    unfold concise_list_kserds, context, cut at 1, terminated at 1. rewrite G. close_list0 HO.
  - list_case "("%char ")"%char L. change (ch "(" =? ch "[") with false. change (ch "(" =? ch "{") with false. rewrite (cfields_assign (reads false) t l) by assumption.
    replace (match id with Some _ => false | None => is_ok _ end) with false by (symmetry; destruct id; [reflexivity|]; now apply line_not_unit).
    unfold cntr_delimited. rewrite head_open by (auto; reflexivity).
    rewrite new_line_eq, new_line_app by assumption. cbn [andb negb].
    pose proof (concise_ok_cut (field_of (reads false)) _ n (field_accepts (kserd_delimited n true) (kserd_delimited n false) false (reads false) n (IH false) (reads_start false)) (field_rejects _ _ _) (field_start (reads false)) (ch ")") rest eq_refl t l HL ltac:(lia)) as G.
    unfold concise_cntr_kserds, context, terminated at 1. rewrite G. close_list0 HO.
  - list_case "{"%char "}"%char L. unfold map_delimited. rewrite head_open by (auto; reflexivity).
    rewrite new_line_eq, new_line_app by assumption. cbn [andb negb].
    pose proof (concise_ok (entry_of (reads false) (reads false)) _ n (entry_accepts (kserd_delimited n true) (kserd_delimited n false) false (reads false) (reads false) n (IH false) (IH false) (reads_start false)) (entry_rejects _ _ _ (REJ true) (REJ false)) (entry_start (reads false) (reads false) (reads_start false)) (ch "}") rest eq_refl t l HL ltac:(lia)) as G.
    unfold concise_map_kserds, context, terminated at 1. rewrite G. close_list0 HO.
Qed.

(** ** documents *)
Lemma skip_blanks_spec t : exists w, inline_whitespace t = POk (Grammar.skip_blanks t) w.
Proof.
  induction t as [|c t [w IH]]; [exists []; reflexivity|]. unfold inline_whitespace, ptake_while in *. cbn [take_while Grammar.skip_blanks]. unfold is_blank in *. unfold blank at 1.
  destruct (mem c [32; 9]); [|eauto]. destruct (take_while _ t) as [a b]. injection IH as <- <-. eauto.
Qed.
Lemma skip_blanks_stop t : stops blank (Grammar.skip_blanks t).
Proof. induction t as [|c t IH]; [exact I|]. cbn [Grammar.skip_blanks]. destruct (blank c) eqn:E; [exact IH|exact E]. Qed.
Lemma ignore_ws_skip {A} (p : parser A) t : ignore_ws p t = p (Grammar.skip_blanks t).
Proof. unfold ignore_ws, opt. destruct (skip_blanks_spec t) as [w ->]. reflexivity. Qed.
Lemma take_names t : take_while is_name_char t = take_while name_char t.
Proof. induction t as [|c t IH]; [reflexivity|]. cbn [take_while]. now rewrite <- name_char_eq, IH. Qed.
Lemma encased_eq t : encased (s "[") (s "]") t = bracketed t.
Proof.
  unfold encased, preceded, terminated. destruct t as [|c t]; [reflexivity|]. cbn [bracketed].
  unfold tag at 1. change (starts_with (s "[") (c :: t)) with ((ch "[" =? c) && true). change (skipn (length (s "[")) (c :: t)) with t. rewrite (N.eqb_sym (ch "[") c). rewrite andb_true_r. destruct (c =? ch "["); [|reflexivity]. cbn [pbind andb].
  rewrite ignore_ws_skip. set (u := Grammar.skip_blanks t). destruct (take_while name_char u) as [i r] eqn:E.
  pose proof (take_while_app name_char u) as A. pose proof (take_while_all name_char u) as B. pose proof (take_while_rest name_char u) as C. rewrite E in *. cbn [fst snd] in *.
  destruct (is_id i) eqn:I.
  - rewrite <- A, valid_name_ok by assumption. cbn [pbind andb]. rewrite ignore_ws_skip. unfold tag. destruct (starts_with _ _); reflexivity.
  - cbn [andb]. assert (S : stops id_head u).
    { destruct u as [|d u]; [exact Logic.I|]. destruct (id_head d) eqn:D; [|exact D]. exfalso.
      cbn [take_while] in E. assert (ND : name_char d = true).
      { unfold id_head in D. apply orb_true_iff in D as [D|D]; [unfold name_char, is_alnum; now rewrite D|]. apply N.eqb_eq in D. now subst d. }
      rewrite ND in E. destruct (take_while name_char u). injection E as <- <-. unfold is_id in I. fold (id_head d) in I. rewrite D, B in I. discriminate. }
    destruct (valid_name_err u S) as [e ->]. reflexivity.
Qed.
Lemma starts_not_colon t : starts t -> starts_with (s ":") t = false.
Proof.
  destruct t as [|c t]; [contradiction|]. cbn [starts starts_with s map list_ascii_of_string]. intros H. rewrite andb_true_r. apply N.eqb_neq. intros <-. discriminate.
Qed.
Lemma document_ok t k : document t k -> kserd_root t = POk [] k.
Proof.
  intros [w1 u w2 k' b B HR W V]. pose proof (reads_start false u k' b HR) as ST.
  assert (K : forall i, i <> [] -> kserd_root i = all_consuming (terminated (kserd_nested (S (length i)) (S (length i)) 0) multiline_whitespace) i).
  { intros [|c i] NE; [congruence|reflexivity]. }
  rewrite K. 2:{ destruct w1; [|discriminate]. destruct u; [contradiction|discriminate]. }
  unfold all_consuming, terminated. cbn [kserd_nested]. unfold pattern_match_verbose.
  rewrite take_spaces; [|now apply blanks_spaces|now apply starts_space, starts_app]. cbn [pbind].
  rewrite starts_not_colon by now apply starts_app. rewrite assign_eq, encased_eq. unfold verbose_start in V. apply orb_false_iff in V as [V V3]. apply orb_false_iff in V as [V1 V2].
  rewrite V1, V2, V3. cbn [orb]. rewrite skip_blanks; [|exact B|now apply starts_blank, starts_app]. unfold kserd_concise.
  rewrite (reads_ok _ false u k' b w2); [|exact HR|rewrite !app_length; lia| |].
  - cbn [pbind]. rewrite <- (app_nil_r w2) at 1. rewrite take_spaces by (auto; exact I). reflexivity.
  - destruct w2 as [|c w2]; [reflexivity|]. unfold spaces in W. cbn [forallb] in W. apply andb_true_iff in W as [W _]. cbn [ends]. now rewrite W.
  - intros _. rewrite <- (app_nil_r w2). rewrite spaces_opens by assumption. reflexivity.
Qed.
