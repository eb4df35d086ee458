(** The parser which counts is the parser, and it counts what ParseCost.v says. *)
From Verif Require Import Base F64 Number BTree Value Base91 Nom Parse ParseErr ParseCost ParseWork.
Open Scope nat_scope.

(** a counted result: the result itself, and the number of values begun *)
Definition tr {A} (x : wpres A) (r : pres A) (c : nat) : Prop := fst x = r /\ values (snd x) = c.
Definition tracks {A} (w : wparser A) (p : parser A) (r : str -> nat) : Prop := forall i, tr (w i) (p i) (r i).
Definition silent {A} (w : wparser A) (p : parser A) : Prop := forall i, tr (w i) (p i) 0.

Lemma tr_eq {A} (x : wpres A) r c d : tr x r c -> c = d -> tr x r d.
Proof. now intros H <-. Qed.
Lemma tr_free {A} (r : pres A) : tr (free r) r 0.
Proof. now split. Qed.
Lemma tr_looking {A} n (x : wpres A) r c : tr x r c -> tr (looking n x) r c.
Proof. now intros [H1 H2]. Qed.
Lemma tr_through {A B} (f : pres A -> pres B) x r c : tr x r c -> tr (wthrough f x) (f r) c.
Proof. now intros [<- H2]. Qed.
Lemma tr_bind {A B} (x : wpres A) r c (f : str -> A -> wpres B) g d : tr x r c -> (forall i a, r = POk i a -> tr (f i a) (g i a) (d i a)) ->
  tr (wbind x f) (pbind r g) (r_then c r d).
Proof.
  intros [H1 H2] F. unfold wbind, r_then. rewrite H1. destruct r as [i a|e|e| |]; cbn [pbind]; try (split; [reflexivity|cbn [snd]; lia]).
  destruct (F i a eq_refl) as [F1 F2]. split; [exact F1|]. cbn [snd wadd values]. lia.
Qed.
Lemma tr_bind0 {A B} (x : wpres A) r (f : str -> A -> wpres B) g : tr x r 0 -> (forall i a, r = POk i a -> tr (f i a) (g i a) 0) -> tr (wbind x f) (pbind r g) 0.
Proof. intros H F. eapply tr_eq; [apply (tr_bind _ _ _ _ _ (fun _ _ => 0) H F)|]. unfold r_then. now destruct r. Qed.
(** nothing is begun after *)
Lemma tr_bindl {A B} (x : wpres A) r c (f : str -> A -> wpres B) g : tr x r c -> (forall i a, r = POk i a -> tr (f i a) (g i a) 0) -> tr (wbind x f) (pbind r g) c.
Proof. intros H F. eapply tr_eq; [apply (tr_bind _ _ _ _ _ (fun _ _ => 0) H F)|]. unfold r_then. destruct r; lia. Qed.
Lemma tr_or {A} (x : wpres A) y r q c d : tr x r c -> tr (y tt) q d ->
  tr (w_or x y) (match r with PErr _ => q | POk i a => POk i a | PFail e => PFail e | PPanic => PPanic | PFuel => PFuel end) (c + match r with PErr _ => d | _ => 0 end).
Proof. intros [<- H] [<- G]. unfold w_or. destruct (fst x) eqn:E; split; cbn [fst snd wadd values]; try congruence; try lia. Qed.
Lemma tr_or0 {A} (x : wpres A) y r q : tr x r 0 -> tr (y tt) q 0 -> tr (w_or x y) (match r with PErr _ => q | POk i a => POk i a | PFail e => PFail e | PPanic => PPanic | PFuel => PFuel end) 0.
Proof. intros H G. eapply tr_eq; [apply (tr_or _ _ _ _ _ _ H G)|]. now destruct r. Qed.
Lemma tr_alt_error {A} i (x : wpres A) r c : tr x r c -> tr (w_alt_error i x) (match r with PErr e => PErr (e ++ [(i, ENom NkAlt)]) | POk j a => POk j a | PFail e => PFail e | PPanic => PPanic | PFuel => PFuel end) c.
Proof. intros [<- H]. split; [|exact H]. unfold w_alt_error, wthrough. cbn [fst]. now destruct (fst x). Qed.

(** ** nom *)
Lemma k_map {A B} (w : wparser A) p r (f : A -> B) : tracks w p r -> tracks (w_map w f) (pmap p f) r.
Proof. intros H i. unfold w_map, pmap. apply tr_bindl; [apply H|]. intros. apply tr_free. Qed.
Lemma k_cut {A} (w : wparser A) p r : tracks w p r -> tracks (w_cut w) (cut p) r.
Proof. intros H i. destruct (H i) as [H1 H2]. split; [|exact H2]. unfold w_cut, cut, wthrough. cbn [fst]. rewrite H1. now destruct (p i). Qed.
Lemma k_uncut {A} (w : wparser A) p r : tracks w p r -> tracks (w_uncut w) (uncut p) r.
Proof. intros H i. destruct (H i) as [H1 H2]. split; [|exact H2]. unfold w_uncut, uncut, wthrough. cbn [fst]. rewrite H1. now destruct (p i). Qed.
Lemma k_context {A} t (w : wparser A) p r : tracks w p r -> tracks (w_context t w) (context t p) r.
Proof. intros H i. destruct (H i) as [H1 H2]. split; [|exact H2]. unfold w_context, context, wthrough. cbn [fst]. rewrite H1. now destruct (p i). Qed.
Lemma k_opt {A} (w : wparser A) p r : tracks w p r -> tracks (w_opt w) (opt p) r.
Proof. intros H i. destruct (H i) as [H1 H2]. split; [|exact H2]. unfold w_opt, opt, wthrough. cbn [fst]. rewrite H1. now destruct (p i). Qed.
Lemma k_preceded0 {A B} (w : wparser A) p (v : wparser B) q : silent w p -> silent v q -> silent (w_preceded w v) (preceded p q).
Proof. intros H G i. unfold w_preceded, preceded. apply tr_bind0; [apply H|]. intros. apply G. Qed.
Lemma k_terminated {A B} (w : wparser A) p r (v : wparser B) q : tracks w p r -> silent v q -> tracks (w_terminated w v) (terminated p q) r.
Proof. intros H G i. unfold w_terminated, terminated. apply tr_bindl; [apply H|]. intros. apply tr_bind0; [apply G|]. intros. apply tr_free. Qed.
Lemma k_pair0 {A B C} (w : wparser A) p (v : wparser B) q (x : wparser C) y : silent w p -> silent v q -> silent x y -> silent (w_separated_pair w v x) (separated_pair p q y).
Proof.
  intros H G F i. unfold w_separated_pair, separated_pair. apply tr_bind0; [apply H|]. intros. apply tr_bind0; [apply G|]. intros. apply tr_bind0; [apply F|]. intros. apply tr_free.
Qed.
Lemma k_alt2 {A} (w : wparser A) p r (v : wparser A) q x : tracks w p r -> tracks v q x -> tracks (w_alt2 w v) (alt2 p q) (r_alt2 r x p).
Proof. intros H G i. unfold w_alt2, alt2, r_alt2. eapply tr_or; [apply H|]. apply tr_alt_error, G. Qed.
Lemma k_alt20 {A} (w : wparser A) p (v : wparser A) q : silent w p -> silent v q -> silent (w_alt2 w v) (alt2 p q).
Proof. intros H G i. unfold w_alt2, alt2. eapply tr_or0; [apply H|]. apply tr_alt_error, G. Qed.
Lemma k_alt50 {A} (w1 w2 w3 w4 w5 : wparser A) p1 p2 p3 p4 p5 : silent w1 p1 -> silent w2 p2 -> silent w3 p3 -> silent w4 p4 -> silent w5 p5 -> silent (w_alt5 w1 w2 w3 w4 w5) (alt5 p1 p2 p3 p4 p5).
Proof.
  intros H1 H2 H3 H4 H5 i. unfold w_alt5, alt5. eapply tr_or0; [apply H1|]. eapply tr_or0; [apply H2|]. eapply tr_or0; [apply H3|]. eapply tr_or0; [apply H4|]. apply tr_alt_error, H5.
Qed.
Lemma k_char c : silent (w_char c) (pchar c).
Proof. intros i. apply tr_looking, tr_free. Qed.
Lemma k_tag t : silent (w_tag t) (tag t).
Proof. intros i. apply tr_looking, tr_free. Qed.
Lemma k_take_while f : silent (w_take_while f) (ptake_while f).
Proof. intros i. apply tr_looking, tr_free. Qed.
Lemma k_take_till f : silent (w_take_till f) (ptake_till f).
Proof. apply k_take_while. Qed.
Lemma k_take_while1 f : silent (w_take_while1 f) (ptake_while1 f).
Proof. intros i. apply tr_looking, tr_free. Qed.
Lemma k_alpha1 : silent w_alpha1 alpha1.
Proof. intros i. apply tr_looking, tr_free. Qed.
Lemma k_line_ending : silent w_line_ending line_ending.
Proof. intros i. apply tr_looking, tr_free. Qed.
Lemma k_silent {A} (w : wparser A) p : tracks w p (fun _ => 0) -> silent w p.
Proof. auto. Qed.
Lemma silent_k {A} (w : wparser A) p : silent w p -> tracks w p (fun _ => 0).
Proof. auto. Qed.
Lemma k_sep_loop {A B} (wsep : wparser B) sep (w : wparser A) p r : silent wsep sep -> tracks w p r ->
  forall fuel acc i, tr (w_sep_loop fuel wsep w acc i) (sep_loop fuel sep p acc i) (r_sep_loop fuel sep p r i).
Proof.
  intros S H. induction fuel as [|fuel IH]; intros acc i; cbn [w_sep_loop sep_loop r_sep_loop]; [now split|].
  destruct (S i) as [S1 S2]. rewrite S1. destruct (sep i) as [i1 b|e|e| |]; try (now split). destruct (Nat.eqb (length i1) (length i)); [now split|].
  destruct (H i1) as [H1 H2]. rewrite H1. destruct (p i1) as [i2 a|e|e| |]; try (split; [reflexivity|cbn [snd wadd values]; lia]).
  destruct (IH (acc ++ [a]) i2) as [I1 I2]. split; [exact I1|]. cbn [snd wadd values]. lia.
Qed.
Lemma k_sep {A B} (wsep : wparser B) sep (w : wparser A) p r : silent wsep sep -> tracks w p r ->
  tracks (w_separated_list0 wsep w) (separated_list0 sep p) (r_separated_list0 sep p r).
Proof.
  intros S H i. unfold w_separated_list0, separated_list0, r_separated_list0, r_then. destruct (H i) as [H1 H2]. rewrite H1. destruct (p i) as [i1 a|e|e| |]; try (split; [reflexivity|cbn [snd]; lia]).
  destruct (k_sep_loop wsep sep w p r S H (Datatypes.S (length i1)) [a] i1) as [I1 I2]. split; [exact I1|]. cbn [snd wadd values]. lia.
Qed.
Lemma k_many_loop {A} (w : wparser A) p r : tracks w p r -> forall fuel acc i, tr (w_many0_loop fuel w acc i) (many0_loop fuel p acc i) (r_many0_loop fuel p r i).
Proof.
  intros H. induction fuel as [|fuel IH]; intros acc i; cbn [w_many0_loop many0_loop r_many0_loop]; [now split|].
  destruct (H i) as [H1 H2]. rewrite H1. destruct (p i) as [i1 a|e|e| |]; try (split; [reflexivity|cbn [snd]; lia]).
  destruct (Nat.eqb (length i1) (length i)); [split; [reflexivity|cbn [snd]; lia]|].
  destruct (IH (acc ++ [a]) i1) as [I1 I2]. split; [exact I1|]. cbn [snd wadd values]. lia.
Qed.

(** ** blanks, names, primitives *)
Lemma k_inline_ws : silent w_inline_whitespace inline_whitespace.
Proof. apply k_take_while. Qed.
Lemma k_multi_ws : silent w_multiline_whitespace multiline_whitespace.
Proof. apply k_take_while. Qed.
Lemma k_ignore_ws {A} (w : wparser A) p r : tracks w p r -> tracks (w_ignore_ws w) (ignore_ws p) (r_ignore_ws r).
Proof. intros H i. unfold w_ignore_ws, ignore_ws, r_ignore_ws. apply tr_bind; [apply (k_opt _ _ (fun _ => 0)), silent_k, k_inline_ws|]. intros. apply H. Qed.
Lemma k_ignore_ws0 {A} (w : wparser A) p : silent w p -> silent (w_ignore_ws w) (ignore_ws p).
Proof. intros H i. unfold w_ignore_ws, ignore_ws. apply tr_bind0; [apply (k_opt _ _ (fun _ => 0)), silent_k, k_inline_ws|]. intros. apply H. Qed.
Lemma k_cut0 {A} (w : wparser A) p : silent w p -> silent (w_cut w) (cut p).
Proof. apply k_cut. Qed.
Lemma k_opt0 {A} (w : wparser A) p : silent w p -> silent (w_opt w) (opt p).
Proof. apply k_opt. Qed.
Lemma k_context0 {A} t (w : wparser A) p : silent w p -> silent (w_context t w) (context t p).
Proof. apply k_context. Qed.
Lemma k_map0 {A B} (w : wparser A) p (f : A -> B) : silent w p -> silent (w_map w f) (pmap p f).
Proof. apply k_map. Qed.
Lemma k_terminated0 {A B} (w : wparser A) p (v : wparser B) q : silent w p -> silent v q -> silent (w_terminated w v) (terminated p q).
Proof. intros H. apply k_terminated, H. Qed.
#[local] Hint Resolve k_char k_tag k_take_while k_take_till k_take_while1 k_alpha1 k_line_ending k_inline_ws k_multi_ws
  k_preceded0 k_terminated0 k_cut0 k_opt0 k_context0 k_map0 k_pair0 k_alt20 k_alt50 k_ignore_ws0 : silent.
Lemma k_valid_name : silent w_valid_name valid_name.
Proof.
  intros i. unfold w_valid_name, valid_name. apply tr_bind0.
  - apply k_alt20; auto with silent.
  - intros. apply k_context0. auto with silent.
Qed.
#[local] Hint Resolve k_valid_name : silent.
Lemma k_ident b : silent (w_ident b) (ident b).
Proof. destruct b; unfold w_ident, ident; auto 8 with silent. Qed.
Lemma k_field_name : silent w_field_name field_name.
Proof. apply k_take_while. Qed.
#[local] Hint Resolve k_ident k_field_name : silent.
Lemma k_unit_value : silent w_unit_value unit_value.
Proof. unfold w_unit_value, unit_value. auto 8 with silent. Qed.
Lemma k_boolean : silent w_boolean boolean.
Proof. unfold w_boolean, boolean. auto 8 with silent. Qed.
Lemma k_num : silent w_num num.
Proof.
  unfold w_num, num. apply k_context0. intros i. destruct (take_while is_num_char i) as [t r]. apply tr_looking, tr_free.
Qed.
Lemma k_parse_str d : silent (w_parse_str d) (parse_str d).
Proof. unfold w_parse_str, parse_str. auto 8 with silent. Qed.
Lemma k_string : silent w_string pstring.
Proof.
  intros i. unfold w_string, pstring. destruct (starts_with (s "str") i); apply tr_looking, k_context0, k_parse_str.
Qed.
Lemma k_barr : silent w_barr barr.
Proof.
  unfold w_barr, barr. apply k_context0, k_preceded0; [auto with silent|]. apply k_cut0, k_terminated0; [|auto with silent].
  intros i. unfold pmap. apply tr_bind0; [apply k_take_till|]. intros. apply tr_looking, tr_free.
Qed.
#[local] Hint Resolve k_unit_value k_boolean k_num k_string k_barr : silent.
Lemma k_prim_value : silent w_prim_value prim_value.
Proof. unfold w_prim_value, prim_value. apply k_context0, k_alt50; auto with silent. Qed.
#[local] Hint Resolve k_prim_value : silent.
Lemma k_ctor id v i : tr (w_ctor id v i) (kserd_ctor id v i) 0.
Proof. apply tr_looking, tr_free. Qed.
Lemma k_prim : silent w_prim prim.
Proof.
  intros i. unfold w_prim, prim. apply tr_bind0; [apply k_context0, k_pair0; auto with silent|]. intros j [id v] _. apply k_ctor.
Qed.
Lemma k_assign : silent w_recognise_field_assign (terminated (ptake_while (fun c => is_alnum c || negb (mem c assign_stop))) (pchar (ch "="))).
Proof. unfold w_recognise_field_assign. auto with silent. Qed.
Lemma k_delimited_pattern : silent w_pattern_match_delimited pattern_match_delimited.
Proof.
  intros orig. unfold w_pattern_match_delimited, pattern_match_delimited. apply tr_looking. destruct (starts_with (s "true") orig || starts_with (s "false") orig); [apply tr_free|].
  apply tr_bind0; [apply k_opt0, k_ident|]. intros i id _. apply tr_bind0.
  - destruct id; [apply tr_free|]. apply tr_bind0; [apply k_opt0, k_ident|]. intros j [id|] _; apply tr_free.
  - intros j k _. apply tr_bind0; [apply k_multi_ws|]. intros l x _. cbv zeta. apply tr_bind0; [|intros; apply tr_free].
    destruct (N.eqb (hd 32%N l) (ch "[")); [apply tr_free|]. destruct (N.eqb (hd 32%N l) (ch "{")); [apply tr_free|]. destruct (N.eqb (hd 32%N l) (ch "(")); [|apply tr_free].
    destruct (k_unit_value l) as [U1 U2]. rewrite U1. destruct (match k with IkNonprim => false | _ => is_ok (unit_value l) end); [now split|].
    assert (G : tr (let! (j0, _) := w_multiline_whitespace (tl l) in if is_ok (fst (w_recognise_field_assign j0)) then (POk l NpCntr, snd (w_recognise_field_assign j0)) else (POk l NpTuple, snd (w_recognise_field_assign j0)))
      (let? (j0, _) := multiline_whitespace (tl l) in if recognise_field_assign j0 then POk l NpCntr else POk l NpTuple) 0).
    { apply tr_bind0; [apply k_multi_ws|]. intros j0 y _. unfold recognise_field_assign. destruct (k_assign j0) as [A1 A2]. rewrite A1.
      match goal with |- context [is_ok ?z] => destruct (is_ok z) end; now split. }
    destruct G as [G1 G2]. unfold wbind at 1. cbn [fst snd]. split; [exact G1|]. cbn [snd wadd values]. lia.
Qed.
Lemma k_encased b e : silent (w_encased b e) (preceded (tag b) (terminated (ignore_ws valid_name) (ignore_ws (tag e)))).
Proof. unfold w_encased. auto 8 with silent. Qed.
Lemma k_verbose_pattern : silent w_pattern_match_verbose pattern_match_verbose.
Proof.
  intros orig. unfold w_pattern_match_verbose, pattern_match_verbose. apply tr_bind0; [apply k_multi_ws|]. intros i x _. cbv zeta. apply tr_looking.
  unfold recognise_field_assign, encased. destruct (k_assign i) as [A1 A2], (k_encased (s "[") (s "]") i) as [E1 E2]. rewrite A1, E1. split; [reflexivity|]. cbn [snd wadd values]. lia.
Qed.

(** ** delimited forms *)
Section Delimited.
  Variables (winl wcon : wparser kserd) (inl con : parser kserd) (rinl rcon : str -> nat).
  Hypotheses (Hi : tracks winl inl rinl) (Hc : tracks wcon con rcon).
  Lemma k_choose (b : bool) : tracks (if b then winl else wcon) (if b then inl else con) (if b then rinl else rcon).
  Proof. destruct b; assumption. Qed.
  Lemma k_inline_list : tracks (w_inline_list winl) (inline_list_kserds inl) (r_inline_list inl rinl).
  Proof. unfold w_inline_list, inline_list_kserds, r_inline_list. apply k_context, k_sep; [auto with silent|]. now apply k_ignore_ws. Qed.
  Lemma k_concise_list : tracks (w_concise_list wcon) (concise_list_kserds con) (r_concise_list con rcon).
  Proof.
    intros i. unfold w_concise_list, concise_list_kserds, r_concise_list, w_preceded, preceded. apply tr_bind; [apply k_multi_ws|]. intros j x _.
    apply k_cut, k_terminated; [|auto with silent]. apply k_sep; auto with silent.
  Qed.
  Lemma k_kvp_field b : tracks (w_kvp_field winl wcon b) (kvp_field inl con b) (r_kvp_field rinl rcon b).
  Proof.
    unfold w_kvp_field, kvp_field, r_kvp_field. apply k_context. intros i. unfold w_separated_pair, separated_pair. apply tr_bind; [apply k_field_name|]. intros j x _.
    apply tr_bind; [apply k_ignore_ws0, k_char|]. intros l y _. apply tr_bindl; [apply k_ignore_ws, k_cut, k_choose|]. intros. apply tr_free.
  Qed.
  Lemma k_inline_cntr : tracks (w_inline_cntr winl wcon) (inline_cntr_kserds inl con) (r_inline_cntr inl con rinl rcon).
  Proof. unfold w_inline_cntr, inline_cntr_kserds, r_inline_cntr. apply k_context, k_sep; [auto with silent|]. apply k_ignore_ws, k_kvp_field. Qed.
  Lemma k_concise_cntr : tracks (w_concise_cntr winl wcon) (concise_cntr_kserds inl con) (r_concise_cntr inl con rinl rcon).
  Proof.
    unfold w_concise_cntr, concise_cntr_kserds, r_concise_cntr, w_preceded, preceded. apply k_context. intros i. apply tr_bind; [apply k_multi_ws|]. intros j x _.
    apply k_cut, k_terminated; [|auto with silent]. apply k_sep; [auto with silent|]. apply k_kvp_field.
  Qed.
  Lemma k_kvp_kserd b : tracks (w_kvp_kserd winl wcon b) (kvp_kserd inl con b) (r_kvp_kserd inl con rinl rcon b).
  Proof.
    unfold w_kvp_kserd, kvp_kserd, r_kvp_kserd. apply k_context. intros i. unfold w_separated_pair, separated_pair. apply tr_bind; [now apply k_alt2|]. intros j x _.
    apply tr_bind; [apply k_ignore_ws0, k_char|]. intros l y _. apply tr_bindl; [apply k_ignore_ws, k_choose|]. intros. apply tr_free.
  Qed.
  Lemma k_inline_map : tracks (w_inline_map winl wcon) (inline_map_kserds inl con) (r_inline_map inl con rinl rcon).
  Proof. unfold w_inline_map, inline_map_kserds, r_inline_map. apply k_context, k_sep; [auto with silent|]. apply k_ignore_ws, k_kvp_kserd. Qed.
  Lemma k_concise_map : tracks (w_concise_map winl wcon) (concise_map_kserds inl con) (r_concise_map inl con rinl rcon).
  Proof.
    unfold w_concise_map, concise_map_kserds, r_concise_map, w_preceded, preceded. apply k_context. intros i. apply tr_bind; [apply k_multi_ws|]. intros j x _.
    apply k_terminated; [|auto with silent]. apply k_sep; [auto with silent|]. apply k_kvp_kserd.
  Qed.
  (** all four: an optional id, a bracket, the parts *)
  Ltac form X := intros i; unfold X; apply tr_bind; [apply k_opt0, k_ident|]; intros j id _; apply tr_bind; [apply k_ignore_ws0, k_char|]; intros l x _; cbv zeta;
    apply tr_bindl; [apply tr_looking|intros; apply k_ctor].
  Lemma k_tuple b : tracks (w_tuple winl wcon b) (tuple inl con b) (r_tuple inl con rinl rcon b).
  Proof.
    form (@w_tuple). destruct (recognise_concise l && negb b).
    - apply k_context, k_cut, k_terminated; [apply k_concise_list|auto with silent].
    - apply k_context, k_cut, k_terminated; [apply k_inline_list|auto with silent].
  Qed.
  Lemma k_seq b : tracks (w_seq winl wcon b) (seq_delimited inl con b) (r_seq inl con rinl rcon b).
  Proof.
    form (@w_seq). destruct (recognise_concise l && negb b).
    - apply k_context, k_cut, k_terminated; [apply k_concise_list|auto with silent].
    - apply k_context, k_cut, k_terminated; [apply k_inline_list|auto with silent].
  Qed.
  Lemma k_cntr b : tracks (w_cntr winl wcon b) (cntr_delimited inl con b) (r_cntr inl con rinl rcon b).
  Proof.
    form (@w_cntr). destruct (recognise_concise l && negb b).
    - apply k_context, k_terminated; [apply k_concise_cntr|auto with silent].
    - apply k_context, k_terminated; [apply k_inline_cntr|auto with silent].
  Qed.
  Lemma k_mapping b : tracks (w_mapping winl wcon b) (map_delimited inl con b) (r_map inl con rinl rcon b).
  Proof.
    form (@w_mapping). destruct (recognise_concise l && negb b).
    - apply k_context, k_terminated; [apply k_concise_map|auto with silent].
    - apply k_context, k_terminated; [apply k_inline_map|auto with silent].
  Qed.
  Lemma k_body b : tracks (w_body winl wcon b) (delimited_body inl con b) (r_body inl con rinl rcon b).
  Proof.
    intros i. unfold w_body, delimited_body, r_body. apply tr_bind; [apply k_delimited_pattern|]. intros j pat _.
    destruct pat; [apply k_tuple|apply k_cntr|apply k_seq|apply k_mapping|apply k_prim].
  Qed.
End Delimited.
Lemma k_delimited fuel : forall b, tracks (w_delimited fuel b) (kserd_delimited fuel b) (readings fuel b).
Proof.
  induction fuel as [|fuel IH]; intros b i; cbn [w_delimited kserd_delimited readings]; [now split|].
  destruct (k_body _ _ _ _ _ _ (IH true) (IH false) b i) as [H1 H2]. split; [exact H1|]. cbn [snd wadd values]. lia.
Qed.

(** ** verbose containers *)
Lemma k_expect_indents n : silent (w_expect_indents n) (expect_indents n).
Proof.
  induction n as [|n IH]; intros i; [now split|]. cbn [w_expect_indents expect_indents]. apply tr_bind0; [apply k_alt20; auto with silent|]. intros. apply IH.
Qed.
Lemma k_verbose_name : silent w_verbose_name verbose_field_name_and_identity.
Proof.
  unfold w_verbose_name, verbose_field_name_and_identity. apply k_context0. intros i. apply tr_bind0; [apply k_ignore_ws0, k_field_name|]. intros j x _.
  destruct (k_ignore_ws0 _ _ (k_char (ch ":")) j) as [C1 C2]. unfold wbind at 1, wthrough. cbn [fst snd]. rewrite C1. destruct (ignore_ws (pchar (ch ":")) j) as [l y|e|e| |].
  2-5: split; [reflexivity|]; cbn [snd wadd values free nothing]; lia.
  assert (G : tr (let! (i0, id) := w_ignore_ws (w_ident false) l in free (POk i0 (x, Some id))) (let? (i0, id) := ignore_ws (ident false) l in POk i0 (x, Some id)) 0).
  { apply tr_bind0; [apply k_ignore_ws0, k_ident|]. intros. apply tr_free. }
  destruct G as [G1 G2]. split; [exact G1|]. cbn [snd wadd values]. lia.
Qed.
Lemma k_skip_lines fuel : forall i, tr (w_skip_lines fuel i) (skip_lines fuel i) 0.
Proof.
  induction fuel as [|fuel IH]; intros i; [now split|]. cbn [w_skip_lines skip_lines]. apply tr_bind0; [apply k_opt0; auto with silent|]. intros n [y|] _; [apply IH|apply tr_free].
Qed.
Lemma tr_if {A} (b : bool) (x y : wpres A) p q c d : tr x p c -> tr y q d -> tr (if b then x else y) (if b then p else q) (if b then c else d).
Proof. destruct b; auto. Qed.
Section Verbose.
  Variables (winl wcon wnested : wparser kserd) (inl con nested : parser kserd) (rinl rcon rnested : str -> nat).
  Hypotheses (Hi : tracks winl inl rinl) (Hc : tracks wcon con rcon) (Hn : tracks wnested nested rnested).
  Lemma k_field n : tracks (w_field winl wcon wnested n) (verbose_cntr_field inl con nested n) (r_verbose_cntr_field inl con rinl rcon rnested n).
  Proof.
    intros i0. unfold w_field, verbose_cntr_field, r_verbose_cntr_field. apply tr_bind; [apply k_skip_lines|]. intros i1 x1 _. apply tr_bind; [apply k_expect_indents|]. intros i2 x2 _.
    apply tr_bind; [apply k_inline_ws|]. intros i x _. cbv zeta. destruct (k_ignore_ws0 _ _ k_line_ending i) as [E1 E2]. unfold wbind at 1. cbn [fst snd]. rewrite E1.
    match goal with |- tr (fst ?a, _) ?b ?c => assert (G : tr a b c); [|destruct G as [G1 G2]; split; [exact G1|cbn [snd wadd values]; lia]] end.
    destruct (match i with [] => true | _ => false end || is_ok (ignore_ws line_ending i)); [apply tr_free|]. apply tr_looking.
    apply tr_if. { apply tr_bind0; [apply k_ignore_ws0, k_ident|]. intros. apply tr_free. }
    apply tr_if.
    { set (hw := w_preceded (w_tag (s "[[")) (w_terminated w_verbose_name (w_ignore_ws (w_tag (s "]]"))))). set (h := preceded (tag (s "[[")) (terminated verbose_field_name_and_identity (ignore_ws (tag (s "]]"))))).
      assert (Hh : silent hw h) by (apply k_preceded0, k_terminated0; auto using k_verbose_name with silent).
      set (t := s "field name. expecting 'field_name[:identity]'"). eapply tr_eq.
      - apply (tr_bind _ _ 0 _ _ (fun i _ => r_then 0 (ignore_ws line_ending i) (fun i _ => r_then (r_ignore_ws rinl i) (opt (terminated (ignore_ws (uncut inl)) (ignore_ws (pchar (ch ":")))) i) (fun i key =>
          match key with Some _ => r_alt2 (r_ignore_ws rcon) (fun i => r_then 0 (ignore_ws line_ending i) (fun i _ => rnested i)) (ignore_ws con) i | None => rnested i end)))); [apply k_context0, k_cut0, Hh|].
        intros i4 [fname id] _. apply tr_bind; [apply k_ignore_ws0, k_line_ending|]. intros i5 x5 _.
        apply tr_bind; [apply k_opt, k_terminated; [apply k_ignore_ws, k_uncut, Hi|auto with silent]|]. intros i6 key _.
        destruct key as [key|].
        + apply tr_bindl; [|intros; apply tr_free]. apply k_context, k_alt2; [now apply k_ignore_ws|]. intros l. unfold w_preceded, preceded. apply tr_bind; [apply k_ignore_ws0, k_line_ending|]. intros. apply Hn.
        + apply tr_bindl; [apply k_context, Hn|]. intros. apply tr_free.
      - cbv beta. unfold context, cut. destruct (h i) as [j [nm id]|e|e| |]; reflexivity. }
    apply tr_if.
    { apply tr_bind; [apply k_preceded0, k_terminated0; auto using k_verbose_name with silent|]. intros i4 [fname id] _. apply tr_bind; [apply k_ignore_ws0, k_line_ending|]. intros i5 x5 _.
      apply tr_bindl; [apply k_context, Hn|]. intros. apply tr_free. }
    apply tr_bindl; [now apply k_cut, k_kvp_field|]. intros j [nm v] _. apply tr_free.
  Qed.
End Verbose.
Lemma k_nested fuel dfuel : forall n, tracks (w_nested fuel dfuel n) (kserd_nested fuel dfuel n) (r_nested fuel dfuel n).
Proof.
  induction fuel as [|fuel IH]; intros n i; cbn [w_nested kserd_nested r_nested]; [now split|]. apply tr_bind; [apply k_verbose_pattern|]. intros j v _. apply tr_if.
  - unfold w_verbose, cntr_verbose, w_many0, many0. apply tr_bindl; [|intros; apply tr_free]. apply k_many_loop. apply k_field; [apply k_delimited|apply k_delimited|apply IH].
  - apply k_ignore_ws, k_delimited.
Qed.
Lemma k_root i : fst (w_root i) = kserd_root i /\ values (snd (w_root i)) = parse_readings i.
Proof.
  unfold w_root, kserd_root, parse_readings. destruct i as [|c i]; [now split|]. set (t := c :: i). unfold w_all_consuming, all_consuming.
  apply tr_bindl; [|intros; apply tr_free]. apply k_terminated; [apply k_nested|auto with silent].
Qed.
Theorem counting_parses t : fst (parse_counting t) = parse t.
Proof. unfold parse_counting, parse. destruct (k_root t) as [-> _]. reflexivity. Qed.
Theorem counting_readings t : values (snd (parse_counting t)) = parse_readings t.
Proof. apply k_root. Qed.
