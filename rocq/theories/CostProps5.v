(** How much work the parser does: accepted documents. *)
From Verif Require Import Base F64 Number BTree Value BaseProps Nom Parse ParseErr ParseSpec ParseProps Grammar GrammarProps VGrammar VGrammarProps Format FormatProps ParseCost CostSpec CostProps CostProps2 CostProps3 SyntaxProps3 ParseErrProps.
Open Scope nat_scope.

Lemma doubled_suffix i j : suffix j i -> ~ doubled i -> ~ doubled j.
Proof. intros [p ->] H (a & b & ->). apply H. exists (p ++ a), b. now rewrite app_assoc. Qed.
Lemma skip_blanks_suffix t : suffix (Grammar.skip_blanks t) t.
Proof. destruct (skip_blanks_split t) as (w & _ & E). now exists w. Qed.
Lemma next_line_suffix t : suffix (next_line t) t.
Proof. destruct (next_line_spec t) as (w & E & _). now exists w. Qed.

(** without a double bracket *)
Definition r_plain_body (rinl rcon rnested : str -> nat) (i : str) : nat :=
  if starts_with (s ":") i then 0
  else if starts_with (s "[") i then
    r_then 0 (preceded (tag (s "[")) (terminated verbose_field_name_and_identity (ignore_ws (tag (s "]")))) i) (fun i _ =>
    r_then 0 (ignore_ws line_ending i) (fun i _ => rnested i))
  else r_kvp_field rinl rcon false i.
Lemma r_closed inl con rinl rcon rn n r : closes n r = true -> r_verbose_cntr_field inl con rinl rcon rn n r = 0.
Proof.
  intros H. unfold r_verbose_cntr_field. rewrite skip_lines_ok by lia. cbn [r_then Nat.add]. pose proof (expect_spec n (next_line r)) as E.
  unfold closes in H. destruct (indented n (next_line r)); [|destruct E as [e ->]; reflexivity].
  rewrite orb_false_r in H. destruct E as (q & -> & w & W). cbn [r_then Nat.add]. rewrite W, forallb_app in H. apply andb_true_iff in H as [_ H].
  rewrite <- (app_nil_r q). rewrite take_blanks; [|exact H|exact I]. reflexivity.
Qed.
Lemma r_open inl con rinl rcon rn n r : ~ doubled r -> closes n r = false -> r_verbose_cntr_field inl con rinl rcon rn n r = r_plain_body rinl rcon rn (Grammar.skip_blanks (next_line r)).
Proof.
  intros D. unfold closes. intros H. apply orb_false_iff in H as [H1 H2]. apply negb_false_iff in H2.
  apply (doubled_suffix _ (Grammar.skip_blanks (next_line r))) in D; [|eapply suffix_trans; [apply skip_blanks_suffix|apply next_line_suffix]].
  unfold r_verbose_cntr_field. rewrite skip_lines_ok by lia. cbn [r_then Nat.add]. pose proof (next_line_stuck r) as K. pose proof (all_blank_skip _ H1) as NE. set (x := next_line r) in *. clearbody x. clear H1.
  pose proof (expect_spec n x) as E. rewrite H2 in E. destruct E as (q & E & _). rewrite E. cbn [r_then Nat.add]. apply indents_inv in E as (w & -> & W). apply indents_blanks in W.
  rewrite skip_blanks_app in * by assumption. destruct (skip_blanks_split q) as (w' & W' & Q). rewrite Q at 1. rewrite take_blanks by (auto; apply skip_blanks_stop). cbn [r_then Nat.add].
  destruct K as [K|K]; [|congruence]. destruct (Grammar.skip_blanks q) as [|c u] eqn:EQ; [congruence|]. cbn [orb].
  rewrite ignore_ws_skip, skip_blanks_id by (rewrite <- EQ; apply skip_blanks_stop). destruct (line_ending_err _ (or_introl K)) as [e ->]. cbn [is_ok].
  unfold r_plain_body. destruct (starts_with (s ":") (c :: u)); [reflexivity|]. destruct (starts_with (s "[[") (c :: u)) eqn:S; [|reflexivity].
  exfalso. apply D. apply starts_with_spec in S as [z ->]. now exists [], z.
Qed.

Section Field.
  Variables (fuel dfuel k : nat).
  Hypotheses (Hf : fuel < dfuel).
  Hypothesis HN : forall i r v, length i < fuel -> ~ doubled i -> kserd_nested fuel dfuel (S k) i = POk r v ->
    stuck dfuel (S k) r \/ r_nested fuel dfuel (S k) i + 2 * length r <= 2 * length i.
  Let p := verbose_cntr_field (kserd_inline dfuel) (kserd_concise dfuel) (kserd_nested fuel dfuel (S k)) k.
  Let rp := r_verbose_cntr_field (kserd_inline dfuel) (kserd_concise dfuel) (readings dfuel true) (readings dfuel false) (r_nested fuel dfuel (S k)) k.

  Lemma field_plain i r f : length i <= fuel -> ~ doubled i -> p i = POk r f -> stuck dfuel k r /\ fuel <> 0 \/ rp i + 2 * length r <= 2 * length i.
  Proof.
    intros L D. unfold p, rp. destruct (closes k i) eqn:C.
    { destruct (field_closed (kserd_inline dfuel) (kserd_concise dfuel) (kserd_nested fuel dfuel (S k)) k i C) as [e ->]. discriminate. }
    rewrite vcf_open, r_open by assumption. assert (SX : suffix (Grammar.skip_blanks (next_line i)) i) by (eapply suffix_trans; [apply skip_blanks_suffix|apply next_line_suffix]).
    apply (doubled_suffix _ _ SX) in D. set (x := Grammar.skip_blanks (next_line i)) in *. clearbody x. apply suffix_len in SX. intros E.
    cut (stuck dfuel k r /\ fuel <> 0 \/ r_plain_body (readings dfuel true) (readings dfuel false) (r_nested fuel dfuel (S k)) x + 2 * length r <= 2 * length x); [intros [H|H]; [now left|right; lia]|].
    unfold field_body in E. unfold r_plain_body. destruct (starts_with (s ":") x).
    { right. apply bind_ok in E as (j & id & E & F). injection F as <- _. pose proof (okl_ignore_ws (S (length x)) _ _ (okl_ident (S (length x)) false) (tl x) ltac:(pose proof (suffix_len _ _ (suffix_tl x)); lia)) as S.
      rewrite E in S. destruct S as [S _]. apply suffix_len in S. pose proof (suffix_len _ _ (suffix_tl x)). lia. }
    destruct (starts_with (s "[[") x) eqn:SS.
    { exfalso. apply D. apply starts_with_spec in SS as [z ->]. now exists [], z. }
    destruct (starts_with (s "[") x).
    - apply bind_ok in E as (i4 & [nm id] & E4 & E). rewrite E4. unfold r_then at 1. cbn [Nat.add]. pose proof (header_shorter (s "[") (s "]") _ _ _ ltac:(discriminate) E4) as L4. apply header_suffix in E4.
      apply bind_ok in E as (i5 & y & E5 & E). rewrite E5. unfold r_then. cbn [Nat.add].
      pose proof (okl_ignore_ws (S (length i4)) _ _ (okl_line_ending (S (length i4))) i4 ltac:(lia)) as S5. rewrite E5 in S5. destruct S5 as [S5 _].
      apply bind_ok in E as (i6 & v & E6 & E). injection E as <- _. apply context_ok in E6.
      assert (fuel <> 0) as NZ by (intros ->; discriminate E6).
      apply HN in E6; [|apply suffix_len in S5; lia|eauto using doubled_suffix]. apply suffix_len in S5. destruct E6 as [E6|E6]; [left|right; lia].
      split; [|exact NZ]. apply (stuck_le dfuel k (S k)); [lia|exact E6].
    - right. apply bind_ok in E as (j & [nm v] & E & F). injection F as <- _. apply cut_ok in E.
      pose proof (lin_kvp_field (S fuel) (kserd_inline dfuel) (kserd_concise dfuel) (readings dfuel true) (readings dfuel false)) as LK.
      assert (LL : forall b, lin (S fuel) (kserd_delimited dfuel b) (readings dfuel b)).
      { intros b z Lz. apply (delimited_lin dfuel). lia. }
      specialize (LK (LL true) (LL false) false x ltac:(lia) j (nm, v) E). lia.
  Qed.
  Lemma field_rest i r f : length i <= fuel -> p i = POk r f -> suffix r i.
  Proof.
    intros L E. assert (O : okl (S fuel) wfc p).
    { apply okl_verbose_field; [eapply okl_mono; [|apply okl_delimited]; lia|eapply okl_mono; [|apply okl_delimited]; lia|]. apply okl_nested. lia. }
    specialize (O i ltac:(lia)). rewrite E in O. apply O.
  Qed.
  Lemma loop_plain lf : forall acc i r l, length i <= fuel -> ~ doubled i -> many0_loop lf p acc i = POk r l ->
    stuck dfuel k r \/ r_many0_loop lf p rp i + 2 * length r <= 2 * length i.
  Proof.
    induction lf as [|lf IH]; intros acc i r l L D; [discriminate|]. cbn [many0_loop r_many0_loop]. destruct (p i) as [i1 a|e|e| |] eqn:E; try discriminate.
    - pose proof (field_rest i i1 a L E) as SF. pose proof (suffix_len _ _ SF) as S1. pose proof (doubled_suffix _ _ SF D) as D1. pose proof (field_plain i i1 a L D E) as F.
      destruct (Nat.eqb (length i1) (length i)); [discriminate|]. intros H. destruct F as [[F NZ]|F].
      + left. destruct lf as [|lf]; [discriminate|]. cbn [many0_loop] in H. destruct F as [F1 F2]. destruct fuel as [|f0] eqn:EF; [congruence|].
        destruct (F2 f0 (S k)) as [e F3]. assert (E1 : p i1 = PErr e) by (unfold p; rewrite vcf_open by exact F1; exact F3). rewrite E1 in H. injection H as <- _. split; [exact F1|exact F2].
      + apply IH in H as [H|H]; [now left|right; lia|lia|exact D1].
    - intros H. injection H as <- _. unfold p in E. apply loop_ends in E as [E|E]; [right|now left]. unfold rp. rewrite r_closed by exact E. lia.
  Qed.
End Field.
Lemma nested_plain dfuel fuel : fuel <= dfuel -> forall k i r v, length i < fuel -> ~ doubled i -> kserd_nested fuel dfuel k i = POk r v ->
  stuck dfuel k r \/ r_nested fuel dfuel k i + 2 * length r <= 2 * length i.
Proof.
  induction fuel as [|fuel IH]; intros Hd k i r v L D; [discriminate|]. cbn [kserd_nested r_nested]. unfold pattern_match_verbose.
  unfold multiline_whitespace, ptake_while. destruct (take_while is_wsp i) as [w j]. cbn [pbind r_then Nat.add].
  match goal with |- context [if ?b then _ else _] => destruct b end.
  - unfold cntr_verbose, many0. intros E. apply bind_ok in E as (r' & l & E & F). injection F as <- _.
    apply (loop_plain fuel dfuel k) in E; [exact E|lia| |lia|exact D]. intros j0 r0 v0 ? ? ?. apply (IH ltac:(lia) (S k) j0 r0 v0); assumption.
  - intros E. right. pose proof (lin_ignore_ws dfuel _ _ (delimited_lin dfuel false) i ltac:(lia) r v E). lia.
Qed.
Lemma root_ok t v : parse t = ParseOk v -> exists r, kserd_nested (S (length t)) (S (length t)) 0 t = POk r v /\ spaces r /\ parse_readings t = r_nested (S (length t)) (S (length t)) 0 t.
Proof.
  unfold parse. destruct (kserd_root t) as [r a| | | |] eqn:E; intros H; try discriminate. injection H as <-.
  unfold kserd_root in E. unfold parse_readings. destruct t as [|c t]; [discriminate|]. set (i := c :: t) in *. clearbody i. clear c t.
  unfold all_consuming in E. apply bind_inv in E as (j & x & E & H). destruct j; [|discriminate]. injection H as <- <-.
  apply terminated_inv in E as (j & w & E & H). apply space_inv in H as (-> & B & _). rewrite app_nil_r in *. eauto.
Qed.
Lemma accepted_plain t v : parse t = ParseOk v -> ~ doubled t -> parse_readings t <= 2 * length t.
Proof.
  intros H D. apply root_ok in H as (r & E & S & ->). apply nested_plain in E; [|lia|lia|exact D]. destruct E as [E|E]; [|lia]. exfalso. exact (stuck_root _ _ E S).
Qed.
Lemma accepted_delimited t v : parse t = ParseOk v -> (forall m, kval v <> VCntr m) -> parse_readings t < 2 * length t.
Proof.
  intros H V. apply root_ok in H as (r & E & _ & ->). cbn [kserd_nested r_nested] in *. unfold pattern_match_verbose in *.
  unfold multiline_whitespace, ptake_while in *. destruct (take_while is_wsp t) as [w j]. cbn [pbind r_then Nat.add] in *.
  match goal with |- context [if ?b then _ else _] => destruct b end.
  - exfalso. unfold cntr_verbose in E. apply bind_ok in E as (r' & l & _ & F). injection F as _ <-. eapply V. reflexivity.
  - pose proof (lin_ignore_ws (S (length t)) _ _ (delimited_lin (S (length t)) false) t ltac:(lia) r v E). lia.
Qed.

(** no brace *)
Lemma braces_none t : ~ In (ch "{") t -> braces t = 0.
Proof.
  unfold braces. induction t as [|c t IH]; intros H; [reflexivity|]. cbn [filter]. destruct (N.eqb_spec (ch "{") c) as [E|_]; [destruct H; left; now rewrite E|]. apply IH. intros X. apply H. now right.
Qed.
Lemma no_brace_cost t : ~ In (ch "{") t -> parse_readings t <= 3 * (2 * length t + 1) ^ 2.
Proof. intros H. pose proof (document_cost t) as D. rewrite (braces_none t H) in D. change (2 ^ 0) with 1 in D. rewrite Nat.mul_1_r in D. exact D. Qed.

(** braces only *)
Lemma braces_single n : ~ doubled (repeat (ch "{") n).
Proof.
  intros (p & q & E). assert (I1 : In (ch "[") (repeat (ch "{") n)) by (rewrite E; apply in_or_app; right; now left). apply repeat_spec in I1. discriminate.
Qed.
Lemma pow_more n : 2 * S n < 2 ^ S (S n) - 1.
Proof. induction n as [|n IH]; [cbn; lia|]. cbn [Nat.pow] in *. lia. Qed.
Lemma rejected_exponential n : exists t, length t = S n /\ parse_readings t = 2 ^ S (S n) - 1 /\ (exists e, parse t = ParseErr e).
Proof.
  exists (repeat (ch "{") (S n)). split; [apply repeat_length|]. split; [apply braces_exponential|].
  destruct (parse_total (repeat (ch "{") (S n))) as [[v [E _]]|[e E]]; [|now exists e].
  exfalso. apply accepted_plain in E; [|apply braces_single]. rewrite braces_exponential, repeat_length in E. pose proof (pow_more n). lia.
Qed.

(** whether there is a double bracket *)
Fixpoint double_check (t : str) : bool := match t with [] => false | c :: r => starts_with (s "[[") t || double_check r end.
Lemma double_check_doubled p q : double_check (p ++ s "[[" ++ q) = true.
Proof. induction p as [|c p IH]; [reflexivity|]. cbn [app double_check]. rewrite IH. apply orb_true_r. Qed.
