(** How much work the parser does: verbose containers and whole documents. *)
From Verif Require Import Base F64 Number BTree Value Nom Parse ParseSpec ParseProps ParseCost CostSpec CostProps CostProps2 SyntaxProps3.
Open Scope nat_scope.

Lemma starts_skip t i : t <> [] -> starts_with t i = true -> length (skipn (length t) i) < length i.
Proof.
  intros H E. apply (tag_lt t i _ t H). unfold tag. now rewrite E.
Qed.
Lemma header_shorter a b i r x : a <> [] -> preceded (tag a) (terminated verbose_field_name_and_identity (ignore_ws (tag b))) i = POk r x -> length r < length i.
Proof.
  intros H E. eapply preceded_shorter; [|  |exact E].
  - intros i' r' a'. now apply tag_lt.
  - eapply okl_any, okl_terminated; [apply okl_header|]. eapply okl_ignore_ws, okl_tag.
Qed.
Lemma header_suffix a b i r x : preceded (tag a) (terminated verbose_field_name_and_identity (ignore_ws (tag b))) i = POk r x -> suffix r i.
Proof.
  intros E. assert (K : okl (S (length i)) any (preceded (tag a) (terminated verbose_field_name_and_identity (ignore_ws (tag b))))).
  { eapply okl_any, okl_preceded; [apply okl_tag|]. eapply okl_terminated; [apply okl_header|]. eapply okl_ignore_ws, okl_tag. }
  specialize (K i ltac:(lia)). rewrite E in K. apply K.
Qed.
Lemma context_cut_ok {A} t (p : parser A) i r a : context t (cut p) i = POk r a -> p i = POk r a.
Proof. intros E. now apply context_ok, cut_ok in E. Qed.

Section Verbose.
  Variables (N m D : nat).
  (** texts of the document *)
  Definition part (i : str) : Prop := length i <= N /\ braces i <= m.
  Lemma part_suffix i j : suffix j i -> part i -> part j.
  Proof. intros S [H1 H2]. split; [apply suffix_len in S; lia|apply braces_suffix in S; lia]. Qed.

  Variables inl con nested : parser kserd.
  Variables rinl rcon rnested : str -> nat.
  Hypotheses (Oi : okl (S N) any inl) (Oc : okl (S N) any con) (On : okl N any nested).
  Hypotheses (Ri : forall i, part i -> rinl i <= D) (Rc : forall i, part i -> rcon i <= D).
  Let T := 3 * D.
  Definition nested_out (i : str) (r : pres kserd) (c : nat) : Prop :=
    match r with
    | POk j _ => c + T * (2 * length j) <= T * (2 * length i) + T
    | PErr _ => c <= D
    | _ => c <= T * (2 * length i) + T
    end.
  Hypothesis Rn : forall i, part i -> length i < N -> nested_out i (nested i) (rnested i).
  Definition field_out {A} (i : str) (r : pres A) (c : nat) : Prop :=
    match r with
    | POk j _ => c + T * (2 * length j) <= T * (2 * length i)
    | PErr _ => c <= T
    | _ => c <= T * (2 * length i) + T
    end.
  Lemma field_out_le {A} (i j : str) (r : pres A) c : length j <= length i -> field_out j r c -> field_out i r c.
  Proof. intros L. assert (T * (2 * length j) <= T * (2 * length i)) by (apply Nat.mul_le_mono_l; lia). destruct r; cbn [field_out]; lia. Qed.
  Lemma ws_part (p : str -> nat) i : (forall i, part i -> p i <= D) -> part i -> r_ignore_ws p i <= D.
  Proof.
    intros H P. unfold r_ignore_ws, opt, inline_whitespace, ptake_while. pose proof (take_while_suffix is_blank i) as S. destruct (take_while is_blank i) as [w j]. cbn [snd r_then Nat.add] in *.
    apply H. now apply (part_suffix i).
  Qed.

  Lemma kvp_part b i : part i -> r_kvp_field rinl rcon b i <= D.
  Proof.
    intros P. unfold r_kvp_field. pose proof P as [L _]. pose proof (okl_field_name (S N) i ltac:(lia)) as S1. unfold r_then. destruct (field_name i) as [i1 x|e|e| |]; cbn [sp Nat.add] in *; try lia.
    destruct S1 as [S1 _]. pose proof (suffix_len _ _ S1). pose proof (okl_ignore_ws (S N) _ _ (okl_pchar (S N) (ch "=")) i1 ltac:(lia)) as S2.
    destruct (ignore_ws (pchar (ch "=")) i1) as [i2 y|e|e| |]; cbn [sp Nat.add] in *; try lia. destruct S2 as [S2 _].
    apply ws_part; [destruct b; assumption|]. eauto using part_suffix.
  Qed.
  Lemma fail_any {A} (i : str) (r : pres A) c : (forall j a, r <> POk j a) -> c <= T -> field_out i r c.
  Proof. intros H L. destruct r as [j a|e|e| |]; cbn [field_out]; try lia. now destruct (H j a). Qed.
  Lemma nested_then {A} (j i : str) (f : str -> kserd -> pres A) x c : length j < length i -> part i -> part j -> x <= 2 * D -> c = x + rnested j ->
    (forall r v, exists a, f r v = POk r a) -> field_out i (pbind (nested j) f) c.
  Proof.
    intros L Pi P X -> F. specialize (Rn j P ltac:(destruct Pi; lia)). assert (TT : T * (2 * length j) + 2 * T <= T * (2 * length i)).
    { replace (T * (2 * length j) + 2 * T) with (T * (2 * length j + 2)) by lia. apply Nat.mul_le_mono_l. lia. }
    assert (T = 3 * D) by reflexivity. destruct (nested j) as [r v|e|e| |]; cbn [pbind nested_out field_out] in *; try lia.
    destruct (F r v) as [a ->]. cbn [field_out]. lia.
  Qed.
  Lemma context_nested {A} t (f : str -> kserd -> pres A) j i c : field_out i (pbind (nested j) f) c -> field_out i (pbind (context t nested j) f) c.
  Proof. unfold context. destruct (nested j); auto. Qed.
  Lemma line_suffix i j x : part i -> ignore_ws line_ending i = POk j x -> suffix j i.
  Proof. intros [L _] E. pose proof (okl_ignore_ws (S N) _ _ (okl_line_ending (S N)) i ltac:(lia)) as S. rewrite E in S. apply S. Qed.

  Lemma field_cost k i : part i -> field_out i (verbose_cntr_field inl con nested k i) (r_verbose_cntr_field inl con rinl rcon rnested k i).
  Proof.
    intros P. assert (TD : T = 3 * D) by reflexivity. unfold verbose_cntr_field, r_verbose_cntr_field, r_then. pose proof P as [L _].
    pose proof (sp_skip_lines (S N) (S (length i)) i ltac:(lia) ltac:(lia)) as S1. destruct (skip_lines (S (length i)) i) as [i1 x1|e|e| |]; cbn [sp pbind Nat.add] in *; try contradiction; try (cbn [field_out]; lia).
    destruct S1 as [S1 _]. apply (field_out_le _ i1); [now apply suffix_len|]. apply (part_suffix _ _ S1) in P. clear i L S1. pose proof P as [L _].
    pose proof (okl_expect_indents (S N) k i1 ltac:(lia)) as S1. destruct (expect_indents k i1) as [i2 x2|e|e| |]; cbn [sp pbind Nat.add] in *; try contradiction; try (cbn [field_out]; lia).
    destruct S1 as [S1 _]. apply (field_out_le _ i2); [now apply suffix_len|]. apply (part_suffix _ _ S1) in P. clear i1 L S1. pose proof P as [L _].
    pose proof (okl_inline_ws (S N) i2 ltac:(lia)) as S1. destruct (inline_whitespace i2) as [i x3|e|e| |]; cbn [sp pbind Nat.add] in *; try contradiction; try (cbn [field_out]; lia).
    destruct S1 as [S1 _]. apply (field_out_le _ i); [now apply suffix_len|]. apply (part_suffix _ _ S1) in P. clear i2 L S1. pose proof P as [L _].
    match goal with |- context [if ?b then _ else _] => destruct b end; [cbn [field_out]; lia|].
    destruct (starts_with (s ":") i) eqn:SC.
    { pose proof (okl_ignore_ws (S N) _ _ (okl_ident (S N) false) (tl i) ltac:(pose proof (suffix_len _ _ (suffix_tl i)); lia)) as S1.
      destruct (ignore_ws (ident false) (tl i)) as [j y|e|e| |]; cbn [sp pbind field_out] in *; try lia. destruct S1 as [S1 _]. apply suffix_len in S1. pose proof (suffix_len _ _ (suffix_tl i)).
      assert (T * (2 * length j) <= T * (2 * length i)) by (apply Nat.mul_le_mono_l; lia). lia. }
    destruct (starts_with (s "[[") i) eqn:SB.
    { set (h := preceded (tag (s "[[")) (terminated verbose_field_name_and_identity (ignore_ws (tag (s "]]"))))).
      destruct (context (s "field name. expecting 'field_name[:identity]'") (cut h) i) as [i4 [fname id]|e|e| |] eqn:E4; cbn [pbind].
      2-5: apply fail_any; [discriminate|]; unfold context, cut in E4; destruct (h i); try discriminate E4; lia.
      apply context_cut_ok in E4. rewrite E4. cbn [Nat.add]. pose proof (header_shorter (s "[[") (s "]]") _ _ _ ltac:(discriminate) E4) as L4. apply header_suffix in E4. pose proof (part_suffix _ _ E4 P) as P4.
      destruct (ignore_ws line_ending i4) as [i5 x5|e|e| |] eqn:E5; cbn [pbind]; try (apply fail_any; [discriminate|lia]). cbn [Nat.add]. apply line_suffix in E5; [|exact P4].
      pose proof (part_suffix _ _ E5 P4) as P5. apply suffix_len in E5. pose proof (ws_part rinl i5 Ri P5) as K5.
      set (kp := opt (terminated (ignore_ws (uncut inl)) (ignore_ws (pchar (ch ":"))))).
      assert (S6 : sp any i5 (kp i5)).
      { eapply sp_weak; [|apply (okl_opt (S N) any)]; [easy| |lia]. eapply okl_terminated; [apply okl_ignore_ws, okl_uncut, Oi|]. eapply okl_ignore_ws, okl_pchar. }
      destruct (kp i5) as [i6 key|e|e| |]; cbn [sp pbind] in *; try contradiction; try (apply fail_any; [discriminate|lia]). destruct S6 as [S6 _]. pose proof (part_suffix _ _ S6 P5) as P6. apply suffix_len in S6.
      destruct key as [key|].
      - pose proof (ws_part rcon i6 Rc P6) as K6. unfold r_alt2, alt2, context. pose proof (okl_ignore_ws (S N) any con Oc i6 ltac:(lia)) as S7.
        destruct (ignore_ws con i6) as [i7 v|e|e| |]; cbn [sp pbind] in *; try contradiction.
        + destruct S7 as [S7 _]. apply suffix_len in S7. cbn [field_out]. assert (T * (2 * length i7) + T <= T * (2 * length i)); [|lia]. replace (T * (2 * length i7) + T) with (T * (2 * length i7 + 1)) by lia. apply Nat.mul_le_mono_l. lia.
        + unfold preceded. destruct (ignore_ws line_ending i6) as [i8 x8|e8|e8| |] eqn:E8; cbn [pbind Nat.add].
          2-5: apply fail_any; [discriminate|lia].
          apply line_suffix in E8; [|exact P6]. pose proof (part_suffix _ _ E8 P6) as P8. apply suffix_len in E8.
          assert (G : forall c, c = r_ignore_ws rinl i5 + r_ignore_ws rcon i6 + rnested i8 -> field_out i (pbind (nested i8) (fun i v => POk i (CfMap id fname key v))) c).
          { intros c ->. apply (nested_then i8 i _ (r_ignore_ws rinl i5 + r_ignore_ws rcon i6)); auto; [lia|lia|]. eauto. }
          specialize (G _ eq_refl). destruct (nested i8) as [r8 v8|e8|e8| |]; cbn [pbind field_out] in *; lia.
        + apply fail_any; [discriminate|lia].
      - apply context_nested. apply (nested_then i6 i _ (r_ignore_ws rinl i5)); auto; [lia|lia|]. eauto. }
    destruct (starts_with (s "[") i) eqn:SS.
    { set (h := preceded (tag (s "[")) (terminated verbose_field_name_and_identity (ignore_ws (tag (s "]"))))).
      destruct (h i) as [i4 [fname id]|e|e| |] eqn:E4; cbn [pbind Nat.add]; try (apply fail_any; [discriminate|lia]).
      pose proof (header_shorter (s "[") (s "]") _ _ _ ltac:(discriminate) E4) as L4. apply header_suffix in E4. pose proof (part_suffix _ _ E4 P) as P4.
      destruct (ignore_ws line_ending i4) as [i5 x5|e|e| |] eqn:E5; cbn [pbind Nat.add]; try (apply fail_any; [discriminate|lia]). apply line_suffix in E5; [|exact P4].
      pose proof (part_suffix _ _ E5 P4) as P5. apply suffix_len in E5. apply context_nested. apply (nested_then i5 i _ 0); auto; [lia|lia|]. eauto. }
    pose proof (kvp_part false i P) as K. pose proof (okl_cut (S N) any _ (okl_kvp_field (S N) inl con Oi Oc false) i ltac:(lia)) as S1.
    destruct (cut (kvp_field inl con false) i) as [j [nm v]|e|e| |] eqn:E; cbn [sp pbind] in *; try contradiction; try (apply fail_any; [discriminate|lia]).
    destruct S1 as [S1 _]. apply cut_ok in E. assert (LT : length j < length i).
    { unfold kvp_field in E. apply context_ok in E. unfold separated_pair in E. apply bind_ok in E as (j1 & y1 & E1 & E). apply bind_ok in E as (j2 & y2 & E2 & E). apply bind_ok in E as (j3 & y3 & E3 & E). injection E as <- _ _.
      pose proof (okl_field_name (S N) i ltac:(lia)) as H1. rewrite E1 in H1. destruct H1 as [H1 _]. apply suffix_len in H1. apply blank_pchar_lt in E2.
      pose proof (okl_ignore_ws (S N) _ _ (okl_cut (S N) any con Oc) j2 ltac:(lia)) as H3. rewrite E3 in H3. destruct H3 as [H3 _]. apply suffix_len in H3. lia. }
    cbn [field_out]. assert (T * (2 * length j) + T <= T * (2 * length i)); [|lia]. replace (T * (2 * length j) + T) with (T * (2 * length j + 1)) by lia. apply Nat.mul_le_mono_l. lia.
  Qed.
End Verbose.
Lemma many_cost {A} N m D (p : parser A) rp : okl (S N) any p -> (forall i, part N m i -> field_out D i (p i) (rp i)) -> (forall i r a, p i = POk r a -> length r < length i) ->
  forall fuel acc i, part N m i ->
  match many0_loop fuel p acc i with
  | POk j _ => r_many0_loop fuel p rp i + 3 * D * (2 * length j) <= 3 * D * (2 * length i) + 3 * D
  | PErr _ => False
  | _ => r_many0_loop fuel p rp i <= 3 * D * (2 * length i) + 3 * D
  end.
Proof.
  intros O F Sh. induction fuel as [|fuel IH]; intros acc i P; cbn [many0_loop r_many0_loop]; [lia|].
  specialize (F i P). pose proof (Sh i) as Si. pose proof P as [L _]. specialize (O i ltac:(lia)). destruct (p i) as [i1 a|e|e| |]; cbn [field_out sp] in *; try lia.
  specialize (Si i1 a eq_refl). replace (Nat.eqb (length i1) (length i)) with false by (symmetry; apply Nat.eqb_neq; lia).
  destruct O as [O _]. specialize (IH (acc ++ [a]) i1 (part_suffix _ _ _ _ O P)). destruct (many0_loop fuel p (acc ++ [a]) i1); lia.
Qed.
Lemma nested_cost N m D dfuel : N < dfuel -> (forall b i, part N m i -> readings dfuel b i <= D) ->
  forall fuel k i, part N m i -> length i < fuel -> fuel <= dfuel -> nested_out D i (kserd_nested fuel dfuel k i) (r_nested fuel dfuel k i).
Proof.
  intros HN HD. induction fuel as [|fuel IH]; intros k i P L Ld; [lia|]. cbn [kserd_nested r_nested]. unfold pattern_match_verbose.
  unfold multiline_whitespace, ptake_while. destruct (take_while is_wsp i) as [w j]. cbn [pbind r_then Nat.add].
  match goal with |- context [if ?b then _ else _] => destruct b end.
  - unfold cntr_verbose, many0.
    set (p := verbose_cntr_field (kserd_inline dfuel) (kserd_concise dfuel) (kserd_nested fuel dfuel (S k)) k).
    set (rp := r_verbose_cntr_field _ _ _ _ _ k).
    assert (M := many_cost (length i) m D p rp).
    assert (Pi : part (length i) m i) by (split; [lia|apply P]).
    assert (O : okl (S (length i)) any p).
    { eapply okl_any, okl_verbose_field.
      - eapply okl_mono; [|apply okl_delimited]. lia.
      - eapply okl_mono; [|apply okl_delimited]. lia.
      - eapply okl_mono; [|apply okl_nested]; lia. }
    assert (F : forall j, part (length i) m j -> field_out D j (p j) (rp j)).
    { intros j' Pj. apply (field_cost (length i) m D); auto.
      - eapply okl_mono; [|apply delimited_any]. lia.
      - eapply okl_mono; [|apply delimited_any]. lia.
      - intros z [Z1 Z2]. apply HD. split; [|exact Z2]. destruct P. lia.
      - intros z [Z1 Z2]. apply HD. split; [|exact Z2]. destruct P. lia.
      - intros z [Z1 Z2] Lz. apply IH; [|lia|lia]. split; [|exact Z2]. destruct P. lia. }
    specialize (M O F ltac:(intros; eapply vcf_shorter; eassumption) (S (length i)) [] i Pi).
    destruct (many0_loop (S (length i)) p [] i); cbn [pbind nested_out]; lia.
  - assert (Q : r_ignore_ws (readings dfuel false) i <= D) by (apply (ws_part N m); auto).
    pose proof (okl_ignore_ws dfuel any (kserd_concise dfuel) (delimited_any dfuel false) i ltac:(destruct P; lia)) as S1.
    destruct (ignore_ws (kserd_concise dfuel) i) as [r v|e|e| |]; cbn [sp nested_out] in *; try lia. destruct S1 as [S1 _]. apply suffix_len in S1.
    assert (3 * D * (2 * length r) <= 3 * D * (2 * length i)) by (apply Nat.mul_le_mono_l; lia). lia.
Qed.
Lemma document_cost t : parse_readings t <= 3 * (2 * length t + 1) ^ 2 * 2 ^ braces t.
Proof.
  unfold parse_readings. destruct t as [|c t]; [lia|]. set (i := c :: t). set (D := (2 * length i + 1) * 2 ^ braces i).
  assert (H : nested_out D i (kserd_nested (S (length i)) (S (length i)) 0 i) (r_nested (S (length i)) (S (length i)) 0 i)).
  { apply (nested_cost (length i) (braces i)); try lia; [|split; lia]. intros b j [L B]. pose proof (delimited_cap (S (length i)) b (braces i) j ltac:(lia) B). unfold D. nia. }
  replace (3 * (2 * length i + 1) ^ 2 * 2 ^ braces i) with (3 * D * (2 * length i) + 3 * D) by (unfold D; generalize (length i), (2 ^ braces i); intros x y; cbn [Nat.pow]; nia).
  destruct (kserd_nested (S (length i)) (S (length i)) 0 i); cbn [nested_out] in H; lia.
Qed.
