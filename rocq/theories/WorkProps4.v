(** How many characters the parser looks at: verbose containers and whole documents. *)
From Verif Require Import Base F64 Number BTree Value Base91 Nom Parse ParseErr ParseSpec ParseProps ParseCost CostSpec CostProps CostProps2 CostProps3 CostProps5 SyntaxProps3 ParseWork WorkProps WorkProps2 WorkProps3.
Open Scope nat_scope.

Lemma ws_line_shorter i j x : fst (w_ignore_ws w_line_ending i) = POk j x -> length j + length (fst (take_while is_blank i)) < length i.
Proof.
  destruct (k_ignore_ws0 _ _ k_line_ending i) as [-> _]. unfold ignore_ws, opt, inline_whitespace, ptake_while. pose proof (take_while_split is_blank i) as S. destruct (take_while is_blank i) as [w k]. cbn [pbind fst snd] in *.
  intros E. apply line_ending_shorter in E. lia.
Qed.
Lemma ws_line_chars i : chars (snd (w_ignore_ws w_line_ending i)) <= length (fst (take_while is_blank i)) + 3.
Proof.
  unfold w_ignore_ws, w_opt, w_inline_whitespace, w_take_while, looking, wthrough, ptake_while, wbind, taken. destruct (take_while is_blank i) as [w k]. cbn. lia.
Qed.
Lemma c_skip_lines fuel : forall i, chars (snd (w_skip_lines fuel i)) <= 3 * length i + 3 /\ forall j a, fst (w_skip_lines fuel i) = POk j a -> length j <= length i.
Proof.
  induction fuel as [|fuel IH]; intros i; cbn [w_skip_lines]; [split; [cbn; lia|discriminate]|]. pose proof (ws_line_chars i) as C. pose proof (take_while_split is_blank i) as S.
  unfold w_opt, wthrough, wbind. cbn [fst snd]. destruct (fst (w_ignore_ws w_line_ending i)) as [j x|e|e| |] eqn:E; cbn [fst snd wadd chars free nothing].
  - apply ws_line_shorter in E. destruct (IH j) as [I1 I2]. split; [lia|]. intros k a F. specialize (I2 k a F). lia.
  - split; [lia|]. intros ? ? [= -> _]. lia.
  - split; [lia|discriminate].
  - split; [lia|discriminate].
  - split; [lia|discriminate].
Qed.
Lemma c_skip : loc 3 (fun i => w_skip_lines (S (length i)) i).
Proof. intros N i L. destruct (c_skip_lines (S (length i)) i) as [H1 H2]. split; [lia|exact H2]. Qed.
Lemma c_expect_indents n : loc 5 (w_expect_indents n).
Proof.
  assert (H : forall i, chars (snd (w_expect_indents n i)) <= 5 * length i + 5 /\ forall j a, fst (w_expect_indents n i) = POk j a -> length j <= length i).
  { induction n as [|n IH]; intros i; cbn [w_expect_indents]; [split; [cbn; lia|intros ? ? [= -> _]; lia]|].
    assert (C : chars (snd (w_alt2 (w_tag (s "    ")) (w_tag [9%N]) i)) <= 5).
    { unfold w_alt2, w_or, w_alt_error, wthrough, w_tag, looking, free. cbn [fst snd]. destruct (tag (s "    ") i); cbn; lia. }
    assert (S : forall j a, fst (w_alt2 (w_tag (s "    ")) (w_tag [9%N]) i) = POk j a -> length j < length i).
    { intros j a. destruct (k_alt20 _ _ _ _ (k_tag (s "    ")) (k_tag [9%N]) i) as [-> _]. unfold alt2. destruct (tag (s "    ") i) as [j1 a1|e|e| |] eqn:E; try discriminate.
      - intros [= <- _]. now apply tag_lt in E.
      - destruct (tag [9%N] i) as [j2 a2|e2|e2| |] eqn:E2; try discriminate. intros [= <- _]. now apply tag_lt in E2. }
    unfold wbind. destruct (fst (w_alt2 (w_tag (s "    ")) (w_tag [9%N]) i)) as [j a|e|e| |]; cbn [fst snd]; try (split; [lia|discriminate]).
    specialize (S j a eq_refl). destruct (IH j) as [I1 I2]. cbn [wadd chars]. split; [lia|]. intros k b F. specialize (I2 k b F). lia. }
  intros N i L. destruct (H i) as [H1 H2]. split; [lia|exact H2].
Qed.
Lemma c_verbose_name : loc 10 w_verbose_name.
Proof.
  unfold w_verbose_name. apply c_context. intros N i L. apply (lo_bind N 2 8); [apply (c_ignore_ws 1); [apply c_field_name|exact L]|]. intros j x _ Lj. apply (lo_bind N 2 6).
  - apply lo_through; [apply (c_ignore_ws 1); [apply c_char|lia]|]. intros k b. destruct (fst (w_ignore_ws (w_char (ch ":")) j)) eqn:E; intros [= <- _]; eauto.
  - intros k [|] _ Lk; [|apply (lo_le N 0); [lia|]; apply lo_free; intros ? ? [= -> _]; lia]. apply (lo_bind N 6 0); [apply (c_ignore_ws 5); [apply c_ident|lia]|]. intros m y _ Lm. apply lo_free. intros ? ? [= -> _]. lia.
Qed.
Lemma c_header a b : loc (length a + (10 + (1 + length b + 0))) (w_preceded (w_tag a) (w_terminated w_verbose_name (w_ignore_ws (w_tag b)))).
Proof. apply c_preceded; [apply c_tag|]. apply c_terminated; [apply c_verbose_name|]. apply c_ignore_ws, c_tag. Qed.

Definition within (N : nat) (i : str) : Prop := length i <= N.
Lemma within_suffix N i j : suffix j i -> within N i -> within N j.
Proof. unfold within. intros S H. apply suffix_len in S. lia. Qed.
(** the characters which were looked at beyond those paid for by the values which were read *)
Definition ex (N : nat) (w : work) : Z := (Z.of_nat (chars w) - Z.of_nat (pay N (values w)))%Z.
Lemma ex_add N x y : ex N (wadd x y) = (ex N x + ex N y)%Z.
Proof. unfold ex. cbn [wadd chars values]. rewrite pay_add. lia. Qed.
Definition bd {A} (N b : nat) (x : wpres A) : Prop := (ex N (snd x) <= Z.of_nat b)%Z.
Lemma bd_le {A} N b c (x : wpres A) : b <= c -> bd N b x -> bd N c x.
Proof. unfold bd. lia. Qed.
Lemma bd_bind {A B} N b c (x : wpres A) (f : str -> A -> wpres B) : bd N b x -> (forall j a, fst x = POk j a -> bd N c (f j a)) -> bd N (b + c) (wbind x f).
Proof.
  intros H F. unfold bd, wbind in *. destruct (fst x) as [j a|e|e| |] eqn:E; cbn [snd]; try lia. specialize (F j a eq_refl). rewrite ex_add. lia.
Qed.
Lemma bd_lo {A} N c i (x : wpres A) : lo N c i x -> bd N (c * S N) x.
Proof. intros [H _]. unfold bd, ex. lia. Qed.
Lemma ex_nothing N : ex N nothing = 0%Z.
Proof. unfold ex, pay. cbn [nothing chars values]. lia. Qed.
Lemma bd_free {A} N b (r : pres A) : bd N b (free r).
Proof. unfold bd. cbn [free snd]. rewrite ex_nothing. lia. Qed.
Lemma ex_chars N n : ex N (Work 0 n) = Z.of_nat n.
Proof. unfold ex, pay. cbn [chars values]. lia. Qed.
Lemma rest_suffix {A} n (P : A -> Prop) (w : wparser A) p r i j a : tracks w p r -> okl n P p -> length i < n -> fst (w i) = POk j a -> suffix j i.
Proof. intros K O L E. destruct (K i) as [K1 _]. rewrite K1 in E. specialize (O i L). rewrite E in O. apply O. Qed.

Section Verbose.
  Variables (N : nat).
  Variables winl wcon wnested : wparser kserd.
  Variables (inl : parser kserd) (rinl : str -> nat).
  Hypotheses (Ki : tracks winl inl rinl) (Oi : okl (S N) any inl).
  Definition bounded (w : wparser kserd) : Prop := forall i, within N i -> bd N 0 (w i).
  Hypotheses (Hi : bounded winl) (Hc : bounded wcon).
  Lemma bd_ws (w : wparser kserd) i : bounded w -> within N i -> bd N (1 * S N + 0) (w_ignore_ws w i).
  Proof.
    intros H P. unfold w_ignore_ws. apply bd_bind; [apply (bd_lo N 1 i), (c_opt 1 _ c_inline_ws), P|]. intros j a E. apply H, (within_suffix N i j); [|exact P].
    refine (rest_suffix (S N) any _ _ _ _ _ _ (silent_k _ _ (k_opt0 _ _ k_inline_ws)) (okl_any _ _ _ (okl_opt (S N) _ _ (okl_inline_ws (S N)))) _ E). unfold within in P. lia.
  Qed.
  Lemma step {A} (Q : A -> Prop) (w : wparser A) p r i j a : tracks w p r -> okl (S N) Q p -> within N i -> fst (w i) = POk j a -> within N j /\ length j <= length i.
  Proof. intros K O P E. pose proof (rest_suffix (S N) Q w p r i j a K O ltac:(unfold within in P; lia) E) as S. split; [now apply (within_suffix N i)|now apply suffix_len]. Qed.

  (** a bounded number of looks, and perhaps the work of one nested container *)
  Definition hands {A} (c : nat) (i0 : str) (x : wpres A) : Prop :=
    bd N c x \/
    exists j, within N j /\ length j < length i0 /\ (ex N (snd x) <= Z.of_nat c + ex N (snd (wnested j)))%Z /\
      (forall r a, fst x = POk r a -> exists v, fst (wnested j) = POk r v) /\ (forall e, fst x = PErr e -> exists e', fst (wnested j) = PErr e').
  Lemma h_le {A} c d i0 (x : wpres A) : c <= d -> hands c i0 x -> hands d i0 x.
  Proof. intros L [H|(j & H0 & H1 & H2 & H3)]; [left; unfold bd in *; lia|right]. exists j. split; [exact H0|]. split; [exact H1|]. split; [lia|exact H3]. Qed.
  Lemma h_bind {A B} b c i0 (x : wpres A) (f : str -> A -> wpres B) : bd N b x -> (forall j a, fst x = POk j a -> hands c i0 (f j a)) -> hands (b + c) i0 (wbind x f).
  Proof.
    intros H F. unfold hands, bd, wbind in *. destruct (fst x) as [j a|e|e| |] eqn:E; try (left; cbn [snd]; lia). destruct (F j a eq_refl) as [K|(n & K0 & K1 & K2 & K3)]; [left; cbn [snd]; rewrite ex_add; lia|].
    right. exists n. split; [exact K0|]. split; [exact K1|]. split; [cbn [snd]; rewrite ex_add; lia|exact K3].
  Qed.
  Lemma h_lo {A B} l c i i0 (x : wpres A) (f : str -> A -> wpres B) : lo N l i x -> (forall j a, fst x = POk j a -> hands c i0 (f j a)) -> hands (l * S N + c) i0 (wbind x f).
  Proof. intros H F. apply h_bind; [now apply (bd_lo N l i)|exact F]. Qed.
  Lemma h_free {A} c i0 (r : pres A) : hands c i0 (free r).
  Proof. left. apply bd_free. Qed.
  Lemma h_looking {A} n c i0 (x : wpres A) : hands c i0 x -> hands (n + c) i0 (looking n x).
  Proof.
    unfold hands, bd, looking. intros [H|(j & H0 & H1 & H2 & H3)]; [left; cbn [snd]; rewrite ex_add, ex_chars; lia|right]. exists j. split; [exact H0|]. split; [exact H1|]. split; [cbn [snd]; rewrite ex_add, ex_chars; lia|exact H3].
  Qed.
  Lemma h_nested {A} t i0 j (f : str -> kserd -> A) : within N j -> length j < length i0 -> hands 0 i0 (let! (i, v) := w_context t wnested j in free (POk i (f i v))).
  Proof.
    intros P L. right. exists j. split; [exact P|]. split; [exact L|]. unfold wbind, w_context, wthrough. cbn [fst snd]. destruct (fst (wnested j)) as [r v|e|e| |]; cbn [fst snd free];
      (split; [rewrite ?ex_add, ?ex_nothing; lia|]; split; intros; try discriminate; eauto). injection H as <- _. eauto.
  Qed.
  Lemma ended_line i j x : within N i -> fst (w_ignore_ws w_line_ending i) = POk j x -> within N j /\ length j <= length i.
  Proof. apply (step any _ (ignore_ws line_ending) (fun _ => 0)); [exact (silent_k _ _ (k_ignore_ws0 _ _ k_line_ending))|]. exact (okl_any _ _ _ (okl_ignore_ws (S N) _ _ (okl_line_ending (S N)))). Qed.
  Lemma header_step a b i j x : within N i -> a <> [] -> fst (w_preceded (w_tag a) (w_terminated w_verbose_name (w_ignore_ws (w_tag b))) i) = POk j x -> within N j /\ length j < length i.
  Proof.
    intros P Ha. destruct (k_preceded0 _ _ _ _ (k_tag a) (k_terminated0 _ _ _ _ k_verbose_name (k_ignore_ws0 _ _ (k_tag b))) i) as [-> _]. intros E. split; [apply header_suffix in E; now apply (within_suffix N i)|now apply header_shorter in E].
  Qed.
  Lemma field_hands n i0 : within N i0 -> hands (41 * S N) i0 (w_field winl wcon wnested n i0).
  Proof.
    intros P0. apply (h_le (3 * S N + (5 * S N + (1 * S N + (3 * S N + (4 + 25 * S N)))))); [lia|]. unfold w_field. apply (h_lo 3 _ i0); [apply c_skip, P0|]. intros i1 x1 E1.
    destruct (k_skip_lines (S (length i0)) i0) as [K1 _]. rewrite K1 in E1. pose proof (sp_skip_lines (S N) (S (length i0)) i0 ltac:(unfold within in P0; lia) ltac:(lia)) as S1. rewrite E1 in S1. destruct S1 as [S1 _]. pose proof (within_suffix N _ _ S1 P0) as P1. apply suffix_len in S1. clear K1 E1.
    apply (h_lo 5 _ i1); [apply c_expect_indents, P1|]. intros i2 x2 E2. destruct (step any _ _ _ _ _ _ (silent_k _ _ (k_expect_indents n)) (okl_any _ _ _ (okl_expect_indents (S N) n)) P1 E2) as [P2 L2]. clear E2.
    apply (h_lo 1 _ i2); [apply c_inline_ws, P2|]. intros i3 x3 E3. destruct (step any _ _ _ _ _ _ (silent_k _ _ k_inline_ws) (okl_any _ _ _ (okl_inline_ws (S N))) P2 E3) as [P3 L3]. clear E3.
    cbv zeta. pose proof (bd_lo _ _ _ _ (c_ignore_ws 2 _ c_line_ending N i3 P3)) as E1. apply h_bind; [unfold bd; cbn [snd]; exact E1|]. cbn [fst]. intros i4 ended [= -> _]. rename i4 into i. rename P3 into P.
    assert (Li : length i <= length i0) by lia. clear S1 P1 P2 L2 L3 E1. destruct ended; [apply h_free|]. apply h_looking. assert (LN : length i <= N) by exact P.
    destruct (starts_with (s ":") i).
    { apply (h_le (6 * S N + 0)); [lia|]. assert (Lt : length (tl i) <= length i) by (destruct i; cbn [tl length]; lia). apply (h_lo 6 _ (tl i)); [apply (c_ignore_ws 5); [apply c_ident|lia]|]. intros. apply h_free. }
    destruct (starts_with (s "[[") i).
    { apply (h_le (15 * S N + (3 * S N + (3 * S N + 4 * S N)))); [lia|].
      apply (h_lo 15 _ i); [apply c_context; [|lia]; apply c_cut; exact (c_header (s "[[") (s "]]"))|]. intros i4 [fname id] E4.
      assert (S4 : within N i4 /\ length i4 < length i).
      { apply (header_step (s "[[") (s "]]") i i4 (fname, id) P); [discriminate|]. unfold w_context, w_cut, wthrough in E4. cbn [fst] in E4. destruct (fst (w_preceded (w_tag (s "[[")) (w_terminated w_verbose_name (w_ignore_ws (w_tag (s "]]")))) i)); try discriminate E4. exact E4. }
      destruct S4 as [P4 L4]. clear E4. apply (h_lo 3 _ i4); [apply (c_ignore_ws 2); [apply c_line_ending|apply P4]|]. intros i5 x5 E5. apply ended_line in E5; [|exact P4]. destruct E5 as [P5 L5].
      apply h_bind.
      { unfold w_opt, wthrough. apply (bd_le _ ((1 * S N + 0) + (2 * S N + 0))); [lia|]. unfold bd. cbn [snd]. unfold w_terminated. apply bd_bind.
        - apply (bd_ws (w_uncut winl)); [|exact P5]. intros j Lj. apply Hi, Lj.
        - intros j x Ej. assert (Pj : within N j /\ length j <= length i5) by (eapply (step any); [apply k_ignore_ws, k_uncut, Ki| |exact P5|exact Ej]; eapply okl_any, okl_ignore_ws, okl_uncut, Oi).
          destruct Pj as [Pj _]. apply bd_bind; [apply (bd_lo N 2 j), (c_ignore_ws 1 _ (c_char _)), Pj|]. intros. apply bd_free. }
      intros i6 key E6. assert (P6 : within N i6 /\ length i6 <= length i5).
      { refine (step any _ _ _ _ _ _ (k_opt _ _ _ (k_terminated _ _ _ _ _ (k_ignore_ws _ _ _ (k_uncut _ _ _ Ki)) (k_ignore_ws0 _ _ (k_char (ch ":"))))) _ P5 E6).
        eapply okl_any, okl_opt, okl_terminated; [apply okl_ignore_ws, okl_uncut, Oi|]. eapply okl_ignore_ws, okl_pchar. }
      clear E6. destruct P6 as [P6 L6]. destruct key as [key|].
      - (* an entry of a map *)
        pose proof (bd_ws wcon i6 Hc P6) as CN. unfold bd in CN. unfold w_context, w_alt2, w_or. destruct (fst (w_ignore_ws wcon i6)) as [r v|e|e| |] eqn:EC.
        2: { assert (Q : hands (3 * S N) i0 (w_preceded (w_ignore_ws w_line_ending) wnested i6)).
          { unfold w_preceded. apply (h_le (3 * S N + 0)); [lia|]. apply (h_lo 3 _ i6); [apply (c_ignore_ws 2); [apply c_line_ending|apply P6]|]. intros i8 x8 E8. apply ended_line in E8; [|exact P6]. destruct E8 as [P8 L8].
            right. exists i8. split; [exact P8|]. split; [lia|]. split; [lia|]. eauto. }
          unfold w_alt_error, wthrough. cbn [fst snd]. destruct Q as [Q|(n8 & Q0 & Q1 & Q2 & Q3 & Q4)].
          { left. unfold bd, wbind in *. cbn [fst snd]. destruct (fst (w_preceded (w_ignore_ws w_line_ending) wnested i6)); cbn [fst snd free]; rewrite ?ex_add, ?ex_nothing; lia. }
          right. exists n8. split; [exact Q0|]. split; [exact Q1|]. unfold wbind. cbn [fst snd]. destruct (fst (w_preceded (w_ignore_ws w_line_ending) wnested i6)) as [r v|e9|e9| |]; cbn [fst snd free]; (split; [rewrite ?ex_add, ?ex_nothing; lia|]; split; intros; try discriminate; eauto).
          injection H as <- _. eauto. }
        all: left; unfold bd, wbind, wthrough; rewrite ?EC; cbn [fst snd free]; rewrite ?EC; cbn [fst snd free]; rewrite ?ex_add, ?ex_nothing; lia.
      - apply (h_le 0); [lia|]. apply (h_nested _ _ _ (fun _ v => CfSeq id fname v)); [exact P6|lia]. }
    destruct (starts_with (s "[") i).
    { apply (h_le (13 * S N + (3 * S N + 0))); [lia|]. apply (h_lo 13 _ i); [exact (c_header (s "[") (s "]") N i ltac:(lia))|]. intros i4 [fname id] E4. apply header_step in E4; [|exact P|discriminate]. destruct E4 as [P4 L4].
      apply (h_lo 3 _ i4); [apply (c_ignore_ws 2); [apply c_line_ending|apply P4]|]. intros i5 x5 E5. apply ended_line in E5; [|exact P4]. destruct E5 as [P5 L5].
      apply (h_nested _ _ _ (fun _ v => CfNested fname (Kserd (match kid v with Some x => Some x | None => id end) (kval v)))); [exact P5|lia]. }
    apply (h_le (4 * S N + 0)); [lia|]. apply h_bind; [|intros j [nm v] _; apply h_free].
    apply (bd_le _ (1 * S N + (2 * S N + ((1 * S N + 0) + 0)))); [lia|]. unfold bd, w_cut, w_kvp_field, w_context, w_separated_pair, wthrough. cbn [snd].
    apply bd_bind; [apply (bd_lo N 1 i), c_field_name, P|]. intros j1 y1 E1. apply (step any _ _ _ _ _ _ (silent_k _ _ k_field_name) (okl_any _ _ _ (okl_field_name (S N))) P) in E1. destruct E1 as [P1 _].
    apply bd_bind; [apply (bd_lo N 2 j1), (c_ignore_ws 1 _ (c_char _)), P1|]. intros j2 y2 E2. apply (step any _ _ _ _ _ _ (silent_k _ _ (k_ignore_ws0 _ _ (k_char (ch "=")))) (okl_any _ _ _ (okl_ignore_ws (S N) _ _ (okl_pchar (S N) (ch "=")))) P1) in E2. destruct E2 as [P2 _].
    apply bd_bind; [|intros; apply bd_free]. apply (bd_ws (w_cut wcon)); [|exact P2]. intros j Lj. apply Hc, Lj.
  Qed.
End Verbose.

(** ** loops over fields *)
Section Totals.
  Variables (N : nat).
  Let D : Z := Z.of_nat (41 * S N).
  Definition T : Z := (3 * Z.of_nat (41 * S N))%Z.
  Definition upto (i : str) : Z := (T * (2 * Z.of_nat (length i)))%Z.
  Definition nout (i : str) (x : wpres kserd) : Prop :=
    match fst x with
    | POk j _ => (ex N (snd x) + upto j <= upto i + T)%Z
    | PErr _ => (ex N (snd x) <= D)%Z
    | _ => (ex N (snd x) <= upto i + T)%Z
    end.
  Definition fout {A} (i : str) (x : wpres A) : Prop :=
    match fst x with
    | POk j _ => (ex N (snd x) + upto j <= upto i)%Z
    | PErr _ => (ex N (snd x) <= 2 * D)%Z
    | _ => (ex N (snd x) <= upto i + 2 * D)%Z
    end.
  Lemma T_lt (j i : str) : length j < length i -> (upto j + 2 * T <= upto i)%Z.
  Proof. intros L. unfold upto. assert (0 <= T)%Z by (unfold T; lia). nia. Qed.
  Lemma T_le (j i : str) : length j <= length i -> (upto j <= upto i)%Z.
  Proof. intros L. unfold upto. assert (0 <= T)%Z by (unfold T; lia). nia. Qed.
  Lemma upto_pos i : (0 <= upto i)%Z.
  Proof. unfold upto, T. lia. Qed.
  Lemma hands_out {A} wnested i (x : wpres A) : hands N wnested (41 * S N) i x -> (forall r a, fst x = POk r a -> length r < length i) -> (forall j, within N j -> length j < length i -> nout j (wnested j)) -> fout i x.
  Proof.
    assert (TD : T = (3 * D)%Z) by reflexivity. assert (D0 : (0 <= D)%Z) by (unfold D; lia). intros H Sh R. unfold fout. unfold hands, bd in H. fold D in H. pose proof (upto_pos i). destruct H as [H|(j & P & L & H1 & H2 & H3)].
    - destruct (fst x) as [r a|e|e| |]; try lia. specialize (Sh r a eq_refl). apply T_lt in Sh. lia.
    - specialize (R j P L). pose proof (upto_pos j). apply T_lt in L. unfold nout in R. destruct (fst x) as [r a|e|e| |].
      + destruct (H2 r a eq_refl) as [v E]. rewrite E in R. lia.
      + destruct (H3 e eq_refl) as [e' E]. rewrite E in R. lia.
      + destruct (fst (wnested j)) as [r v| | | |]; try lia. pose proof (upto_pos r). lia.
      + destruct (fst (wnested j)) as [r v| | | |]; try lia. pose proof (upto_pos r). lia.
      + destruct (fst (wnested j)) as [r v| | | |]; try lia. pose proof (upto_pos r). lia.
  Qed.
  Lemma many_chars {A} M (w : wparser A) : (forall i, within M i -> fout i (w i)) -> (forall i r a, within M i -> fst (w i) = POk r a -> length r < length i) ->
    forall fuel acc i, within M i ->
    match fst (w_many0_loop fuel w acc i) with
    | POk j _ => (ex N (snd (w_many0_loop fuel w acc i)) + upto j <= upto i + 2 * D)%Z
    | PErr _ => False
    | _ => (ex N (snd (w_many0_loop fuel w acc i)) <= upto i + 2 * D)%Z
    end.
  Proof.
    assert (D0 : (0 <= D)%Z) by (unfold D; lia). intros F Sh. induction fuel as [|fuel IH]; intros acc i P; cbn [w_many0_loop]; pose proof (upto_pos i); [cbn [fst snd free]; rewrite ex_nothing; lia|]. specialize (F i P). specialize (Sh i). unfold fout in F.
    destruct (fst (w i)) as [i1 a|e|e| |]; cbn [fst snd]; try lia. pose proof (Sh i1 a P eq_refl) as L. assert (P1 : within M i1) by (unfold within in *; lia). replace (Nat.eqb (length i1) (length i)) with false by (symmetry; apply Nat.eqb_neq; lia).
    specialize (IH (acc ++ [a]) i1 P1). cbn [fst snd]. rewrite ex_add. destruct (fst (w_many0_loop fuel w (acc ++ [a]) i1)); lia.
  Qed.
End Totals.
Lemma delimited_bd N dfuel b i : within N i -> bd N 0 (w_delimited dfuel b i).
Proof.
  intros P. unfold bd, ex. pose proof (delimited_chars dfuel b i) as H. destruct (k_delimited dfuel b i) as [_ K]. rewrite K. unfold within in P.
  assert (L : 72 * (S (length i) * readings dfuel b i) <= pay N (readings dfuel b i)) by (unfold pay, WorkProps3.K; apply Nat.mul_le_mono_l, Nat.mul_le_mono_r; lia). lia.
Qed.
Lemma nested_chars N dfuel : N < dfuel -> forall fuel k i, within N i -> length i < fuel -> fuel <= dfuel -> nout N i (w_nested fuel dfuel k i).
Proof.
  intros HN. induction fuel as [|fuel IH]; intros k i0 P0 L0 Ld; [lia|]. cbn [w_nested]. pose proof (bd_lo _ _ _ _ (c_verbose_pattern N i0 P0)) as C. unfold bd in C. pose proof (upto_pos N i0) as U0.
  destruct (fst (w_pattern_match_verbose i0)) as [i b|e|e| |] eqn:E; unfold wbind; rewrite E; try (unfold nout, T; cbn [fst snd]; lia).
  assert (EI : i = i0).
  { destruct (k_verbose_pattern i0) as [K _]. rewrite K in E. unfold pattern_match_verbose, multiline_whitespace, ptake_while in E. destruct (take_while is_wsp i0). cbn [pbind] in E. now injection E. }
  subst i. clear E. rename i0 into i. rename P0 into P. destruct b.
  - set (p := w_field (w_delimited dfuel true) (w_delimited dfuel false) (w_nested fuel dfuel (S k)) k).
    assert (Tp : tracks p _ _) by (apply k_field; [apply k_delimited|apply k_delimited|apply k_nested]).
    assert (Sh : forall j r a, fst (p j) = POk r a -> length r < length j). { intros j r a E. destruct (Tp j) as [K _]. rewrite K in E. eapply vcf_shorter; exact E. }
    assert (F : forall j, within (length i) j -> fout N j (p j)).
    { intros j Pj. unfold within in P, Pj. apply (hands_out N (w_nested fuel dfuel (S k))).
      - apply (field_hands N _ _ _ (kserd_delimited dfuel true) (readings dfuel true)); try apply k_delimited; try (intros z Z; now apply delimited_bd); [|unfold within; lia].
        eapply okl_mono; [|apply delimited_any]. lia.
      - intros r a. apply Sh.
      - intros z Z Lz. apply IH; [exact Z| |]; lia. }
    pose proof (many_chars N (length i) p F ltac:(intros j r a _; apply Sh) (S (length i)) [] i ltac:(unfold within; lia)) as M.
    unfold w_verbose, w_many0. fold p. unfold nout, wbind, T. cbn [fst snd]. destruct (fst (w_many0_loop (S (length i)) p [] i)) as [j l|e|e| |]; cbn [fst snd free]; rewrite ?ex_add, ?ex_nothing; try lia.
  - pose proof (bd_ws N (w_delimited dfuel false) i ltac:(intros z Z; now apply delimited_bd) P) as Q. unfold bd in Q. unfold nout, T. cbn [fst snd]. rewrite ex_add.
    destruct (fst (w_ignore_ws (w_delimited dfuel false) i)) as [r v|e|e| |] eqn:E; try lia.
    assert (S1 : suffix r i) by (refine (rest_suffix dfuel any _ _ _ _ _ _ (k_ignore_ws _ _ _ (k_delimited dfuel false)) (okl_ignore_ws dfuel any _ (delimited_any dfuel false)) _ E); unfold within in P; lia).
    apply suffix_len in S1. apply (T_le N) in S1. lia.
Qed.

(** ** whole documents *)
Theorem chars_by_values t : chars (snd (parse_counting t)) <= 72 * (S (length t) * values (snd (parse_counting t))) + 124 * (S (length t) * (2 * length t + 1)).
Proof.
  unfold parse_counting. cbn [snd]. destruct t as [|c t]; [cbn; lia|]. set (i := c :: t). change (w_root i) with (w_all_consuming (w_terminated (w_nested (S (length i)) (S (length i)) 0) w_multiline_whitespace) i).
  set (n := length i). assert (H : (ex n (snd (w_all_consuming (w_terminated (w_nested (S n) (S n) 0) w_multiline_whitespace) i)) <= 124 * (Z.of_nat (S n) * (2 * Z.of_nat n + 1)))%Z).
  { pose proof (nested_chars n (S n) ltac:(lia) (S n) 0 i ltac:(unfold within; lia) ltac:(lia) ltac:(lia)) as H. unfold nout, upto, T in H. fold n in H.
    assert (H1 : forall j x, fst (w_nested (S n) (S n) 0 i) = POk j x -> bd n (1 * S n) (w_multiline_whitespace j)).
    { intros j x E. apply (bd_lo n 1 j), c_multi_ws. enough (S : suffix j i) by (apply suffix_len in S; exact S).
      refine (rest_suffix (S n) any _ _ _ _ _ _ (k_nested (S n) (S n) 0) (okl_any _ _ _ (okl_nested (S n) (S n) (le_n _) 0)) _ E). lia. }
    unfold w_all_consuming, w_terminated, wbind. destruct (fst (w_nested (S n) (S n) 0 i)) as [j x|e|e| |] eqn:E; cbn [fst snd]; try lia.
    specialize (H1 j x eq_refl). unfold bd in H1. destruct (fst (w_multiline_whitespace j)) as [j2 x2|e|e| |]; cbn [fst snd free]; rewrite ?ex_add, ?ex_nothing; lia. }
  unfold ex, pay, K in H. lia.
Qed.
Theorem chars_any t : chars (snd (parse_counting t)) <= 340 * (S (length t) * (2 * length t + 1) ^ 2 * 2 ^ braces t).
Proof.
  pose proof (chars_by_values t) as H. rewrite counting_readings in H. pose proof (document_cost t) as V. assert (P : 1 <= 2 ^ braces t) by (pose proof (Nat.pow_nonzero 2 (braces t)); lia).
  generalize dependent (2 ^ braces t). generalize dependent (parse_readings t). generalize dependent (chars (snd (parse_counting t))). generalize (length t). intros n c v H p V P.
  set (q := S n * (2 * n + 1) ^ 2). assert (H1 : S n * v <= 3 * (q * p)).
  { unfold q. replace (3 * (S n * (2 * n + 1) ^ 2 * p)) with (S n * (3 * (2 * n + 1) ^ 2 * p)) by (generalize ((2 * n + 1) ^ 2); intros; lia). apply Nat.mul_le_mono_l. exact V. }
  assert (H2 : S n * (2 * n + 1) <= q * 1) by (unfold q; rewrite Nat.mul_1_r; apply Nat.mul_le_mono_l; cbn [Nat.pow]; nia).
  assert (H3 : q * 1 <= q * p) by (apply Nat.mul_le_mono_l; lia). lia.
Qed.
Lemma quadratic t : values (snd (parse_counting t)) <= 2 * length t -> chars (snd (parse_counting t)) <= 400 * S (length t) ^ 2.
Proof.
  intros V. pose proof (chars_by_values t) as H. assert (H1 : S (length t) * values (snd (parse_counting t)) <= S (length t) * (2 * length t)) by now apply Nat.mul_le_mono_l.
  generalize dependent (S (length t) * values (snd (parse_counting t))). generalize (length t). intros n x H H1. cbn [Nat.pow]. nia.
Qed.
Theorem chars_accepted t v : parse t = ParseOk v -> ~ doubled t -> chars (snd (parse_counting t)) <= 400 * S (length t) ^ 2.
Proof. intros E Dt. apply quadratic. rewrite counting_readings. eapply accepted_plain; eassumption. Qed.
Theorem chars_delimited t v : parse t = ParseOk v -> (forall m, kval v <> VCntr m) -> chars (snd (parse_counting t)) <= 400 * S (length t) ^ 2.
Proof. intros E Dt. apply quadratic. rewrite counting_readings. apply Nat.lt_le_incl. eapply accepted_delimited; eassumption. Qed.
