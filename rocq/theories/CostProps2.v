(** How much work the parser does: opening braces, and rejected texts. *)
From Verif Require Import Base F64 Number BTree Value Nom Parse ParseSpec ParseProps ParseCost CostSpec CostProps.
Open Scope nat_scope.

(** ** opening braces which are never closed *)
(** a semicolon, or the end of the text *)
Definition junk (z : str) : Prop := match z with [] => True | c :: _ => c = ch ";" end.
Definition opened (n : nat) (z : str) : str := repeat (ch "{") n ++ z.
Lemma open_pattern i : pattern_match_delimited (ch "{" :: i) = POk (ch "{" :: i) NpMap.
Proof. reflexivity. Qed.
Lemma open_concise n z : junk z -> recognise_concise (opened n z) = false.
Proof. destruct n; [|reflexivity]. destruct z; [reflexivity|]. now intros ->. Qed.
Lemma open_ws {A} (p : parser A) n z : junk z -> ignore_ws p (opened n z) = p (opened n z).
Proof. destruct n; [|reflexivity]. destruct z; [reflexivity|]. now intros ->. Qed.
Lemma open_r_ws p n z : junk z -> r_ignore_ws p (opened n z) = p (opened n z).
Proof. destruct n; [|reflexivity]. destruct z; [reflexivity|]. now intros ->. Qed.
Lemma junk_body inl con rinl rcon b z : junk z -> (exists e, delimited_body inl con b z = PErr e) /\ r_body inl con rinl rcon b z = 0.
Proof. destruct z as [|c z]; [intros _|cbn [junk]; intros ->]; (split; [eexists; reflexivity|reflexivity]). Qed.
Lemma open_braces fuel z : junk z -> forall n b, n < fuel ->
  (exists e, kserd_delimited fuel b (opened n z) = PErr e) /\ readings fuel b (opened n z) = 2 ^ S n - 1.
Proof.
  intros J. induction fuel as [|fuel IH]; intros n b L; [lia|]. destruct n as [|n].
  - change (opened 0 z) with z. cbn [kserd_delimited readings].
    destruct (junk_body (kserd_delimited fuel true) (kserd_delimited fuel false) (readings fuel true) (readings fuel false) b z J) as [E ->]. split; [exact E|reflexivity].
  - change (opened (S n) z) with (ch "{" :: opened n z). cbn [kserd_delimited readings]. unfold delimited_body, r_body. rewrite open_pattern. cbn [pbind r_then Nat.add].
    unfold map_delimited, r_map. change (opt (ident false) (ch "{" :: opened n z)) with (POk (ch "{" :: opened n z) (@None str)). cbn [pbind r_then Nat.add].
    change (ignore_ws (pchar (ch "{")) (ch "{" :: opened n z)) with (POk (opened n z) (ch "{")). cbn [pbind r_then Nat.add]. rewrite open_concise by exact J. cbn [andb].
    destruct (IH n false ltac:(lia)) as [[e1 E1] R1], (IH n true ltac:(lia)) as [[e2 E2] R2].
    assert (K : exists e, kvp_kserd (kserd_delimited fuel true) (kserd_delimited fuel false) true (opened n z) = PErr e).
    { unfold kvp_kserd, context, separated_pair, alt2. rewrite E1, E2. cbn [pbind]. eauto. }
    destruct K as [e3 K]. unfold inline_map_kserds, terminated, context, separated_list0. rewrite open_ws, K by exact J. cbn [pbind]. rewrite open_ws by exact J.
    assert (C : exists e, pchar (ch "}") (opened n z) = PErr e).
    { destruct n; [|eexists; reflexivity]. destruct z as [|c z]; [eexists; reflexivity|]. cbn [junk] in J. subst c. eexists; reflexivity. }
    destruct C as [e4 C]. rewrite C. cbn [pbind]. split; [eauto|].
    unfold r_inline_map, r_separated_list0. rewrite open_ws, K, open_r_ws by exact J. unfold r_kvp_kserd, r_alt2, alt2. rewrite E1, E2, R1, R2. unfold r_then.
    change (2 ^ S (S n)) with (2 * 2 ^ S n). pose proof (Nat.pow_nonzero 2 (S n) ltac:(lia)). lia.
Qed.
Lemma opened_nil n : opened n [] = repeat (ch "{") n.
Proof. unfold opened. now rewrite app_nil_r. Qed.
Lemma braces_exponential n : parse_readings (repeat (ch "{") (S n)) = 2 ^ S (S n) - 1.
Proof.
  unfold parse_readings. cbn [repeat]. cbn [r_nested].
  change (pattern_match_verbose (ch "{" :: repeat (ch "{") n)) with (POk (ch "{" :: repeat (ch "{") n) false). cbn [r_then Nat.add].
  change (ch "{" :: repeat (ch "{") n) with (repeat (ch "{") (S n)). rewrite <- opened_nil, open_r_ws by exact I. apply open_braces; [exact I|]. rewrite opened_nil, repeat_length. lia.
Qed.

(** ** any delimited text *)
Lemma braces_app a b : braces (a ++ b) = braces a + braces b.
Proof. unfold braces. now rewrite filter_app, app_length. Qed.
Lemma braces_suffix a b : suffix a b -> braces a <= braces b.
Proof. intros [p ->]. rewrite braces_app. lia. Qed.
(** at most so many readings for each character *)
Definition cap (n m k : nat) (rp : str -> nat) : Prop := forall i, length i < n -> braces i <= m -> rp i <= (2 * length i + 1) * k.

Lemma cap_ignore_ws n m k rp : cap n m k rp -> cap n m k (r_ignore_ws rp).
Proof.
  intros H i L B. unfold r_ignore_ws, opt, inline_whitespace, ptake_while. pose proof (take_while_suffix is_blank i) as S.
  destruct (take_while is_blank i) as [w j]. cbn [snd] in S. cbn [r_then Nat.add]. pose proof (suffix_len _ _ S). apply braces_suffix in S.
  specialize (H j ltac:(lia) ltac:(lia)). nia.
Qed.
Lemma cap_loop {A X} n m k (sep : parser X) (p : parser A) rp : 1 <= k -> okl n any sep -> okl n any p -> lin n p rp -> cap n m k rp ->
  forall fuel i, length i < n -> braces i <= m -> r_sep_loop fuel sep p rp i <= (2 * length i + 1) * k.
Proof.
  intros K Hs Op Hp Hc. induction fuel as [|fuel IH]; intros i L B; cbn [r_sep_loop]; [lia|].
  pose proof (Hs i L) as S. destruct (sep i) as [i1 x|e|e| |]; try lia. destruct S as [S _]. pose proof (suffix_len _ _ S). apply braces_suffix in S.
  destruct (Nat.eqb (length i1) (length i)); [lia|]. specialize (Op i1 ltac:(lia)). specialize (Hp i1 ltac:(lia)). specialize (Hc i1 ltac:(lia) ltac:(lia)).
  destruct (p i1) as [i2 a|e|e| |]; try nia. specialize (Hp i2 a eq_refl). destruct Op as [Op _]. apply braces_suffix in Op. specialize (IH i2 ltac:(lia) ltac:(lia)). nia.
Qed.
Lemma cap_list {A X} n m k (sep : parser X) (p : parser A) rp : 1 <= k -> okl n any sep -> okl n any p -> lin n p rp -> cap n m k rp ->
  cap n m k (r_separated_list0 sep p rp).
Proof.
  intros K Hs Op Hp Hc i L B. unfold r_separated_list0, r_then. pose proof (cap_loop n m k sep p rp K Hs Op Hp Hc) as C. specialize (Op i L). specialize (Hp i L). specialize (Hc i L B).
  destruct (p i) as [i2 a|e|e| |]; try lia. specialize (Hp i2 a eq_refl). destruct Op as [Op _]. apply braces_suffix in Op. specialize (C (S (length i2)) i2 ltac:(lia) ltac:(lia)). nia.
Qed.
Lemma cap_concise {A} n m k (p : parser A) rp : 1 <= k -> okl n any p -> lin n p rp -> cap n m k rp ->
  cap n m k (fun i => r_then 0 (multiline_whitespace i) (fun i _ => r_separated_list0 multiline_whitespace p rp i)).
Proof.
  intros K Op Hp Hc i L B. unfold r_then. pose proof (okl_multi_ws n i L) as S. destruct (multiline_whitespace i) as [j w|e|e| |]; try lia.
  destruct S as [S _]. pose proof (suffix_len _ _ S). apply braces_suffix in S. cbn [Nat.add].
  pose proof (cap_list n m k multiline_whitespace p rp K (okl_multi_ws n) Op Hp Hc j ltac:(lia) ltac:(lia)). nia.
Qed.
Lemma cap_mono n m k k' rp : k <= k' -> cap n m k rp -> cap n m k' rp.
Proof. intros L H i L1 B. specialize (H i L1 B). nia. Qed.

Section Body.
  Variables (n m k : nat) (inl con : parser kserd) (rinl rcon : str -> nat).
  Hypotheses (K : 1 <= k).
  Hypotheses (Oi : okl n any inl) (Oc : okl n any con).
  Hypotheses (Li : lin n inl rinl) (Lc : lin n con rcon).
  Hypotheses (Ci : cap n m k rinl) (Cc : cap n m k rcon).
  Hypotheses (Same : forall i r v, inl i = POk r v -> con i = POk r v).

  Lemma okl_kvp_field b : okl n any (kvp_field inl con b).
  Proof. unfold kvp_field. eapply okl_any, okl_context, okl_separated_pair; [apply okl_field_name|eapply okl_ignore_ws, okl_pchar|]. eapply okl_ignore_ws, okl_cut. destruct b; [exact Oi|exact Oc]. Qed.
  Lemma okl_kvp_kserd b : okl n any (kvp_kserd inl con b).
  Proof. unfold kvp_kserd. eapply okl_any, okl_context, okl_separated_pair; [apply okl_alt2; [exact Oc|exact Oi]|eapply okl_ignore_ws, okl_pchar|]. eapply okl_ignore_ws. destruct b; [exact Oi|exact Oc]. Qed.
  Lemma cap_pick (b : bool) : cap n m k (if b then rinl else rcon). Proof. now destruct b. Qed.
  Lemma cap_kvp_field b : cap n m k (r_kvp_field rinl rcon b).
  Proof.
    intros i L B. unfold r_kvp_field. pose proof (okl_field_name n i L) as S. destruct (field_name i) as [i1 x|e|e| |]; cbn [r_then Nat.add] in *; try lia.
    destruct S as [S _]. pose proof (suffix_len _ _ S). apply braces_suffix in S.
    pose proof (okl_ignore_ws n _ _ (okl_pchar n (ch "=")) i1 ltac:(lia)) as S2. destruct (ignore_ws (pchar (ch "=")) i1) as [i2 y|e|e| |]; cbn [r_then Nat.add] in *; try lia.
    destruct S2 as [S2 _]. pose proof (suffix_len _ _ S2). apply braces_suffix in S2.
    pose proof (cap_ignore_ws n m k _ (cap_pick b) i2 ltac:(lia) ltac:(lia)). nia.
  Qed.
  Lemma cap_kvp_kserd b : cap n m (2 * k) (r_kvp_kserd inl con rinl rcon b).
  Proof.
    intros i L B. unfold r_kvp_kserd. pose proof (lin_key n inl con rinl rcon Lc Same i L) as P. unfold r_then at 1.
    pose proof (okl_alt2 n any con inl Oc Oi i L) as S. pose proof (Cc i L B). pose proof (Ci i L B).
    destruct (alt2 con inl i) as [i1 x|e|e| |].
    2-5: unfold r_alt2; destruct (con i); nia.
    specialize (P i1 x eq_refl). destruct S as [S _]. pose proof (suffix_len _ _ S). apply braces_suffix in S.
    pose proof (okl_ignore_ws n _ _ (okl_pchar n (ch ":")) i1 ltac:(lia)) as S2. destruct (ignore_ws (pchar (ch ":")) i1) as [i2 y|e|e| |]; cbn [r_then Nat.add] in *; try nia.
    destruct S2 as [S2 _]. pose proof (suffix_len _ _ S2). apply braces_suffix in S2.
    pose proof (cap_ignore_ws n m k _ (cap_pick b) i2 ltac:(lia) ltac:(lia)). nia.
  Qed.
End Body.

Lemma pchar_braces i j x : ignore_ws (pchar (ch "{")) i = POk j x -> S (braces j) <= braces i.
Proof.
  intros E. apply pchar_at in E as [w E]. pose proof (take_while_suffix is_blank i) as S. rewrite E in S. cbn [snd] in S. apply braces_suffix in S. exact S.
Qed.
Lemma pow_pos m : 1 <= 2 ^ m. Proof. pose proof (Nat.pow_nonzero 2 m ltac:(lia)). lia. Qed.
Section Bodies.
  Variables (n : nat) (inl con : parser kserd) (rinl rcon : str -> nat).
  Hypotheses (Oi : okl n any inl) (Oc : okl n any con).
  Hypotheses (Li : lin n inl rinl) (Lc : lin n con rcon).
  Hypotheses (Ci : forall m, cap n m (2 ^ m) rinl) (Cc : forall m, cap n m (2 ^ m) rcon).
  Hypotheses (Same : forall i r v, inl i = POk r v -> con i = POk r v).

  Lemma body_cap b i m : length i <= n -> braces i <= m -> S (r_body inl con rinl rcon b i) <= (2 * length i + 1) * 2 ^ m.
  Proof.
    intros L B. pose proof (pow_pos m) as P1. unfold r_body. pose proof (pattern_spec (S n) i ltac:(lia)) as P.
    destruct (pattern_match_delimited i) as [i0 pat|e|e| |]; cbn [r_then Nat.add] in *; try contradiction; try nia. subst i0.
    assert (G : forall o rq, (forall j, length j < n -> braces j <= (if (o =? ch "{")%N then Nat.pred m else m) -> (o = ch "{" -> 1 <= m) -> rq j <= (2 * length j + 1) * 2 ^ m) ->
      S (r_then 0 (opt (ident false) i) (fun i _ => r_then 0 (ignore_ws (pchar o) i) (fun i _ => rq i))) <= (2 * length i + 1) * 2 ^ m).
    { intros o rq H. pose proof (okl_opt (S n) _ _ (okl_ident (S n) false) i ltac:(lia)) as S1. unfold r_then. destruct (opt (ident false) i) as [i1 id|e|e| |]; cbn [sp Nat.add] in *; try nia.
      destruct S1 as [S1 _]. pose proof (suffix_len _ _ S1) as L1. apply braces_suffix in S1.
      pose proof (okl_ignore_ws (S n) _ _ (okl_pchar (S n) o) i1 ltac:(lia)) as S2. destruct (ignore_ws (pchar o) i1) as [j x|e|e| |] eqn:E2; cbn [sp Nat.add] in *; try nia.
      destruct S2 as [S2 _]. apply braces_suffix in S2. pose proof (blank_pchar_lt _ _ _ _ E2) as L2.
      assert (rq j <= (2 * length j + 1) * 2 ^ m); [|nia]. apply H; [lia| |].
      - destruct (N.eqb_spec o (ch "{")) as [->|]; [|lia]. apply pchar_braces in E2. lia.
      - intros ->. apply pchar_braces in E2. lia. }
    destruct pat.
    - unfold r_tuple. apply G. intros j Lj Bj _. change (ch "(" =? ch "{")%N with false in Bj. cbn beta iota in Bj. destruct (recognise_concise j && negb b).
      + now apply (cap_concise n m (2 ^ m) con rcon).
      + apply (cap_list n m (2 ^ m)); auto. { eapply okl_ignore_ws, okl_pchar. } { now apply okl_ignore_ws. } { now apply lin_ignore_ws. } { now apply cap_ignore_ws. }
    - unfold r_cntr. apply G. intros j Lj Bj _. change (ch "(" =? ch "{")%N with false in Bj. cbn beta iota in Bj. destruct (recognise_concise j && negb b).
      + apply (cap_concise n m (2 ^ m)); auto. { now apply okl_kvp_field. } { now apply lin_kvp_field. } { apply (cap_kvp_field n m (2 ^ m) inl con); auto. }
      + apply (cap_list n m (2 ^ m)); auto. { eapply okl_ignore_ws, okl_pchar. } { now apply okl_ignore_ws, okl_kvp_field. } { now apply lin_ignore_ws, lin_kvp_field. } { apply cap_ignore_ws, (cap_kvp_field n m (2 ^ m) inl con); auto. }
    - unfold r_seq. apply G. intros j Lj Bj _. change (ch "[" =? ch "{")%N with false in Bj. cbn beta iota in Bj. destruct (recognise_concise j && negb b).
      + now apply (cap_concise n m (2 ^ m) con rcon).
      + apply (cap_list n m (2 ^ m)); auto. { eapply okl_ignore_ws, okl_pchar. } { now apply okl_ignore_ws. } { now apply lin_ignore_ws. } { now apply cap_ignore_ws. }
    - unfold r_map. apply G. intros j Lj Bj Hm. specialize (Hm eq_refl). change (ch "{" =? ch "{")%N with true in Bj. cbn beta iota in Bj. destruct m as [|m]; [lia|]. cbn [Nat.pred] in Bj.
      change (2 ^ S m) with (2 * 2 ^ m) in *. pose proof (pow_pos m). destruct (recognise_concise j && negb b).
      + apply (cap_concise n m (2 * 2 ^ m)); auto. { now apply okl_kvp_kserd. } { now apply lin_kvp_kserd. } { now apply cap_kvp_kserd. }
      + apply (cap_list n m (2 * 2 ^ m)); auto. { eapply okl_ignore_ws, okl_pchar. } { now apply okl_ignore_ws, okl_kvp_kserd. } { now apply lin_ignore_ws, lin_kvp_kserd. } { now apply cap_ignore_ws, cap_kvp_kserd. }
    - nia.
  Qed.
End Bodies.
Lemma delimited_any fuel b : okl fuel any (kserd_delimited fuel b).
Proof. eapply okl_any, okl_delimited. Qed.
Lemma delimited_cap fuel : forall b m, cap fuel m (2 ^ m) (readings fuel b).
Proof.
  induction fuel as [|fuel IH]; intros b m i L B; [lia|]. cbn [readings].
  apply (body_cap fuel); auto using delimited_any, delimited_lin, inline_ok_concise; lia.
Qed.
