(** How much work the parser does: proofs. *)
From Verif Require Import Base F64 Number BTree Value Nom Parse ParseSpec ParseProps ParseCost.
Open Scope nat_scope.

(** ** places where no value starts *)
Definition deadc (c : char) : bool := mem c [41; 93; 125; 13; 10]%N.
Lemma deadc_cases c : deadc c = true -> c = 41%N \/ c = 93%N \/ c = 125%N \/ c = 13%N \/ c = 10%N.
Proof. unfold deadc, mem. cbn [existsb]. rewrite !orb_true_iff, !N.eqb_eq. intuition discriminate. Qed.

Lemma valid_name_dead c i : deadc c = true -> exists e, valid_name (c :: i) = PErr e.
Proof. intros H. apply deadc_cases in H. unfold valid_name, alt2, alpha1, tag. destruct H as [->|[->|[->|[->| ->]]]]; (eexists; reflexivity). Qed.
Lemma ident_dead b c i : deadc c = true -> opt (ident b) (c :: i) = POk (c :: i) None.
Proof.
  intros H. destruct (valid_name_dead c i H) as [e E]. unfold opt, ident, context, preceded. destruct b.
  - apply deadc_cases in H. destruct H as [->|[->|[->|[->| ->]]]]; reflexivity.
  - now rewrite E.
Qed.
Lemma pchar_dead o c i : deadc c = true -> deadc o = false -> exists e, ignore_ws (pchar o) (c :: i) = PErr e.
Proof.
  intros H K. assert (N : (c =? o)%N = false) by (apply N.eqb_neq; intros ->; congruence).
  unfold ignore_ws, opt, inline_whitespace, ptake_while. apply deadc_cases in H. destruct H as [->|[->|[->|[->| ->]]]]; 
    (match goal with |- context [take_while is_blank ?x] => change (take_while is_blank x) with (@nil char, x) end; cbn [pbind pchar]; rewrite N; eauto).
Qed.
Lemma prim_dead c i : deadc c = true -> exists e, prim (c :: i) = PErr e.
Proof.
  intros H. unfold prim, context, separated_pair. rewrite (ident_dead true c i H). cbn [pbind].
  assert (exists e, (let? (i1, _) := inline_whitespace (c :: i) in let? (i2, c0) := prim_value i1 in POk i2 (@None str, c0)) = PErr e) as [e E].
  { unfold inline_whitespace, ptake_while. apply deadc_cases in H. destruct H as [->|[->|[->|[->| ->]]]];
      cbn [take_while is_blank mem existsb pbind N.eqb Pos.eqb orb]; unfold prim_value, context, alt5, pmap, unit_value, boolean, num, pstring, barr, context, preceded, alt2, pmap, tag;
      (eexists; reflexivity). }
  rewrite E. cbn [pbind]. eauto.
Qed.
Lemma pattern_dead c i : deadc c = true -> exists pat, pattern_match_delimited (c :: i) = POk (c :: i) pat.
Proof.
  intros H. unfold pattern_match_delimited.
  assert (T : starts_with (s "true") (c :: i) || starts_with (s "false") (c :: i) = false).
  { apply deadc_cases in H. destruct H as [->|[->|[->|[->| ->]]]]; reflexivity. }
  rewrite T, (ident_dead true c i H). cbn [pbind]. rewrite (ident_dead false c i H). cbn [pbind].
  unfold multiline_whitespace, ptake_while. destruct (take_while is_wsp (c :: i)) as [w r]. cbn [pbind].
  destruct (hd 32%N r =? ch "[")%N; [cbn [pbind]; eauto|]. destruct (hd 32%N r =? ch "{")%N; [cbn [pbind]; eauto|].
  destruct (hd 32%N r =? ch "(")%N; [|cbn [pbind]; eauto]. destruct (is_ok (unit_value r)); [cbn [pbind]; eauto|].
  destruct (take_while is_wsp (tl r)) as [w' r']. cbn [pbind]. destruct (recognise_field_assign r'); cbn [pbind]; eauto.
Qed.
Lemma body_dead inl con rinl rcon b c i : deadc c = true ->
  (exists e, delimited_body inl con b (c :: i) = PErr e) /\ r_body inl con rinl rcon b (c :: i) = 0.
Proof.
  intros H. unfold delimited_body, r_body. destruct (pattern_dead c i H) as [pat ->]. cbn [pbind r_then Nat.add].
  destruct pat.
  - unfold tuple, r_tuple. rewrite (ident_dead false c i H). cbn [pbind r_then Nat.add]. destruct (pchar_dead (ch "(") c i H eq_refl) as [e ->]. cbn [pbind r_then Nat.add]. eauto.
  - unfold cntr_delimited, r_cntr. rewrite (ident_dead false c i H). cbn [pbind r_then Nat.add]. destruct (pchar_dead (ch "(") c i H eq_refl) as [e ->]. cbn [pbind r_then Nat.add]. eauto.
  - unfold seq_delimited, r_seq. rewrite (ident_dead false c i H). cbn [pbind r_then Nat.add]. destruct (pchar_dead (ch "[") c i H eq_refl) as [e ->]. cbn [pbind r_then Nat.add]. eauto.
  - unfold map_delimited, r_map. rewrite (ident_dead false c i H). cbn [pbind r_then Nat.add]. destruct (pchar_dead (ch "{") c i H eq_refl) as [e ->]. cbn [pbind r_then Nat.add]. eauto.
  - destruct (prim_dead c i H) as [e ->]. eauto.
Qed.
Lemma delimited_dead fuel b c i : deadc c = true -> (exists e, kserd_delimited (S fuel) b (c :: i) = PErr e) /\ readings (S fuel) b (c :: i) = 1.
Proof. intros H. cbn [kserd_delimited readings]. destruct (body_dead (kserd_delimited fuel true) (kserd_delimited fuel false) (readings fuel true) (readings fuel false) b c i H) as [E ->]. auto. Qed.
Lemma delimited_dead' fuel b c i : deadc c = true -> forall r v, kserd_delimited fuel b (c :: i) <> POk r v.
Proof. intros H r v. destruct fuel; [discriminate|]. destruct (delimited_dead fuel b c i H) as [[e ->] _]. discriminate. Qed.
Lemma readings_dead fuel b c i : deadc c = true -> readings fuel b (c :: i) <= 1.
Proof. intros H. destruct fuel; [cbn; lia|]. destruct (delimited_dead fuel b c i H) as [_ ->]. lia. Qed.

(** ** what is read inline is read the same concisely *)
Lemma concise_blank j : recognise_concise j = true -> exists w c i, take_while is_blank j = (w, c :: i) /\ (c = 10%N \/ c = 13%N).
Proof.
  unfold recognise_concise. induction j as [|c j IH]; cbn [find]; [discriminate|].
  destruct (negb (mem c [32; 9; 13]%N)) eqn:M.
  - intros E. apply N.eqb_eq in E. subst. exists [], 10%N, j. split; [reflexivity|now left].
  - intros E. apply IH in E as (w & d & i & E & D). cbn [take_while]. destruct (is_blank c) eqn:B.
    + rewrite E. eauto.
    + exists [], c, j. split; [reflexivity|]. right. apply negb_false_iff in M. unfold mem, is_blank in *. unfold mem in B. cbn [existsb] in M, B.
      rewrite !orb_true_iff, !N.eqb_eq in M. rewrite !orb_false_iff, !N.eqb_neq in B. intuition congruence.
Qed.
Lemma ignore_ws_at {A} (p : parser A) j w i : take_while is_blank j = (w, i) -> ignore_ws p j = p i.
Proof. intros E. unfold ignore_ws, opt, inline_whitespace, ptake_while. now rewrite E. Qed.
Lemma newline_dead c : c = 10%N \/ c = 13%N -> deadc c = true.
Proof. now intros [->| ->]. Qed.
Lemma list_stuck {A B C} (sep : parser B) (p : parser A) (q : parser C) j :
  (forall r v, p j <> POk r v) -> (exists e, q j = PErr e) -> forall r v, terminated (separated_list0 sep p) q j <> POk r v.
Proof.
  intros Hp [e Hq] r v. unfold terminated, separated_list0. destruct (p j) as [r1 a|e1|e1| |] eqn:E; cbn [pbind]; try discriminate.
  - now destruct (Hp r1 a).
  - rewrite Hq. discriminate.
Qed.
Lemma context_ok {A} t (p : parser A) i r a : context t p i = POk r a -> p i = POk r a.
Proof. unfold context. destruct (p i); congruence. Qed.
Lemma cut_ok {A} (p : parser A) i r a : cut p i = POk r a -> p i = POk r a.
Proof. unfold cut. destruct (p i); congruence. Qed.
Lemma close_dead o j w c i : deadc c = true -> take_while is_blank j = (w, c :: i) -> (c =? o)%N = false -> exists e, ignore_ws (pchar o) j = PErr e.
Proof. intros H E N. rewrite (ignore_ws_at _ _ _ _ E). cbn [pchar]. rewrite N. eauto. Qed.
Lemma kvp_field_dead inl con b c i : deadc c = true -> exists e, kvp_field inl con b (c :: i) = PErr e.
Proof.
  intros H. destruct (pchar_dead (ch "=") c i H eq_refl) as [e E]. unfold kvp_field, context, separated_pair, field_name, ptake_while.
  replace (take_while is_name_char (c :: i)) with (@nil char, c :: i) by (apply deadc_cases in H; now destruct H as [->|[->|[->|[->| ->]]]]).
  cbn [pbind]. rewrite E. cbn [pbind]. eauto.
Qed.
Lemma terminated_context_ok {A B} t (p : parser A) (q : parser B) i r a : terminated (context t p) q i = POk r a -> terminated p q i = POk r a.
Proof. unfold terminated, context. destruct (p i); cbn [pbind]; congruence. Qed.

Lemma bind_ok {A B} (x : pres A) (f : str -> A -> pres B) r v : pbind x f = POk r v -> exists i a, x = POk i a /\ f i a = POk r v.
Proof. destruct x; cbn [pbind]; try discriminate. eauto. Qed.
Lemma terminated_ok {A B} (p : parser A) (q : parser B) i r a : terminated p q i = POk r a ->
  exists j b, p i = POk j a /\ q j = POk r b.
Proof. unfold terminated. intros H. apply bind_ok in H as (j & x & E & H). apply bind_ok in H as (k & b & E' & H). injection H as <- <-. eauto. Qed.
Lemma no_rescue_list inl cl j r l : (cl = ch ")" \/ cl = ch "]") -> (forall c i r v, deadc c = true -> inl (c :: i) <> POk r v) ->
  recognise_concise j = true -> terminated (inline_list_kserds inl) (ignore_ws (pchar cl)) j <> POk r l.
Proof.
  intros Hc D R E. destruct (concise_blank j R) as (w & c & i & W & C). unfold inline_list_kserds in E. apply terminated_context_ok in E. revert E. apply list_stuck.
  - intros r' v'. rewrite (ignore_ws_at _ _ _ _ W). apply D. now apply newline_dead.
  - apply (close_dead cl j w c i (newline_dead c C) W). destruct C as [->| ->], Hc as [->| ->]; reflexivity.
Qed.

Lemma inline_ok_concise fuel i r v : kserd_delimited fuel true i = POk r v -> kserd_delimited fuel false i = POk r v.
Proof.
  destruct fuel as [|fuel]; [discriminate|]. cbn [kserd_delimited]. set (inl := kserd_delimited fuel true). set (con := kserd_delimited fuel false).
  assert (Di : forall c i r v, deadc c = true -> inl (c :: i) <> POk r v) by (intros; now apply delimited_dead').
  assert (Dc : forall c i r v, deadc c = true -> con (c :: i) <> POk r v) by (intros; now apply delimited_dead').
  unfold delimited_body. destruct (pattern_match_delimited i) as [i0 pat|e|e| |]; cbn [pbind]; try discriminate. destruct pat.
  - unfold tuple. destruct (opt (ident false) i0) as [i1 id|e|e| |]; cbn [pbind]; try discriminate.
    destruct (ignore_ws (pchar (ch "(")) i1) as [j x|e|e| |]; cbn [pbind]; try discriminate. destruct (recognise_concise j) eqn:R; cbn [negb andb]; [|auto].
    intros H. exfalso. apply bind_ok in H as (j' & l & H & _). apply context_ok, cut_ok in H. revert H. apply no_rescue_list; auto.
  - unfold cntr_delimited. destruct (opt (ident false) i0) as [i1 id|e|e| |]; cbn [pbind]; try discriminate.
    destruct (ignore_ws (pchar (ch "(")) i1) as [j x|e|e| |]; cbn [pbind]; try discriminate. destruct (recognise_concise j) eqn:R; cbn [negb andb]; [|auto].
    intros H. exfalso. apply bind_ok in H as (j' & l & H & _). apply context_ok in H. unfold inline_cntr_kserds in H. apply terminated_context_ok in H. revert H.
    destruct (concise_blank j R) as (w & c & k & W & C). apply list_stuck.
    + intros r' v'. rewrite (ignore_ws_at _ _ _ _ W). destruct (kvp_field_dead inl con true c k (newline_dead c C)) as [e ->]. discriminate.
    + apply (close_dead (ch ")") j w c k (newline_dead c C) W). now destruct C as [->| ->].
  - unfold seq_delimited. destruct (opt (ident false) i0) as [i1 id|e|e| |]; cbn [pbind]; try discriminate.
    destruct (ignore_ws (pchar (ch "[")) i1) as [j x|e|e| |]; cbn [pbind]; try discriminate. destruct (recognise_concise j) eqn:R; cbn [negb andb]; [|auto].
    intros H. exfalso. apply bind_ok in H as (j' & l & H & _). apply context_ok, cut_ok in H. revert H. apply no_rescue_list; auto.
  - unfold map_delimited. destruct (opt (ident false) i0) as [i1 id|e|e| |]; cbn [pbind]; try discriminate.
    destruct (ignore_ws (pchar (ch "{")) i1) as [j x|e|e| |]; cbn [pbind]; try discriminate. destruct (recognise_concise j) eqn:R; cbn [negb andb]; [|auto].
    intros H. exfalso. apply bind_ok in H as (j' & l & H & _). apply context_ok in H. unfold inline_map_kserds in H. apply terminated_context_ok in H. revert H.
    destruct (concise_blank j R) as (w & c & k & W & C). apply list_stuck.
    + intros r' v'. rewrite (ignore_ws_at _ _ _ _ W). unfold kvp_kserd. intros H. apply context_ok in H. unfold separated_pair in H. apply bind_ok in H as (k' & a & H & _).
      unfold alt2 in H. pose proof (Dc c k) as D1. pose proof (Di c k) as D2. apply newline_dead in C.
      destruct (con (c :: k)); try discriminate; [now apply (D1 _ _ C eq_refl)|]. destruct (inl (c :: k)); try discriminate. now apply (D2 _ _ C eq_refl).
    + apply (close_dead (ch "}") j w c k (newline_dead c C) W). now destruct C as [->| ->].
  - auto.
Qed.

(** ** accepted delimited values *)
(** reading what is accepted costs at most two per character, less one *)
Definition lin {A} (n : nat) (p : parser A) (rp : str -> nat) : Prop :=
  forall i, length i < n -> forall r a, p i = POk r a -> rp i + 2 * length r < 2 * length i.
Lemma lin_ignore_ws {A} n (p : parser A) rp : lin n p rp -> lin n (ignore_ws p) (r_ignore_ws rp).
Proof.
  intros H i L r a. unfold ignore_ws, r_ignore_ws, opt, inline_whitespace, ptake_while. pose proof (take_while_suffix is_blank i) as S.
  destruct (take_while is_blank i) as [w j]. cbn [snd] in S. apply suffix_len in S. cbn [pbind r_then Nat.add]. intros E.
  specialize (H j ltac:(lia) r a E). lia.
Qed.
Lemma sep_loop_lin {A B} n (sep : parser B) (p : parser A) rp : okl n any sep -> lin n p rp ->
  forall fuel acc i r l, length i < n -> sep_loop fuel sep p acc i = POk r l ->
  exists a, r_sep_loop fuel sep p rp i + 2 * length r <= 2 * length i + a /\
    (a = 0 \/ exists i1 x, sep r = POk i1 x /\ a = rp i1 /\ exists e, p i1 = PErr e).
Proof.
  intros Hs Hp. induction fuel as [|fuel IH]; intros acc i r l L; [discriminate|]. cbn [sep_loop r_sep_loop].
  pose proof (Hs i L) as S. destruct (sep i) as [i1 x|e|e| |] eqn:Es; try discriminate.
  - destruct S as [S _]. apply suffix_len in S. destruct (Nat.eqb (length i1) (length i)) eqn:Eq; [discriminate|].
    destruct (p i1) as [i2 a|e|e| |] eqn:Ep; try discriminate.
    + intros E. specialize (Hp i1 ltac:(lia) i2 a Ep). apply IH in E as (b & E & Hb); [|lia]. exists b. split; [lia|exact Hb].
    + intros E. injection E as <- <-. exists (rp i1). split; [lia|]. right. exists i1, x. rewrite Ep. eauto.
  - intros E. injection E as <- <-. exists 0. split; [lia|now left].
Qed.
Lemma list_lin {A B} n (sep : parser B) (p : parser A) rp i r l : okl n any sep -> lin n p rp -> length i < n ->
  separated_list0 sep p i = POk r l ->
  exists a, r_separated_list0 sep p rp i + 2 * length r <= 2 * length i + a /\
    (a = 0 \/ (exists i1 x, sep r = POk i1 x /\ a = rp i1 /\ exists e, p i1 = PErr e) \/ (r = i /\ a = rp r /\ exists e, p r = PErr e)).
Proof.
  intros Hs Hp L. unfold separated_list0, r_separated_list0, r_then. destruct (p i) as [i1 a|e|e| |] eqn:Ep; try discriminate.
  - intros E. specialize (Hp i L i1 a Ep) as C. eapply sep_loop_lin in E; [|exact Hs|exact Hp|lia]. destruct E as (b & E & Hb). exists b. split; [lia|]. destruct Hb as [Hb|Hb]; [now left|right; now left].
  - intros E. injection E as <- <-. exists (rp i). split; [lia|]. right. right. rewrite Ep. eauto.
Qed.
Lemma take_while_none f i w r : take_while f i = (w, r) -> match r with [] => True | c :: _ => f c = false end.
Proof.
  revert w r. induction i as [|c i IH]; intros w r; cbn [take_while]; [intros E; now injection E as <- <-|].
  destruct (f c) eqn:F; [|intros E; injection E as <- <-; exact F]. destruct (take_while f i) as [w' r'] eqn:T. intros E. injection E as <- <-. exact (IH _ _ eq_refl).
Qed.
Lemma take_while_length f i w r : take_while f i = (w, r) -> length i = length w + length r.
Proof.
  revert w r. induction i as [|c i IH]; intros w r; cbn [take_while]; [intros E; now injection E as <- <-|].
  destruct (f c); [|intros E; now injection E as <- <-]. destruct (take_while f i) as [w' r'] eqn:T. intros E. injection E as <- <-. cbn [length]. now rewrite (IH _ _ eq_refl).
Qed.
Lemma take_while_stop f i : match i with [] => True | c :: _ => f c = false end -> take_while f i = ([], i).
Proof. destruct i as [|c i]; [reflexivity|]. cbn [take_while]. now intros ->. Qed.
Lemma pchar_at cl i r x : ignore_ws (pchar cl) i = POk r x -> exists w, take_while is_blank i = (w, cl :: r).
Proof.
  unfold ignore_ws, opt, inline_whitespace, ptake_while. destruct (take_while is_blank i) as [w j]. cbn [pbind]. destruct j as [|c j]; cbn [pchar]; [discriminate|].
  destruct (N.eqb_spec c cl) as [->|]; [|discriminate]. intros E. injection E as <- _. eauto.
Qed.
Lemma inline_closed {A} n (q : parser A) rq cl i r l : lin n q rq -> (forall j, rq (cl :: j) <= 2) -> cl <> ch "," -> length i < n ->
  terminated (separated_list0 (ignore_ws (pchar (ch ","))) (ignore_ws q)) (ignore_ws (pchar cl)) i = POk r l ->
  r_separated_list0 (ignore_ws (pchar (ch ","))) (ignore_ws q) (r_ignore_ws rq) i + 2 * length r <= 2 * length i.
Proof.
  intros Hq Hr Hc L E. apply terminated_ok in E as (j & x & E & C). pose proof (blank_pchar_lt _ _ _ _ C) as Lt. apply pchar_at in C as [w C].
  eapply list_lin in E; [|eapply okl_ignore_ws, okl_pchar|eapply lin_ignore_ws, Hq|exact L]. destruct E as (a & E & [->|[(i1 & y & S & _)|(_ & -> & _)]]); [lia| |].
  - exfalso. apply pchar_at in S as [w' S]. rewrite C in S. injection S as _ K _. auto.
  - enough (r_ignore_ws rq j <= 2) by lia. unfold r_ignore_ws, opt, inline_whitespace, ptake_while. rewrite C. cbn [pbind r_then Nat.add]. apply Hr.
Qed.
Lemma concise_closed {A} n (q : parser A) rq cl i r l : lin n q rq -> (forall j, rq (cl :: j) <= 2) -> length i < n ->
  terminated (preceded multiline_whitespace (terminated (separated_list0 multiline_whitespace q) multiline_whitespace)) (ignore_ws (pchar cl)) i = POk r l ->
  r_then 0 (multiline_whitespace i) (fun i _ => r_separated_list0 multiline_whitespace q rq i) + 2 * length r <= 2 * length i.
Proof.
  intros Hq Hr L E. apply terminated_ok in E as (j & x & E & C). pose proof (blank_pchar_lt _ _ _ _ C) as Lt. apply pchar_at in C as [w C].
  unfold preceded in E. apply bind_ok in E as (i0 & w0 & E0 & E). rewrite E0. cbn [r_then Nat.add]. unfold multiline_whitespace, ptake_while in E0.
  pose proof (take_while_suffix is_wsp i) as S0. destruct (take_while is_wsp i) as [w1 i1] eqn:T0. injection E0 as <- <-. cbn [snd] in S0. apply suffix_len in S0.
  apply terminated_ok in E as (k & y & E & M). unfold multiline_whitespace, ptake_while in M. destruct (take_while is_wsp k) as [w2 j2] eqn:T2. injection M as <- <-.
  pose proof (take_while_none _ _ _ _ T2) as N2. pose proof (take_while_suffix is_wsp k) as S2. rewrite T2 in S2. cbn [snd] in S2. apply suffix_len in S2.
  assert (J : j2 = cl :: r).
  { rewrite take_while_stop in C; [now injection C|]. destruct j2 as [|c j2]; [trivial|]. unfold is_wsp, is_blank, mem in *. cbn [existsb] in *. rewrite !orb_false_iff in N2. rewrite !orb_false_iff. intuition. }
  eapply list_lin in E; [|eapply okl_any, okl_multi_ws|exact Hq|lia]. destruct E as (a & E & [->|[(i2 & z & S & -> & _)|(-> & -> & _)]]); [lia| |].
  - unfold multiline_whitespace, ptake_while in S. rewrite T2 in S. injection S as <- _. subst j2. specialize (Hr r). lia.
  - rewrite (take_while_stop is_wsp i1) in T2 by exact (take_while_none _ _ _ _ T0). injection T2 as _ <-. subst i1. specialize (Hr r). lia.
Qed.

Lemma terminated_cut {A B C} (p : parser C) (q : parser A) (z : parser B) i r a : terminated (preceded p (cut q)) z i = POk r a -> terminated (preceded p q) z i = POk r a.
Proof.
  unfold terminated, preceded. destruct (p i) as [j x|e|e| |]; cbn [pbind]; try discriminate. destruct (cut q j) as [k y|e|e| |] eqn:E; cbn [pbind]; try discriminate.
  apply cut_ok in E. now rewrite E.
Qed.
Lemma preceded_shorter {A B} (p : parser A) (q : parser B) i r b : (forall i r a, p i = POk r a -> length r < length i) -> okl (S (length i)) any q ->
  preceded p q i = POk r b -> length r < length i.
Proof.
  intros P Q E. unfold preceded in E. apply bind_ok in E as (j & x & E & F). apply P in E. specialize (Q j ltac:(lia)). rewrite F in Q. destruct Q as [Q _]. apply suffix_len in Q. lia.
Qed.
Lemma pchar_shorter c i r x : pchar c i = POk r x -> length r < length i.
Proof. destruct i as [|d i]; cbn [pchar]; [discriminate|]. destruct (d =? c)%N; [|discriminate]. intros E. injection E as <- _. cbn. lia. Qed.
Lemma pmap_ok {A B} (p : parser A) (f : A -> B) i r b : pmap p f i = POk r b -> exists a, p i = POk r a.
Proof. unfold pmap. intros E. apply bind_ok in E as (j & a & E & F). injection F as <- _. eauto. Qed.
Lemma prim_value_shorter i r v : prim_value i = POk r v -> length r < length i.
Proof.
  unfold prim_value. intros E. apply context_ok in E. unfold alt5 in E.
  destruct (pmap unit_value (fun _ : unit => VUnit) i) as [r1 v1|e1|e1| |] eqn:E1; try discriminate.
  { injection E as <- _. apply pmap_ok in E1 as [x E1]. apply context_ok, pmap_ok in E1 as [y E1]. eapply preceded_shorter; [apply pchar_shorter| |exact E1]. eauto 8 with okl. }
  destruct (pmap boolean VBool i) as [r2 v2|e2|e2| |] eqn:E2; try discriminate.
  { injection E as <- _. apply pmap_ok in E2 as [x E2]. apply context_ok in E2. unfold alt2 in E2.
    destruct (pmap (tag (s "true")) (fun _ => true) i) as [r3 v3|e3|e3| |] eqn:E3; try discriminate.
    - injection E2 as <- _. apply pmap_ok in E3 as [y E3]. apply tag_lt in E3; [assumption|discriminate].
    - destruct (pmap (tag (s "false")) (fun _ => false) i) as [r4 v4|e4|e4| |] eqn:E4; try discriminate. injection E2 as <- _. apply pmap_ok in E4 as [y E4]. apply tag_lt in E4; [assumption|discriminate]. }
  destruct (pmap num VNum i) as [r5 v5|e5|e5| |] eqn:E5; try discriminate.
  { injection E as <- _. apply pmap_ok in E5 as [x E5]. unfold num in E5. apply context_ok in E5. destruct (take_while is_num_char i) as [t j] eqn:T.
    destruct (num_from_str t) eqn:Nm; [|discriminate]. injection E5 as <- _. destruct t as [|c t]; [discriminate Nm|].
    apply take_while_length in T. cbn in T. lia. }
  destruct (pmap pstring VStr i) as [r6 v6|e6|e6| |] eqn:E6; try discriminate.
  { injection E as <- _. apply pmap_ok in E6 as [x E6]. unfold pstring in E6. destruct (starts_with (s "str") i).
    - apply context_ok in E6. unfold parse_str in E6. apply preceded_shorter in E6; [|apply pchar_shorter|eauto 8 with okl]. pose proof (suffix_len _ _ (suffix_skipn 3 i)). lia.
    - apply context_ok in E6. unfold parse_str in E6. apply preceded_shorter in E6; [assumption|apply pchar_shorter|eauto 8 with okl]. }
  destruct (pmap barr VBarr i) as [r7 v7|e7|e7| |] eqn:E7; try discriminate.
  injection E as <- _. apply pmap_ok in E7 as [x E7]. unfold barr in E7. apply context_ok in E7. apply preceded_shorter in E7; [assumption| |].
  - intros. eapply tag_lt; [|eassumption]. discriminate.
  - eapply okl_cut, okl_terminated; [|apply okl_pchar]. eapply okl_pmap; [apply okl_take_till|]. easy.
Qed.
Lemma ctor_rest id v i r k : kserd_ctor id v i = POk r k -> r = i.
Proof. unfold kserd_ctor. destruct id as [id|]; [destruct (with_id id v)|]; congruence. Qed.
Lemma prim_shorter i r v : prim i = POk r v -> length r < length i.
Proof.
  unfold prim. intros E. apply bind_ok in E as (j & [id x] & E & F). apply ctor_rest in F. subst r. apply context_ok in E. unfold separated_pair in E.
  apply bind_ok in E as (j1 & y & E1 & E). apply bind_ok in E as (j2 & z & E2 & E). apply bind_ok in E as (j3 & w & E3 & E). injection E as <- _ _.
  apply prim_value_shorter in E3. pose proof (okl_opt (S (length i)) _ _ (okl_ident (S (length i)) true) i ltac:(lia)) as H1. rewrite E1 in H1. destruct H1 as [H1 _]. apply suffix_len in H1.
  pose proof (okl_inline_ws (S (length j1)) j1 ltac:(lia)) as H2. rewrite E2 in H2. destruct H2 as [H2 _]. apply suffix_len in H2. lia.
Qed.

Section Body.
  Variables (n : nat) (inl con : parser kserd) (rinl rcon : str -> nat).
  Hypotheses (Li : lin n inl rinl) (Lc : lin n con rcon).
  Lemma lin_kvp_field b : lin n (kvp_field inl con b) (r_kvp_field rinl rcon b).
  Proof.
    intros i L r a. unfold kvp_field, r_kvp_field, context, separated_pair. pose proof (okl_field_name n i L) as S1.
    destruct (field_name i) as [i1 nm|e|e| |]; cbn [pbind r_then Nat.add] in *; try discriminate. destruct S1 as [S1 _]. apply suffix_len in S1.
    destruct (ignore_ws (pchar (ch "=")) i1) as [i2 x|e|e| |] eqn:E2; cbn [pbind r_then Nat.add]; try discriminate. apply blank_pchar_lt in E2.
    set (q := if b then inl else con). set (rq := if b then rinl else rcon).
    destruct (ignore_ws (cut q) i2) as [i3 v|e|e| |] eqn:E3; cbn [pbind]; try discriminate. intros E. injection E as <- _.
    assert (E4 : ignore_ws q i2 = POk i3 v).
    { unfold ignore_ws in *. apply bind_ok in E3 as (k & y & E3 & E4). rewrite E3. apply cut_ok in E4. exact E4. }
    enough (lin n q rq) as Q by (pose proof (lin_ignore_ws n q rq Q i2 ltac:(lia) i3 v E4); lia). unfold q, rq. now destruct b.
  Qed.
  Lemma kvp_field_shut b c j : deadc c = true -> r_kvp_field rinl rcon b (c :: j) <= 2.
  Proof.
    intros H. unfold r_kvp_field, field_name, ptake_while.
    replace (take_while is_name_char (c :: j)) with (@nil char, c :: j) by (apply deadc_cases in H; now destruct H as [->|[->|[->|[->| ->]]]]).
    cbn [r_then Nat.add]. destruct (pchar_dead (ch "=") c j H eq_refl) as [e ->]. cbn. lia.
  Qed.
  Hypotheses (Same : forall i r v, inl i = POk r v -> con i = POk r v).
  Lemma lin_key : lin n (alt2 con inl) (r_alt2 rcon rinl con).
  Proof.
    intros i L r a. unfold alt2, r_alt2. destruct (con i) as [i1 k|e|e| |] eqn:E; try discriminate.
    - intros H. injection H as <- <-. specialize (Lc i L i1 k E). lia.
    - destruct (inl i) as [i2 k2|e2|e2| |] eqn:E2; try discriminate. apply Same in E2. congruence.
  Qed.
  Lemma lin_kvp_kserd b : lin n (kvp_kserd inl con b) (r_kvp_kserd inl con rinl rcon b).
  Proof.
    intros i L r a. unfold kvp_kserd, r_kvp_kserd, context, separated_pair, r_then. pose proof (lin_key i L) as K.
    destruct (alt2 con inl i) as [i1 k|e|e| |]; cbn [pbind] in *; try discriminate. specialize (K i1 k eq_refl).
    destruct (ignore_ws (pchar (ch ":")) i1) as [i2 x|e|e| |] eqn:E2; cbn [pbind]; try discriminate. apply blank_pchar_lt in E2.
    set (q := if b then inl else con). set (rq := if b then rinl else rcon).
    destruct (ignore_ws q i2) as [i3 v|e|e| |] eqn:E3; cbn [pbind]; try discriminate. intros E. injection E as <- _.
    enough (lin n q rq) as Q by (pose proof (lin_ignore_ws n q rq Q i2 ltac:(lia) i3 v E3); lia). unfold q, rq. now destruct b.
  Qed.
  Hypotheses (Di : forall c i, deadc c = true -> rinl (c :: i) <= 1 /\ forall r v, inl (c :: i) <> POk r v).
  Hypotheses (Dc : forall c i, deadc c = true -> rcon (c :: i) <= 1 /\ forall r v, con (c :: i) <> POk r v).
  Lemma kvp_kserd_shut b c j : deadc c = true -> r_kvp_kserd inl con rinl rcon b (c :: j) <= 2.
  Proof.
    intros H. unfold r_kvp_kserd, r_then, alt2, r_alt2. destruct (Dc c j H) as [C1 C2], (Di c j H) as [I1 I2].
    destruct (con (c :: j)) as [r1 v1|e1|e1| |]; try lia; [now destruct (C2 r1 v1)|].
    destruct (inl (c :: j)) as [r2 v2|e2|e2| |]; try lia. now destruct (I2 r2 v2).
  Qed.

  Lemma ident_len i i1 id : length i <= n -> opt (ident false) i = POk i1 id -> length i1 <= length i.
  Proof.
    intros L E. pose proof (okl_opt (S n) _ _ (okl_ident (S n) false) i ltac:(lia)) as H. rewrite E in H. destruct H as [H _]. now apply suffix_len in H.
  Qed.
  Lemma bodies_lin b i r v : length i <= n -> delimited_body inl con b i = POk r v ->
    r_body inl con rinl rcon b i + 2 * length r + 1 < 2 * length i.
  Proof.
    intros L. unfold delimited_body, r_body. pose proof (pattern_spec (S n) i ltac:(lia)) as P.
    destruct (pattern_match_delimited i) as [i0 pat|e|e| |]; cbn [pbind r_then Nat.add] in *; try discriminate. subst i0. destruct pat.
    - unfold tuple, r_tuple. destruct (opt (ident false) i) as [i1 id|e|e| |] eqn:E1; cbn [pbind r_then Nat.add]; try discriminate. apply ident_len in E1; [|exact L].
      destruct (ignore_ws (pchar (ch "(")) i1) as [j x|e|e| |] eqn:E2; cbn [pbind r_then Nat.add]; try discriminate. apply blank_pchar_lt in E2.
      intros E. apply bind_ok in E as (k & l & E & F). apply ctor_rest in F. subst r. apply context_ok, cut_ok in E.
      destruct (recognise_concise j && negb b).
      + apply terminated_cut in E. apply (concise_closed n con rcon) in E; [unfold r_concise_list; lia|exact Lc| |lia]. intros z. destruct (Dc (ch ")") z eq_refl). lia.
      + apply terminated_context_ok in E. apply (inline_closed n inl rinl) in E; [unfold r_inline_list; lia|exact Li| |discriminate|lia]. intros z. destruct (Di (ch ")") z eq_refl). lia.
    - unfold cntr_delimited, r_cntr. destruct (opt (ident false) i) as [i1 id|e|e| |] eqn:E1; cbn [pbind r_then Nat.add]; try discriminate. apply ident_len in E1; [|exact L].
      destruct (ignore_ws (pchar (ch "(")) i1) as [j x|e|e| |] eqn:E2; cbn [pbind r_then Nat.add]; try discriminate. apply blank_pchar_lt in E2.
      intros E. apply bind_ok in E as (k & l & E & F). apply ctor_rest in F. subst r. apply context_ok in E.
      destruct (recognise_concise j && negb b).
      + apply terminated_context_ok, terminated_cut in E. apply (concise_closed n _ (r_kvp_field rinl rcon false)) in E; [unfold r_concise_cntr; lia|apply lin_kvp_field| |lia]. intros z. now apply kvp_field_shut.
      + apply terminated_context_ok in E. apply (inline_closed n _ (r_kvp_field rinl rcon true)) in E; [unfold r_inline_cntr; lia|apply lin_kvp_field| |discriminate|lia]. intros z. now apply kvp_field_shut.
    - unfold seq_delimited, r_seq. destruct (opt (ident false) i) as [i1 id|e|e| |] eqn:E1; cbn [pbind r_then Nat.add]; try discriminate. apply ident_len in E1; [|exact L].
      destruct (ignore_ws (pchar (ch "[")) i1) as [j x|e|e| |] eqn:E2; cbn [pbind r_then Nat.add]; try discriminate. apply blank_pchar_lt in E2.
      intros E. apply bind_ok in E as (k & l & E & F). apply ctor_rest in F. subst r. apply context_ok, cut_ok in E.
      destruct (recognise_concise j && negb b).
      + apply terminated_cut in E. apply (concise_closed n con rcon) in E; [unfold r_concise_list; lia|exact Lc| |lia]. intros z. destruct (Dc (ch "]") z eq_refl). lia.
      + apply terminated_context_ok in E. apply (inline_closed n inl rinl) in E; [unfold r_inline_list; lia|exact Li| |discriminate|lia]. intros z. destruct (Di (ch "]") z eq_refl). lia.
    - unfold map_delimited, r_map. destruct (opt (ident false) i) as [i1 id|e|e| |] eqn:E1; cbn [pbind r_then Nat.add]; try discriminate. apply ident_len in E1; [|exact L].
      destruct (ignore_ws (pchar (ch "{")) i1) as [j x|e|e| |] eqn:E2; cbn [pbind r_then Nat.add]; try discriminate. apply blank_pchar_lt in E2.
      intros E. apply bind_ok in E as (k & l & E & F). apply ctor_rest in F. subst r. apply context_ok in E.
      destruct (recognise_concise j && negb b).
      + apply terminated_context_ok in E. apply (concise_closed n _ (r_kvp_kserd inl con rinl rcon false)) in E; [unfold r_concise_map; lia|apply lin_kvp_kserd| |lia]. intros z. now apply kvp_kserd_shut.
      + apply terminated_context_ok in E. apply (inline_closed n _ (r_kvp_kserd inl con rinl rcon true)) in E; [unfold r_inline_map; lia|apply lin_kvp_kserd| |discriminate|lia]. intros z. now apply kvp_kserd_shut.
    - intros E. apply prim_shorter in E. lia.
  Qed.
End Body.
Lemma delimited_lin fuel : forall b, lin fuel (kserd_delimited fuel b) (readings fuel b).
Proof.
  induction fuel as [|fuel IH]; intros b i L r v; [discriminate|]. cbn [kserd_delimited readings]. intros E.
  apply (bodies_lin fuel _ _ (readings fuel true) (readings fuel false)) in E; [lia|apply IH|apply IH|apply inline_ok_concise| | |lia].
  - intros c j H. split; [now apply readings_dead|now apply delimited_dead'].
  - intros c j H. split; [now apply readings_dead|now apply delimited_dead'].
Qed.
