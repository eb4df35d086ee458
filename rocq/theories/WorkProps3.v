(** How many characters the parser looks at: values in one piece. *)
From Verif Require Import Base F64 Number BTree Value Base91 Nom Parse ParseErr ParseCost ParseWork WorkProps WorkProps2.
Open Scope nat_scope.

(** each value which is begun pays for so many looks at the whole text *)
Definition K : nat := 72.
(** what a value which was read has left over *)
Definition G : nat := 8.
Definition pay (N v : nat) : nat := K * (S N * v).
Lemma pay_add N a b : pay N (a + b) = pay N a + pay N b.
Proof. unfold pay. nia. Qed.
Lemma pay_one N : pay N 1 = K * S N.
Proof. unfold pay. nia. Qed.
Definition costs {A} (N l : nat) (i : str) (x : wpres A) : Prop :=
  chars (snd x) <= pay N (values (snd x)) + l * S N /\ forall j a, fst x = POk j a -> length j <= length i.
Definition spends {A} (N l g : nat) (i : str) (x : wpres A) : Prop :=
  costs N l i x /\ forall j a, fst x = POk j a -> chars (snd x) + g * S N <= pay N (values (snd x)).
Definition cost {A} (l : nat) (w : wparser A) : Prop := forall N i, length i <= N -> costs N l i (w i).
Definition spend {A} (l g : nat) (w : wparser A) : Prop := forall N i, length i <= N -> spends N l g i (w i).

Lemma lo_costs {A} N c i (x : wpres A) : lo N c i x -> costs N c i x.
Proof. intros [H1 H2]. split; [lia|exact H2]. Qed.
Lemma costs_le {A} N c d i (x : wpres A) : c <= d -> costs N c i x -> costs N d i x.
Proof. intros L [H1 H2]. split; [nia|exact H2]. Qed.
Lemma co_bind {A B} N l m i (x : wpres A) (f : str -> A -> wpres B) : costs N l i x -> (forall j a, fst x = POk j a -> length j <= length i -> costs N m j (f j a)) -> costs N (l + m) i (wbind x f).
Proof.
  intros [H1 H2] F. unfold wbind. destruct (fst x) as [j a|e|e| |] eqn:E; try (split; [cbn [snd]; nia|discriminate]).
  specialize (H2 j a eq_refl). destruct (F j a eq_refl H2) as [F1 F2]. split; [cbn [snd wadd chars values]; rewrite pay_add; nia|]. cbn [fst]. intros j' a' G'. specialize (F2 j' a' G'). lia.
Qed.
Lemma co_looking {A} N n c d i (x : wpres A) : n <= d * S N -> costs N c i x -> costs N (d + c) i (looking n x).
Proof. intros L [H1 H2]. split; [|exact H2]. cbn [looking snd wadd chars values Nat.add]. nia. Qed.
Lemma co_context {A} t l (w : wparser A) : cost l w -> cost l (w_context t w).
Proof. intros H N i L. destruct (H N i L) as [H1 H2]. split; [exact H1|]. intros j a. unfold w_context, wthrough. cbn [fst]. destruct (fst (w i)) eqn:E; try discriminate. intros [= <- <-]. eauto. Qed.
Lemma co_cut {A} l (w : wparser A) : cost l w -> cost l (w_cut w).
Proof. intros H N i L. destruct (H N i L) as [H1 H2]. split; [exact H1|]. intros j a. unfold w_cut, wthrough. cbn [fst]. destruct (fst (w i)) eqn:E; try discriminate. intros [= <- <-]. eauto. Qed.
Lemma co_terminated {A B} l c (w : wparser A) (v : wparser B) : cost l w -> loc c v -> cost (l + (c + 0)) (w_terminated w v).
Proof.
  intros H H' N i L. apply co_bind; [now apply H|]. intros j a _ Lj. apply lo_costs. apply lo_bind; [apply H'; lia|]. intros k b _ Lk. apply lo_free. intros ? ? [= -> _]. lia.
Qed.
Lemma co_preceded {A B} c l (w : wparser A) (v : wparser B) : loc c w -> cost l v -> cost (c + l) (w_preceded w v).
Proof. intros H H' N i L. apply co_bind; [now apply lo_costs, H|]. intros j a _ Lj. apply H'. lia. Qed.

Lemma sp_pre {A B} N c l g i (x : wpres A) (f : str -> A -> wpres B) : lo N c i x -> (forall j a, fst x = POk j a -> length j <= length i -> spends N l (c + g) j (f j a)) -> spends N (c + l) g i (wbind x f).
Proof.
  intros H F. split; [apply co_bind; [now apply lo_costs|]; intros j a E L; now apply F|]. destruct H as [H1 H2]. unfold wbind. destruct (fst x) as [j a|e|e| |] eqn:E; try discriminate.
  destruct (F j a eq_refl (H2 j a eq_refl)) as [_ F2]. cbn [fst snd wadd chars values]. intros k b E'. specialize (F2 k b E'). rewrite pay_add. nia.
Qed.
Lemma sp_post {A B} N c l g i (x : wpres A) (f : str -> A -> wpres B) : spends N l (c + g) i x -> (forall j a, fst x = POk j a -> length j <= length i -> costs N c j (f j a)) ->
  spends N l g i (wbind x f).
Proof.
  intros [[H1 H2] H3] F. unfold wbind. destruct (fst x) as [j a|e|e| |] eqn:E; try (split; [split|]; [cbn [snd]; lia|discriminate|discriminate]).
  specialize (H2 j a eq_refl). specialize (H3 j a eq_refl). destruct (F j a eq_refl H2) as [F1 F2]. split; [split|]; cbn [fst snd wadd chars values].
  - rewrite pay_add. nia.
  - intros k b E'. specialize (F2 k b E'). lia.
  - intros k b E'. rewrite pay_add. nia.
Qed.
Lemma s_context {A} t l g (w : wparser A) : spend l g w -> spend l g (w_context t w).
Proof. intros H N i L. split; [apply co_context; [intros ? ? ?; now apply H|exact L]|]. destruct (H N i L) as [_ H2]. intros j a. unfold w_context, wthrough. cbn [fst snd]. destruct (fst (w i)) eqn:E; try discriminate. eauto. Qed.
Lemma s_cut {A} l g (w : wparser A) : spend l g w -> spend l g (w_cut w).
Proof. intros H N i L. split; [apply co_cut; [intros ? ? ?; now apply H|exact L]|]. destruct (H N i L) as [_ H2]. intros j a. unfold w_cut, wthrough. cbn [fst snd]. destruct (fst (w i)) eqn:E; try discriminate. eauto. Qed.
Lemma s_uncut {A} l g (w : wparser A) : spend l g w -> spend l g (w_uncut w).
Proof.
  intros H N i L. destruct (H N i L) as [[H1 H2] H3]. split; [split|]; [exact H1| |]; unfold w_uncut, wthrough; cbn [fst snd]; intros j a; destruct (fst (w i)) eqn:E; try discriminate; intros [= <- <-]; eauto.
Qed.
Lemma s_ignore_ws {A} l g (w : wparser A) : spend l (1 + g) w -> spend (1 + l) g (w_ignore_ws w).
Proof. intros H N i L. apply sp_pre; [apply c_opt; [apply c_inline_ws|exact L]|]. intros j a _ Lj. apply H. lia. Qed.
Lemma spend_le {A} l g l' g' (w : wparser A) : l <= l' -> g' <= g -> spend l g w -> spend l' g' w.
Proof. intros L1 L2 H N i Hi. destruct (H N i Hi) as [H1 H2]. split; [eapply costs_le; eassumption|]. intros j a E. specialize (H2 j a E). nia. Qed.
Lemma s_alt2 {A} l g (w v : wparser A) : spend 0 g w -> spend l g v -> spend l g (w_alt2 w v).
Proof.
  intros H H' N i L. destruct (H N i L) as [[H1 H2] H3], (H' N i L) as [[F1 F2] F3]. unfold w_alt2, w_or. destruct (fst (w i)) as [j a|e|e| |] eqn:E.
  - split; [split|]; [lia| |]; rewrite E; intros ? ? [= <- <-]; eauto.
  - unfold w_alt_error, wthrough. cbn [fst snd]. split; [split|]; cbn [fst snd wadd chars values].
    + rewrite pay_add. lia.
    + intros j a. destruct (fst (v i)) eqn:E'; try discriminate. intros [= <- <-]. eauto.
    + intros j a. destruct (fst (v i)) eqn:E'; try discriminate. intros [= <- <-]. rewrite pay_add. specialize (F3 _ _ eq_refl). lia.
  - split; [split|]; [lia| |]; rewrite E; discriminate.
  - split; [split|]; [lia| |]; rewrite E; discriminate.
  - split; [split|]; [lia| |]; rewrite E; discriminate.
Qed.
(** a list: each element which was read pays for the separator before it *)
Lemma co_sep_loop {A B} c l (sep : wparser B) (w : wparser A) : loc c sep -> spend l c w -> forall N fuel acc i, length i <= N -> costs N (c + l) i (w_sep_loop fuel sep w acc i).
Proof.
  intros H H'. intros N. induction fuel as [|fuel IH]; intros acc i L; cbn [w_sep_loop]; [split; [cbn; lia|discriminate]|].
  destruct (H N i L) as [H1 H2]. destruct (fst (sep i)) as [i1 b|e|e| |] eqn:E; try (split; [cbn [snd]; nia|cbn [fst]; try discriminate; intros ? ? [= <- _]; lia]).
  specialize (H2 i1 b eq_refl). destruct (Nat.eqb (length i1) (length i)); [split; [cbn [snd]; nia|discriminate]|]. cbv zeta.
  destruct (H' N i1 ltac:(lia)) as [[F1 F2] F3]. destruct (fst (w i1)) as [i2 a|e|e| |] eqn:E'; try (split; [cbn [snd wadd chars values]; rewrite pay_add; nia|cbn [fst]; try discriminate; intros ? ? [= <- _]; lia]).
  specialize (F2 i2 a eq_refl). specialize (F3 i2 a eq_refl). destruct (IH (acc ++ [a]) i2 ltac:(lia)) as [I1 I2]. split; [cbn [snd wadd chars values]; rewrite !pay_add; nia|].
  cbn [fst]. intros j a' E2. specialize (I2 j a' E2). lia.
Qed.
Lemma co_sep {A B} c l (sep : wparser B) (w : wparser A) : loc c sep -> spend l c w -> cost (c + l) (w_separated_list0 sep w).
Proof.
  intros H H' N i L. unfold w_separated_list0. destruct (H' N i L) as [[F1 F2] F3]. destruct (fst (w i)) as [i1 a|e|e| |] eqn:E; try (split; [cbn [snd]; nia|cbn [fst]; try discriminate; intros ? ? [= <- _]; lia]).
  specialize (F2 i1 a eq_refl). specialize (F3 i1 a eq_refl). destruct (co_sep_loop c l sep w H H' N (S (length i1)) [a] i1 ltac:(lia)) as [I1 I2]. cbv zeta. split; [cbn [snd wadd chars values]; rewrite pay_add; nia|].
  cbn [fst]. intros j a' E2. specialize (I2 j a' E2). lia.
Qed.

Section Delimited.
  Variables winl wcon : wparser kserd.
  Hypotheses (Hi : spend 0 G winl) (Hc : spend 0 G wcon).
  Lemma choose (b : bool) : spend 0 G (if b then winl else wcon).
  Proof. destruct b; assumption. Qed.
  Lemma d_inline_list : cost 9 (w_inline_list winl).
  Proof.
    unfold w_inline_list. apply co_context. intros N i L. apply (costs_le N (2 + 1)); [lia|]. apply co_sep; [apply (c_ignore_ws 1), c_char| |exact L].
    apply (s_ignore_ws 0). apply (spend_le 0 G); [lia|unfold G; lia|exact Hi].
  Qed.
  Lemma d_concise_list : cost 9 (w_concise_list wcon).
  Proof.
    unfold w_concise_list. intros N i L. apply (costs_le N (1 + ((1 + 0) + (1 + 0)))); [lia|]. apply co_preceded; [apply c_multi_ws| |exact L]. apply co_cut, co_terminated; [|apply c_multi_ws]. apply co_sep; [apply c_multi_ws|].
    apply (spend_le 0 G); [lia|unfold G; lia|exact Hc].
  Qed.
  Lemma d_kvp_field b : spend 4 4 (w_kvp_field winl wcon b).
  Proof.
    unfold w_kvp_field. apply s_context. intros N i L. unfold w_separated_pair. change 4 with (1 + 3) at 1. apply sp_pre; [now apply c_field_name|]. intros j a _ Lj. change 3 with (2 + 1). apply sp_pre; [apply (c_ignore_ws 1); [apply c_char|lia]|].
    intros k x _ Lk. apply (sp_post N 0).
    - apply (s_ignore_ws 0); [|lia]. apply s_cut. apply (spend_le 0 G); [lia|unfold G; lia|apply choose].
    - intros m y _ Lm. apply lo_costs, lo_free. intros ? ? [= -> _]. lia.
  Qed.
  Lemma d_kvp_kserd b : spend 4 4 (w_kvp_kserd winl wcon b).
  Proof.
    unfold w_kvp_kserd. apply s_context. apply (spend_le 0 5); [lia|lia|]. intros N i L. unfold w_separated_pair. apply (sp_post N 3).
    - apply s_alt2; [exact Hc|exact Hi|exact L].
    - intros j a _ Lj. apply (co_bind N 2 1); [apply lo_costs, (c_ignore_ws 1); [apply c_char|lia]|]. intros k x _ Lk. apply (co_bind N 1 0).
      + apply (s_ignore_ws 0 0); [|lia]. apply (spend_le 0 G); [lia|unfold G; lia|apply choose].
      + intros m y _ Lm. apply lo_costs, lo_free. intros ? ? [= -> _]. lia.
  Qed.
  Lemma d_pairs_inline {A} (w : wparser A) : spend 4 4 w -> cost 9 (w_separated_list0 (w_ignore_ws (w_char (ch ","))) (w_ignore_ws w)).
  Proof.
    intros H N i L. apply (costs_le N (2 + 5)); [lia|]. apply co_sep; [apply (c_ignore_ws 1), c_char| |exact L]. apply (s_ignore_ws 4). now apply (spend_le 4 4); [lia|lia|].
  Qed.
  Lemma d_pairs_concise {A} (w : wparser A) : spend 4 4 w -> cost 9 (w_preceded w_multiline_whitespace (w_terminated (w_separated_list0 w_multiline_whitespace w) w_multiline_whitespace)).
  Proof.
    intros H N i L. apply (costs_le N (1 + ((1 + 4) + (1 + 0)))); [lia|]. apply co_preceded; [apply c_multi_ws| |exact L]. apply co_terminated; [|apply c_multi_ws]. apply co_sep; [apply c_multi_ws|].
    now apply (spend_le 4 4); [lia|lia|].
  Qed.
  Lemma d_inline_cntr : cost 9 (w_inline_cntr winl wcon).
  Proof. unfold w_inline_cntr. apply co_context, d_pairs_inline, d_kvp_field. Qed.
  Lemma d_concise_cntr : cost 9 (w_concise_cntr winl wcon).
  Proof.
    unfold w_concise_cntr. apply co_context. intros N i L. apply (costs_le N (1 + ((1 + 4) + (1 + 0)))); [lia|]. apply co_preceded; [apply c_multi_ws| |exact L]. apply co_cut, co_terminated; [|apply c_multi_ws]. apply co_sep; [apply c_multi_ws|].
    apply (spend_le 4 4); [lia|lia|]. apply d_kvp_field.
  Qed.
  Lemma d_inline_map : cost 9 (w_inline_map winl wcon).
  Proof. unfold w_inline_map. apply co_context, d_pairs_inline, d_kvp_kserd. Qed.
  Lemma d_concise_map : cost 9 (w_concise_map winl wcon).
  Proof. unfold w_concise_map. apply co_context, d_pairs_concise, d_kvp_kserd. Qed.
  (** an optional id, a bracket, the parts, a bracket *)
  Lemma d_form {A} (o : char) (parts : str -> wparser A) (v : A -> value kserd) : (forall l, cost 11 (parts l)) ->
    cost 20 (fun i => let! (i, id) := w_opt (w_ident false) i in let! (i, _) := w_ignore_ws (w_char o) i in let! (i, l) := looking (concise_chars i) (parts i i) in w_ctor id (v l) i).
  Proof.
    intros H N i L. apply (co_bind N 5 15); [apply lo_costs, c_opt; [apply c_ident|exact L]|]. intros j id E Lj. apply (co_bind N 2 13); [apply lo_costs, (c_ignore_ws 1); [apply c_char|lia]|].
    intros k x _ Lk. apply (co_bind N 12 1).
    - apply (co_looking N _ 11 1); [|apply H; lia]. unfold concise_chars, taken. pose proof (take_while_split (fun c => mem c [32; 9; 13]%N) k). lia.
    - intros m l _ Lm. apply lo_costs, lo_ctor. destruct id as [id|]; [|exact I]. apply w_ident_length in E. lia.
  Qed.
  Lemma d_close {A} l c (w : wparser A) : cost l w -> cost (l + (2 + 0)) (w_terminated w (w_ignore_ws (w_char c))).
  Proof. intros H. apply co_terminated; [exact H|]. apply (c_ignore_ws 1), c_char. Qed.
  Lemma d_tuple b : cost 20 (w_tuple winl wcon b).
  Proof.
    apply (d_form (ch "(") (fun i => w_context (if recognise_concise i && negb b then s "multi-line (concise) tuple" else s "inline tuple")
      (w_cut (w_terminated (if recognise_concise i && negb b then w_concise_list wcon else w_inline_list winl) (w_ignore_ws (w_char (ch ")")))))) (@VTuple kserd)).
    intros l. apply co_context, co_cut. destruct (recognise_concise l && negb b); apply (d_close 9); [apply d_concise_list|apply d_inline_list].
  Qed.
  Lemma d_seq b : cost 20 (w_seq winl wcon b).
  Proof.
    apply (d_form (ch "[") (fun i => w_context (if recognise_concise i && negb b then s "multi-line (concise) sequence" else s "inline sequence")
      (w_cut (w_terminated (if recognise_concise i && negb b then w_concise_list wcon else w_inline_list winl) (w_ignore_ws (w_char (ch "]")))))) (@VSeq kserd)).
    intros l. apply co_context, co_cut. destruct (recognise_concise l && negb b); apply (d_close 9); [apply d_concise_list|apply d_inline_list].
  Qed.
  Lemma d_cntr b : cost 20 (w_cntr winl wcon b).
  Proof.
    apply (d_form (ch "(") (fun i => w_context (if recognise_concise i && negb b then s "concise container" else s "inline container")
      (w_terminated (if recognise_concise i && negb b then w_concise_cntr winl wcon else w_inline_cntr winl wcon) (w_ignore_ws (w_char (ch ")"))))) (fun l => VCntr (fields_of l))).
    intros l. apply co_context. destruct (recognise_concise l && negb b); apply (d_close 9); [apply d_concise_cntr|apply d_inline_cntr].
  Qed.
  Lemma d_mapping b : cost 20 (w_mapping winl wcon b).
  Proof.
    apply (d_form (ch "{") (fun i => w_context (if recognise_concise i && negb b then s "concise map" else s "inline map")
      (w_terminated (if recognise_concise i && negb b then w_concise_map winl wcon else w_inline_map winl wcon) (w_ignore_ws (w_char (ch "}"))))) (fun l => VMap (map_of l))).
    intros l. apply co_context. destruct (recognise_concise l && negb b); apply (d_close 9); [apply d_concise_map|apply d_inline_map].
  Qed.
  Lemma d_body b : cost 64 (w_body winl wcon b).
  Proof.
    intros N i L. unfold w_body. apply (co_bind N 27 37); [now apply lo_costs, c_delimited_pattern|]. intros j pat _ Lj.
    destruct pat; [apply (costs_le N 20); [lia|]; apply d_tuple; lia|apply (costs_le N 20); [lia|]; apply d_cntr; lia|apply (costs_le N 20); [lia|]; apply d_seq; lia|apply (costs_le N 20); [lia|]; apply d_mapping; lia|].
    apply lo_costs, c_prim. lia.
  Qed.
End Delimited.
Lemma d_delimited fuel : forall b, spend 0 G (w_delimited fuel b).
Proof.
  induction fuel as [|fuel IH]; intros b N i L; cbn [w_delimited]; [split; [split|]; [cbn; lia|discriminate|discriminate]|].
  destruct (d_body _ _ (IH true) (IH false) b N i L) as [H1 H2]. cbv zeta. split; [split|]; cbn [fst snd wadd chars values].
  - rewrite pay_add, pay_one. unfold K. lia.
  - exact H2.
  - intros j a _. rewrite pay_add, pay_one. unfold K, G. lia.
Qed.
Lemma delimited_chars fuel b i : chars (snd (w_delimited fuel b i)) <= 72 * (S (length i) * readings fuel b i).
Proof.
  destruct (d_delimited fuel b (length i) i (Nat.le_refl _)) as [[H _] _]. destruct (k_delimited fuel b i) as [_ V]. rewrite V in H. unfold pay, K in H. lia.
Qed.
