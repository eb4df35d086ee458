From Verif Require Import Base F64 Number BTree Value ValueSpec Nav NavSpec NavProps NavProps2 Fmt FmtText FmtProps Formatter FmtSpec FormatterProps FormatterProps2 FormatterProps3 FormatterProps4 FmtDepth DepthSpec FmtDepthSpec FmtDepthProps.
From Coq Require Import Lia Permutation.
Open Scope nat_scope.

(** ** heights of items *)
Lemma height_le k n : height k <= S n <-> forall x, In x (values_of k) \/ In x (keys_of k) -> height x <= n.
Proof.
  destruct k as [id v]. cbn [height]. unfold values_of, keys_of. cbn [kval]. rewrite <- Nat.succ_le_mono. destruct v; try (split; [intros _ x [[]|[]]|lia]).
  - rewrite max_le. split; [intros H x [Hx|[]]; auto|intros H x Hx; auto].
  - rewrite (max_le (fun e => height (snd e))). split; [intros H x [Hx|[]]|intros H x Hx; apply H; left; now apply in_map].
    apply in_map_iff in Hx as (e & <- & He). auto.
  - rewrite max_le. split; [intros H x [Hx|[]]; auto|intros H x Hx; auto].
  - rewrite (max_le (fun e => Nat.max (height (fst e)) (height (snd e)))). split.
    + intros H x [Hx|Hx]; apply in_map_iff in Hx as (e & <- & He); specialize (H e He); lia.
    + intros H e He. apply Nat.max_lub; apply H; [right|left]; now apply in_map.
Qed.
Notation ih it := (height (snd (snd it))).
Lemma item_height_le it n : ih it <= S n <-> forall c, In c (kids_of it) -> ih c <= n.
Proof.
  rewrite height_le, <- vkids_kserds, <- kkids_kserds. split.
  - intros H c Hc. apply H. apply kids_value_or_key in Hc as [Hc|Hc]; [left|right]; apply in_map_iff; eauto.
  - intros H x [Hx|Hx]; apply in_map_iff in Hx as (c & <- & Hc); apply H, kids_value_or_key; auto.
Qed.
Lemma height_pos k : 0 < height k. Proof. destruct k. cbn [height]. lia. Qed.
Lemma item_height_root root it : ok_item root it -> ih it <= height root.
Proof.
  remember (fst it) as j eqn:J. revert it J. induction j as [j IH] using (well_founded_induction lt_wf). intros it -> Ho.
  destruct (i_parent (fst (snd it))) as [p|] eqn:P.
  - destruct (parent_kid root it p Ho P) as (pit & Po & <- & c & Hc & E).
    assert (X : fst pit < fst it) by (eapply parent_before; [apply (ok_get root it Ho)|exact P]).
    specialize (IH _ X pit eq_refl Po). apply (f_equal n_kserd) in E. cbn [nd mk_full n_kserd] in E. rewrite <- E.
    pose proof (height_pos (snd (snd pit))). assert (Y : ih pit <= S (ih pit - 1)) by lia. rewrite item_height_le in Y. specialize (Y c Hc). lia.
  - assert (Z : fst it = 0).
    { change (n_idx (nd it) = 0). apply (parent_none_iff root); [now apply ok_in|]. unfold node_parent. cbn [nd mk_full n_parent]. now rewrite P. }
    rewrite (ok_kserd root it (0, (info_default, root)) Ho (root_ok root) Z). cbn [snd]. lia.
Qed.

(** ** the limit is not reached *)
Lemma child_fuel rec c ws : (forall ws, rec c ws <> LFuel) -> child_width rec c ws <> LFuel.
Proof. intros R. unfold child_width. apply bind_fuel; [apply unwrap_fuel|]. intros [w|] _; [discriminate|]. apply bind_fuel; [apply R|discriminate]. Qed.
Lemma inline_fuel root cfg : forall limit it, ok_item root it -> ih it <= limit -> forall ws, inline_widths_recurse limit (full root) cfg (nd it) ws <> LFuel.
Proof.
  induction limit as [|n IH]; intros it Ho H ws; [pose proof (height_pos (snd (snd it))); lia|]. rewrite item_height_le in H.
  cbn [inline_widths_recurse]. rewrite value_children_items, key_children_items by exact Ho.
  assert (C : forall c, In c (kids_of it) -> forall ws, child_width (inline_widths_recurse n (full root) cfg) (nd c) ws <> LFuel).
  { intros c Hc ws'. apply child_fuel, IH; [now apply kid_ok with it|auto]. }
  apply bind_fuel; [|intros ? _]; apply fold_fuel; intros ? Hx ?; apply in_map_iff in Hx as (c & <- & Hc); (apply bind_fuel; [|discriminate]); apply C; [now apply vkids_in|now apply kkids_in].
Qed.
Lemma concise_fuel root cfg inw : forall limit it, ok_item root it -> ih it <= limit -> forall ws, concise_widths_recurse limit (full root) cfg inw (nd it) ws <> LFuel.
Proof.
  induction limit as [|n IH]; intros it Ho H ws; [pose proof (height_pos (snd (snd it))); lia|]. rewrite item_height_le in H.
  cbn [concise_widths_recurse]. rewrite item_val by exact Ho.
  assert (C : forall c, In c (vkids it) -> forall ws, child_width (concise_widths_recurse n (full root) cfg inw) (nd c) ws <> LFuel).
  { intros c Hc ws'. apply vkids_in in Hc. apply child_fuel, IH; [now apply kid_ok with it|auto]. }
  destruct (kval (snd (snd it))); try discriminate; apply fold_fuel; intros x Hx a; apply in_map_iff in Hx as (c & <- & Hc); cbn [snd].
  - apply bind_fuel; [now apply C|discriminate].
  - apply bind_fuel; [apply C; eapply in_comb_r; exact Hc|discriminate].
  - apply bind_fuel; [now apply C|discriminate].
  - apply bind_fuel; [apply C; eapply in_comb_r; exact Hc|]. intros ? _. apply bind_fuel; [apply unwrap_fuel|discriminate].
Qed.
Lemma all_fuel root rec : (forall it, ok_item root it -> forall ws, rec (nd it) ws <> LFuel) -> all_widths rec (full root) <> LFuel.
Proof.
  intros R. unfold all_widths. apply bind_fuel.
  - apply fold_fuel. intros x Hx a. destruct (item_exists root x Hx) as (it & Ho & ->). apply bind_fuel; [apply unwrap_fuel|].
    intros [w|] _; [discriminate|]. apply bind_fuel; [now apply R|discriminate].
  - intros ws _. apply fold_fuel. intros x _ a. apply bind_fuel; [apply unwrap_fuel|discriminate].
Qed.

(** ** the limit is reached *)
Definition in_range (c : item) (j : nat) : Prop := fst c <= j < fst c + ksize (snd (snd c)).
Definition disjoint (a b : item) : Prop := fst a + ksize (snd (snd a)) <= fst b \/ fst b + ksize (snd (snd b)) <= fst a.
Fixpoint pairwise (l : list item) : Prop := match l with [] => True | c :: l => (forall d, In d l -> disjoint c d) /\ pairwise l end.
Lemma pairwise_perm a b : Permutation a b -> pairwise a -> pairwise b.
Proof.
  induction 1 as [|x a b P IH|x y a|a b c P1 IH1 P2 IH2]; intros H; auto.
  - destruct H as [H1 H2]. split; [|auto]. intros d Hd. apply H1. now apply Permutation_in with b; [apply Permutation_sym|].
  - destruct H as (H1 & H2 & H3). split; [intros d [<-|Hd]|split]; auto; [|now intros d Hd; apply H1; right].
    specialize (H1 x (or_introl eq_refl)). unfold disjoint in *. lia.
Qed.
Lemma offl_pairwise l : forall off, pairwise (offl off l) /\ forall c, In c (offl off l) -> off <= fst c.
Proof.
  induction l as [|e l IH]; intros off; [split; [exact Logic.I|intros c []]|]. cbn [offl pairwise]. destruct (IH (off + ksize (snd e))) as [P Q]. split.
  - split; [|exact P]. intros d Hd. left. cbn [fst snd]. now apply Q.
  - intros c [<-|Hc]; [cbn; lia|]. apply Q in Hc. lia.
Qed.
Lemma kids_pairwise it : pairwise (vkids it ++ kkids it).
Proof.
  apply pairwise_perm with (kids_of it); [|apply offl_pairwise]. eapply Permutation_trans; [apply Permutation_sym, bkids_perm|]. unfold bkids. apply Permutation_app_comm.
Qed.
Lemma offl_within l : forall off c, In c (offl off l) -> off <= fst c /\ fst c + ksize (snd (snd c)) <= off + sizes l.
Proof.
  induction l as [|e l IH]; intros off c H; [destruct H|]. cbn [offl] in H. rewrite sizes_cons. destruct H as [<-|H]; [cbn [fst snd]; lia|]. apply IH in H. lia.
Qed.
Lemma kid_within it c : In c (kids_of it) -> fst it < fst c /\ fst c + ksize (snd (snd c)) <= fst it + ksize (snd (snd it)).
Proof.
  intros H. rewrite (isz_kids it). unfold isz, kids_of, kids in *. rewrite offl_snd. apply offl_within in H. lia.
Qed.

Definition untouched (ws : widths_t) (c : item) : Prop := forall j, in_range c j -> nth_error ws j = Some None.
Definition frame (l : list item) (ws ws' : widths_t) : Prop := forall j, (forall c, In c l -> ~ in_range c j) -> nth_error ws' j = nth_error ws j.
Section Reached.
  Variables (root : kserd) (rec : node -> widths_t -> lres (nat * widths_t)) (n : nat).
  Definition reaches (c : item) : Prop := forall ws w ws', untouched ws c -> rec (nd c) ws = LRet (w, ws') -> ih c <= n /\ frame [c] ws ws'.
  Lemma child_reaches c ws w ws' : reaches c -> untouched ws c -> child_width rec (nd c) ws = LRet (w, ws') -> ih c <= n /\ frame [c] ws ws'.
  Proof.
    intros R U E. unfold child_width in E. change (n_idx (nd c)) with (fst c) in E.
    assert (I : in_range c (fst c)) by (unfold in_range; pose proof (ksize_pos (snd (snd c))); lia).
    rewrite (U _ I) in E. cbn [lunwrap lbind] in E. apply bind_ret in E as ([w1 ws1] & E & E'). cbn [fst snd] in E'. injection E' as <- <-.
    destruct (R ws w1 ws1 U E) as [H F]. split; [exact H|]. intros j J. unfold set_width. rewrite update_nth.
    destruct (Nat.eqb_spec j (fst c)) as [->|_]; [|now apply F]. exfalso. apply (J c (or_introl eq_refl) I).
  Qed.
  Lemma adds_reach l : pairwise l -> (forall c, In c l -> reaches c) -> forall a ws a' ws', (forall c, In c l -> untouched ws c) ->
    lfold (fun acc child => dl r <- child_width rec child (snd acc) ; LRet (fst acc + fst r, snd r)) (map nd l) (a, ws) = LRet (a', ws') ->
    (forall c, In c l -> ih c <= n) /\ frame l ws ws'.
  Proof.
    induction l as [|c l IH]; intros P R a ws a' ws' U E.
    - cbn in E. injection E as <- <-. split; [intros c []|intros j _; reflexivity].
    - cbn [map lfold fst snd] in E. apply bind_ret in E as (x & E1 & E2). apply bind_ret in E1 as ([w1 ws1] & E1 & E3). cbn [fst snd] in E3. injection E3 as <-.
      destruct (child_reaches c ws w1 ws1 (R c (or_introl eq_refl)) (U c (or_introl eq_refl)) E1) as [H F]. destruct P as [P1 P2].
      assert (U1 : forall d, In d l -> untouched ws1 d).
      { intros d Hd j J. rewrite F; [exact (U d (or_intror Hd) j J)|]. intros c' [<-|[]] J'. specialize (P1 d Hd). unfold disjoint, in_range in *. lia. }
      destruct (IH P2 (fun d Hd => R d (or_intror Hd)) _ _ _ _ U1 E2) as [H' F'].
      split; [intros d [<-|Hd]; auto|]. intros j J. rewrite F' by (intros d Hd; apply J; now right). apply F. intros d [<-|[]]. apply J. now left.
  Qed.
End Reached.
Lemma inline_reaches root cfg : forall limit it, ok_item root it -> reaches (inline_widths_recurse limit (full root) cfg) limit it.
Proof.
  induction limit as [|n IH]; intros it Ho ws w ws' U E; [discriminate|]. cbn [inline_widths_recurse] in E.
  rewrite value_children_items, key_children_items in E by exact Ho. apply bind_ret in E as (acc & E1 & E2).
  assert (E : lfold (fun acc child => dl r <- child_width (inline_widths_recurse n (full root) cfg) child (snd acc) ; LRet (fst acc + fst r, snd r)) (map nd (vkids it ++ kkids it))
    (inline_width (n_kserd (nd it)) cfg, ws) = LRet (w, ws')).
  { rewrite map_app. clear -E1 E2. revert E1. generalize (inline_width (n_kserd (nd it)) cfg, ws). generalize (map nd (vkids it)).
    induction l as [|x l IHl]; intros a0 E1; [cbn in E1; injection E1 as <-; exact E2|]. cbn [app lfold] in *.
    apply bind_ret in E1 as (a1 & E1 & E3). rewrite E1. cbn [lbind]. now apply IHl. }
  assert (KI : forall c, In c (vkids it ++ kkids it) <-> In c (kids_of it)) by (intros c; rewrite in_app_iff; symmetry; apply kids_value_or_key).
  apply (adds_reach (inline_widths_recurse n (full root) cfg) n) in E.
  - destruct E as [H F]. split; [apply item_height_le; intros c Hc; apply H, KI, Hc|]. intros j J. apply F. intros c Hc X. apply (J it (or_introl eq_refl)).
    apply KI, kid_within in Hc. unfold in_range in *. lia.
  - apply kids_pairwise.
  - intros c Hc. apply IH. apply kid_ok with it; [exact Ho|now apply KI].
  - intros c Hc j J. apply U. apply KI, kid_within in Hc. unfold in_range in *. lia.
Qed.
Lemma inline_all_reached root cfg limit inw : all_widths (inline_widths_recurse limit (full root) cfg) (full root) = LRet inw -> height root <= limit.
Proof.
  unfold all_widths, nav_nodes, nav_len. intros E. apply bind_ret in E as (ws & E & _).
  assert (X : exists l, full root = nd (0, (info_default, root)) :: l).
  { pose proof (root_get root) as G. unfold nav_get in G. destruct (full root); [discriminate|]. cbn in G. injection G as ->. eauto. }
  pose proof (isz_le root _ (root_ok root)) as LE. cbn [fst snd] in LE.
  destruct X as [l X]. set (N0 := length (full root)) in *. rewrite X in E. cbn [lfold] in E. apply bind_ret in E as (ws1 & E & _).
  change (n_idx (nd (0, (info_default, root)))) with 0 in E.
  assert (R0 : forall j, j < N0 -> nth_error (repeat (@None nat) N0) j = Some None).
  { intros j Hj. rewrite (nth_error_nth' _ None) by now rewrite repeat_length. now rewrite nth_repeat. }
  pose proof (ksize_pos root) as KP.
  rewrite R0 in E by lia. cbn [lunwrap lbind] in E. apply bind_ret in E as ([w ws2] & E & _).
  rewrite <- X in E. apply (inline_reaches root cfg limit _ (root_ok root)) in E as [H _]; [exact H|]. intros j [_ J]. cbn [fst snd] in J. apply R0. lia.
Qed.
