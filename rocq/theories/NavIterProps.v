(** The navigator's iterators: proofs for PropertiesIter.v. *)
From Verif Require Import Base F64 Number BTree Value BaseProps BTreeProps ValueSpec ValueProps Nav NavSpec NavProps NavProps2 NavProps3 NavIter NavIterSpec.
Open Scope nat_scope.

Lemma F2_length {A B} (R : A -> B -> Prop) l l' : Forall2 R l l' -> length l = length l'.
Proof. induction 1; cbn [length]; congruence. Qed.

(** the iterator has as many names (keys) as values and no dangling index *)
Inductive full_it (nv : nav) : citer -> list item -> Prop :=
| fi_seq l ns : Forall2 (fun i n => nav_get nv i = Some n) l ns -> full_it nv (ISeq l) (map ItNode ns)
| fi_named names l ns : length names = length l -> Forall2 (fun i n => nav_get nv i = Some n) l ns ->
    full_it nv (INamed names l) (map (fun e => ItNamed (fst e) (snd e)) (combine names ns))
| fi_keyed ks vs kn vn : length ks = length vs ->
    Forall2 (fun i n => nav_get nv i = Some n) ks kn -> Forall2 (fun i n => nav_get nv i = Some n) vs vn ->
    full_it nv (IKeyed ks vs) (map (fun e => ItKeyed (fst e) (snd e)) (combine kn vn)).

Lemma full_it_len nv it l : full_it nv it l -> it_len it = length l.
Proof.
  intros [l' ns F|names l' ns L F|ks vs kn vn L F G]; cbn [it_len]; rewrite map_length, ?combine_length.
  - apply (F2_length _ _ _ F).
  - pose proof (F2_length _ _ _ F). lia.
  - pose proof (F2_length _ _ _ F). pose proof (F2_length _ _ _ G). lia.
Qed.
Lemma full_it_empty nv it l : full_it nv it l -> it_is_empty it = true <-> l = [].
Proof.
  intros H. pose proof (full_it_len _ _ _ H) as L. transitivity (it_len it = 0).
  - destruct it as [[|]|n [|]|k [|]]; cbn [it_is_empty it_len length]; split; intros; congruence || lia.
  - rewrite L. destruct l; cbn [length]; split; intros; congruence || lia.
Qed.
Lemma full_it_next nv it l : full_it nv it l ->
  fst (it_next nv it) = hd_error l /\ full_it nv (snd (it_next nv it)) (tl l).
Proof.
  intros [l' ns F|names l' ns L F|ks vs kn vn L F G].
  - destruct F as [|i n l' ns E F]; cbn [it_next idx_next sl_next opt_bind option_map fst snd hd_error tl map].
    + split; [reflexivity|]. apply (fi_seq nv [] []). constructor.
    + rewrite E. cbn [option_map fst snd]. split; [reflexivity|]. now constructor.
  - destruct F as [|i n l' ns E F]; destruct names as [|name names]; try discriminate L;
      cbn [it_next idx_next sl_next opt_bind option_map fst snd hd_error tl map combine].
    + split; [reflexivity|]. apply (fi_named nv [] [] []); [reflexivity|constructor].
    + rewrite E. cbn [option_map fst snd]. split; [reflexivity|]. constructor; [now injection L|exact F].
  - destruct F as [|i n ks kn E F]; destruct G as [|j m vs vn E' G]; try discriminate L;
      cbn [it_next idx_next sl_next opt_bind option_map fst snd hd_error tl map combine].
    + split; [reflexivity|]. apply (fi_keyed nv [] [] [] []); [reflexivity|constructor..].
    + rewrite E. cbn [option_map fst snd]. rewrite E'. cbn [option_map fst snd]. split; [reflexivity|]. constructor; [now injection L|assumption..].
Qed.

Lemma pulled_S {A} c (l : list A) : pulled (S c) l = hd_error l :: pulled c (tl l).
Proof. destruct l as [|x l]; [|reflexivity]. unfold pulled. cbn [firstn map app length tl hd_error]. rewrite !firstn_nil. cbn [map app]. now rewrite !Nat.sub_0_r. Qed.

Lemma runs_of nv it l : full_it nv it l -> runs nv it l.
Proof.
  intros H c. revert it l H. induction c as [|c IH]; intros it l H.
  - cbn [pull fst snd]. rewrite (full_it_len _ _ _ H). split; [reflexivity|]. split; [lia|].
    rewrite (full_it_empty _ _ _ H). destruct l; cbn [length]; split; intros; congruence || lia.
  - destruct (full_it_next _ _ _ H) as (E & H'). destruct (IH _ _ H') as (P & Q & R).
    cbn [pull]. destruct (it_next nv it) as [x it']. cbn [fst snd] in *. destruct (pull nv c it') as [xs it2]. cbn [fst snd] in *.
    split; [now rewrite pulled_S, E, P|].
    assert (LT : length (tl l) = length l - 1) by (destruct l; cbn; lia). rewrite LT in *. split; [lia|]. rewrite R. lia.
Qed.

Lemma seq_iter_full nv l : length (seq_iter nv l) = length l -> Forall2 (fun i n => nav_get nv i = Some n) l (seq_iter nv l).
Proof.
  induction l as [|i l IH]; cbn [seq_iter]; [constructor|]. destruct (nav_get nv i) as [n|] eqn:E; [|discriminate].
  cbn [length]. intros L. constructor; [exact E|apply IH; lia].
Qed.

Lemma kids_lengths k p : In p (full k) ->
  length (value_children (full k) p) = length (n_value_children p) /\
  length (key_children (full k) p) = length (n_key_children p).
Proof.
  intros I. destruct (item_exists _ _ I) as (it & O & ->).
  rewrite (value_children_items _ _ O), (key_children_items _ _ O). unfold nd at 2 4. unfold mk_full. cbn [n_value_children n_key_children].
  now rewrite vc_vkids, kc_kkids, !map_length.
Qed.

Lemma value_runs k nv p : nav_new k = LRet nv -> In p nv ->
  match value_iter p with
  | None => entries_of (n_kserd p) = [] /\ values_of (n_kserd p) = []
  | Some it => exists l,
      map shown l = entries_of (n_kserd p) /\
      (forall j x, nth_error l j = Some x -> at_place nv p j x) /\
      runs nv it l
  end.
Proof.
  intros H I. pose proof (nav_children _ _ _ H I) as (VC & KC & VP & KP).
  pose proof (nav_parents _ _ H) as (_ & PP).
  assert (CV : forall j c, nth_error (value_children nv p) j = Some c -> child_at nv p false j c).
  { intros j c E. destruct (VP j c E) as (A & B & C). repeat split; [exact A| |exact B|exact C].
    apply (PP p c I A). left. eapply nth_error_In, E. }
  assert (CK : forall j c, nth_error (key_children nv p) j = Some c -> child_at nv p true j c).
  { intros j c E. destruct (KP j c E) as (A & B & C). repeat split; [exact A| |exact B|exact C].
    apply (PP p c I A). right. eapply nth_error_In, E. }
  pose proof (new_is_full _ _ H) as ->. destruct (kids_lengths k p I) as (LV & LK).
  pose proof (seq_iter_full _ _ LV) as FV. pose proof (seq_iter_full _ _ LK) as FK. fold (value_children (full k) p) in FV. fold (key_children (full k) p) in FK.
  unfold value_iter, entries_of, values_of, keys_of in *.
  destruct (kval (n_kserd p)) as [|b|n|t|b|l|m|l|m] eqn:V; try (split; reflexivity).
  - exists (map ItNode (value_children (full k) p)). split; [rewrite map_map; cbn [shown]; rewrite <- VC, map_map; reflexivity|]. split.
    + intros j x E. rewrite nth_error_map in E. destruct (nth_error (value_children (full k) p) j) as [c|] eqn:E'; [|discriminate]. injection E as <-. now apply CV.
    + apply runs_of. now constructor.
  - exists (map (fun e => ItNamed (fst e) (snd e)) (combine (map fst m) (value_children (full k) p))).
    assert (LM : length (map fst m) = length (value_children (full k) p)).
    { rewrite <- (map_length n_kserd (value_children _ _)), VC. now rewrite !map_length. }
    split; [|split].
    + rewrite map_map. cbn [shown]. transitivity (map (fun e => Field (fst e) (snd e)) (combine (map fst m) (map n_kserd (value_children (full k) p)))).
      * generalize (value_children (full k) p) as q. generalize (map fst m) as nm. induction nm as [|a nm IH]; intros [|c q]; cbn; [reflexivity..|]. now rewrite IH.
      * rewrite VC. f_equal. clear. induction m as [|[a c] m IH]; cbn; [reflexivity|]. now rewrite IH.
    + intros j x E. rewrite nth_error_map in E. destruct (nth_error (combine _ _) j) as [[a c]|] eqn:E'; [|discriminate]. injection E as <-. cbn [fst snd at_place].
      apply CV. revert j E'. generalize (value_children (full k) p) as q. generalize (map fst m) as nm. clear. induction nm as [|a' nm IH]; intros [|c' q] [|j]; cbn; try discriminate; [now intros [= _ ->]|apply IH].
    + apply runs_of. constructor; [now rewrite LM, LV|exact FV].
  - exists (map ItNode (value_children (full k) p)). split; [rewrite map_map; cbn [shown]; rewrite <- VC, map_map; reflexivity|]. split.
    + intros j x E. rewrite nth_error_map in E. destruct (nth_error (value_children (full k) p) j) as [c|] eqn:E'; [|discriminate]. injection E as <-. now apply CV.
    + apply runs_of. now constructor.
  - exists (map (fun e => ItKeyed (fst e) (snd e)) (combine (key_children (full k) p) (value_children (full k) p))).
    assert (LM : length (key_children (full k) p) = length (value_children (full k) p)).
    { rewrite <- (map_length n_kserd (value_children _ _)), VC, <- (map_length n_kserd (key_children _ _)), KC. now rewrite !map_length. }
    split; [|split].
    + rewrite map_map. cbn [shown]. transitivity (map (fun e => Pair (fst e) (snd e)) (combine (map n_kserd (key_children (full k) p)) (map n_kserd (value_children (full k) p)))).
      * generalize (value_children (full k) p) as q. generalize (key_children (full k) p) as nm. induction nm as [|a nm IH]; intros [|c q]; cbn; [reflexivity..|]. now rewrite IH.
      * rewrite VC, KC. f_equal. clear. induction m as [|[a c] m IH]; cbn; [reflexivity|]. now rewrite IH.
    + intros j x E. rewrite nth_error_map in E. destruct (nth_error (combine _ _) j) as [[a c]|] eqn:E'; [|discriminate]. injection E as <-. cbn [fst snd at_place].
      assert (G : forall (q r : list node) j, nth_error (combine q r) j = Some (a, c) -> nth_error q j = Some a /\ nth_error r j = Some c).
      { clear. induction q as [|a' q IH]; intros [|c' r] [|j]; cbn; try discriminate; [intros [= -> ->]; now split|apply IH]. }
      destruct (G _ _ _ E') as (G1 & G2). split; [now apply CK|now apply CV].
    + apply runs_of. constructor; [now rewrite <- LK, <- LV|assumption..].
Qed.

Lemma children_run k nv p : nav_new k = LRet nv -> In p nv ->
  runs nv (value_children_iter p) (map ItNode (value_children nv p)) /\
  runs nv (key_children_iter p) (map ItNode (key_children nv p)).
Proof.
  intros H I. pose proof (new_is_full _ _ H) as ->. destruct (kids_lengths k p I) as (LV & LK).
  split; apply runs_of; constructor; apply seq_iter_full; assumption.
Qed.

Lemma pull_nodes_all c l : pull_nodes c l = (pulled c l, skipn c l).
Proof.
  revert l. induction c as [|c IH]; intros l; cbn [pull_nodes]; [reflexivity|]. rewrite pulled_S.
  destruct l as [|x l]; cbn [sl_next]; rewrite IH; [now rewrite !skipn_nil|reflexivity].
Qed.

Lemma nodes_run k nv c : nav_new k = LRet nv ->
  exists l, fst (pull_nodes c (nodes_iter nv)) = pulled c l /\ map n_kserd l = preorder k /\ nav_is_empty nv = false /\
            length (snd (pull_nodes c (nodes_iter nv))) = nav_len nv - c.
Proof.
  intros H. exists nv. rewrite pull_nodes_all. cbn [fst snd]. destruct (nav_depth_first k) as (nv' & H' & P & _ & _ & _ & _ & (r & R & _)).
  rewrite H in H'. injection H' as <-. repeat split; [exact P| |unfold nodes_iter, nav_len; apply skipn_length].
  destruct nv; [discriminate R|reflexivity].
Qed.

Lemma handles_equal k nv adr adr' a b : nav_new k = LRet nv -> In a nv -> In b nv ->
  (node_eqb (adr, a) (adr', b) = true <-> adr = adr' /\ a = b).
Proof.
  intros H A B. unfold node_eqb. cbn [fst snd]. rewrite andb_true_iff, !Nat.eqb_eq. split; [|intros (-> & ->); now split].
  intros (E & ->). split; [reflexivity|]. destruct (nav_depth_first k) as (nv' & H' & _ & _ & _ & _ & G & _).
  rewrite H in H'. injection H' as <-.
  apply In_nth_error in A as (i & A). apply In_nth_error in B as (j & B).
  destruct (G i a A) as (<- & _). destruct (G j b B) as (<- & _). rewrite E in A. congruence.
Qed.
