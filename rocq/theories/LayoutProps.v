(** Proofs about the solver: the order of its decisions. *)
From Verif Require Import Base BaseProps F64 Number BTree Value ValueProps Nav NavSpec NavProps NavProps2 NavProps3 Fmt FmtSpec FmtText FmtProps Formatter FormatterProps FormatterProps2 FormatterProps3.
From Coq Require Import Permutation.
Open Scope nat_scope.

(** ** the breadth first list *)
Fixpoint blev (d : nat) (l : list item) : list item := match d with O => [] | S d => l ++ blev d (flat_map bkids l) end.
Lemma by_levels_items root d : forall l, Forall (ok_item root) l -> by_levels d (full root) (map nd l) = map nd (blev d l).
Proof. induction d as [|d IH]; intros l F; [reflexivity|]. cbn [by_levels blev]. rewrite (children_level root l F), IH by now apply ok_level. now rewrite map_app. Qed.

Definition keysib (pit c d : item) : Prop := is_key (nd c) = false /\ nth_error (kkids pit) (idx_in_parent (nd c)) = Some d.
Lemma kid_unique root pit pit' c c' : ok_item root pit -> ok_item root pit' -> In c (kids_of pit) -> In c' (kids_of pit') -> fst c = fst c' ->
  fst pit = fst pit' /\ kids_of pit = kids_of pit' /\ nd c = nd c'.
Proof.
  intros O O' K K' E. pose proof (kid_ok root pit c O K) as Oc. pose proof (kid_ok root pit' c' O' K') as Oc'.
  pose proof (ok_unique root c c' Oc Oc' E) as N. assert (P : fst pit = fst pit').
  { pose proof (kids_parent _ _ K) as P. pose proof (kids_parent _ _ K') as P'. change (i_parent (fst (snd c))) with (n_parent (nd c)) in P. change (i_parent (fst (snd c'))) with (n_parent (nd c')) in P'. rewrite N, P' in P. now injection P. }
  split; [exact P|]. split; [|exact N]. pose proof (ok_unique root pit pit' O O' P) as M. apply (f_equal n_kserd) in M. cbn [nd mk_full n_kserd] in M. unfold kids_of. now rewrite P, M.
Qed.
Lemma flat_split {A B} (f : A -> list B) l : forall U c V, flat_map f l = U ++ c :: V ->
  exists l1 p l2 X Y, l = l1 ++ p :: l2 /\ f p = X ++ c :: Y /\ U = flat_map f l1 ++ X.
Proof.
  induction l as [|a l IH]; intros U c V H; cbn [flat_map] in H; [destruct U; discriminate|].
  assert (G : (exists X, f a ++ X = U /\ flat_map f l = X ++ c :: V) \/ (exists Y, f a = U ++ c :: Y)).
  { clear IH. revert U H. generalize (f a). intros x. induction x as [|b x IHx]; intros U H; [left; exists U; auto|]. destruct U as [|u U]; cbn in H.
    - injection H as -> H. right. exists x. reflexivity.
    - injection H as -> H. destruct (IHx U H) as [(X & E & R)|(Y & E)]; [left; exists X; split; [cbn; now rewrite E|exact R]|right; exists Y; cbn; now rewrite E]. }
  destruct G as [(X & <- & R)|(Y & E)].
  - destruct (IH X c V R) as (l1 & p & l2 & X' & Y' & -> & E & ->). exists (a :: l1), p, l2, X', Y'. split; [reflexivity|]. split; [exact E|]. cbn [flat_map]. now rewrite app_assoc.
  - exists [], a, l, U, Y. auto.
Qed.
Lemma prefix_split {A} (X Y U V : list A) c : X ++ Y = U ++ c :: V -> ~ In c X -> exists U', U = X ++ U'.
Proof.
  revert U. induction X as [|x X IH]; intros U H N; [exists U; reflexivity|]. destruct U as [|u U]; cbn in H.
  - injection H as -> H. exfalso. apply N. now left.
  - injection H as -> H. destruct (IH U H) as [U' ->]; [intros I; apply N; now right|]. exists U'. reflexivity.
Qed.
Lemma app_split {A} (X Y U V : list A) c : X ++ Y = U ++ c :: V -> (exists W, X = U ++ c :: W) \/ (exists W, U = X ++ W /\ Y = W ++ c :: V).
Proof.
  revert U. induction X as [|x X IH]; intros U H; [right; exists U; auto|]. destruct U as [|u U]; cbn in H.
  - injection H as -> H. left. exists X. reflexivity.
  - injection H as -> H. destruct (IH U H) as [(W & ->)|(W & -> & E)]; [left; exists W; reflexivity|right; exists W; auto].
Qed.
Lemma kkids_keys it c : In c (kkids it) -> is_key (nd c) = true.
Proof. intros H. apply In_nth_error in H as (j & H). unfold is_key. cbn [nd mk_full n_key_idx]. now rewrite (kkids_pos it j c H). Qed.

Section Order.
  Context (root : kserd).
  Definition good (S : list item) (c : item) : Prop :=
    exists pit, ok_item root pit /\ In c (kids_of pit) /\ (fst pit = 0 \/ In (fst pit) (map fst S)) /\ forall d, keysib pit c d -> In d S.
  Lemma good_kids p (P A : list item) : ok_item root p -> (fst p = 0 \/ In (fst p) (map fst P)) -> forall U c V, bkids p = U ++ c :: V -> good (P ++ A ++ U) c.
  Proof.
    intros O I U c V E. exists p. split; [exact O|]. assert (IK : In c (bkids p)) by (rewrite E; apply in_elt).
    split; [eapply Permutation_in; [apply bkids_perm|exact IK]|]. split; [rewrite map_app, in_app_iff; tauto|]. intros d (NK & H).
    destruct (prefix_split _ _ _ _ _ E) as [U' ->]; [intros C; apply kkids_keys in C; congruence|]. apply nth_error_In in H. rewrite !in_app_iff. auto.
  Qed.
  Lemma blev_good d : forall l P, Forall (ok_item root) l -> (forall A c B, l = A ++ c :: B -> good (P ++ A) c) ->
    forall A c B, blev d l = A ++ c :: B -> good (P ++ A) c.
  Proof.
    induction d as [|d IH]; intros l P F G A c B H; cbn [blev] in H; [destruct A; discriminate|].
    apply app_split in H as [(W & E)|(W & -> & E)]; [exact (G _ _ _ E)|]. rewrite app_assoc. apply (IH (flat_map bkids l) (P ++ l)) with (B := B); [now apply ok_level| |exact E].
    intros A' c' B' E'. apply flat_split in E' as (l1 & p & l2 & X & Y & -> & E' & ->).
    apply (good_kids p (P ++ (l1 ++ p :: l2)) (flat_map bkids l1)) with (V := Y); [|right; rewrite !map_app, !in_app_iff; cbn [map In]; tauto|exact E'].
    rewrite Forall_forall in F. apply F. apply in_elt.
  Qed.
  Definition croot : item := (0, (info_default, root)).
  Definition blist : list item := blev (ksize root) (bkids croot).
  Lemma blist_spec : exists ds, descendants_breadth (full root) (nd croot) = LRet ds /\ ds = map nd blist /\ Permutation ds (segment (full root) 1 (ksize root - 1)).
  Proof.
    eexists. split; [apply (breadth_spec root croot (ksize root)); [apply root_ok|cbn; lia]|]. split.
    - unfold blist. apply by_levels_items. apply ok_bkids, root_ok.
    - apply (breadth_perm root croot (ksize root)); [apply root_ok|cbn; lia].
  Qed.
  Lemma root_length : length (full root) = ksize root.
  Proof. rewrite <- (map_length n_kserd), full_kserds. apply preorder_length. Qed.
  Lemma blist_idx : Permutation (map fst blist) (seq 1 (ksize root - 1)).
  Proof.
    destruct blist_spec as (ds & _ & -> & P). apply (Permutation_map n_idx) in P. rewrite segment_idx, map_map in P.
    replace (min (ksize root - 1) (length (full root) - 1)) with (ksize root - 1) in P by (rewrite root_length; lia). exact P.
  Qed.
  Lemma blist_good A c B : blist = A ++ c :: B -> good A c.
  Proof.
    intros H. apply (blev_good (ksize root) (bkids croot) []) with (B := B); [apply ok_bkids, root_ok| |exact H].
    intros A' c' B' E. apply (good_kids croot [] []) with (V := B'); [apply root_ok|now left|exact E].
  Qed.
  Lemma blist_ok : Forall (ok_item root) blist.
  Proof.
    unfold blist. assert (G : forall d l, Forall (ok_item root) l -> Forall (ok_item root) (blev d l)).
    { induction d as [|d IH]; intros l F; [constructor|]. cbn [blev]. apply Forall_app. split; [exact F|]. apply IH. now apply ok_level. }
    apply G, ok_bkids, root_ok.
  Qed.
  Lemma blist_pos c : In c blist -> fst c <> 0.
  Proof. intros H. apply (in_map fst) in H. apply (Permutation_in _ blist_idx), in_seq in H. lia. Qed.
  Lemma blist_nodup : NoDup (map fst blist).
  Proof. eapply Permutation_NoDup; [symmetry; apply blist_idx|apply seq_NoDup]. Qed.
  Lemma blist_all pit c : ok_item root pit -> In c (kids_of pit) -> In (fst c) (map fst blist).
  Proof.
    intros O K. eapply Permutation_in; [symmetry; apply blist_idx|]. apply in_seq. pose proof (kid_ok root pit c O K) as Oc.
    pose proof (isz_le root c Oc) as B. pose proof (ksize_pos (snd (snd c))). rewrite root_length in B.
    pose proof (ok_get root c Oc) as G. pose proof (parent_before root _ _ (fst pit) G (kids_parent _ _ K)). lia.
  Qed.

  (** what has been decided is closed under parents and keys *)
  Definition closed (S : list nat) : Prop := forall pit c, ok_item root pit -> In c (kids_of pit) -> In (fst c) S ->
    In (fst pit) S /\ forall d, keysib pit c d -> In (fst d) S.
  Definition place (S : list nat) (pit c : item) : Prop := In (fst pit) S /\ forall d, keysib pit c d -> In (fst d) S.
  Lemma kid_pos pit c : ok_item root pit -> In c (kids_of pit) -> fst pit < fst c.
  Proof. intros O K. pose proof (ok_get root c (kid_ok root pit c O K)) as G. exact (parent_before root _ _ (fst pit) G (kids_parent _ _ K)). Qed.
  Lemma place_split A c B : blist = A ++ c :: B -> forall pit c', ok_item root pit -> In c' (kids_of pit) -> fst c' = fst c -> place (0 :: map fst A) pit c'.
  Proof.
    intros E pit c' O K Ef. destruct (blist_good A c B E) as (pit0 & O0 & K0 & P0 & D0). destruct (kid_unique root pit pit0 c' c O O0 K K0 Ef) as (EP & EK & EN).
    split; [rewrite EP; cbn [In]; destruct P0 as [P0|P0]; [left; lia|now right]|]. intros d [ND H]. rewrite EN in ND, H. right. apply in_map. apply D0. split; [exact ND|].
    unfold kkids in *. now rewrite EK in H.
  Qed.
  Lemma prefix_closed A B : blist = A ++ B -> closed (0 :: map fst A).
  Proof.
    intros E pit c O K [H|H]; [pose proof (kid_pos pit c O K); lia|]. apply in_map_iff in H as (c0 & E0 & H). apply in_split in H as (A1 & A2 & ->).
    rewrite <- app_assoc in E. cbn [app] in E. destruct (place_split A1 c0 _ E pit c O K (eq_sym E0)) as [P D].
    assert (SUB : forall i, In i (0 :: map fst A1) -> In i (0 :: map fst (A1 ++ c0 :: A2))).
    { intros i [<-|I]; [now left|right]. rewrite map_app. apply in_or_app. now left. }
    split; [now apply SUB|]. intros d HD. apply SUB. now apply D.
  Qed.
  Lemma below_after A c B : blist = A ++ c :: B -> forall x, In x (0 :: map fst A) -> ~ (fst c <= x < fst c + ksize (snd (snd c))).
  Proof.
    intros E. assert (Oc : ok_item root c). { pose proof blist_ok as F. rewrite Forall_forall in F. apply F. rewrite E. apply in_elt. }
    assert (NC : ~ In (fst c) (0 :: map fst A)).
    { intros [H|H]; [apply (blist_pos c); [rewrite E; apply in_elt|lia]|]. pose proof blist_nodup as ND. rewrite E, map_app in ND. cbn [map] in ND.
      apply NoDup_remove_2 in ND. apply ND. apply in_or_app. now left. }
    intros x. induction x as [x IH] using (well_founded_induction lt_wf). intros HI HX.
    assert (x <> fst c) by (intros ->; contradiction). assert (HS : fst c < x < fst c + ksize (snd (snd c))) by lia.
    pose proof (isz_le root c Oc) as BL. destruct (nth_error (full root) x) as [n|] eqn:En; [|apply nth_error_None in En; lia].
    destruct (get_item root x n En) as (it & Oi & <- & Ei). destruct (i_parent (fst (snd it))) as [p|] eqn:Ep.
    2:{ assert (fst it = 0); [|lia]. apply (parent_none_iff root (nd it)); [now apply ok_in|]. unfold node_parent. cbn [nd mk_full n_parent]. now rewrite Ep. }
    pose proof (proj1 (interval_parent root c x (nd it) p Oc En Ep) HS) as HP.
    pose proof (parent_before root x _ p En Ep) as PB. destruct (parent_kid root it p Oi Ep) as (pit & Opi & Epi & c' & Kc' & Ec').
    assert (F : fst c' = x) by (apply (f_equal n_idx) in Ec'; cbn in Ec'; lia).
    apply (IH p PB); [|lia]. rewrite <- Epi. refine (proj1 (prefix_closed A (c :: B) E pit c' Opi Kc' _)). now rewrite F.
  Qed.
End Order.

(** ** the offset looks at the ancestors and at the keys beside them *)
Definition agree (S : list nat) (g g' : list fmt) : Prop := forall i, In i S -> nth_error g i = nth_error g' i.
Section Agree.
  Context (root : kserd) (cfg : config) (S : list nat) (g g' : list fmt).
  Hypothesis A : agree S g g'.
  Hypothesis C : closed root S.
  Notation inw := (map (fun n => iw cfg (n_kserd n)) (full root)).

  Lemma concise_agree pit c : ok_item root pit -> In c (kids_of pit) -> place S pit c ->
    concise_column (node_val (full root) (nd pit)) (nd c) g inw = concise_column (node_val (full root) (nd pit)) (nd c) g' inw.
  Proof.
    intros O K [P D]. rewrite item_val by exact O. destruct (kval (snd (snd pit))) as [| | | | |l|m|l|m] eqn:Ek; cbn [concise_column]; try reflexivity.
    assert (ME : map_entry_offset (map (fun e => (nd (fst e), nd (snd e))) (combine (kkids pit) (vkids pit))) (nd c) g inw =
                 map_entry_offset (map (fun e => (nd (fst e), nd (snd e))) (combine (kkids pit) (vkids pit))) (nd c) g' inw).
    { unfold map_entry_offset. destruct (kid_cases pit c K) as [[NK N]|[NK N]]; rewrite NK; [|reflexivity].
      destruct (nth_error (kkids pit) (idx_in_parent (nd c))) as [d|] eqn:E.
      - rewrite nth_error_map, (nth_combine _ _ _ _ _ E N). cbn [option_map lunwrap lbind fst]. change (n_idx (nd d)) with (fst d). rewrite (A (fst d)); [reflexivity|].
        apply D. now split.
      - apply nth_error_None in E. rewrite (kids_lengths pit m Ek) in E. assert (Y : idx_in_parent (nd c) < length (vkids pit)) by (apply nth_error_Some; congruence). lia. }
    now rewrite ME.
  Qed.
  Lemma loop_agree fuel : forall it off, ok_item root it -> In (fst it) S -> In 0 S ->
    offset_loop fuel (full root) g inw (nd it) off = offset_loop fuel (full root) g' inw (nd it) off /\
    forall r c, offset_loop fuel (full root) g' inw (nd it) off = LRet (r, c) -> n_idx c = 0.
  Proof.
    assert (ST : forall it p, ok_item root it -> i_parent (fst (snd it)) = Some p -> exists pit c, ok_item root pit /\ In c (kids_of pit) /\ nd c = nd it /\ node_parent (full root) (nd it) = Some (nd pit)).
    { intros it p O Ep. destruct (parent_kid root it p O Ep) as (pit & Hpo & Epi & c & Hc & Ec). exists pit, c. repeat split; auto.
      unfold node_parent. cbn [nd mk_full n_parent]. rewrite Ep. cbn [opt_bind]. rewrite <- Epi. now apply ok_get. }
    induction fuel as [|fuel IH]; intros it off O I I0; cbn [offset_loop].
    - destruct (i_parent (fst (snd it))) as [p|] eqn:Ep.
      + destruct (ST it p O Ep) as (pit & c & _ & _ & _ & ->). split; [reflexivity|discriminate].
      + assert (P : node_parent (full root) (nd it) = None) by (unfold node_parent; cbn [nd mk_full n_parent]; now rewrite Ep). rewrite P. split; [reflexivity|].
        intros r c [= <- <-]. apply (parent_none_iff root (nd it)); [now apply ok_in|exact P].
    - destruct (i_parent (fst (snd it))) as [p|] eqn:Ep.
      + destruct (ST it p O Ep) as (pit & c & Op & Kc & Ec & ->). rewrite <- Ec.
        assert (Fc : fst c = fst it) by (apply (f_equal n_idx) in Ec; exact Ec).
        assert (PL : place S pit c) by (apply C; [exact Op|exact Kc|now rewrite Fc]).
        change (n_idx (nd pit)) with (fst pit). rewrite <- (A (fst pit) (proj1 PL)). rewrite (concise_agree pit c Op Kc PL).
        destruct (lunwrap (nth_error g (fst pit))) as [f| |]; cbn [lbind]; try (split; [reflexivity|discriminate]).
        destruct (match f_line f with Inline => LRet 0 | Concise => _ | Verbose => _ end) as [add| |]; cbn [lbind]; try (split; [reflexivity|discriminate]).
        apply IH; [exact Op|exact (proj1 PL)|exact I0].
      + assert (P : node_parent (full root) (nd it) = None) by (unfold node_parent; cbn [nd mk_full n_parent]; now rewrite Ep). rewrite P. split; [reflexivity|].
        intros r c [= <- <-]. apply (parent_none_iff root (nd it)); [now apply ok_in|exact P].
  Qed.
  Lemma offset_agree pit c : ok_item root pit -> In c (kids_of pit) -> place S pit c -> In 0 S ->
    calculate_offset (full root) (nd c) g inw = calculate_offset (full root) (nd c) g' inw.
  Proof.
    intros O K PL I0. unfold calculate_offset.
    assert (P : node_parent (full root) (nd c) = Some (nd pit)).
    { unfold node_parent. cbn [nd mk_full n_parent]. rewrite (kids_parent _ _ K). cbn [opt_bind]. now apply ok_get. }
    rewrite P. change (n_idx (nd pit)) with (fst pit). rewrite <- (A (fst pit) (proj1 PL)), (concise_agree pit c O K PL).
    destruct (lunwrap (nth_error g (fst pit))) as [f| |]; cbn [lbind]; try reflexivity.
    destruct (match f_line f with Inline => LRet 0 | _ => _ end) as [off| |]; cbn [lbind]; try reflexivity.
    destruct (loop_agree (nav_len (full root)) pit off O (proj1 PL) I0) as [-> Z].
    destruct (offset_loop (nav_len (full root)) (full root) g' inw (nd pit) off) as [[r d]| |]; cbn [lbind fst snd]; try reflexivity.
    rewrite (Z r d eq_refl), (A 0 I0). reflexivity.
  Qed.
End Agree.
