(** Writing a tree that the writers cannot show: the writers panic, they never return a text. *)
From Verif Require Import Base F64 Number BTree Value ValueSpec Nav NavSpec NavProps NavProps2 Fmt Formatter FmtVectors FmtText FmtSpec FmtProps FmtProps2 FormatterProps FormatterProps2 FormatterProps3 FormatterProps4.
From Coq Require Import Lia.
Open Scope nat_scope.

(** an outcome that is a text only if [w] *)
Definition okr {A} (w : bool) (r : lres A) : Prop :=
  match r with LRet _ => w = true | LPanic => True | LFuel => False end.

Lemma okr_ret {A} (a : A) : okr true (LRet a).
Proof. reflexivity. Qed.
Lemma okr_bind {A B} w1 w2 (r : lres A) (f : A -> lres B) : okr w1 r -> (forall a, okr w2 (f a)) -> okr (w1 && w2) (lbind r f).
Proof.
  destruct r as [a| |]; cbn; [|auto|auto]. intros -> H. cbn. apply H.
Qed.
Lemma okr_true {A} w (r : lres A) : w = true -> okr w r -> okr true r.
Proof. now intros ->. Qed.
Lemma okr_bind_l {A B} w (r : lres A) (f : A -> lres B) : okr w r -> (forall a, okr true (f a)) -> okr w (lbind r f).
Proof. intros H1 H2. rewrite <- (andb_true_r w). now apply okr_bind. Qed.
Lemma okr_bind_r {A B} w (r : lres A) (f : A -> lres B) : okr true r -> (forall a, okr w (f a)) -> okr w (lbind r f).
Proof. intros H1 H2. change w with (true && w). now apply okr_bind. Qed.
Lemma okr_fold {A B} (w : A -> bool) (f : B -> A -> lres B) l : Forall (fun x => forall a, okr (w x) (f a x)) l ->
  forall a, okr (forallb w l) (lfold f l a).
Proof.
  induction 1 as [|x l H HF IH]; intros a; cbn [lfold forallb]; [apply okr_ret|]. apply okr_bind; auto.
Qed.
Lemma okr_fold_map {X A B} (w : X -> bool) (n : X -> A) (f : B -> A -> lres B) l : Forall (fun x => forall a, okr (w x) (f a (n x))) l ->
  forall a, okr (forallb w l) (lfold f (map n l) a).
Proof.
  induction 1 as [|x l H HF IH]; intros a; cbn [lfold map forallb]; [apply okr_ret|]. apply okr_bind; auto.
Qed.
Lemma okr_unwrap {A} (o : option A) : okr true (lunwrap o).
Proof. destruct o; cbn; auto. Qed.

Lemma forallb_map_ {A B} (f : B -> bool) (g : A -> B) l : forallb f (map g l) = forallb (fun x => f (g x)) l.
Proof. induction l as [|x l IH]; cbn; [|rewrite IH]; reflexivity. Qed.
Lemma forallb_pairs {A B} (f : A -> bool) (g : B -> bool) (a : list A) : forall b, length a = length b ->
  forallb (fun e => f (fst e) && g (snd e)) (combine a b) = forallb g b && forallb f a.
Proof.
  induction a as [|x a IH]; intros [|y b] H; try discriminate; [reflexivity|]. cbn [combine forallb fst snd].
  rewrite IH by (cbn in H; congruence). destruct (f x), (g y), (forallb g b), (forallb f a); reflexivity.
Qed.
Lemma forallb_named {A B} (g : B -> bool) (a : list A) : forall b, length a = length b ->
  forallb (fun e => g (snd e)) (combine a b) = forallb g b.
Proof.
  induction a as [|x a IH]; intros [|y b] H; try discriminate; [reflexivity|]. cbn [combine forallb snd].
  rewrite IH by (cbn in H; congruence). reflexivity.
Qed.

Section W.
  Variable root : kserd.
  Variable fmts : list fmt.
  Hypothesis L : length fmts = length (full root).
  Variable rec : bool -> str -> node -> nat -> lres str.
  Variable size : nat.
  Local Notation W := (fun it => writable (D fmts it)).
  Definition fits (it : item) : Prop := ok_item root it /\ ksize (snd (snd it)) <= size.
  Hypothesis Hrec : forall it, fits it -> forall b buf col, okr (W it) (rec b buf (nd it) col).
  Local Notation W2 := (fun e : item * item => writable (D fmts (fst e)) && writable (D fmts (snd e))).
  Local Notation Wn := (fun e : str * item => writable (D fmts (snd e))).

  Ltac go := repeat first [exact (okr_ret _) | apply okr_bind_l; [|intros ?] | apply Hrec; assumption].

  Lemma inline_items_okr col l buf : Forall fits l -> okr (forallb W l) (inline_items rec col (map nd l) buf).
  Proof.
    intros H. unfold inline_items. apply okr_bind_l; [|intros; apply okr_ret]. apply (okr_fold_map W nd).
    eapply Forall_impl; [|exact H]. intros x Hx a. go.
  Qed.
  Lemma concise_items_okr col l buf : Forall fits l -> okr (forallb W l) (concise_items rec col (map nd l) buf).
  Proof.
    intros H. unfold concise_items. apply okr_bind_l; [|intros; apply okr_ret]. apply (okr_fold_map W nd).
    eapply Forall_impl; [|exact H]. intros x Hx a. go.
  Qed.
  Lemma kv_okr col e buf : fits (fst e) -> fits (snd e) -> okr (W2 e) (key_and_value_concise fmts rec buf (nd (fst e)) (nd (snd e)) col).
  Proof.
    intros H1 H2. unfold key_and_value_concise. apply okr_bind_r; [apply okr_unwrap|intros kf].
    apply okr_bind; [now apply Hrec|intros b]. apply okr_bind_r.
    - destruct (repr_eqb _ _); [|apply okr_ret]. apply okr_bind_l; [apply okr_unwrap|intros; apply okr_ret].
    - intros c. go.
  Qed.
  Lemma seqs_okr it name col l buf : Forall fits l -> okr (forallb W l) (seqs_write fmts rec buf (nd it) col (map nd l) name).
  Proof.
    intros H. unfold seqs_write. apply okr_bind_r; [apply okr_unwrap|intros f].
    destruct (f_line f); [| |destruct name as [name|]];
      try (apply okr_bind_l; [first [now apply inline_items_okr | now apply concise_items_okr]|intros; apply okr_ret]).
    apply (okr_fold_map W nd). eapply Forall_impl; [|exact H]. intros x Hx a. apply okr_bind_r; [apply okr_unwrap|intros nf].
    apply okr_bind_l; [|intros; apply okr_ret]. destruct (f_line nf); go.
  Qed.
  Lemma maps_okr it name col m buf : Forall (fun e => fits (fst e) /\ fits (snd e)) m ->
    okr (forallb W2 m) (maps_write fmts rec buf (nd it) col (map nde m) name).
  Proof.
    intros H. unfold maps_write. apply okr_bind_r; [apply okr_unwrap|intros f].
    assert (C : forall c b, okr (forallb W2 m)
      (lfold (fun buf e => key_and_value_concise fmts rec (write_indent buf c) (fst e) (snd e) c) (map nde m) b)).
    { intros c b. apply (okr_fold_map W2 nde). eapply Forall_impl; [|exact H]. intros e [He1 He2] a. now apply kv_okr. }
    destruct (f_line f); [|apply okr_bind_l; [apply C|intros; apply okr_ret]|destruct name as [name|]; [|apply okr_bind_l; [apply C|intros; apply okr_ret]]].
    - apply okr_bind_l; [|intros; apply okr_ret]. apply (okr_fold_map W2 nde). eapply Forall_impl; [|exact H]. intros e [He1 He2] a.
      cbn [nde fst snd]. apply okr_bind; [now apply Hrec|intros b]. go.
    - apply (okr_fold_map W2 nde). eapply Forall_impl; [|exact H]. intros e [He1 He2] a. cbn [nde].
      apply okr_bind_r; [apply okr_unwrap|intros nf]. pose proof (kv_okr col e (a ++ s "[[" ++ name ++ s "]]" ++ [10%N]) He1 He2) as K.
      destruct (f_line nf); [exact K|exact K|]. apply okr_bind; [now apply Hrec|intros b]. go.
  Qed.
  Lemma field_okr c name col buf : fits c -> okr (W c) (field_mapping rec buf name (nd c) col).
  Proof. intros H. unfold field_mapping. go. Qed.

  Lemma writable_kids it : writable (D fmts it) = writable_node (D fmts it) && forallb W (vkids it) && forallb W (kkids it).
  Proof.
    unfold writable at 1. destruct (D fmts it) as [f id v] eqn:E. rewrite d_all_unfold, <- andb_assoc. f_equal.
    pose proof (D_children fmts it) as DC. rewrite E in DC. cbn [d_val] in DC. rewrite DC.
    pose proof (kkids_kserds it) as KK. unfold keys_of in KK.
    pose proof (kids_lengths it) as KL.
    destruct (kval (snd (snd it))) eqn:Ek;
      try (apply map_eq_nil in KK; rewrite KK; cbn [forallb]; rewrite andb_true_r, forallb_map_; reflexivity).
    specialize (KL _ eq_refl). clear - KL. revert KL. generalize (kkids it) (vkids it). induction l as [|x l IH]; intros [|y l'] H; try discriminate; [reflexivity|].
    cbn [map combine]. unfold entry_list in *. cbn [flat_map fst snd app forallb]. rewrite IH by (cbn in H; congruence).
    unfold writable. destruct (d_all _ (D fmts x)), (d_all _ (D fmts y)), (forallb _ l), (forallb _ l'); reflexivity.
  Qed.

  Lemma kid_fits it c : ok_item root it -> ksize (snd (snd it)) <= S size -> In c (kids_of it) -> fits c.
  Proof.
    intros H1 H2 Hc. split; [|pose proof (kid_size it c Hc); lia].
    pose proof (ok_kids root it H1) as F. rewrite Forall_forall in F. now apply F.
  Qed.
  Lemma vkids_fit it : ok_item root it -> ksize (snd (snd it)) <= S size -> Forall fits (vkids it).
  Proof. intros H1 H2. apply Forall_forall. intros c Hc. eapply kid_fits; eauto. apply kids_value_or_key. now left. Qed.
  Lemma kkids_fit it : ok_item root it -> ksize (snd (snd it)) <= S size -> Forall fits (kkids it).
  Proof. intros H1 H2. apply Forall_forall. intros c Hc. eapply kid_fits; eauto. apply kids_value_or_key. now right. Qed.
  Lemma mkids_fit it : ok_item root it -> ksize (snd (snd it)) <= S size ->
    Forall (fun e => fits (fst e) /\ fits (snd e)) (combine (kkids it) (vkids it)).
  Proof. intros. apply Forall_combine; [now apply kkids_fit|now apply vkids_fit]. Qed.
  Lemma no_keys it : (forall m, kval (snd (snd it)) <> VMap m) -> kkids it = [].
  Proof.
    intros H. pose proof (kkids_kserds it) as KK. unfold keys_of in KK.
    destruct (kval (snd (snd it))); try (now apply map_eq_nil in KK). now destruct (H m).
  Qed.
  Lemma names_length it m : kval (snd (snd it)) = VCntr m -> length (map fst m) = length (vkids it).
  Proof.
    intros E. pose proof (vkids_kserds it) as A. unfold values_of in A. rewrite E in A.
    apply (f_equal (@length _)) in A. rewrite !map_length in A. rewrite map_length. now symmetry.
  Qed.

  Lemma cntr_okr it buf col top (m : list (str * item)) : Forall (fun e => fits (snd e)) m ->
    okr (forallb Wn m) (cntr_write (full root) fmts rec buf (nd it) col top (map ndn m)).
  Proof.
    intros H. unfold cntr_write. apply okr_bind_r; [apply okr_unwrap|intros f].
    destruct (f_line f).
    - apply okr_bind_l; [|intros; apply okr_ret]. apply (okr_fold_map Wn ndn). eapply Forall_impl; [|exact H]. intros e He a. go.
    - apply okr_bind_l; [|intros; apply okr_ret]. apply (okr_fold_map Wn ndn). eapply Forall_impl; [|exact H]. intros e He a. now apply field_okr.
    - apply (okr_fold_map Wn ndn). eapply Forall_impl; [|exact H]. intros [n c] He a. cbn [snd] in He. unfold ndn. cbn [fst snd].
      apply okr_bind_r; [apply okr_unwrap|intros vf]. pose proof (field_okr c n col (write_indent a col) He) as FO.
      rewrite item_val by apply He. destruct He as [G1 G2]. assert (G2' : ksize (snd (snd c)) <= S size) by lia.
      pose proof (vkids_fit c G1 G2') as GV. pose proof (mkids_fit c G1 G2') as GM. pose proof (kids_lengths c) as KL.
      pose proof (writable_kids c) as WK. unfold writable_node in WK. rewrite (D_unfold fmts c) in WK at 2. cbn [d_val] in WK.
      destruct (f_line vf); [exact FO|exact FO|].
      destruct (kval (snd (snd c))) as [| | | | |l|m'|l|m'] eqn:Ek; try exact FO.
      + apply Hrec. now split.
      + apply okr_bind_l; [|intros; apply okr_ret].
        rewrite no_keys in WK by (intros; congruence). cbn [forallb andb] in WK. rewrite andb_true_r in WK. rewrite WK.
        now apply (seqs_okr c).
      + cbn [andb] in WK. rewrite WK, <- (forallb_pairs W W) by (eapply KL; reflexivity).
        change (fun e : item * item => (nd (fst e), nd (snd e))) with nde. now apply (maps_okr c).
  Qed.

  Lemma body_okr it b buf col : ok_item root it -> ksize (snd (snd it)) <= S size ->
    okr (W it) (write_body (full root) fmts rec b buf (nd it) col).
  Proof.
    intros H1 H2. unfold write_body.
    pose proof (get_fmt_item root fmts it L H1) as Gf.
    pose proof (vkids_fit it H1 H2) as GV. pose proof (mkids_fit it H1 H2) as GM. pose proof (kids_lengths it) as KL.
    pose proof (names_length it) as NL.
    pose proof (writable_kids it) as WK. unfold writable_node, d_line in WK.
    rewrite item_val by exact H1. change (n_kserd (nd it)) with (snd (snd it)).
    rewrite (D_unfold fmts it) in WK at 2. cbn [d_val] in WK.
    assert (NK : (forall m, kval (snd (snd it)) <> VMap m) -> kkids it = []) by apply no_keys.
    destruct (kval (snd (snd it))) as [|x|x|t|x|l|m|l|m] eqn:Ek;
      try (rewrite NK in WK by (intros; congruence); cbn [forallb andb] in WK; rewrite andb_true_r in WK);
      try (assert (VK : vkids it = []) by (pose proof (vkids_kserds it) as A; unfold values_of in A; rewrite Ek in A; now apply map_eq_nil in A);
           rewrite VK in WK; cbn [forallb] in WK; rewrite ?andb_true_r in WK; rewrite WK; rewrite Gf; cbn [lbind prims_write]).
    - apply okr_ret.
    - apply okr_ret.
    - apply okr_ret.
    - unfold fmt_str, delimiter. destruct (find _ _); cbn; auto.
    - apply okr_ret.
    - rewrite WK. unfold tuples_write. rewrite Gf. cbn [lbind]. destruct (f_line (d_fmt (D fmts it))); cbn [negb repr_eqb andb].
      + apply okr_bind_l; [now apply inline_items_okr|intros; apply okr_ret].
      + apply okr_bind_l; [now apply concise_items_okr|intros; apply okr_ret].
      + exact I.
    - rewrite WK. rewrite <- (forallb_named W (map fst m)) by (apply NL; reflexivity).
      apply (cntr_okr it buf col b (combine (map fst m) (vkids it))). now apply Forall_combine_r.
    - rewrite WK. now apply (seqs_okr it).
    - cbn [andb] in WK. rewrite WK, <- (forallb_pairs W W) by (eapply KL; reflexivity).
      change (fun e : item * item => (nd (fst e), nd (snd e))) with nde. now apply (maps_okr it).
  Qed.
End W.

Lemma write_okr root fmts : length fmts = length (full root) ->
  forall fuel it, ok_item root it -> ksize (snd (snd it)) <= fuel -> forall b buf col,
  okr (writable (D fmts it)) (write_node fuel (full root) fmts b buf (nd it) col).
Proof.
  intros L. induction fuel as [|fuel IH]; intros it H1 H2 b buf col.
  - pose proof (ksize_pos (snd (snd it))). lia.
  - cbn [write_node]. apply body_okr with (size := fuel); auto. intros c (G1 & G2) b' buf' col'. now apply IH.
Qed.

(** a writable tree has a free delimiter for each string *)
Lemma child_item it x : In x (vchildren (kval (snd (snd it)))) -> exists c, (In c (vkids it) \/ In c (kkids it)) /\ snd (snd c) = x.
Proof.
  pose proof (vkids_kserds it) as A. pose proof (kkids_kserds it) as B. unfold values_of, keys_of in A, B.
  assert (F : forall l l', map (fun c : item => snd (snd c)) l = l' -> In x l' -> exists c, In c l /\ snd (snd c) = x).
  { intros l l' <- H. apply in_map_iff in H as (c & E & H). eauto. }
  destruct (kval (snd (snd it))) as [| | | | |l|m|l|m]; cbn [vchildren]; intros H; try contradiction;
    try (destruct (F _ _ A H) as (c & H1 & H2); eauto; fail).
  assert (H' : In x (map snd m) \/ In x (map fst m)).
  { clear - H. induction m as [|[a b] m IH]; [destruct H|]. cbn in H |- *. destruct H as [<-|[<-|H]]; auto. destruct (IH H); auto. }
  destruct H' as [H'|H'].
  - destruct (F _ _ A H') as (c & H1 & H2); eauto.
  - destruct (F _ _ B H') as (c & H1 & H2); eauto.
Qed.
Lemma writable_strings fmts n : forall it, ksize (snd (snd it)) <= n -> writable (D fmts it) = true -> Forall (fun x => str_ok x = true) (preorder (snd (snd it))).
Proof.
  induction n as [|n IH]; intros it Hn Hw; [pose proof (ksize_pos (snd (snd it))); lia|].
  rewrite writable_kids, !andb_true_iff, !forallb_forall in Hw. destruct Hw as [[W1 W2] W3].
  rewrite preorder_unfold. constructor.
  - unfold writable_node in W1. rewrite D_unfold in W1. cbn [d_val] in W1. destruct (snd (snd it)) as [id v]. destruct v; try reflexivity.
    cbn [kval] in W1. apply str_ok_delimiter. now destruct (delimiter _).
  - apply Forall_flat_map, Forall_forall. intros x Hx. destruct (child_item it x Hx) as (c & Hc & <-).
    assert (In c (kids_of it)) as Hk by now apply kids_value_or_key.
    pose proof (kid_size it c Hk). apply IH; [lia|]. destruct Hc; auto.
Qed.

Theorem write_panics k fm buf : reachable k fm -> ~ strings_ok k -> fm_write fm buf = LPanic.
Proof.
  intros R NS. destruct (reachable_finv k fm R) as [N I]. unfold fm_write. rewrite N, root_nav. cbn [lunwrap lbind].
  assert (K : okr (writable (D (fm_fmts fm) (0, (info_default, k)))) (write_node (length (full k)) (full k) (fm_fmts fm) true buf (nd (0, (info_default, k))) 0)).
  { apply write_okr; [apply I|apply root_ok|]. cbn [snd]. rewrite full_length. lia. }
  unfold okr in K. cbn [nd fst snd] in K.
  destruct (write_node _ _ _ _ _ _ _) as [t| |]; [|reflexivity|contradiction].
  destruct NS. exact (writable_strings (fm_fmts fm) _ (0, (info_default, k)) (le_n _) K).
Qed.
Theorem as_str_only k cfg t : as_str_with_config k cfg = LRet t -> strings_ok k.
Proof.
  intros H. destruct (Forall_dec (fun x => str_ok x = true) (fun x => bool_dec (str_ok x) true) (preorder k)) as [Y|NY]; [exact Y|]. exfalso.
  unfold as_str_with_config in H. destruct (fm_new k) as [fm| |] eqn:E1; try discriminate. cbn [lbind] in H.
  destruct (apply_config fm cfg) as [fm'| |] eqn:E2; try discriminate. cbn [lbind] in H.
  rewrite (write_panics k) in H; [discriminate| |exact NY]. exists [OpConfig cfg]. unfold run. rewrite E1. cbn [lbind lfold apply_op]. now rewrite E2.
Qed.

Theorem write_panics_exactly k fm buf : reachable k fm -> (fm_write fm buf = LPanic <-> ~ strings_ok k).
Proof.
  intros R. split; [|now apply write_panics]. intros E S. destruct (write_returns k fm buf R S) as [t Ht]. congruence.
Qed.
Theorem as_str_panics_exactly k cfg : solvable k cfg -> (as_str_with_config k cfg = LPanic <-> ~ strings_ok k).
Proof.
  intros V. split.
  - intros E S. destruct (as_str_returns k cfg S V) as [t Ht]. congruence.
  - intros NS. unfold as_str_with_config. destruct (new_returns k) as (fm & E & R). rewrite E. cbn [lbind].
    destruct (config_returns k fm cfg R V) as (fm' & E' & R'). rewrite E'. cbn [lbind]. now apply write_panics with (k := k).
Qed.
