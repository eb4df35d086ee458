(** Proofs about the solver: the width of a concise text. *)
From Verif Require Import Base BaseProps F64 Number BTree Value ValueProps Base91 Nav NavSpec NavProps NavProps2 NavProps3 Fmt FmtSpec FmtText FmtProps FmtProps2 Formatter FormatterProps FormatterProps2 FormatterProps3 FormatterProps4 LayoutSpec LayoutProps LayoutProps2 LayoutProps3 LayoutProps4 LayoutProps5 LayoutProps6.
Open Scope nat_scope.

(** ** texts and columns *)
Definition fits (M p : nat) (t : str) : Prop := Forall (fun w => w <= M) (line_lengths p t).
Fixpoint endp (p : nat) (t : str) : nat :=
  match t with [] => p | c :: t => if (c =? 10)%N then endp 0 t else endp (S p) t end.
Lemma endp_app a b : forall p, endp p (a ++ b) = endp (endp p a) b.
Proof. induction a as [|c a IH]; intros p; [reflexivity|]. cbn [app endp]. destruct (c =? 10)%N; apply IH. Qed.
Lemma endp_le t : forall p, endp p t <= p + length t.
Proof. induction t as [|c t IH]; intros p; cbn [endp length]; [lia|]. destruct (c =? 10)%N; [specialize (IH 0)|specialize (IH (S p))]; lia. Qed.
Lemma fits_app M a b : forall p, fits M p a -> fits M (endp p a) b -> fits M p (a ++ b).
Proof.
  induction a as [|c a IH]; intros p HA HB; [exact HB|]. unfold fits in *. cbn [app line_lengths endp] in *. destruct (c =? 10)%N; [inversion HA; subst; constructor; auto|auto].
Qed.
Lemma fits_end M t : forall p, fits M p t -> endp p t <= M.
Proof. induction t as [|c t IH]; intros p H; unfold fits in *; cbn [line_lengths endp] in *; [now inversion H|]. destruct (c =? 10)%N; [inversion H; subst|]; auto. Qed.
Lemma fits_mono M t : forall p q, q <= p -> fits M p t -> fits M q t.
Proof.
  induction t as [|c t IH]; intros p q L H; unfold fits in *; cbn [line_lengths] in *; [inversion H; subst; constructor; [lia|constructor]|].
  destruct (c =? 10)%N; [inversion H; subst; constructor; [lia|auto]|]. apply (IH (S p)); [lia|exact H].
Qed.
Lemma fits_len M t : forall p, p + length t <= M -> fits M p t.
Proof.
  induction t as [|c t IH]; intros p H; unfold fits in *; cbn [line_lengths length] in *; [constructor; [lia|constructor]|].
  destruct (c =? 10)%N; [constructor; [lia|]; apply IH; lia|apply IH; lia].
Qed.
Lemma fits_step M p acc u : fits M p acc /\ endp p acc = 0 -> fits M 0 u -> fits M p (acc ++ u ++ nl) /\ endp p (acc ++ u ++ nl) = 0.
Proof.
  intros [H1 H2] H3. split.
  - apply fits_app; [exact H1|]. rewrite H2. apply fits_app; [exact H3|]. unfold fits. cbn. constructor; [now apply fits_end|]. constructor; [lia|constructor].
  - rewrite !endp_app, H2. reflexivity.
Qed.
Lemma sp_length n : length (sp n) = n.
Proof. apply repeat_length. Qed.
Lemma cut_sp_fits M x n t : n <= M -> (forall q, q <= n -> fits M q t) -> fits M 0 (cut x (sp n) ++ t).
Proof.
  intros H1 H2. pose proof (cut_length x (sp n)) as L. rewrite sp_length in L. apply fits_app; [apply fits_len; lia|]. apply H2.
  pose proof (endp_le (cut x (sp n)) 0). lia.
Qed.
Lemma cut_fits M x n a t : length a <= n -> n <= M -> (forall q, q <= n -> fits M q t) -> fits M 0 (cut x a ++ t).
Proof.
  intros H0 H1 H2. pose proof (cut_length x a) as L. apply fits_app; [apply fits_len; lia|]. apply H2. pose proof (endp_le (cut x a) 0). lia.
Qed.
Lemma sum_ge x l : In x l -> x <= list_sum l.
Proof. induction l as [|y l IH]; [intros []|]. intros [->|H]; rewrite list_sum_cons; [lia|]. specialize (IH H). lia. Qed.
Lemma entries_ge (g : kserd -> nat) m e : In e m -> g (fst e) + g (snd e) <= list_sum (map g (entry_list m)).
Proof.
  unfold entry_list. induction m as [|y m IH]; [intros []|]. cbn [flat_map app map]. rewrite !list_sum_cons. intros [->|H]; [lia|]. specialize (IH H). lia.
Qed.
Lemma comb_nth {A B} (a : list A) : forall (b : list B) e, In e (combine a b) -> exists j, nth_error a j = Some (fst e) /\ nth_error b j = Some (snd e).
Proof.
  induction a as [|x a IH]; intros [|y b] e H; try destruct H as [].
  - exists 0. subst. auto.
  - destruct (IH b e H) as (j & H1 & H2). exists (S j). auto.
Qed.

Section Width.
  Context (k : kserd) (cfg : config) (fm fm' : formatter) (lim : nat).
  Hypothesis E : fm_new k = LRet fm.
  Hypothesis E' : apply_config fm cfg = LRet fm'.
  Hypothesis HL : width_limit cfg = Some lim.
  Hypothesis HC : concise_est cfg k <= lim.
  Hypothesis KI : key_nodes_ok (fun key => repr_eqb (kind_max key) Inline) k.
  Notation fmts := (fm_fmts fm').
  Notation N := (proj2 (proj2 (proj2 (fresh_inv k cfg fm fm' E E')))).
  Notation I := (proj1 (proj2 (proj2 (fresh_inv k cfg fm fm' E E')))).

  Lemma keys_solvable : solvable k cfg.
  Proof. left. intros x Hx. eapply Forall_impl; [|exact (KI x Hx)]. cbn beta. intros a H. now destruct (kind_max a). Qed.
  Lemma root_small r : line_at fmts 0 r -> r <> Verbose.
  Proof.
    intros H. pose proof (root_form k cfg fm fm' E E') as R. apply line_of_at in R. rewrite (line_at_fun _ _ _ _ H R). unfold wants. rewrite HL. cbn [Nat.add].
    replace (lim <? concise_est cfg k) with false by (symmetry; apply Nat.ltb_ge; lia). unfold repr_least. destruct (lim <? inline_est cfg k), (kind_max k), (seq_or_map k); discriminate.
  Qed.
  Lemma none_verbose it r : ok_item k it -> line_at fmts (fst it) r -> r <> Verbose.
  Proof.
    intros O H ->. destruct (inv_line k fmts 0 I ltac:(pose proof (item_lt k it O); lia)) as [r0 H0]. pose proof (root_small r0 H0) as NV. pose proof (top_le k fmts I _ _ _ H0 H) as LE.
    unfold repr_le in LE. destruct r0; cbn in LE; try lia. congruence.
  Qed.
  Lemma key_inline it c : ok_item k it -> In c (kkids it) -> line_at fmts (fst c) Inline /\ kind_max (snd (snd c)) = Inline.
  Proof.
    intros O K. assert (KK : kind_max (snd (snd c)) = Inline).
    { pose proof (KI _ (item_preorder k it O)) as F. rewrite <- kkids_kserds in F. rewrite Forall_map, Forall_forall in F. specialize (F c K). now destruct (kind_max (snd (snd c))). }
    assert (Oc : ok_item k c) by (apply (kid_ok k it); [exact O|now apply kkids_in]). destruct (inv_line k fmts (fst c) I (item_lt k c Oc)) as [r Hr].
    pose proof (proj1 (proj2 I) _ _ _ (ok_get k c Oc) Hr) as LE. cbn [nd mk_full n_kserd] in LE. rewrite KK in LE. unfold repr_le in LE. destruct r; cbn in LE; try lia. auto.
  Qed.
  Lemma item_flag it : ok_item k it -> f_id (d_fmt (D fmts it)) = flag cfg (kval (snd (snd it))).
  Proof.
    intros O. destruct (new_returns k) as (f0 & E0 & R0). rewrite E in E0. injection E0 as <-. destruct (config_flags k fm cfg fm' R0 E') as [N' F].
    specialize (F (nd it)). rewrite <- N', N in F. specialize (F (ok_in k it O)). cbn [nd mk_full n_idx n_kserd] in F. rewrite D_unfold. cbn [d_fmt].
    destruct (get_fmts k fmts it (proj1 I) O) as [f Hf]. rewrite Hf in F. cbn [option_map] in F. injection F as F. now rewrite (nth_error_nth _ _ _ Hf).
  Qed.
  Lemma item_line it r : ok_item k it -> line_at fmts (fst it) r -> d_line (D fmts it) = r.
  Proof. intros O H. exact (line_at_fun _ _ _ _ (D_line k fmts it (proj1 I) O) H). Qed.
  Lemma d_children_kids it x : In x (d_children (d_val (D fmts it))) -> exists c, In c (kids_of it) /\ x = D fmts c.
  Proof.
    rewrite D_unfold. cbn [d_val]. destruct (kval (snd (snd it))) as [| | | | |l|m|l|m]; cbn [d_children]; try intros [].
    - intros H. apply in_map_iff in H as (c & <- & H). exists c. split; [now apply vkids_in|reflexivity].
    - intros H. apply in_map_iff in H as (e & <- & H). apply in_comb_r in H. apply in_map_iff in H as (c & <- & H). exists c. split; [now apply vkids_in|reflexivity].
    - intros H. apply in_map_iff in H as (c & <- & H). exists c. split; [now apply vkids_in|reflexivity].
    - unfold entry_list. intros H. apply in_flat_map in H as (e & H & [<-|[<-|[]]]).
      + apply in_comb_l in H. apply in_map_iff in H as (c & <- & H). exists c. split; [now apply kkids_in|reflexivity].
      + apply in_comb_r in H. apply in_map_iff in H as (c & <- & H). exists c. split; [now apply vkids_in|reflexivity].
  Qed.
  Lemma inline_conf : forall n it, ksize (snd (snd it)) < n -> ok_item k it -> line_at fmts (fst it) Inline -> d_all (as_config cfg) (D fmts it) = true.
  Proof.
    induction n as [|n IH]; intros it Hn O H; [lia|]. destruct (D fmts it) as [f id v] eqn:ED. apply d_all_children. split.
    - unfold as_config. rewrite <- ED, (item_line it Inline O H). cbn [repr_eqb repr_n Nat.eqb andb]. rewrite (item_flag it O).
      assert (FV : flag cfg (d_val (D fmts it)) = flag cfg (kval (snd (snd it)))) by (rewrite D_unfold; cbn [d_val]; destruct (kval (snd (snd it))); reflexivity).
      rewrite FV. apply Bool.eqb_reflx.
    - apply Forall_forall. intros x Hx. change v with (d_val (DK f id v)) in Hx. rewrite <- ED in Hx. apply d_children_kids in Hx as (c & Kc & ->).
      assert (Oc : ok_item k c) by now apply (kid_ok k it). pose proof (kid_size it c Kc) as KS. apply IH; [lia|exact Oc|].
      destruct (inv_line k fmts (fst c) I (item_lt k c Oc)) as [r Hr]. pose proof (inv_kid_le k fmts it c _ _ I O Kc Hr H) as LE. unfold repr_le in LE. destruct r; cbn in LE; try lia. exact Hr.
  Qed.

  Variable M : nat.
  (** [it] at the column [e] as estimated, [d] more in the text *)
  Definition fit_at (it : item) : Prop := forall r e col p d, line_at fmts (fst it) r -> block cfg fm' (nd it) e -> e + cw cfg (snd (snd it)) <= lim ->
    (r = Inline -> kind_max (snd (snd it)) = Inline \/ e + iw cfg (snd (snd it)) <= lim) -> col <= e + d -> p <= col -> lim + d + total slack (snd (snd it)) <= M ->
    fits M p (text true (D fmts it) col).
  Lemma inline_fit it : ok_item k it -> line_at fmts (fst it) Inline -> fit_at it.
  Proof.
    intros O H r e col p d Hr B HW HI HCo HP HM. rewrite (line_at_fun _ _ _ _ Hr H) in *. specialize (HI eq_refl). pose proof (inline_conf _ it (Nat.lt_succ_diag_r _) O H) as IC.
    apply fits_len. destruct HI as [KM|HI].
    - assert (UN : undeco (D fmts it) = snd (snd it)) by apply undeco_deco. pose proof (small_length cfg _ IC) as L. rewrite UN in L. specialize (L KM true col). pose proof (cw_first cfg (snd (snd it))). unfold str, char in *. lia.
    - pose proof (inline_length cfg _ IC true col) as L. assert (UN : undeco (D fmts it) = snd (snd it)) by apply undeco_deco. rewrite UN in L. unfold str, char in *. lia.
  Qed.
  (** the children of a concise value *)
  Lemma kid_fits it e c x : ok_item k it -> In c (kids_of it) -> fit_at c -> line_at fmts (fst it) Concise -> block cfg fm' (nd it) e -> within cfg fm' (nd it) (nd c) x ->
    e + x + cw cfg (snd (snd c)) <= lim -> forall col p d, col <= e + x + d -> p <= col -> lim + d + total slack (snd (snd c)) <= M -> fits M p (text true (D fmts c) col).
  Proof.
    intros O K F HLc B W HW col p d H1 H2 H3. pose proof (item_child k fm' it c N O K) as C.
    assert (LP : line_of fm' (n_idx (nd it)) = Some Concise) by (apply line_of_at; exact HLc).
    pose proof (entry_form k cfg fm fm' E E' _ _ _ _ _ C LP ltac:(discriminate) B W) as EF. apply line_of_at in EF. cbn beta iota in EF.
    apply (F _ (e + x) col p d EF); [now apply (b_entry cfg fm' (nd it))|exact HW| |exact H1|exact H2|exact H3].
    cbn [nd mk_full n_kserd]. intros IN. destruct (kind_max (snd (snd c))) eqn:KM; [now left|right..].
    all: assert (WI : asked cfg (e + x) (snd (snd it)) (snd (snd c)) = Inline) by (unfold repr_least in IN; destruct (asked _ _ _ _); [reflexivity|discriminate IN..]).
    all: unfold asked, wants in WI; rewrite HL, <- cw_est, <- iw_est in WI; destruct (lim <? e + x + cw cfg (snd (snd c))) eqn:L1; [apply Nat.ltb_lt in L1; lia|];
      destruct (lim <? e + x + iw cfg (snd (snd c))) eqn:L2; [|apply Nat.ltb_ge in L2; lia]; destruct (kval (snd (snd c))), (kval (snd (snd it))); discriminate WI.
  Qed.
  Lemma cw_kids id v : match v with
    | VTuple l | VSeq l => Forall (fun x => 4 + cw cfg x <= cw cfg (Kserd id v)) l
    | VCntr m => Forall (fun e => 4 + length (fst e) + 3 + cw cfg (snd e) <= cw cfg (Kserd id v)) m
    | VMap m => Forall (fun e => 4 + iw cfg (fst e) + 2 + cw cfg (snd e) <= cw cfg (Kserd id v)) m
    | _ => True end.
  Proof.
    destruct v as [| | | | |l|m|l|m]; try exact Logic.I; cbn [cw]; match goal with |- context [fold_left max ?l ?a] => pose proof (proj2 (fold_max_ge l a)) as F end;
      rewrite Forall_map in F; eapply Forall_impl; try exact F; cbn beta; intros a; change INDENT with 4; try change (length FIELDS_ASSIGNER) with 2; try change (length KEYS_ASSIGNER) with 1; lia.
  Qed.
  Lemma fit_item : forall n it, ksize (snd (snd it)) < n -> ok_item k it -> fit_at it.
  Proof.
    induction n as [|n IH]; intros it Hn O; [lia|]. intros r e col p d Hr B HW HI HCo HP HM.
    destruct r; [now apply (inline_fit it O Hr Inline e col p d)| |exfalso; now apply (none_verbose it Verbose O Hr)].
    assert (KF : forall c, In c (kids_of it) -> fit_at c). { intros c Kc. apply IH; [pose proof (kid_size it c Kc); lia|now apply (kid_ok k it)]. }
    pose proof (item_line it Concise O Hr) as DL. pose proof (item_flag it O) as DF. rewrite D_unfold in DL, DF |- *. unfold d_line in DL. cbn [d_fmt] in DL, DF.
    set (f := nth (fst it) fmts (mkFmt true Inline)) in *. clearbody f.
    pose proof (vkids_kserds it) as VK. pose proof (kkids_kserds it) as KK. pose proof (cw_first cfg (snd (snd it))) as CF.
    assert (HX : forall c x, nth_error (vkids it) x = Some c -> In c (kids_of it) /\ is_key (nd c) = false /\ idx_in_parent (nd c) = x).
    { intros c x Hx. pose proof (vkids_pos it x c Hx) as P. apply nth_error_In in Hx. pose proof (vkids_in it c Hx) as Kc. split; [exact Kc|]. unfold is_key, idx_in_parent. cbn [nd mk_full n_key_idx n_value_idx].
      destruct (kids_role it c Kc) as [(j' & A & A')|(j' & A & A')]; [|unfold item in *; congruence]. rewrite A', P. auto. }
    assert (TS : total slack (snd (snd it)) = slack (snd (snd it)) + list_sum (map (total slack) (vchildren (kval (snd (snd it)))))) by apply total_unfold.
    destruct (snd (snd it)) as [id v] eqn:EK. cbn [kid kval] in *. pose proof (cw_kids id v) as CK. unfold values_of, keys_of in VK, KK. cbn [kval] in VK, KK.
    unfold concise_width, ident_len in CF. cbn [kval kid] in CF.
    destruct v as [| | | | |l|m|l|m]; cbn [text];
      try (pose proof (proj1 (proj2 I) _ _ _ (ok_get k it O) Hr) as LE; cbn [nd mk_full n_kserd] in LE; rewrite EK in LE; unfold repr_le, kind_max in LE; cbn in LE; lia); rewrite DL; cbn [vchildren flag] in *.
    - (* tuple *)
      pose proof (tuple_id_le f id _ DF) as TI.
      assert (P0 : fits M p (tuple_id f id ++ s "(" ++ nl) /\ endp p (tuple_id f id ++ s "(" ++ nl) = 0).
      { rewrite app_assoc. split; [|rewrite endp_app; reflexivity]. apply fits_app; [apply fits_len; rewrite app_length; cbn [length s list_ascii_of_string map]|unfold fits; cbn; constructor; [|constructor; [lia|constructor]]].
        2: etransitivity; [apply endp_le|]; rewrite app_length; cbn [length s list_ascii_of_string map].
        all: destruct (id_on_tuples cfg), id as [[|c i]|]; cbn [length Nat.ltb Nat.leb andb] in *; unfold str, char in *; lia. }
      set (g := (fun acc x => cut x (acc ++ sp (col + 4)) ++ text true x (col + 4) ++ nl)). set (L := (map (D fmts) (vkids it))).
      assert (ST : Forall (fun x => forall acc, fits M p acc /\ endp p acc = 0 -> fits M p (g acc x) /\ endp p (g acc x) = 0) L).
      { unfold L. apply Forall_map, Forall_forall. intros c Hc. apply In_nth_error in Hc as [x Hx]. destruct (HX c x Hx) as (Kc & _ & _). intros acc PA. unfold g. cbn [fst snd].
        rewrite cut_app by apply sp_ne. rewrite <- app_assoc, (app_assoc (cut _ _)). apply fits_step; [exact PA|].
        assert (IC : In (snd (snd c)) l) by (rewrite <- VK; exact (in_map (fun it : item => snd (snd it)) _ _ (nth_error_In _ _ Hx))).
        pose proof (proj1 (Forall_forall _ _) CK _ IC) as CW. cbv beta in CW. pose proof (sum_ge _ _ (in_map (total slack) _ _ IC)) as SG. pose proof (cw_some cfg (snd (snd c))).
        assert (WT : within cfg fm' (nd it) (nd c) 4) by (apply (w_tuple _ _ _ _ l); cbn [nd mk_full n_kserd]; now rewrite EK).
        apply cut_sp_fits; [lia|]. intros q Hq. apply (kid_fits it e c 4 O Kc (KF c Kc) Hr B WT ltac:(lia) (col + 4) q d); lia. }
      destruct (fold_inv (fun t => fits M p t /\ endp p t = 0) g L ST _ P0) as [PF1 PF2]. cbv beta in PF1, PF2.
      refine (fits_app M _ _ p PF1 _). rewrite PF2. apply fits_len. rewrite app_length, sp_length. cbn [length s list_ascii_of_string map]. destruct (id_on_tuples cfg); lia.
    - (* container *)
      pose proof (nonprim_id_le f id _ DF) as TI.
      assert (P0 : fits M p (nonprim_id f id ++ s "(" ++ nl) /\ endp p (nonprim_id f id ++ s "(" ++ nl) = 0).
      { rewrite app_assoc. split; [|rewrite endp_app; reflexivity]. apply fits_app; [apply fits_len; rewrite app_length; cbn [length s list_ascii_of_string map]|unfold fits; cbn; constructor; [|constructor; [lia|constructor]]].
        2: etransitivity; [apply endp_le|]; rewrite app_length; cbn [length s list_ascii_of_string map].
        all: unfold slack in TS at 2; cbn [kval kid] in TS; destruct m; destruct (id_on_containers cfg), id as [[|c i]|]; cbn [length Nat.ltb Nat.leb andb] in *; unfold str, char in *; lia. }
      set (g := (fun acc e => cut (snd e) (acc ++ sp (col + 4) ++ fst e ++ s " = ") ++ text true (snd e) (col + 4 + (length (fst e) + 3)) ++ nl)). set (L := (combine (map fst m) (map (D fmts) (vkids it)))).
      assert (ST : Forall (fun x => forall acc, fits M p acc /\ endp p acc = 0 -> fits M p (g acc x) /\ endp p (g acc x) = 0) L).
      { unfold L. apply Forall_forall. intros y Hy. destruct (comb_nth _ _ _ Hy) as (x & Hn1 & Hn2). rewrite nth_error_map in Hn1, Hn2. destruct (nth_error m x) as [[nm kx]|] eqn:Em; [|discriminate Hn1].
        destruct (nth_error (vkids it) x) as [c|] eqn:Hx; [|discriminate Hn2]. cbn [option_map] in Hn1, Hn2. injection Hn1 as Hn1. injection Hn2 as Hn2. destruct y as [y1 y2]. cbn [fst snd] in *. subst y1 y2.
        destruct (HX c x Hx) as (Kc & NKc & Ix). intros acc PA. unfold g. cbn [fst snd].
        assert (EX : kx = snd (snd c)) by (pose proof (f_equal (fun l => nth_error l x) VK) as V; cbv beta in V; rewrite !nth_error_map, Hx, Em in V; cbn [option_map snd] in V; now injection V as ->). subst kx.
        rewrite cut_app by (apply app_ne_l, sp_ne). rewrite <- app_assoc, (app_assoc (cut _ _)). apply fits_step; [exact PA|].
        pose proof (proj1 (Forall_forall _ _) CK _ (nth_error_In _ _ Em)) as CW. cbv beta in CW. pose proof (sum_ge _ _ (in_map (total slack) _ _ (in_map snd _ _ (nth_error_In _ _ Em)))) as SG. cbn [fst snd] in CW, SG. pose proof (cw_some cfg (snd (snd c))).
        assert (WT : within cfg fm' (nd it) (nd c) (4 + length nm + 3)) by (apply (w_field _ _ _ _ m nm (snd (snd c))); [cbn [nd mk_full n_kserd]; now rewrite EK|now rewrite Ix]).
        apply (cut_fits M _ (col + 4 + (length nm + 3))); [rewrite !app_length, sp_length; cbn [length s list_ascii_of_string map]; unfold str, char in *; lia|unfold str, char in *; lia|]. intros q Hq.
        apply (kid_fits it e c (4 + length nm + 3) O Kc (KF c Kc) Hr B WT ltac:(unfold str, char in *; lia) (col + 4 + (length nm + 3)) q d); unfold str, char in *; lia. }
      destruct (fold_inv (fun t => fits M p t /\ endp p t = 0) g L ST _ P0) as [PF1 PF2]. cbv beta in PF1, PF2.
      refine (fits_app M _ _ p PF1 _). rewrite PF2. apply fits_len. rewrite app_length, sp_length. cbn [length s list_ascii_of_string map]. destruct (id_on_containers cfg); lia.
    - (* list *)
      pose proof (nonprim_id_le f id _ DF) as TI.
      assert (P0 : fits M p (nonprim_id f id ++ s "[" ++ nl) /\ endp p (nonprim_id f id ++ s "[" ++ nl) = 0).
      { rewrite app_assoc. split; [|rewrite endp_app; reflexivity]. apply fits_app; [apply fits_len; rewrite app_length; cbn [length s list_ascii_of_string map]|unfold fits; cbn; constructor; [|constructor; [lia|constructor]]].
        2: etransitivity; [apply endp_le|]; rewrite app_length; cbn [length s list_ascii_of_string map].
        all: unfold slack in TS at 2; cbn [kval kid] in TS; destruct l; destruct (id_on_seqs cfg), id as [[|c i]|]; cbn [length Nat.ltb Nat.leb andb] in *; unfold str, char in *; lia. }
      set (g := (fun acc x => cut x (acc ++ sp (col + 4)) ++ text true x (col + 4) ++ nl)). set (L := (map (D fmts) (vkids it))).
      assert (ST : Forall (fun x => forall acc, fits M p acc /\ endp p acc = 0 -> fits M p (g acc x) /\ endp p (g acc x) = 0) L).
      { unfold L. apply Forall_map, Forall_forall. intros c Hc. apply In_nth_error in Hc as [x Hx]. destruct (HX c x Hx) as (Kc & _ & _). intros acc PA. unfold g. cbn [fst snd].
        rewrite cut_app by apply sp_ne. rewrite <- app_assoc, (app_assoc (cut _ _)). apply fits_step; [exact PA|].
        assert (IC : In (snd (snd c)) l) by (rewrite <- VK; exact (in_map (fun it : item => snd (snd it)) _ _ (nth_error_In _ _ Hx))).
        pose proof (proj1 (Forall_forall _ _) CK _ IC) as CW. cbv beta in CW. pose proof (sum_ge _ _ (in_map (total slack) _ _ IC)) as SG. pose proof (cw_some cfg (snd (snd c))).
        assert (WT : within cfg fm' (nd it) (nd c) 4) by (apply (w_seq _ _ _ _ l); cbn [nd mk_full n_kserd]; now rewrite EK).
        apply cut_sp_fits; [lia|]. intros q Hq. apply (kid_fits it e c 4 O Kc (KF c Kc) Hr B WT ltac:(lia) (col + 4) q d); lia. }
      destruct (fold_inv (fun t => fits M p t /\ endp p t = 0) g L ST _ P0) as [PF1 PF2]. cbv beta in PF1, PF2.
      refine (fits_app M _ _ p PF1 _). rewrite PF2. apply fits_len. rewrite app_length, sp_length. cbn [length s list_ascii_of_string map]. destruct (id_on_seqs cfg); lia.
    - (* map *)
      pose proof (nonprim_id_le f id _ DF) as TI.
      assert (P0 : fits M p (nonprim_id f id ++ s "{" ++ nl) /\ endp p (nonprim_id f id ++ s "{" ++ nl) = 0).
      { rewrite app_assoc. split; [|rewrite endp_app; reflexivity]. apply fits_app; [apply fits_len; rewrite app_length; cbn [length s list_ascii_of_string map]|unfold fits; cbn; constructor; [|constructor; [lia|constructor]]].
        2: etransitivity; [apply endp_le|]; rewrite app_length; cbn [length s list_ascii_of_string map].
        all: unfold slack in TS at 2; cbn [kval kid] in TS; destruct m; destruct (id_on_maps cfg), id as [[|c i]|]; cbn [length Nat.ltb Nat.leb andb] in *; unfold str, char in *; lia. }
      set (g := fun acc e0 => _) in |- *.
      assert (PF := fold_inv (fun t => fits M p t /\ endp p t = 0) g (combine (map (D fmts) (kkids it)) (map (D fmts) (vkids it)))).
      assert (ST : Forall (fun x => forall acc, fits M p acc /\ endp p acc = 0 -> fits M p (g acc x) /\ endp p (g acc x) = 0) (combine (map (D fmts) (kkids it)) (map (D fmts) (vkids it)))).
      { apply Forall_forall. intros y Hy. destruct (comb_nth _ _ _ Hy) as (x & Hn1 & Hn2). rewrite nth_error_map in Hn1, Hn2.
        destruct (nth_error (kkids it) x) as [q|] eqn:Hq; [|discriminate Hn1]. destruct (nth_error (vkids it) x) as [c|] eqn:Hx; [|discriminate Hn2]. cbn [option_map] in Hn1, Hn2. injection Hn1 as Hn1. injection Hn2 as Hn2.
        destruct y as [y1 y2]. cbn [fst snd] in *. subst y1 y2. destruct (HX c x Hx) as (Kc & NKc & Ix). intros acc PA.
        pose proof (nth_error_In _ _ Hq) as Iq. pose proof (kkids_in it q Iq) as Kq. pose proof (kkids_pos it x q Hq) as Pq. pose proof (kid_ok k it q O Kq) as Oq. destruct (key_inline it q O Iq) as [Lq Mq].
        assert (Em : nth_error m x = Some (snd (snd q), snd (snd c))).
        { pose proof (f_equal (fun l => nth_error l x) VK) as V. pose proof (f_equal (fun l => nth_error l x) KK) as V'. cbv beta in V, V'. rewrite !nth_error_map in V, V'. rewrite Hx in V. rewrite Hq in V'.
          destruct (nth_error m x) as [[a b]|]; cbn [option_map fst snd] in V, V'; [injection V as ->; injection V' as ->; reflexivity|discriminate V]. }
        unfold g. cbn [fst snd]. rewrite (item_line q Inline Oq Lq). set (kt := text true (D fmts q) (col + 4)).
        rewrite (cut_app (D fmts q)) by apply sp_ne. rewrite <- (app_assoc acc). rewrite (cut_app (D fmts c)) by (apply app_ne_r; apply app_ne_r; discriminate).
        rewrite <- (app_assoc acc), (app_assoc (cut (D fmts c) _)). apply fits_step; [exact PA|].
        assert (KT : length kt <= iw cfg (snd (snd q)) + total slack (snd (snd q))).
        { pose proof (inline_length cfg _ (inline_conf _ q (Nat.lt_succ_diag_r _) Oq Lq) true (col + 4)) as L. assert (UN : undeco (D fmts q) = snd (snd q)) by apply undeco_deco. rewrite UN in L. exact L. }
        pose proof (proj1 (Forall_forall _ _) CK _ (nth_error_In _ _ Em)) as CW. pose proof (entries_ge (total slack) _ _ (nth_error_In _ _ Em)) as SG. cbn [fst snd] in CW, SG. pose proof (cw_some cfg (snd (snd c))).
        assert (KL : length (cut (D fmts q) (sp (col + 4)) ++ kt ++ s ": ") = col + 4 + (length kt + 2 - (if drops (D fmts q) then 1 else 0))).
        { rewrite !app_length. cbn [length s list_ascii_of_string map]. unfold cut. destruct (drops (D fmts q)); rewrite ?length_pop, sp_length; unfold str, char in *; lia. }
        assert (WV : within cfg fm' (nd it) (nd c) (4 + iw cfg (snd (snd q)) + 2)).
        { apply (w_value _ _ _ _ m (nd q)); [cbn [nd mk_full n_kserd]; rewrite EK; reflexivity|exact NKc|exact (item_child k fm' it q N O Kq)|unfold is_key; cbn [nd mk_full n_key_idx]; now rewrite Pq|
            unfold idx_in_parent at 1; cbn [nd mk_full n_key_idx n_value_idx]; rewrite Pq; symmetry; exact Ix|].
          unfold key_width. apply line_of_at in Lq. change (n_idx (nd q)) with (fst q). rewrite Lq. rewrite <- iw_est. reflexivity. }
        apply (cut_fits M _ (col + 4 + (length kt + 2 - (if drops (D fmts q) then 1 else 0)))); [rewrite KL; lia|destruct (drops (D fmts q)); unfold str, char in *; lia|].
        intros q' Hq'. apply (kid_fits it e c _ O Kc (KF c Kc) Hr B WV ltac:(lia) _ q' (d + total slack (snd (snd q)))); [|exact Hq'|]; destruct (drops (D fmts q)); unfold str, char in *; lia. }
      specialize (PF ST _ P0). cbv beta in PF. destruct PF as [PF1 PF2]. refine (fits_app M _ _ p PF1 _). rewrite PF2. apply fits_len. rewrite app_length, sp_length. cbn [length s list_ascii_of_string map]. destruct (id_on_maps cfg); lia.
  Qed.
End Width.

Theorem concise_lines k cfg lim t : width_limit cfg = Some lim -> concise_est cfg k <= lim -> key_nodes_ok (fun key => repr_eqb (kind_max key) Inline) k -> strings_ok k ->
  as_str_with_config k cfg = LRet t -> Forall (fun w => w <= lim + total slack k) (line_lengths 0 t).
Proof.
  intros HL HC KI S H. unfold as_str_with_config in H. destruct (fm_new k) as [fm| |] eqn:E; [|discriminate..]. cbn [lbind] in H. destruct (apply_config fm cfg) as [fm'| |] eqn:E'; [|discriminate..]. cbn [lbind] in H.
  destruct (fresh_inv k cfg fm fm' E E') as (_ & _ & I & N). rewrite (fm_write_text k fm' [] (conj N I) S) in H. injection H as <-.
  replace (cut (shown k fm') []) with (@nil char) by (unfold cut; destruct (drops _); reflexivity). cbn [app].
  destruct (inv_line k (fm_fmts fm') 0 I (item_lt k _ (root_ok k))) as [r Hr].
  apply (fit_item k cfg fm fm' lim E E' HL HC KI (lim + total slack k) _ _ (Nat.lt_succ_diag_r _) (root_ok k) r 0 0 0 0 Hr); cbn [snd]; try lia.
  - apply b_root; [rewrite N; apply ok_in, root_ok|reflexivity].
  - rewrite cw_est. lia.
  - intros ->. pose proof (root_form k cfg fm fm' E E') as R. apply line_of_at in R. pose proof (line_at_fun _ _ _ _ Hr R) as R0. unfold wants, repr_least in R0. rewrite HL in R0. cbn [Nat.add] in R0. rewrite iw_est.
    replace (lim <? concise_est cfg k) with false in R0 by (symmetry; apply Nat.ltb_ge; lia). destruct (lim <? inline_est cfg k) eqn:L; [|apply Nat.ltb_ge in L; right; lia].
    left. unfold seq_or_map in R0. unfold kind_max in *. destruct (kval k) as [| | | | |[|]|[|]|[|]|[|]]; try reflexivity; discriminate R0.
Qed.

(** ** the default configuration *)
Theorem default_config k t : as_str k = LRet t ->
  let d := mkConfig false true true false false (Some 60) in
  exists fm, fm_write fm [] = LRet t /\ nav_new k = LRet (fm_nav fm) /\
    (line_of fm 0 = Some Inline <-> kind_max k = Inline \/ inline_est d k <= 60 /\ concise_est d k <= 60) /\
    forall n, In n (fm_nav fm) -> option_map f_id (nth_error (fm_fmts fm) (n_idx n)) =
      Some (match kval (n_kserd n) with VTuple _ | VCntr _ => true | _ => false end).
Proof.
  intros E d. unfold as_str in E. change config_default with d in E. unfold as_str_with_config in E.
  destruct (fm_new k) as [fm| |] eqn:E0; cbn [lbind] in E; try discriminate.
  destruct (apply_config fm d) as [fm'| |] eqn:E1; cbn [lbind] in E; try discriminate.
  exists fm'. split; [exact E|].
  assert (R : reachable k fm) by (exists []; unfold run; now rewrite E0).
  destruct (config_flags k fm d fm' R E1) as [N ID]. destruct (reachable_finv k fm R) as [N0 _]. split; [rewrite nav_new_full; congruence|]. split.
  - rewrite (root_form k d fm fm' E0 E1). unfold wants. cbn [width_limit d Nat.add].
    destruct (Nat.ltb_spec 60 (concise_est d k)), (Nat.ltb_spec 60 (inline_est d k)); destruct (kind_max k), (seq_or_map k); cbn; split; intros X;
      try discriminate X; try reflexivity; try (left; reflexivity); try (right; lia); destruct X as [X|X]; try discriminate X; lia.
  - intros n Hn. rewrite N in Hn. rewrite (ID n Hn). destruct (kval (n_kserd n)); reflexivity.
Qed.
