(** The width solver: its widths, its offsets, and that apply_config returns. *)
From Verif Require Import Base F64 Number BTree Value BaseProps BTreeProps ValueSpec ValueProps Base91 Nav NavSpec NavProps NavProps2 NavProps3
  Fmt Formatter FmtText FmtSpec FmtProps FormatterProps.
Open Scope nat_scope.

(** ** the widths as functions of the tree *)
Fixpoint iw (cfg : config) (k : kserd) : nat :=
  match k with
  | Kserd id v =>
      inline_width (Kserd id v) cfg +
      match v with
      | VTuple l | VSeq l => list_sum (map (iw cfg) l)
      | VCntr m => list_sum (map (fun e => iw cfg (snd e)) m)
      | VMap m => list_sum (map (fun e => iw cfg (snd e)) m) + list_sum (map (fun e => iw cfg (fst e)) m)
      | _ => 0
      end
  end.
Lemma iw_unfold cfg k : iw cfg k = inline_width k cfg + list_sum (map (iw cfg) (values_of k)) + list_sum (map (iw cfg) (keys_of k)).
Proof.
  destruct k as [id v]. cbn [iw]. unfold values_of, keys_of. cbn [kval].
  destruct v; cbn [map list_sum fold_right]; rewrite ?map_map; try lia.
Qed.
Fixpoint cw (cfg : config) (k : kserd) : nat :=
  match k with
  | Kserd id v =>
      let c := concise_width (Kserd id v) cfg in
      match v with
      | VTuple l | VSeq l => fold_left max (map (fun x => INDENT + cw cfg x) l) c
      | VCntr m => fold_left max (map (fun e => INDENT + length (fst e) + length FIELDS_ASSIGNER + 1 + cw cfg (snd e)) m) c
      | VMap m => fold_left max (map (fun e => INDENT + iw cfg (fst e) + length KEYS_ASSIGNER + 1 + cw cfg (snd e)) m) c
      | _ => c
      end
  end.

(** ** the memo tables *)
Lemma forall2_nth {A B} (P : A -> B -> Prop) (a : list A) : forall b, length a = length b ->
  (forall i x y, nth_error a i = Some x -> nth_error b i = Some y -> P x y) -> Forall2 P a b.
Proof.
  induction a as [|x a IH]; intros [|y b] L H; try discriminate; constructor.
  - exact (H 0 x y eq_refl eq_refl).
  - apply IH; [now injection L|]. intros i. exact (H (S i)).
Qed.
Section Memo.
  Variables (root : kserd) (w : kserd -> nat).
  Definition sound (ws : widths_t) : Prop :=
    length ws = length (full root) /\
    forall it v, ok_item root it -> nth_error ws (fst it) = Some (Some v) -> v = w (snd (snd it)).
  Definition filled (ws : widths_t) (i : nat) : Prop := exists v, nth_error ws i = Some (Some v).
  Definition grows (a b : widths_t) : Prop := forall i, filled a i -> filled b i.
  Definition rec_ok (rec : node -> widths_t -> lres (nat * widths_t)) (it : item) : Prop :=
    forall ws, sound ws -> exists ws', rec (nd it) ws = LRet (w (snd (snd it)), ws') /\ sound ws' /\ grows ws ws'.

  Lemma ok_kserd a b : ok_item root a -> ok_item root b -> fst a = fst b -> snd (snd a) = snd (snd b).
  Proof. intros Ha Hb E. pose proof (ok_unique root a b Ha Hb E) as H. apply (f_equal n_kserd) in H. exact H. Qed.
  Lemma set_sound it ws : ok_item root it -> sound ws -> sound (set_width (w (snd (snd it))) ws (fst it)) /\ grows ws (set_width (w (snd (snd it))) ws (fst it)) /\ filled (set_width (w (snd (snd it))) ws (fst it)) (fst it).
  Proof.
    intros Ho [L S]. unfold set_width. assert (X : fst it < length ws) by (rewrite L; pose proof (isz_le root it Ho); pose proof (ksize_pos (snd (snd it))); lia).
    split; [split|split].
    - now rewrite update_length.
    - intros it' v Ho' H. rewrite update_nth in H. destruct (Nat.eqb_spec (fst it') (fst it)) as [E|NE]; [|now apply S].
      destruct (nth_error ws (fst it')); [|discriminate]. injection H as <-. now rewrite (ok_kserd it' it).
    - intros i [v H]. unfold filled. rewrite update_nth. destruct (i =? fst it); [rewrite H; cbn; eauto|eauto].
    - unfold filled. rewrite update_nth, Nat.eqb_refl. destruct (nth_error ws (fst it)) eqn:E; [cbn; eauto|]. apply nth_error_None in E. lia.
  Qed.
  Lemma sound_get it ws : ok_item root it -> sound ws -> exists o, nth_error ws (fst it) = Some o.
  Proof.
    intros Ho [L _]. destruct (nth_error ws (fst it)) eqn:E; [eauto|]. apply nth_error_None in E.
    pose proof (isz_le root it Ho). pose proof (ksize_pos (snd (snd it))). lia.
  Qed.
  Lemma child_width_ok rec it ws : rec_ok rec it -> ok_item root it -> sound ws ->
    exists ws', child_width rec (nd it) ws = LRet (w (snd (snd it)), ws') /\ sound ws' /\ grows ws ws'.
  Proof.
    intros R Ho S. unfold child_width. change (n_idx (nd it)) with (fst it). destruct (sound_get it ws Ho S) as [o E]. rewrite E. cbn [lunwrap lbind].
    destruct o as [v|].
    - exists ws. destruct S as [L S]. rewrite (S it v Ho E). split; [reflexivity|]. split; [split; [exact L|exact S]|]. intros i H. exact H.
    - destruct (R ws S) as (ws' & E' & S' & G'). rewrite E'. cbn [lbind fst snd].
      destruct (set_sound it ws' Ho S') as (S2 & G2 & _). exists (set_width (w (snd (snd it))) ws' (fst it)). split; [reflexivity|]. split; [exact S2|].
      intros i H. apply G2, G', H.
  Qed.
  Lemma widths_loop rec l : (forall it, In it l -> ok_item root it /\ rec_ok rec it) -> forall ws, sound ws ->
    exists ws', lfold (fun ws n => dl o <- lunwrap (nth_error ws (n_idx n)) ;
             match o with
             | Some _ => LRet ws
             | None => dl r <- rec n ws ; LRet (set_width (fst r) (snd r) (n_idx n))
             end) (map nd l) ws = LRet ws' /\ sound ws' /\ grows ws ws' /\ forall it, In it l -> filled ws' (fst it).
  Proof.
    induction l as [|it l IH]; intros H ws S.
    - exists ws. cbn. repeat split; auto; try apply S. { intros i Hi; exact Hi. } intros it [].
    - destruct (H it (or_introl eq_refl)) as [Ho R]. cbn [map lfold].
      match goal with |- exists _, lbind ?e _ = _ /\ _ => set (step := e) end.
      assert (X : exists ws1, step = LRet ws1 /\ sound ws1 /\ grows ws ws1 /\ filled ws1 (fst it)).
      { unfold step. change (n_idx (nd it)) with (fst it). destruct (sound_get it ws Ho S) as [o E]. rewrite E. cbn [lunwrap lbind]. destruct o as [v|].
        - exists ws. split; [reflexivity|]. split; [exact S|]. split; [intros i Hi; exact Hi|exists v; exact E].
        - destruct (R ws S) as (ws' & E' & S' & G'). rewrite E'. cbn [lbind fst snd].
          destruct (set_sound it ws' Ho S') as (S2 & G2 & F2). eexists. split; [reflexivity|]. split; [exact S2|]. split; [|exact F2]. intros i Hi. apply G2, G', Hi. }
      destruct X as (ws1 & -> & S1 & G1 & F1). cbn [lbind].
      destruct (IH (fun x Hx => H x (or_intror Hx)) ws1 S1) as (ws2 & -> & S2 & G2 & F2). exists ws2. split; [reflexivity|]. split; [exact S2|].
      split; [intros i Hi; apply G2, G1, Hi|]. intros x [<-|Hx]; [apply G2, F1|apply F2, Hx].
  Qed.
  Lemma collect_ok (ws : list (option nat)) : forall (acc r : list nat), Forall2 (fun o v => o = Some v) ws r ->
    lfold (fun acc o => dl v <- lunwrap o ; LRet (acc ++ [v])) ws acc = LRet (acc ++ r).
  Proof.
    induction ws as [|o ws IH]; intros acc r H; inversion H as [|? v ? r' E H']; subst; cbn [lfold].
    - now rewrite app_nil_r.
    - cbn [lunwrap lbind]. rewrite (IH _ r') by assumption. now rewrite <- app_assoc.
  Qed.
  Lemma all_items : exists l, full root = map nd l /\ Forall (ok_item root) l.
  Proof.
    assert (H : forall nv, (forall n, In n nv -> In n (full root)) -> exists l, nv = map nd l /\ Forall (ok_item root) l).
    { induction nv as [|n nv IH]; intros H; [exists []; split; [reflexivity|constructor]|].
      destruct (item_exists root n (H n (or_introl eq_refl))) as (it & Ho & ->). destruct IH as (l & -> & F); [intros; apply H; now right|].
      exists (it :: l). split; [reflexivity|now constructor]. }
    apply H. auto.
  Qed.
  Lemma all_widths_ok rec : (forall it, ok_item root it -> rec_ok rec it) ->
    all_widths rec (full root) = LRet (map (fun n => w (n_kserd n)) (full root)).
  Proof.
    intros R. unfold all_widths, nav_nodes, nav_len. destruct all_items as (l & E & F).
    assert (S0 : sound (repeat None (length (full root)))).
    { split; [apply repeat_length|]. intros it v Ho H. apply nth_error_In, repeat_spec in H. discriminate H. }
    destruct (widths_loop rec l) with (ws := repeat (@None nat) (length (full root))) as (ws & Ew & [L S] & _ & Fl); [|exact S0|].
    { intros it Hi. rewrite Forall_forall in F. split; auto. }
    set (n0 := length (full root)) in *. rewrite E at 1. rewrite Ew. cbn [lbind].
    rewrite (collect_ok ws [] (map (fun n => w (n_kserd n)) (full root))); [reflexivity|].
    apply forall2_nth. { now rewrite map_length. } intros i o v Hio Hiv. unfold n0 in *. rewrite nth_error_map in Hiv.
    destruct (nth_error (full root) i) as [n|] eqn:En; [|discriminate]. cbn [option_map] in Hiv. injection Hiv as <-.
    destruct (get_item root i n En) as (it & Ho & <- & <-). cbn [nd mk_full n_kserd].
    assert (Hin : exists it', In it' l /\ fst it' = fst it).
    { apply nth_error_In in En. rewrite E in En. apply in_map_iff in En as (it' & E' & Hi). exists it'. split; [exact Hi|]. apply (f_equal n_idx) in E'. exact E'. }
    destruct Hin as (it' & Hi & Ei). destruct (Fl it' Hi) as [v Hv]. rewrite Ei, Hio in Hv. injection Hv as ->. now rewrite (S it v Ho Hio).
  Qed.
End Memo.

Lemma kid_size it c : In c (kids_of it) -> ksize (snd (snd c)) < ksize (snd (snd it)).
Proof. intros H. rewrite (isz_kids it). apply in_split in H as (a & b & ->). rewrite isz_app, isz_cons. lia. Qed.
Lemma vkids_in it c : In c (vkids it) -> In c (kids_of it).
Proof. intros H. apply kids_value_or_key. auto. Qed.
Lemma kkids_in it c : In c (kkids it) -> In c (kids_of it).
Proof. intros H. apply kids_value_or_key. auto. Qed.
Lemma kid_ok root it c : ok_item root it -> In c (kids_of it) -> ok_item root c.
Proof. intros H Hc. pose proof (ok_kids root it H) as F. rewrite Forall_forall in F. auto. Qed.

Lemma add_loop root w rec (l : list item) : (forall c, In c l -> ok_item root c /\ rec_ok root w rec c) ->
  forall a ws, sound root w ws ->
  exists ws', lfold (fun acc child => dl r <- child_width rec child (snd acc) ; LRet (fst acc + fst r, snd r)) (map nd l) (a, ws)
    = LRet (a + list_sum (map w (map (fun it : item => snd (snd it)) l)), ws') /\ sound root w ws' /\ grows ws ws'.
Proof.
  induction l as [|c l IH]; intros H a ws S.
  - exists ws. cbn [map lfold list_sum fold_right]. rewrite Nat.add_0_r. split; [reflexivity|]. split; [exact S|]. intros i Hi; exact Hi.
  - cbn [map lfold snd fst list_sum fold_right]. destruct (H c (or_introl eq_refl)) as [Ho R].
    destruct (child_width_ok root w rec c ws R Ho S) as (ws1 & -> & S1 & G1). cbn [lbind fst snd].
    destruct (IH (fun x Hx => H x (or_intror Hx)) (a + w (snd (snd c))) ws1 S1) as (ws2 & -> & S2 & G2).
    exists ws2. rewrite Nat.add_assoc. split; [reflexivity|]. split; [exact S2|]. intros i Hi. apply G2, G1, Hi.
Qed.
Lemma inline_rec_ok root cfg : forall fuel it, ok_item root it -> ksize (snd (snd it)) <= fuel ->
  rec_ok root (iw cfg) (inline_widths_recurse fuel (full root) cfg) it.
Proof.
  induction fuel as [|fuel IH]; intros it Ho Hf ws S.
  { pose proof (ksize_pos (snd (snd it))). lia. }
  cbn [inline_widths_recurse]. rewrite value_children_items, key_children_items by exact Ho.
  assert (Hk : forall c, In c (kids_of it) -> ok_item root c /\ rec_ok root (iw cfg) (inline_widths_recurse fuel (full root) cfg) c).
  { intros c Hc. pose proof (kid_ok root it c Ho Hc) as Hco. split; [exact Hco|]. apply IH; [exact Hco|]. pose proof (kid_size it c Hc). lia. }
  destruct (add_loop root (iw cfg) (inline_widths_recurse fuel (full root) cfg) (vkids it)) with (a := inline_width (n_kserd (nd it)) cfg) (ws := ws) as (ws1 & E1 & S1 & G1);
    [intros c Hc; apply Hk, vkids_in, Hc|exact S|].
  rewrite E1. cbn [lbind].
  destruct (add_loop root (iw cfg) (inline_widths_recurse fuel (full root) cfg) (kkids it)) with
    (a := inline_width (n_kserd (nd it)) cfg + list_sum (map (iw cfg) (map (fun it : item => snd (snd it)) (vkids it)))) (ws := ws1) as (ws2 & E2 & S2 & G2);
    [intros c Hc; apply Hk, kkids_in, Hc|exact S1|].
  rewrite E2. exists ws2. rewrite iw_unfold, vkids_kserds, kkids_kserds. split; [reflexivity|]. split; [exact S2|]. intros i Hi. apply G2, G1, Hi.
Qed.
Lemma inline_widths_ok root cfg : inline_widths (full root) cfg = LRet (map (fun n => iw cfg (n_kserd n)) (full root)).
Proof.
  unfold inline_widths. apply all_widths_ok. intros it Ho. apply inline_rec_ok; [exact Ho|].
  unfold nav_len. pose proof (isz_le root it Ho). lia.
Qed.

Lemma widen_loop {X} root w rec (extra : X -> lres nat) (ex : X -> nat) (c : X -> item) (l : list X) :
  (forall x, In x l -> ok_item root (c x) /\ rec_ok root w rec (c x) /\ extra x = LRet (ex x)) ->
  forall a ws, sound root w ws ->
  exists ws', lfold (fun acc x => dl r <- child_width rec (nd (c x)) (snd acc) ; dl e <- extra x ; LRet (max (fst acc) (e + fst r), snd r)) l (a, ws)
    = LRet (fold_left max (map (fun x => ex x + w (snd (snd (c x)))) l) a, ws') /\ sound root w ws' /\ grows ws ws'.
Proof.
  induction l as [|x l IH]; intros H a ws S.
  - exists ws. split; [reflexivity|]. split; [exact S|]. intros i Hi; exact Hi.
  - cbn [map lfold snd fst fold_left]. destruct (H x (or_introl eq_refl)) as (Ho & R & Ex).
    destruct (child_width_ok root w rec (c x) ws R Ho S) as (ws1 & -> & S1 & G1). cbn [lbind fst snd]. rewrite Ex. cbn [lbind].
    destruct (IH (fun y Hy => H y (or_intror Hy)) (max a (ex x + w (snd (snd (c x))))) ws1 S1) as (ws2 & -> & S2 & G2).
    exists ws2. split; [reflexivity|]. split; [exact S2|]. intros i Hi. apply G2, G1, Hi.
Qed.
Lemma lfold_map {A B C} (f : B -> A -> lres B) (g : C -> A) l : forall acc, lfold f (map g l) acc = lfold (fun a x => f a (g x)) l acc.
Proof. induction l as [|x l IH]; intros acc; [reflexivity|]. cbn [map lfold]. destruct (f acc (g x)); cbn [lbind]; [apply IH|reflexivity|reflexivity]. Qed.
Lemma lfold_ext {A B} (f g : B -> A -> lres B) l : (forall a x, f a x = g a x) -> forall acc, lfold f l acc = lfold g l acc.
Proof. intros H. induction l as [|x l IH]; intros acc; [reflexivity|]. cbn [lfold]. rewrite H. destruct (g acc x); cbn [lbind]; auto. Qed.

Lemma inw_get root cfg it : ok_item root it -> nth_error (map (fun n => iw cfg (n_kserd n)) (full root)) (fst it) = Some (iw cfg (snd (snd it))).
Proof. intros Ho. pose proof (ok_get root it Ho) as G. unfold nav_get in G. now rewrite nth_error_map, G. Qed.
Lemma map_combine_r {A B C} (f : B -> C) (a : list A) : forall b, length a = length b -> map (fun e => f (snd e)) (combine a b) = map f b.
Proof. induction a as [|x a IH]; intros [|y b] H; try discriminate; [reflexivity|]. cbn. f_equal. apply IH. now injection H. Qed.

Lemma in_comb_l {A B} (a : list A) (b : list B) e : In e (combine a b) -> In (fst e) a.
Proof. destruct e. apply in_combine_l. Qed.
Lemma in_comb_r {A B} (a : list A) (b : list B) e : In e (combine a b) -> In (snd e) b.
Proof. destruct e. apply in_combine_r. Qed.
Lemma concise_rec_ok root cfg : forall fuel it, ok_item root it -> ksize (snd (snd it)) <= fuel ->
  rec_ok root (cw cfg) (concise_widths_recurse fuel (full root) cfg (map (fun n => iw cfg (n_kserd n)) (full root))) it.
Proof.
  induction fuel as [|fuel IH]; intros it Ho Hf ws S.
  { pose proof (ksize_pos (snd (snd it))). lia. }
  cbn [concise_widths_recurse]. rewrite item_val by exact Ho.
  set (rec := concise_widths_recurse fuel (full root) cfg _) in *. set (inw := map (fun n => iw cfg (n_kserd n)) (full root)) in *.
  assert (Hk : forall c, In c (kids_of it) -> ok_item root c /\ rec_ok root (cw cfg) rec c).
  { intros c Hc. pose proof (kid_ok root it c Ho Hc) as Hco. split; [exact Hco|]. apply IH; [exact Hco|]. pose proof (kid_size it c Hc). lia. }
  change (n_kserd (nd it)) with (snd (snd it)). pose proof (vkids_kserds it) as EV. unfold values_of in EV. pose proof (kkids_kserds it) as EK. unfold keys_of in EK.
  pose proof (kids_lengths it) as KL.
  destruct it as [i [info k]]. cbn [fst snd] in *. destruct k as [id v]. cbn [kval cw] in *.
  assert (SAME : exists ws', LRet (concise_width (Kserd id v) cfg, ws) = LRet (concise_width (Kserd id v) cfg, ws') /\ sound root (cw cfg) ws' /\ grows ws ws').
  { exists ws. split; [reflexivity|]. split; [exact S|]. intros j Hj; exact Hj. }
  set (it := (i, (info, Kserd id v))) in *.
  destruct v as [| | | | |l|m|l|m]; try exact SAME; clear SAME.
  - rewrite lfold_map. destruct (widen_loop root (cw cfg) rec (fun _ : item => LRet INDENT) (fun _ => INDENT) (fun c => c) (vkids it)) with
      (a := concise_width (Kserd id (VTuple l)) cfg) (ws := ws) as (ws1 & E1 & S1 & G1).
    + intros c Hc. destruct (Hk c (vkids_in it c Hc)). auto.
    + exact S.
    + cbn [lbind] in E1. rewrite E1. exists ws1. split; [|auto]. rewrite <- EV, map_map. reflexivity.
  - rewrite lfold_map. cbn [fst snd].
    assert (LM : length (map fst m) = length (vkids it)) by (apply (f_equal (@length _)) in EV; rewrite !map_length in *; lia).
    destruct (widen_loop root (cw cfg) rec (fun x : str * item => LRet (INDENT + length (fst x) + length FIELDS_ASSIGNER + 1)) (fun x => INDENT + length (fst x) + length FIELDS_ASSIGNER + 1) snd (combine (map fst m) (vkids it))) with
      (a := concise_width (Kserd id (VCntr m)) cfg) (ws := ws) as (ws1 & E1 & S1 & G1).
    + intros c Hc. apply in_comb_r in Hc. destruct (Hk (snd c) (vkids_in it _ Hc)). auto.
    + exact S.
    + cbn [lbind] in E1. rewrite E1. exists ws1. split; [|auto]. f_equal. f_equal. f_equal. clear - EV LM. revert EV LM. generalize (vkids it).
      induction m as [|e m IHm]; intros [|c cs] EV LM; try discriminate; [reflexivity|]. cbn [map combine fst snd] in *. injection EV as E1 E2. f_equal; [now rewrite E1|].
      apply IHm; [exact E2|now injection LM].
  - rewrite lfold_map. destruct (widen_loop root (cw cfg) rec (fun _ : item => LRet INDENT) (fun _ => INDENT) (fun c => c) (vkids it)) with
      (a := concise_width (Kserd id (VSeq l)) cfg) (ws := ws) as (ws1 & E1 & S1 & G1).
    + intros c Hc. destruct (Hk c (vkids_in it c Hc)). auto.
    + exact S.
    + cbn [lbind] in E1. rewrite E1. exists ws1. split; [|auto]. rewrite <- EV, map_map. reflexivity.
  - rewrite lfold_map. cbn [fst snd]. specialize (KL m eq_refl).
    destruct (widen_loop root (cw cfg) rec (fun x : item * item => dl kw <- lunwrap (nth_error inw (n_idx (nd (fst x)))) ; LRet (INDENT + kw + length KEYS_ASSIGNER + 1))
        (fun x => INDENT + iw cfg (snd (snd (fst x))) + length KEYS_ASSIGNER + 1) snd (combine (kkids it) (vkids it))) with
      (a := concise_width (Kserd id (VMap m)) cfg) (ws := ws) as (ws1 & E1 & S1 & G1).
    + intros c Hc. pose proof (in_comb_l _ _ _ Hc) as Hl. apply in_comb_r in Hc. destruct (Hk (snd c) (vkids_in it _ Hc)). split; [auto|]. split; [auto|].
      change (n_idx (nd (fst c))) with (fst (fst c)). unfold inw. rewrite inw_get; [reflexivity|]. apply Hk, kkids_in, Hl.
    + exact S.
    + exists ws1. split; [|auto]. rewrite <- lfold_ext with (f := fun acc x => dl r <- child_width rec (nd (snd x)) (snd acc); dl e <- (dl kw <- lunwrap (nth_error inw (n_idx (nd (fst x)))) ; LRet (INDENT + kw + length KEYS_ASSIGNER + 1)); LRet (max (fst acc) (e + fst r), snd r)).
      2: { intros acc x. destruct (child_width rec (nd (snd x)) (snd acc)); cbn [lbind]; try reflexivity. destruct (lunwrap _); reflexivity. }
      rewrite E1. f_equal. f_equal. f_equal. clear - EV EK KL. revert EV EK KL. generalize (vkids it) (kkids it).
      induction m as [|e m IHm]; intros [|c cs] [|d ds] EV EK KL; try discriminate; [reflexivity|]. cbn [map combine fst snd] in *. injection EV as E1 E2. injection EK as K1 K2.
      f_equal; [now rewrite E1, K1|]. apply IHm; auto.
Qed.
Lemma concise_widths_ok root cfg : concise_widths (full root) cfg (map (fun n => iw cfg (n_kserd n)) (full root)) = LRet (map (fun n => cw cfg (n_kserd n)) (full root)).
Proof.
  unfold concise_widths. apply all_widths_ok. intros it Ho. apply concise_rec_ok; [exact Ho|].
  unfold nav_len. pose proof (isz_le root it Ho). lia.
Qed.

(** ** offsets *)
Definition keys_fit (root : kserd) (fmts : list fmt) : Prop :=
  forall it, ok_item root it -> is_key (nd it) = true -> ~ line_at fmts (fst it) Verbose.

Lemma kid_cases it c : In c (kids_of it) ->
  (is_key (nd c) = false /\ nth_error (vkids it) (idx_in_parent (nd c)) = Some c) \/
  (is_key (nd c) = true /\ nth_error (kkids it) (idx_in_parent (nd c)) = Some c).
Proof.
  intros Hc. pose proof Hc as Hv. apply kids_value_or_key in Hv as [Hv|Hv]; apply In_nth_error in Hv as (j & Hj).
  - left. pose proof (vkids_pos it j c Hj) as P. destruct (kids_role it c Hc) as [(j' & A & B)|(j' & A & B)]; [|unfold item in *; congruence].
    unfold is_key, idx_in_parent. cbn [nd mk_full n_key_idx n_value_idx]. rewrite B, P. auto.
  - right. pose proof (kkids_pos it j c Hj) as P. unfold is_key, idx_in_parent. cbn [nd mk_full n_key_idx n_value_idx]. rewrite P. auto.
Qed.
Lemma nth_combine {A B} (a : list A) : forall (b : list B) j x y, nth_error a j = Some x -> nth_error b j = Some y -> nth_error (combine a b) j = Some (x, y).
Proof. induction a as [|u a IH]; intros [|v b] [|j] x y H1 H2; try discriminate; cbn in *; [congruence|]. now apply IH. Qed.

Section Offsets.
  Variables (root : kserd) (fmts : list fmt) (cfg : config).
  Hypothesis I : inv root fmts.
  Hypothesis KF : keys_fit root fmts.
  Notation inw := (map (fun n => iw cfg (n_kserd n)) (full root)).

  Lemma map_entry_ok it c m : ok_item root it -> In c (kids_of it) -> kval (snd (snd it)) = VMap m ->
    exists o, map_entry_offset (map (fun e => (nd (fst e), nd (snd e))) (combine (kkids it) (vkids it))) (nd c) fmts inw = LRet o.
  Proof.
    intros Ho Hc Ek. unfold map_entry_offset. destruct (kid_cases it c Hc) as [[K N]|[K N]]; rewrite K; [|eauto].
    assert (X : exists d, nth_error (kkids it) (idx_in_parent (nd c)) = Some d).
    { destruct (nth_error (kkids it) (idx_in_parent (nd c))) as [d|] eqn:E; [eauto|]. apply nth_error_None in E. rewrite (kids_lengths it m Ek) in E.
      assert (Y : idx_in_parent (nd c) < length (vkids it)) by (apply nth_error_Some; congruence). lia. }
    destruct X as [d Hd]. rewrite nth_error_map, (nth_combine _ _ _ _ _ Hd N). cbn [option_map lunwrap lbind fst].
    assert (Hdk : In d (kids_of it)) by (eapply kkids_in, nth_error_In; exact Hd). pose proof (kid_ok root it d Ho Hdk) as Hdo.
    destruct (get_fmts root fmts d (proj1 I) Hdo) as [f Hf]. change (n_idx (nd d)) with (fst d). rewrite Hf. cbn [lunwrap lbind].
    assert (Kd : is_key (nd d) = true).
    { unfold is_key. cbn [nd mk_full n_key_idx]. now rewrite (kkids_pos it _ d Hd). }
    destruct (f_line f) eqn:El; cbn [lbind].
    - rewrite inw_get by exact Hdo. cbn [lunwrap lbind]. eauto.
    - eauto.
    - exfalso. apply (KF d Hdo Kd). now exists f.
  Qed.
  Lemma concise_column_ok it c : ok_item root it -> In c (kids_of it) ->
    exists o, concise_column (node_val (full root) (nd it)) (nd c) fmts inw = LRet o.
  Proof.
    intros Ho Hc. rewrite item_val by exact Ho. pose proof (vkids_kserds it) as EV. unfold values_of in EV.
    assert (NP : forall b : bool, kval (snd (snd it)) = VUnit \/ (exists x, kval (snd (snd it)) = VBool x) \/ (exists x, kval (snd (snd it)) = VNum x) \/ (exists x, kval (snd (snd it)) = VStr x) \/ (exists x, kval (snd (snd it)) = VBarr x) -> False).
    { intros _ H. unfold kids_of, kids in Hc. destruct H as [E|[[x E]|[[x E]|[[x E]|[x E]]]]]; rewrite E in Hc; exact Hc. }
    destruct (kval (snd (snd it))) as [| | | | |l|m|l|m] eqn:Ek; cbn [concise_column]; try (exfalso; apply (NP true); eauto 6; fail); try (eexists; reflexivity).
    - destruct (kid_cases it c Hc) as [[K N]|[K N]].
      + unfold cntr_field_offset. assert (LM : length (map fst m) = length (vkids it)) by (apply (f_equal (@length _)) in EV; rewrite !map_length in *; lia).
        destruct (nth_error (map fst m) (idx_in_parent (nd c))) as [nm|] eqn:E.
        * rewrite nth_error_map, (nth_combine _ _ _ _ _ E N). cbn [option_map lunwrap lbind]. eauto.
        * apply nth_error_None in E. assert (Y : idx_in_parent (nd c) < length (vkids it)) by (apply nth_error_Some; congruence). lia.
      + pose proof (kkids_kserds it) as EK. unfold keys_of in EK. rewrite Ek in EK. destruct (kkids it); [|discriminate]. destruct (idx_in_parent (nd c)); discriminate.
    - destruct (map_entry_ok it c m Ho Hc Ek) as [o ->]. cbn [lbind]. eauto.
  Qed.
  Lemma verbose_column_ok it c cv : ok_item root it -> In c (kids_of it) -> line_at fmts (fst it) Verbose ->
    exists o, verbose_column (node_val (full root) (nd it)) (nd c) cv = LRet o.
  Proof.
    intros Ho Hc Hl. pose proof (ok_get root it Ho) as G. unfold nav_get in G.
    assert (K : repr_le Verbose (kind_max (snd (snd it)))) by (destruct I as (_ & K & _); exact (K _ _ _ G Hl)).
    rewrite item_val by exact Ho. unfold kind_max, repr_le in K. cbn [repr_n] in K.
    destruct (kval (snd (snd it))) as [| | | | |l|m|l|m] eqn:Ek; cbn [repr_n] in K; try lia; cbn [verbose_column]; try (eexists; reflexivity).
    - destruct l; cbn in K; lia.
    - destruct cv; eauto.
  Qed.
  Lemma offset_loop_ok fuel : forall it off, ok_item root it -> fst it <= fuel ->
    exists r c, offset_loop fuel (full root) fmts inw (nd it) off = LRet (r, nd c) /\ ok_item root c.
  Proof.
    induction fuel as [|fuel IH]; intros it off Ho Hf.
    - assert (P : node_parent (full root) (nd it) = None) by (apply parent_none_iff; [now apply ok_in|change (n_idx (nd it)) with (fst it); lia]).
      cbn [offset_loop]. rewrite P. eauto.
    - cbn [offset_loop]. destruct (i_parent (fst (snd it))) as [p|] eqn:Ep.
      + destruct (parent_kid root it p Ho Ep) as (pit & Hpo & Epi & c & Hc & Ec).
        assert (PB : fst pit < fst it). { rewrite Epi. pose proof (ok_get root it Ho) as G. eapply parent_before; [exact G|exact Ep]. }
        assert (P : node_parent (full root) (nd it) = Some (nd pit)).
        { unfold node_parent. cbn [nd mk_full n_parent]. rewrite Ep. cbn [opt_bind]. rewrite <- Epi. now apply ok_get. }
        rewrite P. destruct (get_fmts root fmts pit (proj1 I) Hpo) as [f Hff]. change (n_idx (nd pit)) with (fst pit). rewrite Hff. cbn [lunwrap lbind].
        rewrite <- Ec.
        assert (X : exists add, match f_line f with
                    | Inline => LRet 0
                    | Concise => concise_column (node_val (full root) (nd pit)) (nd c) fmts inw
                    | Verbose => verbose_column (node_val (full root) (nd pit)) (nd c) (node_val (full root) (nd c))
                    end = LRet add).
        { destruct (f_line f) eqn:El; [eauto|now apply concise_column_ok|]. apply verbose_column_ok; auto. now exists f. }
        destruct X as [add ->]. cbn [lbind]. apply IH; [exact Hpo|lia].
      + unfold node_parent. cbn [nd mk_full n_parent]. rewrite Ep. cbn [opt_bind]. eauto.
  Qed.
  Lemma calculate_offset_ok it : ok_item root it -> exists o, calculate_offset (full root) (nd it) fmts inw = LRet o.
  Proof.
    intros Ho. unfold calculate_offset. destruct (i_parent (fst (snd it))) as [p|] eqn:Ep.
    - destruct (parent_kid root it p Ho Ep) as (pit & Hpo & Epi & c & Hc & Ec).
      assert (P : node_parent (full root) (nd it) = Some (nd pit)).
      { unfold node_parent. cbn [nd mk_full n_parent]. rewrite Ep. cbn [opt_bind]. rewrite <- Epi. now apply ok_get. }
      rewrite P. destruct (get_fmts root fmts pit (proj1 I) Hpo) as [f Hff]. change (n_idx (nd pit)) with (fst pit). rewrite Hff. cbn [lunwrap lbind].
      rewrite <- Ec. destruct (concise_column_ok pit c Hpo Hc) as [o Eo].
      assert (X : exists add, match f_line f with Inline => LRet 0 | _ => concise_column (node_val (full root) (nd pit)) (nd c) fmts inw end = LRet add).
      { rewrite Eo. destruct (f_line f); eauto. }
      destruct X as [add ->]. cbn [lbind].
      destruct (offset_loop_ok (nav_len (full root)) pit add Hpo) as (r & d & -> & Hd).
      { unfold nav_len. pose proof (isz_le root pit Hpo). lia. }
      cbn [lbind fst snd]. destruct (get_fmts root fmts d (proj1 I) Hd) as [g Hg]. change (n_idx (nd d)) with (fst d). rewrite Hg. cbn [lunwrap lbind]. eauto.
    - unfold node_parent. cbn [nd mk_full n_parent]. rewrite Ep. cbn [opt_bind]. eauto.
  Qed.
End Offsets.
