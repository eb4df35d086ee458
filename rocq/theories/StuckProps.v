(** [apply_config] on a new formatter panics exactly when a key is stuck. *)
From Verif Require Import Base BaseProps F64 Number BTree Value ValueProps Nav NavSpec NavProps NavProps2 NavProps3 Fmt FmtSpec FmtText FmtProps FmtProps2 Formatter FormatterProps FormatterProps2 FormatterProps3 FormatterProps4 LayoutSpec LayoutProps LayoutProps2 LayoutProps3 LayoutProps4 LayoutProps5 FmtPanic StuckSpec.
From Coq Require Import Lia.
Open Scope nat_scope.

Section Offset.
  Context (k : kserd) (cfg : config) (g : list fmt).
  Hypothesis I : inv k g.
  Notation inw := (map (fun n => iw cfg (n_kserd n)) (full k)).

  Lemma kid_parent pit c : ok_item k pit -> In c (kids_of pit) -> node_parent (full k) (nd c) = Some (nd pit).
  Proof. intros O K. unfold node_parent. cbn [nd mk_full n_parent]. rewrite (kids_parent _ _ K). cbn [opt_bind]. now apply ok_get. Qed.

  (** what the ancestors add *)
  Definition agg (it : item) (b : nat) : Prop := forall fuel off, fst it <= fuel -> offset_loop fuel (full k) g inw (nd it) off = LRet (off + b, nd (croot k)).
  Lemma agg_root : agg (croot k) 0.
  Proof. intros fuel off _. assert (P : node_parent (full k) (nd (croot k)) = None) by reflexivity. rewrite Nat.add_0_r. destruct fuel; cbn [offset_loop]; rewrite P; reflexivity. Qed.
  Lemma agg_kid pit c b v : ok_item k pit -> In c (kids_of pit) -> line_at g (fst pit) Verbose -> agg pit b ->
    verbose_column (node_val (full k) (nd pit)) (nd c) (node_val (full k) (nd c)) = LRet v -> agg c (b + v).
  Proof.
    intros O K (f & Hf & Ef) A V fuel off HF. pose proof (kid_pos k pit c O K) as KP. destruct fuel as [|fuel]; [lia|]. cbn [offset_loop]. rewrite (kid_parent pit c O K).
    change (n_idx (nd pit)) with (fst pit). rewrite Hf. cbn [lunwrap lbind]. rewrite Ef, V. cbn [lbind]. rewrite (A fuel (off + v)) by lia. do 2 f_equal. lia.
  Qed.
  Lemma offset_kid pit c b : ok_item k pit -> In c (kids_of pit) -> line_at g (fst pit) Verbose -> agg pit b ->
    calculate_offset (full k) (nd c) g inw = dl x <- concise_column (node_val (full k) (nd pit)) (nd c) g inw ; LRet (x + b - 4).
  Proof.
    intros O K HV A. pose proof HV as (f & Hf & Ef). unfold calculate_offset. rewrite (kid_parent pit c O K). change (n_idx (nd pit)) with (fst pit). rewrite Hf. cbn [lunwrap lbind]. rewrite Ef.
    destruct (concise_column (node_val (full k) (nd pit)) (nd c) g inw) as [x| |]; cbn [lbind]; try reflexivity.
    rewrite (A (nav_len (full k)) x) by (unfold nav_len; pose proof (item_lt k pit O); lia). cbn [lbind fst snd]. change (n_idx (nd (croot k))) with 0.
    destruct (get_fmts k g _ (proj1 I) (root_ok k)) as [h Hh]. cbn [fst] in Hh. rewrite Hh. cbn [lunwrap lbind].
    pose proof (top_le k g I (fst pit) (f_line h) Verbose (ex_intro _ h (conj Hh eq_refl)) HV) as LE.
    assert (f_line h = Verbose) as -> by (unfold repr_le in LE; destruct (f_line h); cbn in LE; try lia; reflexivity). reflexivity.
  Qed.

  (** the offset of a node: a panic only for the value of a verbose key *)
  Lemma column_local pit c : ok_item k pit -> In c (kids_of pit) -> (forall d, keysib pit c d -> ~ line_at g (fst d) Verbose) ->
    exists o, concise_column (node_val (full k) (nd pit)) (nd c) g inw = LRet o.
  Proof.
    intros O K L. rewrite item_val by exact O. pose proof (vkids_kserds pit) as EV. unfold values_of in EV.
    destruct (kid_cases pit c K) as [[NK Nc]|[NK Nc]].
    - destruct (kval (snd (snd pit))) as [| | | | |l|m|l|m] eqn:Ek; cbn [concise_column];
        try (destruct (vkids pit); [destruct (idx_in_parent (nd c)); discriminate|discriminate]); try (eexists; reflexivity).
      + unfold cntr_field_offset. assert (LM : length (map fst m) = length (vkids pit)) by (apply (f_equal (@length _)) in EV; rewrite !map_length in *; lia).
        destruct (nth_error (map fst m) (idx_in_parent (nd c))) as [nm|] eqn:E.
        * rewrite nth_error_map, (nth_combine _ _ _ _ _ E Nc). cbn [option_map lunwrap lbind]. eauto.
        * apply nth_error_None in E. assert (Y : idx_in_parent (nd c) < length (vkids pit)) by (apply nth_error_Some; congruence). lia.
      + unfold map_entry_offset. rewrite NK. destruct (nth_error (kkids pit) (idx_in_parent (nd c))) as [d|] eqn:E.
        2:{ apply nth_error_None in E. rewrite (kids_lengths pit m Ek) in E. assert (Y : idx_in_parent (nd c) < length (vkids pit)) by (apply nth_error_Some; congruence). lia. }
        rewrite nth_error_map, (nth_combine _ _ _ _ _ E Nc). cbn [option_map lunwrap lbind fst]. change (n_idx (nd d)) with (fst d).
        assert (Kd : In d (kids_of pit)) by (eapply kkids_in, nth_error_In; exact E). pose proof (kid_ok k pit d O Kd) as Od.
        destruct (get_fmts k g d (proj1 I) Od) as [f Hf]. rewrite Hf. cbn [lunwrap lbind]. destruct (f_line f) eqn:El; cbn [lbind].
        * rewrite inw_get by exact Od. cbn [lunwrap lbind]. eauto.
        * eauto.
        * exfalso. apply (L d (conj NK E)). now exists f.
    - pose proof (kkids_kserds pit) as EK. unfold keys_of in EK.
      destruct (kval (snd (snd pit))) as [| | | | |l|m|l|m] eqn:Ek; try (destruct (kkids pit); [destruct (idx_in_parent (nd c)); discriminate|discriminate]).
      cbn [concise_column]. unfold map_entry_offset. rewrite NK. cbn [lbind]. eauto.
  Qed.
  Lemma loop_local fuel : forall it off, ok_item k it -> fst it <= fuel -> exists r c, offset_loop fuel (full k) g inw (nd it) off = LRet (r, nd c) /\ ok_item k c.
  Proof.
    induction fuel as [|fuel IH]; intros it off O Hf.
    - assert (P : node_parent (full k) (nd it) = None) by (apply parent_none_iff; [now apply ok_in|change (n_idx (nd it)) with (fst it); lia]).
      cbn [offset_loop]. rewrite P. eauto.
    - cbn [offset_loop]. destruct (i_parent (fst (snd it))) as [p|] eqn:Ep.
      + destruct (parent_kid k it p O Ep) as (pit & Op & Epi & c & Kc & Ec). rewrite <- Ec, (kid_parent pit c Op Kc).
        assert (Fc : fst c = fst it) by (apply (f_equal n_idx) in Ec; exact Ec). pose proof (kid_pos k pit c Op Kc) as KP.
        destruct (get_fmts k g pit (proj1 I) Op) as [f Hff]. change (n_idx (nd pit)) with (fst pit). rewrite Hff. cbn [lunwrap lbind].
        assert (X : exists add, match f_line f with
                    | Inline => LRet 0
                    | Concise => concise_column (node_val (full k) (nd pit)) (nd c) g inw
                    | Verbose => verbose_column (node_val (full k) (nd pit)) (nd c) (node_val (full k) (nd c))
                    end = LRet add).
        { destruct (f_line f) eqn:El; [eauto| |apply (verbose_column_ok k g I pit c); auto; now exists f]. apply column_local; [exact Op|exact Kc|].
          intros d [_ Nd] HV. assert (Kd : In d (kids_of pit)) by (eapply kkids_in, nth_error_In; exact Nd).
          pose proof (inv_kid_le k g pit d _ _ I Op Kd HV (ex_intro _ f (conj Hff eq_refl))) as LE. rewrite El in LE. unfold repr_le in LE. cbn in LE. lia. }
        destruct X as [add ->]. cbn [lbind]. apply IH; [exact Op|lia].
      + unfold node_parent. cbn [nd mk_full n_parent]. rewrite Ep. cbn [opt_bind]. eauto.
  Qed.
  Lemma offset_cases pit c : ok_item k pit -> In c (kids_of pit) ->
    (exists o, calculate_offset (full k) (nd c) g inw = LRet o) \/
    (calculate_offset (full k) (nd c) g inw = LPanic /\ exists d, keysib pit c d /\ line_at g (fst d) Verbose).
  Proof.
    intros O K. assert (DEC : (forall d, keysib pit c d -> ~ line_at g (fst d) Verbose) \/ exists d, keysib pit c d /\ line_at g (fst d) Verbose).
    { destruct (is_key (nd c)) eqn:NK; [left; intros d [X _]; congruence|]. destruct (nth_error (kkids pit) (idx_in_parent (nd c))) as [d|] eqn:E; [|left; intros d [_ X]; congruence].
      assert (Kd : In d (kids_of pit)) by (eapply kkids_in, nth_error_In; exact E). destruct (get_fmts k g d (proj1 I) (kid_ok k pit d O Kd)) as [f Hf].
      destruct (f_line f) eqn:El; [left..|right; exists d; split; [split; assumption|now exists f]];
        (intros d' [_ X] HV; rewrite E in X; injection X as <-; pose proof (line_at_fun _ _ _ _ HV (ex_intro _ f (conj Hf El))) as Y; discriminate Y). }
    destruct DEC as [L|(d & KS & HV)]; [left|right; split; [exact (key_blocks k cfg g pit c d I O K KS HV)|eauto]].
    unfold calculate_offset. rewrite (kid_parent pit c O K). destruct (get_fmts k g pit (proj1 I) O) as [f Hff]. change (n_idx (nd pit)) with (fst pit). rewrite Hff. cbn [lunwrap lbind].
    destruct (column_local pit c O K L) as [o Eo].
    assert (X : exists add, match f_line f with Inline => LRet 0 | _ => concise_column (node_val (full k) (nd pit)) (nd c) g inw end = LRet add) by (rewrite Eo; destruct (f_line f); eauto).
    destruct X as [add ->]. cbn [lbind]. destruct (loop_local (nav_len (full k)) pit add O) as (r & d & -> & Hd); [unfold nav_len; pose proof (item_lt k pit O); lia|].
    cbn [lbind fst snd]. destruct (get_fmts k g d (proj1 I) Hd) as [h Hh]. change (n_idx (nd d)) with (fst d). rewrite Hh. cbn [lunwrap lbind]. eauto.
  Qed.

  (** the column of a kid of a verbose node, by kind *)
  Lemma kid_item pit l c : kval (snd (snd pit)) = VSeq l -> In c (kids_of pit) -> In (snd (snd c)) l.
  Proof.
    intros E K. pose proof (vkids_kserds pit) as EV. unfold values_of in EV. rewrite E in EV. pose proof (kkids_kserds pit) as EK. unfold keys_of in EK. rewrite E in EK. apply map_eq_nil in EK.
    apply kids_value_or_key in K as [K|K]; [|rewrite EK in K; destruct K]. rewrite <- EV. exact (in_map (fun x => snd (snd x)) _ _ K).
  Qed.
  Lemma kid_field pit m c : ok_item k pit -> kval (snd (snd pit)) = VCntr m -> In c (kids_of pit) ->
    exists name, In (name, snd (snd c)) m /\ concise_column (node_val (full k) (nd pit)) (nd c) g inw = LRet (4 + length name + 3).
  Proof.
    intros O E K. rewrite item_val by exact O. rewrite E. cbn [concise_column]. destruct (kid_cases pit c K) as [[NK Nc]|[NK Nc]].
    - pose proof (vkids_kserds pit) as EV. unfold values_of in EV. rewrite E in EV. apply (f_equal (fun l => nth_error l (idx_in_parent (nd c)))) in EV. rewrite !nth_error_map, Nc in EV. cbn [option_map] in EV.
      destruct (nth_error m (idx_in_parent (nd c))) as [[name x]|] eqn:Em; [|discriminate EV]. cbn [option_map snd] in EV. injection EV as EV. exists name. split; [rewrite EV; eapply nth_error_In; exact Em|].
      unfold cntr_field_offset. assert (EM : nth_error (map fst m) (idx_in_parent (nd c)) = Some name) by (rewrite nth_error_map, Em; reflexivity).
      rewrite nth_error_map, (nth_combine _ _ _ _ _ EM Nc). cbn [option_map lunwrap lbind fst]. change (length FIELDS_ASSIGNER) with 2. change INDENT with 4. f_equal. lia.
    - pose proof (kkids_kserds pit) as EK. unfold keys_of in EK. rewrite E in EK. destruct (kkids pit); [|discriminate]. destruct (idx_in_parent (nd c)); discriminate.
  Qed.
  Lemma kid_key pit m c : ok_item k pit -> kval (snd (snd pit)) = VMap m -> In c (kids_of pit) -> is_key (nd c) = true ->
    (exists v, In (snd (snd c), v) m) /\ concise_column (node_val (full k) (nd pit)) (nd c) g inw = LRet 4.
  Proof.
    intros O E K KC. split; [|rewrite item_val by exact O; rewrite E; cbn [concise_column]; unfold map_entry_offset; now rewrite KC].
    destruct (kid_cases pit c K) as [[NK _]|[_ Nc]]; [congruence|]. apply nth_error_In in Nc.
    pose proof (kkids_kserds pit) as EK. unfold keys_of in EK. rewrite E in EK. pose proof (in_map (fun it : item => snd (snd it)) _ _ Nc) as Y. cbn beta in Y. rewrite EK in Y. apply in_map_iff in Y as ([a v] & <- & Hv). exists v. exact Hv.
  Qed.
  Lemma kid_value pit m c : ok_item k pit -> kval (snd (snd pit)) = VMap m -> In c (kids_of pit) -> is_key (nd c) = false ->
    exists d, keysib pit c d /\ In d (kids_of pit) /\ is_key (nd d) = true /\ In (snd (snd d), snd (snd c)) m /\
      forall r, line_at g (fst d) r -> concise_column (node_val (full k) (nd pit)) (nd c) g inw =
        match r with Inline => LRet (4 + inline_est cfg (snd (snd d)) + 2) | Concise => LRet 7 | Verbose => LPanic end.
  Proof.
    intros O E K KC. destruct (kid_cases pit c K) as [[_ Nc]|[NK _]]; [|congruence].
    destruct (nth_error (kkids pit) (idx_in_parent (nd c))) as [d|] eqn:Nd.
    2:{ apply nth_error_None in Nd. rewrite (kids_lengths pit m E) in Nd. assert (Y : idx_in_parent (nd c) < length (vkids pit)) by (apply nth_error_Some; congruence). lia. }
    assert (Kd : In d (kids_of pit)) by (eapply kkids_in, nth_error_In; exact Nd). exists d. split; [split; assumption|]. split; [exact Kd|]. split; [apply (kkids_keys pit); eapply nth_error_In; exact Nd|]. split.
    - pose proof (vkids_kserds pit) as EV. unfold values_of in EV. pose proof (kkids_kserds pit) as EK. unfold keys_of in EK. rewrite E in EV, EK.
      apply (f_equal (fun l => nth_error l (idx_in_parent (nd c)))) in EV, EK. rewrite !nth_error_map, Nc in EV. rewrite !nth_error_map, Nd in EK. cbn [option_map] in EV, EK.
      destruct (nth_error m (idx_in_parent (nd c))) as [[a v]|] eqn:Em; [|discriminate EV]. cbn [option_map fst snd] in EV, EK. injection EV as ->. injection EK as ->. eapply nth_error_In; exact Em.
    - intros r (f & Hf & Ef). rewrite item_val by exact O. rewrite E. cbn [concise_column]. unfold map_entry_offset. rewrite KC, nth_error_map, (nth_combine _ _ _ _ _ Nd Nc). cbn [option_map lunwrap lbind fst].
      change (n_idx (nd d)) with (fst d). rewrite Hf. cbn [lunwrap lbind]. rewrite Ef. destruct r; cbn [lbind]; [|reflexivity..].
      rewrite inw_get by exact (kid_ok k pit d O Kd). cbn [lunwrap lbind]. rewrite <- iw_est. cbn [nd mk_full n_kserd]. change (length KEYS_ASSIGNER) with 1. change INDENT with 4. f_equal. lia.
  Qed.
End Offset.
