(** Proofs about the solver: the choice of each form from the column. *)
From Verif Require Import Base BaseProps F64 Number BTree Value ValueProps Nav NavSpec NavProps NavProps2 NavProps3 Fmt FmtSpec FmtText FmtProps FmtProps2 Formatter FormatterProps FormatterProps2 FormatterProps3 FormatterProps4 LayoutSpec LayoutProps LayoutProps2 LayoutProps3.
Open Scope nat_scope.

(** ** estimates *)
Lemma iw_est cfg k : iw cfg k = inline_est cfg k.
Proof.
  unfold inline_est. induction k as [id v IH] using kserd_ind'. rewrite total_unfold. cbn [kval iw]. f_equal.
  destruct v as [| | | | |l|m|l|m]; cbn [vchildren] in *; try reflexivity.
  - f_equal. apply map_ext_in. intros x Hx. rewrite Forall_forall in IH. now apply IH.
  - rewrite map_map. f_equal. apply map_ext_in. intros x Hx. rewrite Forall_forall in IH. apply IH. now apply in_map.
  - f_equal. apply map_ext_in. intros x Hx. rewrite Forall_forall in IH. now apply IH.
  - rewrite Forall_forall in IH. induction m as [|[a b] m IHm]; [reflexivity|]. cbn [map fst snd] in *.
    cbn [flat_map app entry_list] in IH |- *. unfold entry_list in *. cbn [flat_map app map fst snd] in *. rewrite !list_sum_cons.
    rewrite <- (IH a), <- (IH b) by (cbn [In]; auto). specialize (IHm (fun x Hx => IH x (or_intror (or_intror Hx)))). lia.
Qed.
Lemma cw_est cfg k : cw cfg k = concise_est cfg k.
Proof.
  induction k as [id v IH] using kserd_ind'. cbn [cw concise_est]. destruct v as [| | | | |l|m|l|m]; cbn [vchildren] in *; try reflexivity; f_equal; apply map_ext_in; intros x Hx; rewrite Forall_forall in IH.
  - now rewrite IH.
  - rewrite IH by now apply in_map. change (length FIELDS_ASSIGNER) with 2. change INDENT with 4. lia.
  - now rewrite IH.
  - rewrite iw_est, IH; [change (length KEYS_ASSIGNER) with 1; change INDENT with 4; lia|]. unfold entry_list. apply in_flat_map. exists x. split; [exact Hx|]. cbn [In]. auto.
Qed.
Lemma dec_some n : 1 <= length (dec_of_N n).
Proof. destruct (dec_of_N n) eqn:E; [|cbn; lia]. pose proof (dec_of_N_spec n) as H. rewrite E in H. exfalso. revert H. tauto. Qed.
Lemma positional_some d t : 1 <= length (positional d t).
Proof.
  unfold positional. pose proof (dec_some (Z.to_N d)) as L. destruct (0 <=? t)%Z; [rewrite app_length; lia|].
  destruct (_ <? _)%Z; rewrite !app_length; cbn [s list_ascii_of_string map length]; lia.
Qed.
Lemma display_some n : 1 <= length (num_display n).
Proof.
  destruct n as [x|x|x]; cbn [num_display].
  - unfold Z_display. destruct (x <? 0)%Z; [cbn [length]; lia|apply dec_some].
  - unfold Z_display. destruct (x <? 0)%Z; [cbn [length]; lia|apply dec_some].
  - destruct x as [sg p|sg|sg m e]; cbn [f_display]; [cbn; lia|destruct sg; cbn; lia|]. rewrite app_length.
    destruct (m =? 0)%Z; [cbn; lia|]. destruct (exact_dec m e) as [d t]. destruct (shortest _ _ _ _) as [d1 t1]. destruct (strip0 _ _ _) as [d2 t2].
    pose proof (positional_some d2 t2). lia.
Qed.
Lemma inline_width_some cfg k : 1 <= inline_width k cfg.
Proof.
  unfold inline_width. destruct (kval k) as [|b|n|t|b|l|m|l|m]; try (cbn [Nat.add]; apply le_n_S; apply Nat.le_0_l).
  - destruct (Nat.ltb_spec 0 (ident_len k)); lia.
  - destruct b; lia.
  - pose proof (display_some n). lia.
Qed.
Lemma concise_width_some cfg k : 1 <= concise_width k cfg.
Proof. pose proof (inline_width_some cfg k) as H. unfold concise_width. destruct (kval k); try exact H; lia. Qed.
Lemma fold_max_ge l : forall a, a <= fold_left max l a /\ Forall (fun x => x <= fold_left max l a) l.
Proof.
  induction l as [|x l IH]; intros a; cbn [fold_left]; [split; [lia|constructor]|]. destruct (IH (max a x)) as [H1 H2]. split; [lia|]. constructor; [lia|exact H2].
Qed.
Lemma iw_some cfg k : 1 <= iw cfg k.
Proof. rewrite iw_unfold. pose proof (inline_width_some cfg k). lia. Qed.
Lemma cw_first cfg k : concise_width k cfg <= cw cfg k.
Proof. destruct k as [id v]. cbn [cw]. destruct v as [| | | | |l|m|l|m]; try lia; apply fold_max_ge. Qed.
Lemma cw_some cfg k : 1 <= cw cfg k.
Proof. pose proof (concise_width_some cfg k). pose proof (cw_first cfg k). lia. Qed.

(** ** the request in terms of columns *)
Lemma sub_ltb lim o w : 1 <= w -> (lim - o <? w) = (lim <? o + w).
Proof. intros H. apply Bool.eq_true_iff_eq. rewrite !Nat.ltb_lt. lia. Qed.
Lemma ask_asked cfg o pk ck : ask cfg o pk ck = asked cfg o pk ck.
Proof.
  unfold ask, asked, wants. destruct (width_limit cfg) as [lim|].
  - rewrite <- cw_est, <- iw_est, !sub_ltb by (apply cw_some || apply iw_some).
    destruct (lim <? _); [destruct (kval ck), (kval pk); reflexivity|]. destruct (lim <? _); destruct (kval ck), (kval pk); reflexivity.
  - destruct (kval ck), (kval pk); reflexivity.
Qed.
Lemma wanted_wants cfg k : wanted cfg k = wants cfg 0 k.
Proof. unfold wanted, wants. destruct (width_limit cfg); [|reflexivity]. now rewrite cw_est, iw_est. Qed.

(** ** a fresh formatter with a configuration *)
Section Fresh.
  Context (k : kserd) (cfg : config) (fm fm' : formatter).
  Hypothesis E : fm_new k = LRet fm.
  Hypothesis E' : apply_config fm cfg = LRet fm'.
  Notation inw := (map (fun n => iw cfg (n_kserd n)) (full k)).
  Notation fmts := (fm_fmts fm').

  Lemma fresh_inv : inv k (fm_fmts fm) /\ fm_nav fm = full k /\ inv k fmts /\ fm_nav fm' = full k.
  Proof.
    destruct (fm_new_finv k) as (f0 & E0 & H0). rewrite E in E0. injection E0 as <-. pose proof (apply_config_finv k fm cfg fm' H0 E') as F. destruct H0, F. auto.
  Qed.
  Lemma fresh_fm : fm = mkFmtr (full k) (fm_fmts fm).
  Proof. destruct fresh_inv as (_ & N & _). destruct fm. cbn in *. now subst. Qed.
  Lemma root_line : line_at fmts 0 (repr_min (wanted cfg k) (top_max k)).
  Proof.
    destruct fresh_inv as (I & N & I' & N'). pose proof E' as X. rewrite fresh_fm in X. destruct (config_decided k cfg _ _ I X) as (f2 & -> & _ & R & _). cbn [fm_fmts].
    destruct (new_lines k fm E) as (_ & _ & _ & T). specialize (R _ T).
    replace (repr_min (wanted cfg k) (top_max k)) with
      (if repr_lt (kind_max k) (wanted cfg k) then top_max k else if repr_eqb (wanted cfg k) Verbose && seq_or_map k then top_max k else wanted cfg k); [exact R|].
    unfold top_max, kind_max, seq_or_map. destruct (kval k) as [| | | | |[|]|[|]|[|]|[|]], (wanted cfg k); reflexivity.
  Qed.
  (** before: the fresh lines are at least these *)
  Lemma kid_line : forall pit c, ok_item k pit -> In c (kids_of pit) -> exists o rp,
    calculate_offset (full k) (nd c) fmts inw = LRet o /\ line_at fmts (fst pit) rp /\
    line_at fmts (fst c) (repr_least (asked cfg o (snd (snd pit)) (snd (snd c))) (kind_max (snd (snd c))) rp).
  Proof.
    destruct fresh_inv as (I & N & I' & N'). pose proof E' as X. rewrite fresh_fm in X. destruct (config_decided k cfg _ _ I X) as (f2 & EF & _ & R & D).
    assert (E2 : fmts = f2) by now rewrite EF. rewrite E2 in *. destruct (new_lines k fm E) as (_ & _ & _ & T). pose proof (new_kids k fm E) as NK.
    (* keys are not verbose *)
    pose proof (returned_fit k cfg f2 I' (fun pit c O K => match D pit c O K with ex_intro _ o (ex_intro _ _ (conj H _)) => ex_intro _ o H end)) as KF.
    assert (KEY : forall pit c rp, ok_item k pit -> In c (kids_of pit) -> line_at f2 (fst pit) rp -> own_max (is_key (nd c)) (snd (snd c)) = kind_max (snd (snd c)) \/ repr_le rp Concise \/
      (kind_max (snd (snd c)) = Verbose /\ rp = Verbose /\ forall o a, line_at f2 (fst c) (choose (ask cfg o (snd (snd pit)) (snd (snd c))) (snd (snd c)) a rp) -> repr_le (ask cfg o (snd (snd pit)) (snd (snd c))) Concise)).
    { intros p x rp Op Kx HP. unfold own_max. destruct (is_key (nd x)) eqn:IK; [|now left]. destruct (kind_max (snd (snd x))) eqn:KM; [now left|now left|]. destruct rp; [right; left; unfold repr_le; cbn; lia..|].
      right. right. split; [reflexivity|]. split; [reflexivity|]. intros o a HL. pose proof (KF x (kid_ok k p x Op Kx) IK) as NV. unfold choose in HL. rewrite KM in HL. unfold repr_le.
      destruct (ask cfg o (snd (snd p)) (snd (snd x))); cbn; [lia|lia|]. exfalso. apply NV. exact HL. }
    (* no line is larger than before *)
    assert (STEP : forall pit c a0 b0 o rp, ok_item k pit -> In c (kids_of pit) -> line_at f2 (fst pit) rp -> line_at (fm_fmts fm) (fst pit) b0 -> repr_le rp b0 ->
      a0 = repr_min (own_max (is_key (nd c)) (snd (snd c))) b0 -> line_at f2 (fst c) (choose (ask cfg o (snd (snd pit)) (snd (snd c))) (snd (snd c)) a0 rp) ->
      choose (ask cfg o (snd (snd pit)) (snd (snd c))) (snd (snd c)) a0 rp = repr_least (asked cfg o (snd (snd pit)) (snd (snd c))) (kind_max (snd (snd c))) rp /\
      repr_le (repr_least (asked cfg o (snd (snd pit)) (snd (snd c))) (kind_max (snd (snd c))) rp) a0).
    { intros p x a0 b0 o rp Op Kx HP HB LE -> HX. rewrite <- ask_asked. destruct (KEY p x rp Op Kx HP) as [KE|[KE|(KM & -> & KE)]]; [rewrite KE|..]; unfold choose, repr_least; [clear KEY HX..|].
      - set (r := ask _ _ _ _). clearbody r. generalize (kind_max (snd (snd x))). intros km. unfold repr_le in *. clear - LE. destruct km, r, rp, b0; cbn in *; (split; [try reflexivity; lia|lia]).
      - set (r := ask _ _ _ _). clearbody r. unfold own_max. generalize (kind_max (snd (snd x))). intros km. unfold repr_le in *. clear - LE KE. destruct (is_key (nd x)), km, r, rp, b0; cbn in *; (split; [try reflexivity; lia|lia]).
      - specialize (KE _ _ HX). clear KEY HX. unfold own_max. rewrite KM. revert KE. generalize (ask cfg o (snd (snd p)) (snd (snd x))). intros r KE. unfold repr_le in *. clear - LE KE. destruct (is_key (nd x)), r, b0; cbn in *; (split; [try reflexivity; lia|lia]). }
    assert (LOW : forall m it a b, fst it < m -> ok_item k it -> line_at f2 (fst it) a -> line_at (fm_fmts fm) (fst it) b -> repr_le a b).
    { induction m as [|m IH]; intros it a b Hm O HA HB; [lia|]. destruct (Nat.eq_dec (fst it) 0) as [Z|NZ].
      - rewrite Z in *. pose proof root_line as RL. rewrite E2 in RL. rewrite (line_at_fun _ _ _ _ HA RL), (line_at_fun _ _ _ _ HB T). unfold repr_le. destruct (wanted cfg k), (top_max k); cbn; lia.
      - destruct (i_parent (fst (snd it))) as [p|] eqn:Ep.
        2:{ exfalso. apply NZ. apply (parent_none_iff k (nd it)); [now apply ok_in|]. unfold node_parent. cbn [nd mk_full n_parent]. now rewrite Ep. }
        destruct (parent_kid k it p O Ep) as (pit & Op & Epi & c & Kc & Ec). assert (Fc : fst c = fst it) by (apply (f_equal n_idx) in Ec; exact Ec).
        pose proof (kid_pos k pit c Op Kc) as KP. destruct (D pit c Op Kc) as (o & rp & _ & HP & HL).
        destruct (inv_line k (fm_fmts fm) (fst pit) I (item_lt k pit Op)) as [b0 HB0]. pose proof (IH pit rp b0 ltac:(lia) Op HP HB0) as LE.
        pose proof (NK pit c b0 Op Kc HB0) as HC. destruct (STEP pit c _ b0 o rp Op Kc HP HB0 LE eq_refl (HL _ HC)) as [S1 S2]. specialize (HL _ HC). rewrite S1 in HL.
        rewrite Fc in HL, HC. rewrite (line_at_fun _ _ _ _ HA HL), (line_at_fun _ _ _ _ HB HC). exact S2. }
    intros pit c O K. destruct (D pit c O K) as (o & rp & Eo & HP & HL). exists o, rp. split; [exact Eo|]. split; [exact HP|].
    destruct (inv_line k (fm_fmts fm) (fst pit) I (item_lt k pit O)) as [b0 HB0]. pose proof (NK pit c b0 O K HB0) as HC.
    pose proof (LOW _ pit rp b0 (Nat.lt_succ_diag_r _) O HP HB0) as LE. destruct (STEP pit c _ b0 o rp O K HP HB0 LE eq_refl (HL _ HC)) as [S1 _]. rewrite <- S1. now apply HL.
  Qed.
End Fresh.
