(** apply_config returns; histories; the statements about the formatter. *)
From Coq Require Import Permutation.
From Verif Require Import Base F64 Number BTree Value BaseProps BTreeProps ValueSpec ValueProps Base91 Nav NavSpec NavProps NavProps2 NavProps3
  Fmt Formatter FmtText FmtSpec FmtProps FormatterProps FormatterProps2.
Open Scope nat_scope.

(** ** the id flags *)
Lemma apply_ids_loop root cfg : forall l fmts, length fmts = length (full root) -> Forall (fun i => i < length fmts) l ->
  exists fmts', lfold (fun fmts i =>
    dl n <- lunwrap (nav_get (full root) i) ;
    LRet (update fmts i (fun f => mkFmt (id_flag cfg (node_val (full root) n)) (f_line f)))) l fmts = LRet fmts' /\
    length fmts' = length fmts /\ map f_line fmts' = map f_line fmts /\
    forall j f, nth_error fmts' j = Some f -> In j l -> exists n, nav_get (full root) j = Some n /\ f_id f = id_flag cfg (node_val (full root) n).
Proof.
  induction l as [|i l IH]; intros fmts L F; cbn [lfold].
  - exists fmts. repeat split; auto. intros j f _ [].
  - inversion_clear F as [|? ? F1 F2]. destruct (nav_get (full root) i) as [n|] eqn:En.
    2:{ unfold nav_get in En. apply nth_error_None in En. lia. }
    cbn [lunwrap lbind]. set (f1 := update fmts i _).
    assert (L1 : length f1 = length fmts) by apply update_length.
    destruct (IH f1) as (f2 & E2 & L2 & M2 & I2); [lia|now rewrite L1|]. exists f2. split; [exact E2|]. split; [lia|].
    assert (M1 : map f_line f1 = map f_line fmts).
    { apply nth_error_ext_list. intros j. unfold f1. rewrite !nth_error_map, update_nth. destruct (j =? i); [|reflexivity]. destruct (nth_error fmts j); reflexivity. }
    split; [congruence|]. intros j f Hf Hj. destruct (in_dec Nat.eq_dec j l) as [Hl|Hl]; [eapply I2; eauto|].
    destruct Hj as [<-|Hj]; [|contradiction]. exists n. split; [exact En|].
    assert (K : forall (g : nat -> nat) l fa fb, ~ In i l -> lfold (fun fmts i =>
        dl n <- lunwrap (nav_get (full root) i) ;
        LRet (update fmts i (fun f => mkFmt (id_flag cfg (node_val (full root) n)) (f_line f)))) l fa = LRet fb -> nth_error fb i = nth_error fa i).
    { clear. intros _. induction l as [|x l IH]; intros fa fb N H; cbn [lfold] in H; [congruence|].
      destruct (nav_get (full root) x); cbn [lunwrap lbind] in H; [|discriminate]. apply IH in H; [|intros X; apply N; now right].
      rewrite H, update_nth. replace (i =? x) with false; [reflexivity|]. symmetry. apply Nat.eqb_neq. intros ->. apply N. now left. }
    rewrite (K (fun x => x) l f1 f2 Hl E2) in Hf. unfold f1 in Hf. rewrite update_nth, Nat.eqb_refl in Hf.
    destruct (nth_error fmts i); [|discriminate]. injection Hf as <-. reflexivity.
Qed.
Lemma apply_ids_ok root cfg fmts : length fmts = length (full root) ->
  exists fmts', apply_ids (full root) cfg fmts = LRet fmts' /\ length fmts' = length fmts /\ map f_line fmts' = map f_line fmts /\
    forall j f, nth_error fmts' j = Some f -> exists n, nav_get (full root) j = Some n /\ f_id f = id_flag cfg (node_val (full root) n).
Proof.
  intros L. unfold apply_ids, nav_len. destruct (apply_ids_loop root cfg (seq 0 (length (full root))) fmts L) as (f2 & E & L2 & M & I).
  { apply Forall_forall. intros i Hi. apply in_seq in Hi. lia. }
  exists f2. repeat split; auto. intros j f Hf. apply (I j f Hf). apply in_seq. assert (j < length f2) by (apply nth_error_Some; congruence). lia.
Qed.
Lemma same_lines fmts fmts' : map f_line fmts' = map f_line fmts -> forall j r, line_at fmts' j r -> line_at fmts j r.
Proof.
  intros E j r (f & Hf & <-). apply (f_equal (fun l => nth_error l j)) in E. rewrite !nth_error_map, Hf in E. cbn [option_map] in E.
  destruct (nth_error fmts j) as [g|] eqn:Eg; [|discriminate]. injection E as E. exists g. split; [exact Eg|congruence].
Qed.
Lemma inv_lines root fmts fmts' : map f_line fmts' = map f_line fmts -> inv root fmts -> inv root fmts'.
Proof.
  intros E (L & K & P & R). pose proof (same_lines _ _ E) as S. split; [apply (f_equal (@length _)) in E; rewrite !map_length in E; lia|]. split; [|split].
  - intros j n r Hn Hl. apply (K j n r Hn). auto.
  - intros j n p r rp Hj Hn Hp Hr Hrp. eapply P; eauto.
  - intros H Hv. apply (R H). auto.
Qed.

(** ** the loop of apply_config *)
Definition keys_small (root : kserd) : Prop := forall it, ok_item root it -> is_key (nd it) = true -> kind_max (snd (snd it)) <> Verbose.
Definition all_inline (fmts : list fmt) : Prop := forall j r, line_at fmts j r -> r = Inline.

Lemma keys_small_fit root fmts : keys_small root -> inv root fmts -> keys_fit root fmts.
Proof.
  intros KS (_ & K & _) it Ho Hk Hl. apply (KS it Ho Hk). pose proof (ok_get root it Ho) as G.
  pose proof (K _ _ _ G Hl) as H. change (n_kserd (nd it)) with (snd (snd it)) in H. unfold repr_le in H. cbn in H. destruct (kind_max (snd (snd it))); cbn in H; try lia. reflexivity.
Qed.
Lemma all_inline_fit root fmts : all_inline fmts -> keys_fit root fmts.
Proof. intros A it _ _ Hl. apply A in Hl. discriminate. Qed.

Lemma all_inline_request root fmts i r fmts' res : inv root fmts -> i <> 0 -> all_inline fmts ->
  request_repr (full root) fmts i r = LRet (fmts', res) -> all_inline fmts'.
Proof.
  intros (L & K & P & R) Hi A H. destruct (nth_error (full root) i) as [n|] eqn:E.
  - destruct (get_item root i n E) as (it & Ho & <- & <-). destruct (get_fmts root fmts it L Ho) as [f Hf].
    destruct (request_cases root fmts it r f L Ho Hf) as (fm1 & res1 & E1 & _ & C). rewrite H in E1. injection E1 as <- <-.
    destruct res as [e|]; [destruct C as (-> & _); exact A|]. destruct C as [[_ ->]|(_ & OK & N)]; [exact A|].
    assert (Hp : exists p, i_parent (fst (snd it)) = Some p).
    { destruct (i_parent (fst (snd it))) as [p|] eqn:Ep; [eauto|]. exfalso. apply Hi. apply (parent_none_iff root (nd it)); [now apply ok_in|].
      unfold node_parent. cbn [nd mk_full n_parent]. now rewrite Ep. }
    destruct Hp as [p Hp]. destruct (parent_line_at root fmts it p Ho L Hp) as (rp & Hrp & EP). destruct OK as (_ & O2 & _). apply O2 in EP. rewrite (A _ _ Hrp) in EP.
    assert (r = Inline) as -> by (unfold repr_le in EP; destruct r; cbn in EP; try lia; reflexivity).
    intros j r' Hl. destruct (line_at_upd fmts fmts' it Inline N j r' Hl) as (g & Hg & ->). rewrite upd_line.
    assert (G : f_line g = Inline) by (apply (A j); now exists g). rewrite G. destruct (j =? fst it); [reflexivity|]. destruct (_ && _); reflexivity.
  - unfold request_repr, nav_get in H. rewrite E in H. injection H as <- <-. exact A.
Qed.

Section Loop.
  Variables (root : kserd) (cfg : config) (Q : list fmt -> Prop).
  Hypothesis Q_fit : forall fmts, inv root fmts -> Q fmts -> keys_fit root fmts.
  Hypothesis Q_req : forall fmts i r fmts' res, inv root fmts -> i <> 0 -> Q fmts -> request_repr (full root) fmts i r = LRet (fmts', res) -> Q fmts'.
  Notation inw := (map (fun n => iw cfg (n_kserd n)) (full root)).
  Notation con := (map (fun n => cw cfg (n_kserd n)) (full root)).

  Lemma min_line_ok it lim : ok_item root it ->
    min_line_repr (fst it) lim inw con = LRet match lim with
      | None => Inline
      | Some lim => if lim <? cw cfg (snd (snd it)) then Verbose else if lim <? iw cfg (snd (snd it)) then Concise else Inline
      end.
  Proof.
    intros Ho. unfold min_line_repr. destruct lim as [lim|]; [|reflexivity]. pose proof (ok_get root it Ho) as G. unfold nav_get in G.
    rewrite !nth_error_map, G. cbn [option_map lunwrap lbind nd mk_full n_kserd]. destruct (lim <? cw cfg (snd (snd it))); reflexivity.
  Qed.
  Lemma apply_node_ok fmts it : ok_item root it -> fst it <> 0 -> inv root fmts -> Q fmts ->
    exists fmts', apply_node (full root) cfg inw con fmts (fst it) = LRet fmts' /\ inv root fmts' /\ Q fmts' /\ map f_id fmts' = map f_id fmts.
  Proof.
    intros Ho Hi I HQ. unfold apply_node. rewrite (ok_get root it Ho). cbn [lunwrap lbind].
    destruct (calculate_offset_ok root fmts cfg I (Q_fit fmts I HQ) it Ho) as [o ->]. cbn [lbind]. rewrite min_line_ok by exact Ho. cbn [lbind].
    destruct (node_parent (full root) (nd it)) as [p|] eqn:Ep.
    2:{ exfalso. apply Hi. apply (parent_none_iff root (nd it)); [now apply ok_in|exact Ep]. }
    cbn [lunwrap lbind]. match goal with |- context [request_repr _ _ _ ?r] => set (rr := r) end.
    destruct (request_inv root fmts (fst it) rr I) as (fmts' & res & E & I' & M). rewrite E. cbn [lbind fst].
    exists fmts'. split; [reflexivity|]. split; [exact I'|]. split; [exact (Q_req fmts (fst it) rr fmts' res I Hi HQ E)|exact M].
  Qed.
  Lemma apply_loop_ok l : forall fmts, Forall (fun c => exists it, ok_item root it /\ fst it <> 0 /\ fst it = c) l -> inv root fmts -> Q fmts ->
    exists fmts', lfold (apply_node (full root) cfg inw con) l fmts = LRet fmts' /\ inv root fmts' /\ Q fmts' /\ map f_id fmts' = map f_id fmts.
  Proof.
    induction l as [|c l IH]; intros fmts F I HQ; cbn [lfold]; [eauto 6|].
    inversion_clear F as [|? ? (it & Ho & Hi & <-) F2]. destruct (apply_node_ok fmts it Ho Hi I HQ) as (f1 & -> & I1 & Q1 & M1). cbn [lbind].
    destruct (IH f1 F2 I1 Q1) as (f2 & E2 & I2 & Q2 & M2). exists f2. rewrite M2. auto.
  Qed.
End Loop.

Lemma descendants_items root it ds : ok_item root it -> descendants_breadth (full root) (nd it) = LRet ds ->
  Forall (fun c => exists it', ok_item root it' /\ fst it' <> 0 /\ fst it' = c) (map n_idx ds).
Proof.
  intros Ho E. rewrite (breadth_spec root it (ksize (snd (snd it)))) in E by (auto; lia). injection E as <-.
  apply Forall_map, Forall_forall. intros n Hn. apply (Permutation_in _ (breadth_perm root it (ksize (snd (snd it))) Ho ltac:(lia))) in Hn.
  apply (in_map n_idx) in Hn as Hi. rewrite segment_idx in Hi. apply in_seq in Hi.
  unfold segment in Hn. assert (Hf : In n (full root)).
  { rewrite <- (firstn_skipn (S (fst it)) (full root)). apply in_or_app. right.
    rewrite <- (firstn_skipn (ksize (snd (snd it)) - 1) (skipn (S (fst it)) (full root))). apply in_or_app. now left. }
  destruct (item_exists root n Hf) as (it' & Ho' & ->). exists it'. change (n_idx (nd it')) with (fst it') in *. split; [exact Ho'|]. split; [lia|reflexivity].
Qed.

(** what the solver asks of the root *)
Definition wanted (cfg : config) (k : kserd) : repr :=
  match width_limit cfg with
  | None => Inline
  | Some lim => if lim <? cw cfg k then Verbose else if lim <? iw cfg k then Concise else Inline
  end.

Lemma apply_config_ok root cfg fmts : inv root fmts -> (forall f, inv root f -> keys_fit root f) \/ wanted cfg root = Inline ->
  exists fmts', apply_config (mkFmtr (full root) fmts) cfg = LRet (mkFmtr (full root) fmts') /\ inv root fmts' /\
    (wanted cfg root = Inline -> all_inline fmts') /\
    (forall j f, nth_error fmts' j = Some f -> exists n, nav_get (full root) j = Some n /\ f_id f = id_flag cfg (node_val (full root) n)).
Proof.
  intros I C. unfold apply_config. cbn [fm_nav fm_fmts].
  destruct (apply_ids_ok root cfg fmts (proj1 I)) as (f0 & -> & L0 & M0 & ID0). cbn [lbind]. rewrite root_nav. cbn [lunwrap lbind].
  rewrite inline_widths_ok. cbn [lbind]. rewrite concise_widths_ok. cbn [lbind].
  change 0 with (fst (0, (info_default, root))) at 1. rewrite min_line_ok by apply root_ok. cbn [lbind snd]. fold (wanted cfg root).
  destruct (descendants_breadth (full root) (nd (0, (info_default, root)))) as [ds| |] eqn:Ed; cbn [lbind];
    try (rewrite (breadth_spec root _ (ksize root)) in Ed by (apply root_ok || (cbn; lia)); discriminate).
  pose proof (descendants_items root _ ds (root_ok root) Ed) as Fd.
  pose proof (inv_lines root fmts f0 M0 I) as I0.
  destruct (request_inv root f0 0 (wanted cfg root) I0) as (f1 & res & E1 & I1 & M1). rewrite E1. cbn [lbind fst].
  assert (W : wanted cfg root = Inline -> all_inline f1).
  { intros W. rewrite W in E1. destruct (get_fmts root f0 _ (proj1 I0) (root_ok root)) as [f Hf].
    destruct (request_cases root f0 _ Inline f (proj1 I0) (root_ok root) Hf) as (f1' & res' & E1' & L1' & C1). cbn [fst] in E1'. rewrite E1 in E1'. injection E1' as <- <-.
    assert (ROOT : line_at f1 0 Inline).
    { destruct res as [e|].
      - destruct C1 as (_ & _ & C1). exfalso. apply (refused_not_ok _ _ _ _ _ C1). split; [apply repr_le_inline|]. split; [|discriminate]. intros rp _. apply repr_le_inline.
      - destruct C1 as [[C1 ->]|(_ & _ & N)]; [now exists f|]. cbn [fst] in Hf. specialize (N 0). rewrite Hf in N. cbn [option_map] in N. eexists. split; [exact N|]. rewrite upd_line. reflexivity. }
    (* every node is at most its ancestors *)
    assert (A : forall m j r, j < m -> line_at f1 j r -> r = Inline).
    { induction m as [|m IH]; intros j r Hj Hl; [lia|]. destruct (Nat.eq_dec j 0) as [->|NE]; [exact (line_at_fun _ _ _ _ Hl ROOT)|].
      destruct I1 as (L1 & K1 & P1 & R1). assert (Hjl : j < length (full root)) by (rewrite <- L1; destruct Hl as (g & Hg & _); apply nth_error_Some; congruence).
      destruct (nth_error (full root) j) as [n|] eqn:En; [|apply nth_error_None in En; lia]. destruct (get_item root j n En) as (it & Ho & <- & <-).
      destruct (i_parent (fst (snd it))) as [p|] eqn:Ep.
      2:{ exfalso. apply NE. apply (parent_none_iff root (nd it)); [now apply ok_in|]. unfold node_parent. cbn [nd mk_full n_parent]. now rewrite Ep. }
      pose proof (parent_before root _ _ p En Ep) as PB. destruct (line_at_ex f1 p) as [rp Hrp]; [rewrite L1; lia|].
      assert (rp = Inline) as -> by (apply (IH p); [lia|exact Hrp]).
      pose proof (P1 _ _ _ _ _ Hjl En Ep Hl Hrp) as LE. unfold repr_le in LE. destruct r; cbn in LE; try lia. reflexivity. }
    intros j r Hl. apply (A (S j) j r); [lia|exact Hl]. }
  assert (IDS : forall fa, map f_id fa = map f_id f1 -> forall j f, nth_error fa j = Some f -> exists n, nav_get (full root) j = Some n /\ f_id f = id_flag cfg (node_val (full root) n)).
  { intros fa E j f Hf. rewrite M1 in E. apply (f_equal (fun l => nth_error l j)) in E. rewrite !nth_error_map, Hf in E. cbn [option_map] in E.
    destruct (nth_error f0 j) as [g|] eqn:Eg; [|discriminate]. injection E as E. destruct (ID0 j g Eg) as (n & En & Ei). exists n. split; [exact En|congruence]. }
  destruct C as [KS|CW].
  - destruct (repr_eqb (wanted cfg root) Inline) eqn:EW.
    + apply repr_eqb_eq in EW. destruct (apply_loop_ok root cfg all_inline) with (l := map n_idx ds) (fmts := f1) as (f2 & E2 & I2 & A2 & M2); auto.
      { intros; eapply all_inline_request; eauto. }
      rewrite E2. cbn [lbind]. exists f2. repeat split; auto; try apply I2. intros. eapply IDS; eauto.
    + apply repr_eqb_neq in EW. destruct (apply_loop_ok root cfg (fun _ => True)) with (l := map n_idx ds) (fmts := f1) as (f2 & E2 & I2 & _ & M2); auto.
      rewrite E2. cbn [lbind]. exists f2. split; [reflexivity|]. split; [exact I2|]. split; [contradiction|]. intros. eapply IDS; eauto.
  - destruct (apply_loop_ok root cfg all_inline) with (l := map n_idx ds) (fmts := f1) as (f2 & E2 & I2 & A2 & M2); auto.
    { intros; eapply all_inline_fit; eauto. } { intros; eapply all_inline_request; eauto. }
    rewrite E2. cbn [lbind]. exists f2. repeat split; auto; try apply I2. intros. eapply IDS; eauto.
Qed.

(** ** histories *)
Definition finv (k : kserd) (fm : formatter) : Prop := fm_nav fm = full k /\ inv k (fm_fmts fm).

Lemma apply_loop_inv root cfg inw con l : forall fmts fmts', inv root fmts ->
  lfold (apply_node (full root) cfg inw con) l fmts = LRet fmts' -> inv root fmts'.
Proof.
  induction l as [|c l IH]; intros fmts fmts' I E; cbn [lfold] in E; [injection E as <-; exact I|].
  destruct (apply_node (full root) cfg inw con fmts c) as [f1| |] eqn:E1; try discriminate. cbn [lbind] in E. eapply IH; [|exact E].
  unfold apply_node in E1.
  destruct (nav_get (full root) c) as [n|]; cbn [lunwrap lbind] in E1; [|discriminate].
  destruct (calculate_offset (full root) n fmts inw) as [o| |]; cbn [lbind] in E1; try discriminate.
  destruct (min_line_repr _ _ _ _) as [r| |]; cbn [lbind] in E1; try discriminate.
  destruct (node_parent (full root) n) as [p|]; cbn [lunwrap lbind] in E1; [|discriminate].
  match type of E1 with context [request_repr _ _ _ ?r] => destruct (request_inv root fmts c r I) as (f2 & res & E2 & I2 & _) end.
  rewrite E2 in E1. cbn [lbind fst] in E1. injection E1 as <-. exact I2.
Qed.
Lemma apply_config_finv k fm cfg fm' : finv k fm -> apply_config fm cfg = LRet fm' -> finv k fm'.
Proof.
  intros [N I] E. destruct fm as [nv fmts]. cbn [fm_nav fm_fmts] in N, I. subst nv. unfold apply_config in E. cbn [fm_nav fm_fmts] in E.
  destruct (apply_ids_ok k cfg fmts (proj1 I)) as (f0 & E0 & _ & M0 & _). rewrite E0 in E. cbn [lbind] in E.
  rewrite root_nav in E. cbn [lunwrap lbind] in E. rewrite inline_widths_ok in E. cbn [lbind] in E. rewrite concise_widths_ok in E. cbn [lbind] in E.
  destruct (min_line_repr _ _ _ _) as [r| |]; cbn [lbind] in E; try discriminate.
  destruct (descendants_breadth _ _) as [ds| |]; cbn [lbind] in E; try discriminate.
  destruct (request_inv k f0 0 r (inv_lines k fmts f0 M0 I)) as (f1 & res & E1 & I1 & _). rewrite E1 in E. cbn [lbind fst] in E.
  destruct (lfold _ _ _) as [f2| |] eqn:E2; cbn [lbind] in E; try discriminate. injection E as <-. split; [reflexivity|].
  cbn [fm_fmts]. eapply apply_loop_inv; [exact I1|exact E2].
Qed.
Lemma fm_id_finv k fm i w : finv k fm -> finv k (fst (fm_id fm i w)).
Proof.
  intros [N I]. unfold fm_id. destruct (i <? length (fm_fmts fm)); cbn [fst]; [|split; assumption]. split; [exact N|]. cbn [fm_fmts].
  eapply inv_lines; [|exact I]. apply nth_error_ext_list. intros j. rewrite !nth_error_map, update_nth. destruct (j =? i); [|reflexivity]. destruct (nth_error (fm_fmts fm) j); reflexivity.
Qed.
Lemma fm_request_ok k fm r i : finv k fm -> exists fm' res, fm_request r fm i = LRet (fm', res) /\ finv k fm'.
Proof.
  intros [N I]. unfold fm_request. rewrite N. destruct (request_inv k (fm_fmts fm) i r I) as (f1 & res & E & I1 & _). rewrite E. cbn [lbind fst snd].
  exists (mkFmtr (full k) f1), res. split; [reflexivity|]. split; [reflexivity|exact I1].
Qed.
Lemma apply_op_finv k fm o fm' : finv k fm -> apply_op fm o = LRet fm' -> finv k fm'.
Proof.
  intros H E. destruct o as [r i|i w|cfg]; cbn [apply_op] in E.
  - destruct (fm_request_ok k fm r i H) as (f1 & res & E1 & H1). rewrite E1 in E. cbn [lbind fst] in E. injection E as <-. exact H1.
  - injection E as <-. now apply fm_id_finv.
  - eapply apply_config_finv; eauto.
Qed.
Lemma fm_new_finv k : exists fm, fm_new k = LRet fm /\ finv k fm.
Proof. destruct (fm_new_spec k) as (fmts & E & I & _). eexists. split; [exact E|]. split; [reflexivity|exact I]. Qed.
Lemma ops_finv k ops : forall fm fm', finv k fm -> lfold apply_op ops fm = LRet fm' -> finv k fm'.
Proof.
  induction ops as [|o ops IH]; intros fm fm' H E; cbn [lfold] in E; [injection E as <-; exact H|].
  destruct (apply_op fm o) as [f1| |] eqn:E1; try discriminate. cbn [lbind] in E. eapply IH; [|exact E]. eapply apply_op_finv; eauto.
Qed.
Lemma reachable_finv k fm : reachable k fm -> finv k fm.
Proof.
  intros [ops E]. unfold run in E. destruct (fm_new_finv k) as (f0 & E0 & H0). rewrite E0 in E. cbn [lbind] in E. eapply ops_finv; eauto.
Qed.

Lemma line_of_at fm i r : line_of fm i = Some r <-> line_at (fm_fmts fm) i r.
Proof.
  unfold line_of, line_at. destruct (nth_error (fm_fmts fm) i) as [f|]; cbn [option_map]; split.
  - intros [= <-]. eauto.
  - intros (g & [= <-] & <-). reflexivity.
  - discriminate.
  - intros (g & [=] & _).
Qed.

Lemma finv_repr_invariant k fm : finv k fm -> repr_invariant k fm.
Proof.
  intros [N (L & K & P & R)]. unfold repr_invariant. rewrite N. split; [apply nav_new_full|]. split; [exact L|]. split; [|split].
  - intros n r Hn Hl. apply line_of_at in Hl. apply (K (n_idx n) n r); [now apply node_get|exact Hl].
  - intros n p r rp Hn Hp Hl Hlp. apply line_of_at in Hl, Hlp. destruct (item_exists k n Hn) as (it & Ho & ->).
    unfold node_parent in Hp. cbn [nd mk_full n_parent] in Hp. destruct (i_parent (fst (snd it))) as [q|] eqn:Ep; [|discriminate]. cbn [opt_bind] in Hp.
    destruct (parent_kid k it q Ho Ep) as (pit & Hpo & Epi & _). rewrite <- Epi, (ok_get k pit Hpo) in Hp. injection Hp as <-.
    change (n_idx (nd pit)) with (fst pit) in Hlp. rewrite Epi in Hlp. pose proof (ok_get k it Ho) as G. pose proof (isz_le k it Ho). pose proof (ksize_pos (snd (snd it))).
    eapply P; [|exact G|exact Ep|exact Hl|exact Hlp]. lia.
  - intros H Hv. apply line_of_at in Hv. pose proof (K _ _ _ (root_get k) Hv) as KM. change (n_kserd (nd (0, (info_default, k)))) with k in KM.
    destruct (seq_or_map k) eqn:Es; [now apply (R Es)|]. unfold is_cntr, seq_or_map, kind_max, repr_le in *. destruct (kval k) as [| | | | |l|m|l|m]; try discriminate; cbn in KM; try lia.
    destruct l; cbn in KM; lia.
Qed.

Theorem reachable_invariant k fm : reachable k fm -> repr_invariant k fm.
Proof. intros H. now apply finv_repr_invariant, reachable_finv. Qed.

(** ** requests *)
Lemma okreq_allowed k fm it r : finv k fm -> ok_item k it -> (okreq k (fm_fmts fm) it r <-> allowed fm (nd it) r).
Proof.
  intros [N I] Ho. unfold okreq, allowed. change (n_kserd (nd it)) with (snd (snd it)). change (n_idx (nd it)) with (fst it).
  assert (E : (forall rp, parent_line (full k) (fm_fmts fm) (nd it) = Some rp -> repr_le r rp) <->
              (forall p rp, node_parent (fm_nav fm) (nd it) = Some p -> line_of fm (n_idx p) = Some rp -> repr_le r rp)).
  { unfold parent_line. rewrite N. destruct (node_parent (full k) (nd it)) as [p|]; cbn [opt_bind option_map].
    - unfold line_of. split; [intros H p0 rp [= <-] Hl; auto|intros H rp Hl; eauto].
    - split; [intros _ p rp [=]|intros _ rp [=]]. }
  tauto.
Qed.

Lemma descendants_le root fmts it : inv root fmts -> ok_item root it -> forall m j rj ri, j < m -> fst it < j < fst it + ksize (snd (snd it)) ->
  line_at fmts (fst it) ri -> line_at fmts j rj -> repr_le rj ri.
Proof.
  intros (L & K & P & R) Ho. induction m as [|m IH]; intros j rj ri Hj Hr Hli Hlj; [lia|].
  pose proof (isz_le root it Ho). assert (JL : j < length (full root)) by lia.
  destruct (nth_error (full root) j) as [n|] eqn:En; [|apply nth_error_None in En; lia].
  destruct (get_item root j n En) as (jt & Hjo & <- & <-). destruct (i_parent (fst (snd jt))) as [p|] eqn:Ep.
  2:{ assert (fst jt = 0); [|lia]. apply (parent_none_iff root (nd jt)); [now apply ok_in|]. unfold node_parent. cbn [nd mk_full n_parent]. now rewrite Ep. }
  pose proof (parent_before root _ _ p En Ep) as PB. apply (interval_parent root it _ _ p Ho En Ep) in Hr as Hp.
  destruct (line_at_ex fmts p) as [rp Hrp]; [lia|]. assert (LE : repr_le rj rp) by (eapply P; [|exact En|exact Ep|exact Hlj|exact Hrp]; lia).
  destruct (Nat.eq_dec p (fst it)) as [->|NE].
  - now rewrite (line_at_fun _ _ _ _ Hli Hrp).
  - assert (LE2 : repr_le rp ri) by (eapply (IH p); [lia|lia|exact Hli|exact Hrp]). unfold repr_le in *. lia.
Qed.

Lemma line_of_nth fm j : line_of fm j = option_map f_line (nth_error (fm_fmts fm) j).
Proof. reflexivity. Qed.
Lemma ids_request root fmts i r fmts' res : length fmts = length (full root) -> request_repr (full root) fmts i r = LRet (fmts', res) -> map f_id fmts' = map f_id fmts.
Proof. intros L E. destruct (request_keeps root fmts i r L) as (f & x & E' & _ & _ & _ & _ & M). congruence. Qed.

Theorem request_spec k fm r i : reachable k fm ->
  exists fm' res, fm_request r fm i = LRet (fm', res) /\ fm_nav fm' = fm_nav fm /\ map f_id (fm_fmts fm') = map f_id (fm_fmts fm) /\
    (res = None <-> exists n, nav_get (fm_nav fm) i = Some n /\ allowed fm n r) /\
    match res with
    | None => exists n, nav_get (fm_nav fm) i = Some n /\ lowered fm fm' i (tree_size n) r
    | Some e => fm' = fm /\ error_means k fm i r e
    end.
Proof.
  intros H. apply reachable_finv in H. pose proof H as [N I]. destruct fm as [nv fmts]. cbn [fm_nav fm_fmts] in *. subst nv.
  set (fm := mkFmtr (full k) fmts) in *. unfold fm_request. cbn [fm_nav fm_fmts fm].
  destruct (nth_error (full k) i) as [n|] eqn:En.
  - destruct (get_item k i n En) as (it & Ho & <- & <-). destruct (get_fmts k fmts it (proj1 I) Ho) as [f Hf].
    destruct (request_cases k fmts it r f (proj1 I) Ho Hf) as (fmts' & res & E & L' & C). rewrite E. cbn [lbind fst snd].
    pose proof (ids_request k fmts _ r fmts' res (proj1 I) E) as M.
    exists (mkFmtr (full k) fmts'), res. cbn [fm_fmts fm_nav]. split; [reflexivity|]. split; [reflexivity|]. split; [exact M|].
    unfold nav_get. rewrite En. destruct res as [e|].
    + destruct C as (-> & _ & C). split; [|split; [reflexivity|]].
      * split; [discriminate|]. intros (n & [= <-] & A). exfalso. apply (refused_not_ok _ _ _ _ _ C). now apply (okreq_allowed k fm it r H Ho).
      * change (fm_nav fm) with (full k). cbn zeta. destruct e; cbn [refused] in C; cbn [error_means]; change (fm_nav fm) with (full k).
        -- contradiction.
        -- destruct C as [C ?]. unfold parent_line in C. destruct (node_parent (full k) (nd it)) as [p|] eqn:Ep; cbn [opt_bind option_map] in C; [|discriminate].
           exists (nd it), p. repeat split; auto.
        -- destruct C as [C ?]. unfold parent_line in C. destruct (node_parent (full k) (nd it)) as [p|] eqn:Ep; cbn [opt_bind option_map] in C; [|discriminate].
           exists (nd it), p. repeat split; auto.
        -- destruct C as (-> & -> & C). exists (nd it). repeat split; auto.
        -- destruct C as (E0 & -> & C). split; [exact E0|]. split; [reflexivity|]. assert (snd (snd it) = k) as <-; [|exact C].
           apply (ok_kserd k it _ Ho (root_ok k)). exact E0.
    + assert (A : okreq k fmts it r /\ lowered fm (mkFmtr (full k) fmts') (fst it) (ksize (snd (snd it))) r).
      { destruct C as [[-> ->]|(_ & OK & NN)].
        - pose proof I as (L & K & P & R). assert (HL : line_at fmts (fst it) (f_line f)) by now exists f. split.
          + split; [exact (K _ _ _ En HL)|]. split.
            * intros rp Hrp. destruct (i_parent (fst (snd it))) as [p|] eqn:Ep.
              -- destruct (parent_line_at k fmts it p Ho L Ep) as (rq & Hq & Eq). rewrite Eq in Hrp. injection Hrp as <-.
                 pose proof (isz_le k it Ho). pose proof (ksize_pos (snd (snd it))). eapply P; [|exact En|exact Ep|exact HL|exact Hq]. lia.
              -- unfold parent_line, node_parent in Hrp. cbn [nd mk_full n_parent] in Hrp. rewrite Ep in Hrp. discriminate.
            * intros E0 Ev. destruct (seq_or_map (snd (snd it))) eqn:Es; [|reflexivity]. exfalso.
              assert (X : snd (snd it) = k) by exact (ok_kserd k it _ Ho (root_ok k) E0). rewrite X in Es. apply (R Es). rewrite E0, Ev in HL. exact HL.
          + intros j. rewrite !line_of_nth. cbn [fm_fmts fm]. destruct (Nat.eqb_spec j (fst it)) as [->|NE]; [rewrite Hf; reflexivity|].
            destruct ((fst it <? j) && (j <? fst it + ksize (snd (snd it)))) eqn:EI; [|reflexivity]. apply andb_true_iff in EI as [EI1 EI2]. apply Nat.ltb_lt in EI1, EI2.
            destruct (nth_error fmts j) as [g|] eqn:Eg; [|reflexivity]. cbn [option_map]. f_equal.
            assert (LE : repr_le (f_line g) (f_line f)) by (apply (descendants_le k fmts it I Ho (S j) j); auto; now exists g).
            unfold repr_min, repr_le in *. destruct (f_line g), (f_line f); cbn in *; try reflexivity; lia.
        - split; [exact OK|]. intros j. rewrite !line_of_nth. cbn [fm_fmts fm]. rewrite NN. destruct (Nat.eqb_spec j (fst it)) as [->|NE].
          + rewrite Hf. cbn [option_map]. now rewrite upd_line, Nat.eqb_refl.
          + destruct (nth_error fmts j) as [g|] eqn:Eg; cbn [option_map]; [|destruct (_ && _); reflexivity]. rewrite upd_line.
            replace (j =? fst it) with false by (symmetry; now apply Nat.eqb_neq). destruct (_ && _); [|reflexivity]. f_equal.
      }
      destruct A as [A1 A2]. split.
      * split; [|reflexivity]. intros _. exists (nd it). split; [reflexivity|]. now apply (okreq_allowed k fm it r H Ho).
      * exists (nd it). split; [reflexivity|]. unfold tree_size. change (n_kserd (nd it)) with (snd (snd it)). rewrite preorder_length. exact A2.
  - unfold request_repr, nav_get. rewrite En. cbn [lbind fst snd]. exists fm, (Some IdxOutOfBounds). split; [reflexivity|]. split; [reflexivity|]. split; [reflexivity|].
    split; [|split; [reflexivity|]].
    + split; [discriminate|]. intros (n & [=] & _).
    + cbn [error_means]. unfold nav_len. change (fm_nav fm) with (full k). now apply nth_error_None.
Qed.
Theorem id_spec k fm i w : reachable k fm ->
  let '(fm', res) := fm_id fm i w in
  fm_nav fm' = fm_nav fm /\ (forall j, line_of fm' j = line_of fm j) /\
  (res = None <-> i < nav_len (fm_nav fm)) /\ (res <> None -> res = Some IdxOutOfBounds /\ fm' = fm) /\
  (res = None -> forall j, option_map f_id (nth_error (fm_fmts fm') j) =
     if j =? i then Some w else option_map f_id (nth_error (fm_fmts fm) j)).
Proof.
  intros H. apply reachable_finv in H. destruct H as [N I]. unfold fm_id, nav_len. rewrite N, <- (proj1 I).
  destruct (Nat.ltb_spec i (length (fm_fmts fm))) as [L|L].
  - cbn [fm_nav]. split; [reflexivity|]. split.
    + intros j. rewrite !line_of_nth. cbn [fm_fmts]. rewrite update_nth. destruct (j =? i); [|reflexivity]. destruct (nth_error (fm_fmts fm) j); reflexivity.
    + split; [tauto|]. split; [congruence|]. intros _ j. cbn [fm_fmts]. rewrite update_nth. destruct (Nat.eqb_spec j i) as [->|]; [|reflexivity].
      destruct (nth_error (fm_fmts fm) i) eqn:E; [reflexivity|]. apply nth_error_None in E. lia.
  - split; [exact N|]. split; [reflexivity|]. split; [split; [discriminate|lia]|]. split; [auto|discriminate].
Qed.
Lemma methods_spec k fm (m : formatter -> nat -> lres (formatter * option fmt_error)) r i :
  In (m, r) [(fm_inline, Inline); (fm_concise, Concise); (fm_verbose, Verbose)] -> reachable k fm ->
  exists fm' res, m fm i = LRet (fm', res) /\
    (res = None <-> exists n, nav_get (fm_nav fm) i = Some n /\ allowed fm n r) /\
    match res with
    | None => exists n, nav_get (fm_nav fm) i = Some n /\ lowered fm fm' i (tree_size n) r
    | Some e => fm' = fm /\ error_means k fm i r e
    end.
Proof.
  intros M R. destruct (request_spec k fm r i R) as (fm' & res & E & _ & _ & A & B). exists fm', res.
  repeat (destruct M as [M|M]; [injection M as <- <-; auto|]). destruct M.
Qed.
