(** Proofs about the solver: what each node is shown as after apply_config. *)
From Verif Require Import Base BaseProps F64 Number BTree Value ValueProps Nav NavSpec NavProps NavProps2 NavProps3 Fmt FmtSpec FmtText FmtProps Formatter FormatterProps FormatterProps2 FormatterProps3 LayoutProps.
From Coq Require Import Permutation.
Open Scope nat_scope.

(** what is asked of a child [ck] of [pk] at the offset [o] *)
Definition ask (cfg : config) (o : nat) (pk ck : kserd) : repr :=
  let r := match width_limit cfg with
           | None => Inline
           | Some lim => if lim - o <? cw cfg ck then Verbose else if lim - o <? iw cfg ck then Concise else Inline
           end in
  match r, kval ck, kval pk with Concise, VCntr _, VSeq _ => Verbose | _, _, _ => r end.
(** what it becomes, [a] before and [rp] that of its parent *)
Definition choose (r : repr) (ck : kserd) (a rp : repr) : repr :=
  if repr_lt (kind_max ck) r then repr_min a rp else if repr_lt rp r then repr_min a rp else r.

Lemma repr_min_le a b : repr_le a b -> repr_min a b = a.
Proof. destruct a, b; cbn; unfold repr_le; cbn; intros; try reflexivity; lia. Qed.

Section Decide.
  Context (root : kserd) (cfg : config) (f1 : list fmt).
  Hypothesis I1 : inv root f1.
  Notation inw := (map (fun n => iw cfg (n_kserd n)) (full root)).
  Notation con := (map (fun n => cw cfg (n_kserd n)) (full root)).

  Definition decided (g : list fmt) (pit c : item) : Prop :=
    exists o rp, calculate_offset (full root) (nd c) g inw = LRet o /\ line_at g (fst pit) rp /\
      forall a, line_at f1 (fst c) a -> line_at g (fst c) (choose (ask cfg o (snd (snd pit)) (snd (snd c))) (snd (snd c)) a rp).
  Definition stage (A : list item) (g : list fmt) : Prop :=
    inv root g /\ nth_error g 0 = nth_error f1 0 /\
    (forall pit c a b, ok_item root pit -> In c (kids_of pit) -> ~ In (fst c) (map fst A) -> line_at f1 (fst c) a -> line_at g (fst pit) b -> line_at g (fst c) (repr_min a b)) /\
    (forall pit c, ok_item root pit -> In c (kids_of pit) -> In (fst c) (map fst A) -> decided g pit c).

  Lemma inv_line g i : inv root g -> i < length (full root) -> exists r, line_at g i r.
  Proof. intros (L & _) H. apply line_at_ex. lia. Qed.
  Lemma item_lt it : ok_item root it -> fst it < length (full root).
  Proof. intros O. pose proof (isz_le root it O). pose proof (ksize_pos (snd (snd it))). lia. Qed.
  Lemma inv_kid_le g pit c a b : inv root g -> ok_item root pit -> In c (kids_of pit) -> line_at g (fst c) a -> line_at g (fst pit) b -> repr_le a b.
  Proof.
    intros (L & K & P & R) O IK HA HB. pose proof (kid_ok root pit c O IK) as Oc. eapply P; [|apply (ok_get root c Oc)|exact (kids_parent _ _ IK)|exact HA|exact HB].
    now apply item_lt.
  Qed.
  Lemma stage_nil : stage [] f1.
  Proof.
    split; [exact I1|]. split; [reflexivity|]. split; [|intros pit c _ _ []]. intros pit c a b O K _ HA HB. rewrite repr_min_le; [exact HA|]. eapply inv_kid_le; eauto.
  Qed.
  Lemma agree_line S g g' i r : agree S g g' -> In i S -> line_at g i r -> line_at g' i r.
  Proof. intros A I (f & H & E). exists f. rewrite <- (A i I). auto. Qed.
  Lemma kid_lines pit c g : ok_item root pit -> In c (kids_of pit) -> inv root g -> exists a b, line_at g (fst c) a /\ line_at g (fst pit) b.
  Proof.
    intros O K I. destruct (inv_line g (fst c) I (item_lt c (kid_ok root pit c O K))) as [a HA]. destruct (inv_line g (fst pit) I (item_lt pit O)) as [b HB]. eauto.
  Qed.

  (** a decision of one node, from what it does to the formats *)
  Lemma stage_step A c B g g' r : blist root = A ++ c :: B -> stage A g -> inv root g' ->
    (exists pit0 c0 o, ok_item root pit0 /\ In c0 (kids_of pit0) /\ fst c0 = fst c /\ calculate_offset (full root) (nd c0) g inw = LRet o /\ r = ask cfg o (snd (snd pit0)) (snd (snd c0)) /\
      (g' = g /\ (line_at g (fst c) r \/ exists rp, line_at g (fst pit0) rp /\ (repr_n (kind_max (snd (snd c0))) < repr_n r \/ repr_n rp < repr_n r)) \/
       (repr_le r (kind_max (snd (snd c0))) /\ (forall rp, line_at g (fst pit0) rp -> repr_le r rp) /\
        forall j, nth_error g' j = option_map (upd (fst c) (ksize (snd (snd c))) r j) (nth_error g j)))) ->
    stage (A ++ [c]) g'.
  Proof.
    intros E (Ig & Z & U & D) Ig' (pit0 & c0 & o & O0 & K0 & F0 & Eo & Er & H).
    assert (Oc : ok_item root c). { pose proof (blist_ok root) as F. rewrite Forall_forall in F. apply F. rewrite E. apply in_elt. }
    pose proof (below_after root A c B E) as BA. pose proof (prefix_closed root A (c :: B) E) as CL.
    assert (NC : ~ In (fst c) (map fst A)).
    { intros X. apply (BA (fst c)); [now right|]. pose proof (ksize_pos (snd (snd c))). lia. }
    assert (AG : agree (0 :: map fst A) g g').
    { intros i Hi. destruct H as [[-> _]|(_ & _ & N)]; [reflexivity|]. rewrite N. destruct (nth_error g i) as [f|]; [|reflexivity]. cbn [option_map]. f_equal. unfold upd.
      pose proof (BA i Hi) as X. pose proof (ksize_pos (snd (snd c))) as SP.
      destruct (Nat.eqb_spec i (fst c)); [exfalso; apply X; lia|].
      destruct ((fst c <? i) && (i <? fst c + ksize (snd (snd c)))) eqn:EB; [|reflexivity]. apply andb_true_iff in EB as [E1 E2]. apply Nat.ltb_lt in E1, E2. exfalso. apply X. lia. }
    split; [exact Ig'|]. split; [rewrite <- Z; symmetry; apply AG; now left|]. split.
    - (* undecided *)
      intros pit2 c2 a2 b2 O2 K2 N2 HA2 HB2. rewrite map_app, in_app_iff in N2. cbn [map In] in N2.
      assert (N2A : ~ In (fst c2) (map fst A)) by tauto. assert (N2c : fst c2 <> fst c) by (intros X; apply N2; right; left; now symmetry).
      destruct H as [[-> _]|(KM & PM & N)]; [now apply (U pit2 c2)|].
      pose proof (kid_ok root pit2 c2 O2 K2) as Oc2. pose proof (ok_get root c2 Oc2) as G2. pose proof (interval_parent root c (fst c2) (nd c2) (fst pit2) Oc G2 (kids_parent _ _ K2)) as IP.
      destruct (line_at_upd g g' c r N _ _ HB2) as (fb & Hfb & Eb). rewrite upd_line in Eb.
      destruct (inv_line g (fst c2) Ig (item_lt c2 Oc2)) as [a' (fa & Hfa & Efa)].
      assert (PRE : line_at g (fst c2) (repr_min a2 (f_line fb))) by (apply (U pit2 c2); auto; now exists fb).
      pose proof (line_at_fun _ _ _ _ PRE (ex_intro _ fa (conj Hfa eq_refl))) as EA.
      exists (upd (fst c) (ksize (snd (snd c))) r (fst c2) fa). split; [rewrite N, Hfa; reflexivity|]. rewrite upd_line.
      replace (fst c2 =? fst c) with false by (symmetry; now apply Nat.eqb_neq).
      destruct ((fst c <? fst c2) && (fst c2 <? fst c + ksize (snd (snd c)))) eqn:EI.
      + apply andb_true_iff in EI as [X1 X2]. apply Nat.ltb_lt in X1, X2. pose proof (proj1 IP (conj X1 X2)) as Y.
        destruct (Nat.eqb_spec (fst pit2) (fst c)) as [EP|NP].
        * (* a child of the node itself *)
          subst b2. rewrite <- EA.
          destruct (kid_lines pit0 c0 f1 O0 K0 I1) as (a0 & _ & HA0 & _). destruct (kid_lines pit0 c0 g O0 K0 Ig) as (_ & b0 & _ & HB0).
          assert (L0 : line_at g (fst c0) (repr_min a0 b0)) by (apply (U pit0 c0); auto; now rewrite F0).
          rewrite F0 in L0. rewrite EP in Hfb. pose proof (line_at_fun _ _ _ _ L0 (ex_intro _ fb (conj Hfb eq_refl))) as EL0.
          assert (LE2 : repr_le a2 a0). { eapply (inv_kid_le f1 pit2 c2); eauto. rewrite EP, <- F0. exact HA0. }
          pose proof (PM b0 HB0) as PM0. rewrite <- EL0. clear - LE2 PM0.
          unfold repr_le in *. destruct a2, a0, b0, r; cbn in *; try reflexivity; lia.
        * replace (fst c <? fst pit2) with true in Eb by (symmetry; apply Nat.ltb_lt; lia). replace (fst pit2 <? fst c + ksize (snd (snd c))) with true in Eb by (symmetry; apply Nat.ltb_lt; lia).
          cbn [andb] in Eb. rewrite Eb, <- EA. destruct a2, (f_line fb), r; reflexivity.
      + assert (NI : ~ (fst c < fst c2 < fst c + ksize (snd (snd c)))). { intros [X1 X2]. apply andb_false_iff in EI as [X|X]; apply Nat.ltb_ge in X; lia. }
        assert (NP : ~ (fst c <= fst pit2 < fst c + ksize (snd (snd c)))) by tauto.
        destruct (Nat.eqb_spec (fst pit2) (fst c)) as [EP|NEP]; [exfalso; apply NP; pose proof (ksize_pos (snd (snd c))); lia|].
        replace ((fst c <? fst pit2) && (fst pit2 <? fst c + ksize (snd (snd c)))) with false in Eb.
        2:{ symmetry. apply andb_false_iff. destruct (Nat.ltb_spec (fst c) (fst pit2)); [right; apply Nat.ltb_ge; lia|now left]. }
        subst b2. now rewrite <- EA.
    - (* decided *)
      intros pit3 c3 O3 K3 H3. rewrite map_app, in_app_iff in H3. cbn [map In] in H3. destruct H3 as [H3|[H3|[]]].
      + destruct (D pit3 c3 O3 K3 H3) as (o3 & rp & Eo3 & HP & HL). pose proof (CL pit3 c3 O3 K3 (or_intror H3)) as PLC.

        exists o3, rp. split; [rewrite <- Eo3; symmetry; apply (offset_agree root cfg (0 :: map fst A) g g' AG CL pit3 c3 O3 K3 PLC (or_introl eq_refl))|].
        split; [eapply agree_line; [exact AG|exact (proj1 PLC)|exact HP]|]. intros a HA. eapply agree_line; [exact AG|right; exact H3|now apply HL].
      + (* the node itself *)
        destruct (kid_unique root pit3 pit0 c3 c0 O3 O0 K3 K0 ltac:(lia)) as (EP & EK & EN).
        assert (KC : snd (snd c3) = snd (snd c0)) by (apply (f_equal n_kserd) in EN; exact EN).
        assert (KP : snd (snd pit3) = snd (snd pit0)) by (pose proof (ok_unique root pit3 pit0 O3 O0 EP) as X; apply (f_equal n_kserd) in X; exact X).
        pose proof (place_split root A c B E pit0 c0 O0 K0 F0) as PLC.
        destruct (kid_lines pit0 c0 g O0 K0 Ig) as (_ & rp & _ & HP).
        exists o, rp. rewrite EN, EP, KC, KP. split; [rewrite <- Eo; symmetry; apply (offset_agree root cfg (0 :: map fst A) g g' AG CL pit0 c0 O0 K0 PLC (or_introl eq_refl))|].
        split; [eapply agree_line; [exact AG|exact (proj1 PLC)|exact HP]|]. intros a HA. rewrite <- Er. rewrite <- H3 in *.
        assert (PRE : line_at g (fst c) (repr_min a rp)). { rewrite <- F0. apply (U pit0 c0); auto; [now rewrite F0|now rewrite F0]. }
        unfold choose. destruct H as [[-> [HL|(rp' & HP' & HL)]]|(KM & PM & N)].
        * pose proof (line_at_fun _ _ _ _ HL PRE) as ER.
          replace (repr_lt (kind_max (snd (snd c0))) r) with false.
          2:{ symmetry. apply repr_lt_le. rewrite <- F0 in HL. destruct Ig as (_ & KI & _). exact (KI _ _ _ (ok_get root c0 (kid_ok root pit0 c0 O0 K0)) HL). }
          replace (repr_lt rp r) with false; [exact HL|]. symmetry. apply repr_lt_le. rewrite ER. destruct a, rp; unfold repr_le; cbn; lia.
        * pose proof (line_at_fun _ _ _ _ HP HP') as <-. destruct HL as [HL|HL]; apply repr_lt_lt in HL; rewrite HL; [exact PRE|].
          destruct (repr_lt (kind_max (snd (snd c0))) r); exact PRE.
        * replace (repr_lt (kind_max (snd (snd c0))) r) with false by (symmetry; now apply repr_lt_le).
          replace (repr_lt rp r) with false by (symmetry; apply repr_lt_le; now apply PM).
          destruct PRE as (f & Hf & _). exists (upd (fst c) (ksize (snd (snd c))) r (fst c) f). split; [now rewrite N, Hf|]. rewrite upd_line, Nat.eqb_refl. reflexivity.
  Qed.
  Lemma node_stage A c B g g' : blist root = A ++ c :: B -> stage A g -> apply_node (full root) cfg inw con g (fst c) = LRet g' -> stage (A ++ [c]) g'.
  Proof.
    intros E ST H. pose proof ST as (Ig & Z & U & D). destruct (blist_good root A c B E) as (pit & O & K & _ & _). pose proof (kid_ok root pit c O K) as Oc.
    unfold apply_node in H. rewrite (ok_get root c Oc) in H. cbn [lunwrap lbind] in H.
    destruct (calculate_offset (full root) (nd c) g inw) as [o| |] eqn:Eo; cbn [lbind] in H; try discriminate. rewrite min_line_ok in H by exact Oc. cbn [lbind] in H.
    assert (P : node_parent (full root) (nd c) = Some (nd pit)).
    { unfold node_parent. cbn [nd mk_full n_parent]. rewrite (kids_parent _ _ K). cbn [opt_bind]. now apply ok_get. }
    rewrite P in H. cbn [lunwrap lbind] in H. match type of H with context [request_repr _ _ _ ?r] => set (rr := r) in H end.
    assert (Er : rr = ask cfg o (snd (snd pit)) (snd (snd c))).
    { unfold rr, ask. rewrite (item_val root c Oc), (item_val root pit O).
      replace (match option_map (fun x => x - o) (width_limit cfg) with None => Inline | Some lim => _ end) with
        (match width_limit cfg with None => Inline | Some lim => if lim - o <? cw cfg (snd (snd c)) then Verbose else if lim - o <? iw cfg (snd (snd c)) then Concise else Inline end) by (destruct (width_limit cfg); reflexivity).
      destruct (match width_limit cfg with None => _ | Some _ => _ end); try reflexivity; destruct (kval (snd (snd c))); try reflexivity; destruct (kval (snd (snd pit))); reflexivity. }
    clearbody rr. destruct (get_fmts root g c (proj1 Ig) Oc) as [f Hf]. destruct (request_cases root g c rr f (proj1 Ig) Oc Hf) as (g1 & res & E1 & L1 & CC).
    destruct (request_inv root g (fst c) rr Ig) as (g2 & res2 & E2 & I2 & _). rewrite E1 in E2. injection E2 as <- <-. rewrite E1 in H. cbn [lbind fst] in H. injection H as <-.
    apply (stage_step A c B g g1 rr E ST I2). exists pit, c, o. repeat (split; [assumption || reflexivity|]).
    assert (PLN : forall rp, line_at g (fst pit) rp -> parent_line (full root) g (nd c) = Some rp).
    { intros rp HP. destruct (parent_line_at root g c (fst pit) Oc (proj1 Ig) (kids_parent _ _ K)) as (r' & Hr' & ->). f_equal. exact (line_at_fun _ _ _ _ Hr' HP). }
    destruct res as [e|].
    - destruct CC as (-> & _ & CC). left. split; [reflexivity|]. right. destruct (inv_line g (fst pit) Ig (item_lt pit O)) as [rp HP]. exists rp. split; [exact HP|].
      destruct e; cbn [refused] in CC.
      + destruct CC.
      + destruct CC as [C1 C2]. rewrite (PLN rp HP) in C1. injection C1 as ->. right. destruct rr; cbn; try lia. now contradiction C2.
      + destruct CC as [C1 ->]. rewrite (PLN rp HP) in C1. injection C1 as ->. right. cbn. lia.
      + destruct CC as (-> & -> & CC). now left.
      + destruct CC as (CC & _). exfalso. pose proof (kid_pos root pit c O K). lia.
    - destruct CC as [[CC ->]|(_ & (K1 & K2 & _) & N)].
      + left. split; [reflexivity|]. left. exists f. auto.
      + right. split; [exact K1|]. split; [|exact N]. intros rp HP. apply K2. now apply PLN.
  Qed.
  Lemma loop_stage B : forall A g g', blist root = A ++ B -> stage A g -> lfold (apply_node (full root) cfg inw con) (map fst B) g = LRet g' -> stage (A ++ B) g'.
  Proof.
    induction B as [|c B IH]; intros A g g' E ST H; cbn [map lfold] in H; [injection H as <-; now rewrite app_nil_r|].
    destruct (apply_node (full root) cfg inw con g (fst c)) as [g1| |] eqn:E1; cbn [lbind] in H; try discriminate.
    replace (A ++ c :: B) with ((A ++ [c]) ++ B) by (rewrite <- app_assoc; reflexivity). eapply IH; [rewrite <- app_assoc; exact E| |exact H].
    eapply node_stage; eauto.
  Qed.
End Decide.

(** the root's form bounds all *)
Lemma top_le root g : inv root g -> forall j r0 r, line_at g 0 r0 -> line_at g j r -> repr_le r r0.
Proof.
  intros I2 j r0 r H0. revert j r. assert (X : forall m j r, j < m -> line_at g j r -> repr_le r r0); [|intros j r; apply (X (S j)); lia].
  induction m as [|m IH]; intros j r Hj Hl; [lia|]. destruct (Nat.eq_dec j 0) as [->|NE]; [rewrite (line_at_fun _ _ _ _ Hl H0); apply repr_le_refl|].
  pose proof I2 as (L2 & _). assert (Hjl : j < length (full root)) by (rewrite <- L2; destruct Hl as (h & Hg & _); apply nth_error_Some; congruence).
  destruct (nth_error (full root) j) as [n|] eqn:En; [|apply nth_error_None in En; lia]. destruct (get_item root j n En) as (it & Ho & <- & <-).
  destruct (i_parent (fst (snd it))) as [p|] eqn:Ep.
  2:{ exfalso. apply NE. apply (parent_none_iff root (nd it)); [now apply ok_in|]. unfold node_parent. cbn [nd mk_full n_parent]. now rewrite Ep. }
  pose proof (parent_before root _ _ p En Ep) as PB. destruct (inv_line root g p I2 ltac:(lia)) as [rp' Hrp].
  pose proof (IH p rp' ltac:(lia) Hrp) as X1. destruct I2 as (_ & _ & P2 & _). pose proof (P2 _ _ _ _ _ Hjl En Ep Hl Hrp) as X2. unfold repr_le in *. lia.
Qed.

(** ** apply_config *)
Lemma config_decided root cfg f0 fm' : inv root f0 -> apply_config (mkFmtr (full root) f0) cfg = LRet fm' ->
  exists f2, fm' = mkFmtr (full root) f2 /\ inv root f2 /\
    (forall a, line_at f0 0 a -> line_at f2 0 (if repr_lt (kind_max root) (wanted cfg root) then a
                                               else if repr_eqb (wanted cfg root) Verbose && seq_or_map root then a else wanted cfg root)) /\
    (forall pit c, ok_item root pit -> In c (kids_of pit) ->
       exists o rp, calculate_offset (full root) (nd c) f2 (map (fun n => iw cfg (n_kserd n)) (full root)) = LRet o /\ line_at f2 (fst pit) rp /\
         forall a, line_at f0 (fst c) a -> line_at f2 (fst c) (choose (ask cfg o (snd (snd pit)) (snd (snd c))) (snd (snd c)) a rp)).
Proof.
  intros I E. unfold apply_config in E. cbn [fm_nav fm_fmts] in E.
  destruct (apply_ids_ok root cfg f0 (proj1 I)) as (f0' & E0 & _ & M0 & _). rewrite E0 in E. cbn [lbind] in E.
  rewrite root_nav in E. cbn [lunwrap lbind] in E. rewrite inline_widths_ok in E. cbn [lbind] in E. rewrite concise_widths_ok in E. cbn [lbind] in E.
  change 0 with (fst (croot root)) in E at 1. rewrite min_line_ok in E by apply root_ok. cbn [lbind snd croot] in E. fold (wanted cfg root) in E.
  destruct (blist_spec root) as (ds & Ed & Eds & _). unfold croot in Ed. rewrite Ed in E. cbn [lbind] in E.
  pose proof (inv_lines root f0 f0' M0 I) as I0.
  assert (SL : forall i r, line_at f0 i r -> line_at f0' i r) by (intros i r; apply same_lines; now rewrite M0).
  destruct (request_inv root f0' 0 (wanted cfg root) I0) as (f1 & res & E1 & I1 & _). rewrite E1 in E. cbn [lbind fst] in E.
  assert (EM : map n_idx ds = map fst (blist root)) by (rewrite Eds, map_map; reflexivity). rewrite EM in E.
  destruct (lfold _ _ _) as [f2| |] eqn:E2; cbn [lbind] in E; try discriminate. injection E as <-.
  pose proof (loop_stage root cfg f1 I1 (blist root) [] f1 f2 eq_refl (stage_nil root cfg f1 I1) E2) as (I2 & Z & _ & D). cbn [app] in D.
  exists f2. split; [reflexivity|]. split; [exact I2|].
  destruct (get_fmts root f0' _ (proj1 I0) (root_ok root)) as [f Hf]. cbn [fst] in Hf.
  destruct (request_cases root f0' _ (wanted cfg root) f (proj1 I0) (root_ok root) Hf) as (f1' & res' & E1' & L1' & C1). cbn [fst snd] in E1', C1. rewrite E1 in E1'. injection E1' as <- <-.
  assert (ROOT : line_at f1 0 (if repr_lt (kind_max root) (wanted cfg root) then f_line f
                               else if repr_eqb (wanted cfg root) Verbose && seq_or_map root then f_line f else wanted cfg root)).
  { assert (PN : parent_line (full root) f0' (nd (0, (info_default, root))) = None) by reflexivity.
    destruct res as [e|].
    - destruct C1 as (-> & _ & C1). destruct e; cbn [refused] in C1; try rewrite PN in C1.
      + destruct C1.
      + destruct C1 as [C1 _]. discriminate.
      + destruct C1 as [C1 _]. discriminate.
      + destruct C1 as (-> & -> & C1). cbn [snd] in C1. apply repr_lt_lt in C1. rewrite C1. now exists f.
      + destruct C1 as (_ & -> & C1). cbn [snd] in C1. rewrite C1. cbn [repr_eqb repr_n Nat.eqb andb]. destruct (repr_lt _ _); now exists f.
    - destruct C1 as [[C1 ->]|(_ & (K1 & _ & K3) & N)].
      + rewrite C1. destruct (repr_lt _ _); [now exists f|]. destruct (_ && _); now exists f.
      + cbn [snd fst] in K1, K3. replace (repr_lt (kind_max root) (wanted cfg root)) with false by (symmetry; now apply repr_lt_le).
        replace (repr_eqb (wanted cfg root) Verbose && seq_or_map root) with false.
        * specialize (N 0). rewrite Hf in N. cbn [option_map] in N. eexists. split; [exact N|]. rewrite upd_line. reflexivity.
        * symmetry. destruct (repr_eqb (wanted cfg root) Verbose) eqn:X; [|reflexivity]. apply repr_eqb_eq in X. now rewrite (K3 eq_refl X). }
  assert (ROOT2 : forall r, line_at f1 0 r -> line_at f2 0 r) by (intros r (g & Hg & Eg); exists g; now rewrite Z).
  split.
  - intros a HA. apply SL in HA. rewrite (line_at_fun _ _ _ _ HA (ex_intro _ f (conj Hf eq_refl))). now apply ROOT2.
  - intros pit c O K. destruct (D pit c O K (blist_all root pit c O K)) as (o & rp & Eo & HP & HL). exists o, rp. split; [exact Eo|]. split; [exact HP|].
    intros a HA. apply SL in HA. pose proof (kid_ok root pit c O K) as Oc.
    destruct (inv_line root f1 0 I1 ltac:(pose proof (item_lt root c Oc); lia)) as [r0 H0]. pose proof (top_le root f2 I2 _ _ _ (ROOT2 _ H0) HP) as BP.
    assert (L1C : line_at f1 (fst c) (repr_min a r0)).
    { assert (SAME : f1 = f0' -> line_at f1 (fst c) (repr_min a r0)).
      { intros ->. pose proof (top_le root f0' I0 _ _ _ H0 HA) as X. now rewrite repr_min_le. }
      destruct res as [e|]; [now apply SAME|]. destruct C1 as [[_ C1]|(_ & _ & N)]; [now apply SAME|].
      destruct HA as (h & Hh & <-). pose proof (kid_pos root pit c O K) as KP. pose proof (item_lt root c Oc) as KL. rewrite root_length in KL.
      assert (R0 : r0 = wanted cfg root).
      { destruct (line_at_upd f0' f1 (0, (info_default, root)) _ N _ _ H0) as (h' & _ & ->). now rewrite upd_line. }
      exists (upd 0 (ksize root) (wanted cfg root) (fst c) h). split; [now rewrite N, Hh|]. rewrite upd_line, R0.
      replace (fst c =? 0) with false by (symmetry; apply Nat.eqb_neq; lia). replace (0 <? fst c) with true by (symmetry; apply Nat.ltb_lt; lia).
      replace (fst c <? 0 + ksize root) with true by (symmetry; apply Nat.ltb_lt; lia). cbn [andb]. destruct (f_line h), (wanted cfg root); reflexivity. }
    specialize (HL _ L1C). unfold choose in *. replace (repr_min a rp) with (repr_min (repr_min a r0) rp); [exact HL|]. unfold repr_le in BP. clear - BP. destruct a, r0, rp; cbn in *; try reflexivity; lia.
Qed.

(** ** a verbose key stops apply_config at its value *)
Lemma key_blocks root cfg g pit c d : inv root g -> ok_item root pit -> In c (kids_of pit) -> keysib pit c d -> line_at g (fst d) Verbose ->
  calculate_offset (full root) (nd c) g (map (fun n => iw cfg (n_kserd n)) (full root)) = LPanic.
Proof.
  intros Ig O K [NK Nd] HV. assert (Kd : In d (kids_of pit)) by (eapply kkids_in, nth_error_In; exact Nd).
  destruct (get_fmts root g pit (proj1 Ig) O) as [f Hf]. pose proof (inv_kid_le root g pit d _ _ Ig O Kd HV (ex_intro _ f (conj Hf eq_refl))) as LE.
  assert (EL : f_line f = Verbose) by (unfold repr_le in LE; destruct (f_line f); cbn in LE; try lia; reflexivity).
  assert (P : node_parent (full root) (nd c) = Some (nd pit)).
  { unfold node_parent. cbn [nd mk_full n_parent]. rewrite (kids_parent _ _ K). cbn [opt_bind]. now apply ok_get. }
  unfold calculate_offset. rewrite P. change (n_idx (nd pit)) with (fst pit). rewrite Hf. cbn [lunwrap lbind]. rewrite EL, (item_val root pit O).
  pose proof (kkids_kserds pit) as EK. unfold keys_of in EK.
  destruct (kval (snd (snd pit))) as [| | | | |l|m|l|m] eqn:Ek; try (destruct (kkids pit); [destruct (idx_in_parent (nd c)); discriminate|discriminate]).
  cbn [concise_column]. unfold map_entry_offset. rewrite NK. destruct (kid_cases pit c K) as [[_ Nc]|[X _]]; [|congruence].
  rewrite nth_error_map, (nth_combine _ _ _ _ _ Nd Nc). cbn [option_map lunwrap lbind fst]. change (n_idx (nd d)) with (fst d).
  destruct HV as (h & Hh & Eh). rewrite Hh. cbn [lunwrap lbind]. now rewrite Eh.
Qed.
Lemma key_value root d : ok_item root d -> is_key (nd d) = true -> exists pit c d', ok_item root pit /\ In c (kids_of pit) /\ keysib pit c d' /\ nd d' = nd d.
Proof.
  intros O Kd. destruct (i_parent (fst (snd d))) as [p|] eqn:Ep.
  2:{ assert (Z : fst d = 0). { apply (parent_none_iff root (nd d)); [now apply ok_in|]. unfold node_parent. cbn [nd mk_full n_parent]. now rewrite Ep. }
      rewrite (ok_unique root d _ O (root_ok root) Z) in Kd. discriminate Kd. }
  destruct (parent_kid root d p O Ep) as (pit & Op & _ & d' & Kd' & Ed). rewrite <- Ed in Kd.
  destruct (kid_cases pit d' Kd') as [[X _]|[_ Nd]]; [congruence|].
  pose proof (kkids_kserds pit) as EK. unfold keys_of in EK.
  destruct (kval (snd (snd pit))) as [| | | | |l|m|l|m] eqn:Ek; try (destruct (kkids pit); [destruct (idx_in_parent (nd d')); discriminate|discriminate]).
  destruct (nth_error (vkids pit) (idx_in_parent (nd d'))) as [c|] eqn:Nc.
  2:{ apply nth_error_None in Nc. rewrite <- (kids_lengths pit m Ek) in Nc. assert (Y : idx_in_parent (nd d') < length (kkids pit)) by (apply nth_error_Some; congruence). lia. }
  assert (Kc : In c (kids_of pit)) by (apply kids_value_or_key; left; eapply nth_error_In; exact Nc).
  exists pit, c, d'. split; [exact Op|]. split; [exact Kc|]. split; [|exact Ed]. pose proof (vkids_pos pit _ c Nc) as VP.
  destruct (kids_role pit c Kc) as [(j' & A & B)|(j' & A & B)]; [|unfold item in *; congruence].
  unfold keysib, is_key, idx_in_parent in *. cbn [nd mk_full n_key_idx n_value_idx] in *. rewrite B, VP. split; [reflexivity|exact Nd].
Qed.
Lemma returned_fit root cfg g : inv root g ->
  (forall pit c, ok_item root pit -> In c (kids_of pit) -> exists o, calculate_offset (full root) (nd c) g (map (fun n => iw cfg (n_kserd n)) (full root)) = LRet o) ->
  keys_fit root g.
Proof.
  intros Ig R d Od Kd HV. destruct (key_value root d Od Kd) as (pit & c & d' & O & K & KS & Ed). apply (f_equal n_idx) in Ed. change (fst d' = fst d) in Ed. rewrite <- Ed in HV.
  destruct (R pit c O K) as [o Eo]. rewrite (key_blocks root cfg g pit c d' Ig O K KS HV) in Eo. discriminate.
Qed.
