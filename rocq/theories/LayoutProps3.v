(** Proofs about the solver: the formats of a new formatter. *)
From Verif Require Import Base BaseProps F64 Number BTree Value ValueProps Nav NavSpec NavProps NavProps2 NavProps3 Fmt FmtSpec FmtText FmtProps Formatter FormatterProps FormatterProps2 FormatterProps3 LayoutProps LayoutProps2.
From Coq Require Import Permutation.
Open Scope nat_scope.

(** the largest form of a node for itself *)
Definition own_max (key : bool) (k : kserd) : repr := if key then repr_min (kind_max k) Concise else kind_max k.
Definition top_max (k : kserd) : repr := if seq_or_map k then repr_min (kind_max k) Concise else kind_max k.

Section New.
  Context (root : kserd).
  Definition below (g : list fmt) : Prop := forall it r, ok_item root it -> line_at g (fst it) r -> repr_le r (own_max (is_key (nd it)) (snd (snd it))).
  Definition pending (g : list fmt) : Prop := forall pit c a b, ok_item root pit -> In c (kids_of pit) -> line_at g (fst c) a -> line_at g (fst pit) b ->
    repr_min a b = repr_min (own_max (is_key (nd c)) (snd (snd c))) b.

  Lemma lowering g g' it r old : length g = length (full root) -> ok_item root it -> line_at g (fst it) old -> repr_le r old ->
    (forall pit b, ok_item root pit -> In it (kids_of pit) -> line_at g (fst pit) b -> r = b) ->
    (forall j, nth_error g' j = option_map (upd (fst it) (ksize (snd (snd it))) r j) (nth_error g j)) ->
    below g -> pending g -> below g' /\ pending g'.
  Proof.
    intros L O HO LE PR N B P. assert (LOW : forall j x', line_at g' j x' -> exists x, line_at g j x /\ repr_le x' x /\ (x' = x \/ x' = r)).
    { intros j x' H. destruct (line_at_upd g g' it r N _ _ H) as (f & Hf & ->). rewrite upd_line. exists (f_line f). split; [now exists f|].
      destruct (Nat.eqb_spec j (fst it)) as [->|NE].
      - assert (X : f_line f = old) by (exact (line_at_fun _ _ _ _ (ex_intro _ f (conj Hf eq_refl)) HO)). rewrite X. auto.
      - destruct ((fst it <? j) && (j <? fst it + ksize (snd (snd it)))); [|split; [apply repr_le_refl|now left]].
        destruct (repr_lt r (f_line f)) eqn:E; [|split; [apply repr_le_refl|now left]]. apply repr_lt_lt in E. split; [unfold repr_le; lia|now right]. }
    split.
    - intros i x' Oi H. destruct (LOW _ _ H) as (x & Hx & X & _). pose proof (B i x Oi Hx) as Y. unfold repr_le in *. lia.
    - intros pit c a' b' Op K HA HB. pose proof (kid_ok root pit c Op K) as Oc. pose proof (ok_get root c Oc) as G.
      pose proof (interval_parent root it (fst c) (nd c) (fst pit) O G (kids_parent _ _ K)) as IP. pose proof (kid_pos root pit c Op K) as KP.
      pose proof HA as HA'. pose proof HB as HB'. destruct (line_at_upd g g' it r N _ _ HA) as (fa & Hfa & Ea). destruct (line_at_upd g g' it r N _ _ HB) as (fb & Hfb & Eb).
      rewrite upd_line in Ea, Eb. pose proof (P pit c (f_line fa) (f_line fb) Op K (ex_intro _ fa (conj Hfa eq_refl)) (ex_intro _ fb (conj Hfb eq_refl))) as Q.
      pose proof (B c (f_line fa) Oc (ex_intro _ fa (conj Hfa eq_refl))) as BC. set (om := own_max (is_key (nd c)) (snd (snd c))) in *. clearbody om.
      destruct (Nat.eqb_spec (fst c) (fst it)) as [EC|NC].
      + (* the node itself *)
        assert (a' = r) as -> by exact Ea. clear Ea. assert (X : f_line fa = old) by (rewrite EC in Hfa; exact (line_at_fun _ _ _ _ (ex_intro _ fa (conj Hfa eq_refl)) HO)).
        destruct (Nat.eqb_spec (fst pit) (fst it)); [lia|]. replace (fst it <? fst pit) with false in Eb by (symmetry; apply Nat.ltb_ge; lia). cbn [andb] in Eb. subst b'.
        assert (Er : r = f_line fb).
        { assert (EN : nd c = nd it) by now apply (ok_unique root).
          apply (PR pit); [exact Op| |now exists fb].
            assert (c = it); [|now subst]. clear - EN EC. destruct c as [i [inf k]], it as [i' [inf' k']]. cbn [fst] in EC. subst i'.
            unfold nd, mk_full in EN. cbn [fst snd] in EN. destruct inf, inf'. injection EN. intros. subst. reflexivity. }
        subst r. rewrite X in BC. clear - BC LE. unfold repr_le in *. destruct (f_line fb), om, old; cbn in *; try reflexivity; lia.
      + destruct ((fst it <? fst c) && (fst c <? fst it + ksize (snd (snd it)))) eqn:EI.
        * apply andb_true_iff in EI as [X1 X2]. apply Nat.ltb_lt in X1, X2. pose proof (proj1 IP (conj X1 X2)) as Y.
          destruct (Nat.eqb_spec (fst pit) (fst it)) as [EP|NP].
          -- subst b'. assert (X : f_line fb = old) by (rewrite EP in Hfb; exact (line_at_fun _ _ _ _ (ex_intro _ fb (conj Hfb eq_refl)) HO)). subst a'. clear - Q LE X BC. rewrite X in *. unfold repr_le in *.
             destruct (f_line fa), om, old, r; cbn in *; try reflexivity; try lia; discriminate.
          -- replace (fst it <? fst pit) with true in Eb by (symmetry; apply Nat.ltb_lt; lia). replace (fst pit <? fst it + ksize (snd (snd it))) with true in Eb by (symmetry; apply Nat.ltb_lt; lia).
             cbn [andb] in Eb. subst a' b'. clear - Q BC. unfold repr_le in *. destruct (f_line fa), om, (f_line fb), r; cbn in *; try reflexivity; try lia; discriminate.
        * assert (NI : ~ (fst it < fst c < fst it + ksize (snd (snd it)))). { intros [X1 X2]. apply andb_false_iff in EI as [X|X]; apply Nat.ltb_ge in X; lia. }
          assert (NP : ~ (fst it <= fst pit < fst it + ksize (snd (snd it)))) by tauto.
          destruct (Nat.eqb_spec (fst pit) (fst it)) as [EP|NEP]; [exfalso; apply NP; pose proof (ksize_pos (snd (snd it))); lia|].
          replace ((fst it <? fst pit) && (fst pit <? fst it + ksize (snd (snd it)))) with false in Eb.
          2:{ symmetry. apply andb_false_iff. destruct (Nat.ltb_spec (fst it) (fst pit)); [right; apply Nat.ltb_ge; lia|now left]. }
          subst a' b'. exact Q.
  Qed.

  Definition newinv (g : list fmt) : Prop := length g = length (full root) /\ below g /\ pending g /\ line_at g 0 (top_max root).
  Lemma knock_new g g' i n : newinv g -> nth_error (full root) i = Some n -> knock_on (full root) g i = LRet g' -> newinv g'.
  Proof.
    intros NI Hn E. pose proof NI as (L & B & P & T). destruct (get_item root i n Hn) as (it & Ho & <- & <-). unfold knock_on, nav_get in E. rewrite Hn in E. cbn [opt_bind] in E.
    destruct (i_parent (fst (snd it))) as [p|] eqn:Ep.
    2:{ unfold node_parent in E. cbn [nd mk_full n_parent] in E. rewrite Ep in E. cbn [opt_bind] in E. injection E as <-. exact NI. }
    destruct (parent_kid root it p Ho Ep) as (pit & Hpo & Epi & _). unfold node_parent in E. cbn [nd mk_full n_parent] in E. rewrite Ep in E. cbn [opt_bind] in E.
    rewrite <- Epi, (ok_get root pit Hpo) in E. destruct (get_fmts root g it L Ho) as [f Hf]. destruct (get_fmts root g pit L Hpo) as [fp Hfp].
    rewrite Hf in E. cbn [lunwrap lbind nd mk_full n_idx] in E. rewrite Hfp in E. cbn [lunwrap lbind] in E.
    destruct (repr_lt (f_line fp) (f_line f)) eqn:EL; [|injection E as <-; exact NI]. apply repr_lt_lt in EL.
    destruct (request_cases root g it (f_line fp) f L Ho Hf) as (g1 & res & E1 & L1 & C). rewrite E1 in E. cbn [lbind fst] in E. injection E as <-.
    destruct res as [e|]; [destruct C as (-> & _); exact NI|]. destruct C as [[_ ->]|(_ & _ & N)]; [exact NI|].
    assert (PB : fst pit < fst it) by (rewrite Epi; eapply parent_before; [exact Hn|exact Ep]).
    destruct (lowering g g1 it (f_line fp) (f_line f) L Ho (ex_intro _ f (conj Hf eq_refl)) ltac:(unfold repr_le; lia)) as [B1 P1]; [|exact N|exact B|exact P|].
    - intros pit' b Op' K' HB. assert (fst pit' = p) by (pose proof (kids_parent _ _ K'); congruence). replace (fst pit') with (fst pit) in HB by lia. exact (line_at_fun _ _ _ _ (ex_intro _ fp (conj Hfp eq_refl)) HB).
    - split; [lia|]. split; [exact B1|]. split; [exact P1|]. destruct T as (h & Hh & Eh). exists (upd (fst it) (ksize (snd (snd it))) (f_line fp) 0 h). split; [now rewrite N, Hh|].
      rewrite upd_line. destruct (Nat.eqb_spec 0 (fst it)); [lia|]. replace (fst it <? 0) with false by (symmetry; apply Nat.ltb_ge; lia). exact Eh.
  Qed.
  Lemma knock_loop_new : forall c i g g', i + c = length (full root) -> newinv g -> lfold (knock_on (full root)) (seq i c) g = LRet g' -> newinv g'.
  Proof.
    induction c as [|c IH]; intros i g g' Hi NI E; cbn [seq lfold] in E; [injection E as <-; exact NI|].
    destruct (nth_error (full root) i) as [n|] eqn:Hn; [|apply nth_error_None in Hn; lia].
    destruct (knock_on (full root) g i) as [g1| |] eqn:E1; cbn [lbind] in E; try discriminate. eapply (IH (S i)); [lia| |exact E]. eapply knock_new; eauto.
  Qed.
  Lemma new_lines fm : fm_new root = LRet fm -> newinv (fm_fmts fm).
  Proof.
    unfold fm_new. rewrite nav_new_full. cbn [lbind]. unfold nav_nodes. rewrite root_nav. cbn [lunwrap lbind]. rewrite full_idx.
    set (f0 := map (initial_fmt (full root)) (full root)). assert (L0 : length f0 = length (full root)) by (unfold f0; apply map_length).
    assert (A0 : forall it, ok_item root it -> line_at f0 (fst it) (own_max (is_key (nd it)) (snd (snd it)))).
    { intros it O. exists (initial_fmt (full root) (nd it)). split; [unfold f0; rewrite nth_error_map; pose proof (ok_get root it O) as G; unfold nav_get in G; now rewrite G|].
      unfold initial_fmt. cbn [f_line]. rewrite max_line_kind by exact O. reflexivity. }
    assert (B0 : below f0) by (intros it r O H; rewrite (line_at_fun _ _ _ _ H (A0 it O)); apply repr_le_refl).
    assert (P0 : pending f0). { intros pit c a b O K HA HB. now rewrite (line_at_fun _ _ _ _ HA (A0 c (kid_ok root pit c O K))). }
    assert (T0 : line_at f0 0 (kind_max root)) by exact (A0 _ (root_ok root)).
    pose proof (seq_or_map_val root _ (root_ok root)) as SM. cbn [snd] in SM.
    assert (X : forall f1, match node_val (full root) (nd (0, (info_default, root))) with
               | NSeq _ | NMap _ => dl x <- request_repr (full root) f0 0 Concise; LRet (fst x)
               | _ => LRet f0
               end = LRet f1 -> newinv f1).
    { intros f1 E. destruct (seq_or_map root) eqn:Esm.
      - assert (Y : dl x <- request_repr (full root) f0 0 Concise; LRet (fst x) = LRet f1) by (destruct (node_val (full root) (nd (0, (info_default, root)))); try discriminate SM; exact E). clear E.
        destruct (get_fmts root f0 _ L0 (root_ok root)) as [f Hf]. destruct (request_cases root f0 _ Concise f L0 (root_ok root) Hf) as (f1' & res & E & L1 & C). cbn [fst snd] in *.
        rewrite E in Y. cbn [lbind fst] in Y. injection Y as <-.
        assert (EF : f_line f = kind_max root) by (exact (line_at_fun _ _ _ _ (ex_intro _ f (conj Hf eq_refl)) T0)).
        assert (KC : kind_max root = Inline \/ kind_max root = Verbose) by (unfold kind_max, seq_or_map in *; destruct (kval root) as [| | | | |l|m|l|m]; try discriminate Esm; destruct l || destruct m; auto).
        destruct res as [e|].
        + destruct C as (-> & _ & C). split; [exact L0|]. split; [exact B0|]. split; [exact P0|]. unfold top_max. rewrite Esm.
          replace (repr_min (kind_max root) Concise) with (kind_max root); [exact T0|]. destruct KC as [->|K]; [reflexivity|]. exfalso. apply (refused_not_ok _ _ _ _ _ C). split; [|split].
          * cbn [snd]. rewrite K. unfold repr_le. cbn. lia.
          * intros rp H. discriminate.
          * discriminate.
        + destruct C as [[C ->]|(_ & OK & N)]; [rewrite EF in C; destruct KC; congruence|]. destruct OK as (K1 & _ & _). cbn [snd] in K1.
          assert (K : kind_max root = Verbose) by (destruct KC as [K|K]; [rewrite K in K1; unfold repr_le in K1; cbn in K1; lia|exact K]).
          destruct (lowering f0 f1' (0, (info_default, root)) Concise Verbose L0 (root_ok root)) as [B1 P1].
          * cbn [fst]. rewrite <- K. exact T0.
          * unfold repr_le. cbn. lia.
          * intros pit b O K'. pose proof (kid_pos root pit _ O K'). cbn [fst] in *. lia.
          * exact N.
          * exact B0.
          * exact P0.
          * split; [lia|]. split; [exact B1|]. split; [exact P1|]. unfold top_max. rewrite Esm, K. cbn [repr_min]. destruct T0 as (h & Hh & Eh).
            exists (upd 0 (ksize root) Concise 0 h). split; [now rewrite N, Hh|]. rewrite upd_line. reflexivity.
      - assert (f1 = f0) as -> by (destruct (node_val (full root) (nd (0, (info_default, root)))); try discriminate SM; injection E as <-; reflexivity).
        split; [exact L0|]. split; [exact B0|]. split; [exact P0|]. unfold top_max. rewrite Esm. exact T0. }
    destruct (match node_val (full root) (nd (0, (info_default, root))) with NSeq _ | NMap _ => _ | _ => LRet f0 end) as [f1| |]; cbn [lbind]; try discriminate.
    destruct (lfold (knock_on (full root)) _ f1) as [f2| |] eqn:E2; cbn [lbind]; try discriminate. intros [= <-]. cbn [fm_fmts].
    eapply (knock_loop_new (length (full root)) 0); [lia|apply X; reflexivity|exact E2].
  Qed.
  (** each node: the least of its own form and that of its parent *)
  Lemma new_kids fm : fm_new root = LRet fm -> forall pit c b, ok_item root pit -> In c (kids_of pit) -> line_at (fm_fmts fm) (fst pit) b ->
    line_at (fm_fmts fm) (fst c) (repr_min (own_max (is_key (nd c)) (snd (snd c))) b).
  Proof.
    intros E pit c b O K HB. destruct (new_lines fm E) as (L & B & P & _). destruct (fm_new_spec root) as (fmts & E' & I & _). rewrite E in E'. injection E' as ->. cbn [fm_fmts] in *.
    destruct (inv_line root fmts (fst c) I (item_lt root c (kid_ok root pit c O K))) as [a HA]. rewrite <- (P pit c a b O K HA HB). rewrite repr_min_le; [exact HA|]. eapply inv_kid_le; eauto.
  Qed.
End New.
