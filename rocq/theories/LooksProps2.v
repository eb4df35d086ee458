(** Texts of values which look the same, and of values read back. *)
From Verif Require Import Base BaseProps F64 F64Text Number NumberSpec NumberProps3 BTree BTreeProps Value Base91 ValueSpec ValueProps ValueProps2 Nav NavSpec NavProps NavProps2 Nom Parse ParseErr Grammar Fmt Formatter FmtText FmtSpec FmtProps FmtProps2 FormatterProps FormatterProps2 FormatterProps3 FormatterProps4 RtSpec RtProps2 RtProps3 RtProps4 RtProps5 RtProps6 RtProps7 VSpec VRtProps2 VRtProps4 VRtProps5 TextSpec EncodeProps8 EncodeProps9 LooksSpec LooksProps.
Open Scope nat_scope.

Lemma id_flag_val cfg nv n : id_flag cfg (node_val nv n) = flag cfg (kval (n_kserd n)).
Proof. unfold node_val. now destruct (kval (n_kserd n)). Qed.
Theorem looks_text cfg k k' : looks cfg k k' -> as_str_with_config k cfg = as_str_with_config k' cfg.
Proof.
  intros L. unfold as_str_with_config. pose proof (new_rel cfg k k' L) as N. destruct (fm_new k) as [fm| |] eqn:E, (fm_new k') as [fm'| |]; cbn [lrel] in N; try contradiction; try reflexivity. cbn [lbind].
  destruct N as [N F]. destruct fm as [nv fs], fm' as [nv' fs']. cbn [fm_nav fm_fmts] in *. subst fs'.
  pose proof (config_rel cfg nv nv' N fs) as C. destruct (apply_config (mkFmtr nv fs) cfg) as [fm1| |] eqn:E1, (apply_config (mkFmtr nv' fs) cfg) as [fm2| |]; cbn [lrel] in C; try contradiction; try reflexivity. cbn [lbind].
  destruct C as (C1 & C2 & C3). assert (R : reachable k (mkFmtr nv fs)) by (exists []; unfold run; rewrite E; reflexivity).
  destruct (config_flags k _ cfg fm1 R E1) as [_ FL]. cbn [fm_nav] in FL. unfold fm_write. rewrite C1, C2, <- C3.
  pose proof (root_rel cfg nv nv' N) as RR. destruct (nav_root nv) as [r|] eqn:ER, (nav_root nv') as [r'|]; cbn [orel] in RR; try contradiction; [|reflexivity]. cbn [lunwrap lbind]. rewrite <- (len_rel cfg nv nv' N).
  assert (FG : forall n, In n nv -> flagged cfg nv (fm_fmts fm1) n).
  { intros n Hn f Hf. specialize (FL n Hn). rewrite Hf in FL. cbn in FL. rewrite id_flag_val. congruence. }
  apply (write_rel cfg nv nv' _ N FG). split; [exact RR|]. apply FG. unfold nav_root in ER. destruct nv; [discriminate|]. injection ER as ->. now left.
Qed.

(** ** the text of a number which has been read back *)
Lemma dec_unique ds n : forallb is_digit ds = true -> N_of_dec ds = n -> (0 < n)%N -> (10 ^ (N.of_nat (length ds) - 1) <= n)%N -> ds <> [] -> ds = dec_of_N n.
Proof.
  intros D V P L NE. destruct (dec_of_N_spec n) as (V' & D' & NE' & L'). specialize (L' P).
  assert (LE : length ds = length (dec_of_N n)).
  { pose proof (N_of_dec_lt ds D) as A. pose proof (N_of_dec_lt _ D') as B. rewrite V in A. rewrite V' in B.
    assert (G : forall a b : nat, a <> 0 -> b <> 0 -> (n < 10 ^ N.of_nat a)%N -> (10 ^ (N.of_nat b - 1) <= n)%N -> b <= a).
    { intros a b Ha Hb H1 H2. destruct (Nat.le_gt_cases b a) as [H|H]; [exact H|exfalso]. assert (10 ^ N.of_nat a <= 10 ^ (N.of_nat b - 1))%N by (apply N.pow_le_mono_r; lia). lia. }
    assert (length ds <> 0) by (destruct ds; [easy|discriminate]). assert (length (dec_of_N n) <> 0) by (destruct (dec_of_N n); [easy|discriminate]).
    apply Nat.le_antisymm; apply G; assumption. }
  assert (V2 : N_of_dec (dec_of_N n) = N_of_dec ds) by congruence. clear V V' P L L' NE NE'. revert V2 LE D'. generalize (dec_of_N n) as es. clear n. induction ds as [|c ds IH] using rev_ind; intros es V LE D'.
  - destruct es; [reflexivity|discriminate].
  - destruct es as [|e es _] using rev_ind; [rewrite app_length in LE; cbn in LE; lia|]. rewrite !app_length in LE. cbn [length] in LE. rewrite forallb_app in D, D'. apply andb_true_iff in D as [D Dc], D' as [D' De]. cbn [forallb] in Dc, De.
    rewrite !N_of_dec_app, !N_of_dec_single in V. cbn [length] in V. change (10 ^ N.of_nat 1)%N with 10%N in V. unfold is_digit in Dc, De.
    assert (c = e /\ N_of_dec es = N_of_dec ds) as [-> E] by lia. f_equal. apply IH; [exact D|exact E|lia|exact D'].
Qed.
Lemma dec_zeros d t : (0 < d)%Z -> (0 <= t)%Z -> dec_of_N (Z.to_N d) ++ zeros t = dec_of_N (Z.to_N (d * 10 ^ t)).
Proof.
  intros Hd Ht. destruct (dec_of_N_spec (Z.to_N d)) as (V & D & NE & L). assert (P : (0 < Z.to_N d)%N) by lia. specialize (L P).
  assert (Z10 : (0 < 10 ^ t)%Z) by (apply Z.pow_pos_nonneg; lia).
  assert (EV : Z.to_N (d * 10 ^ t) = (Z.to_N d * 10 ^ N.of_nat (Z.to_nat t))%N).
  { apply N2Z.inj. rewrite Z2N.id by nia. rewrite N2Z.inj_mul, Z2N.id by lia. rewrite N2Z.inj_pow. f_equal. f_equal. lia. }
  assert (T : (0 < 10 ^ N.of_nat (Z.to_nat t))%N) by (apply N.neq_0_lt_0, N.pow_nonzero; lia).
  apply dec_unique.
  - rewrite forallb_app, D. unfold zeros. now rewrite zeros_digits.
  - rewrite N_of_dec_app, V. unfold zeros. rewrite N_of_dec_zeros, repeat_length, EV. lia.
  - rewrite EV. nia.
  - rewrite EV, app_length. unfold zeros. rewrite repeat_length. unfold str, char in *. destruct (dec_of_N (Z.to_N d)) as [|x l] eqn:E; [easy|]. cbn [length] in *.
    assert (EE : (N.of_nat (S (length l) + Z.to_nat t) - 1 = (N.of_nat (S (length l)) - 1) + N.of_nat (Z.to_nat t))%N) by lia. unfold str, char in *. rewrite EE, N.pow_add_r. apply N.mul_le_mono_r. exact L.
  - destruct (dec_of_N (Z.to_N d)); [easy|discriminate].
Qed.
Lemma reread_display n : num_wf n = true -> match n with Float (FFin sg m _) => negb (sg && (m =? 0)%Z) | _ => true end = true -> num_display (reread n) = num_display n.
Proof.
  intros W Z. pose proof (text_round_trip n W) as T. unfold reread. destruct n as [k|k|[sg p|sg|sg m e]].
  - now rewrite T.
  - rewrite T. now destruct (k <? 0)%Z.
  - destruct T as [q T]. rewrite T. reflexivity.
  - now rewrite T.
  - clear T. destruct (Z.eq_dec m 0) as [->|NZ].
    + rewrite andb_true_r in Z. destruct sg; [discriminate|]. reflexivity.
    + cbn [num_wf] in W. assert (P : (0 < m)%Z) by (unfold f64_wf in W; lia). pose proof (display_result sg m e P W) as R. cbn [num_display]. pose proof (f_display_fin sg m e P) as F.
      destruct (display_dec (FFin sg m e)) as [d t]. destruct R as [[_ R]|(Ht & Hd & R)]; [now rewrite R|]. cbv zeta in R. destruct R as [_ R]. rewrite R. cbn zeta in F.
      assert (Q : positional d t = dec_of_N (Z.to_N (d * 10 ^ t))) by (unfold positional; replace (0 <=? t)%Z with true by lia; now apply dec_zeros).
      assert (P10 : (0 < d * 10 ^ t)%Z) by (assert (0 < 10 ^ t)%Z by (apply Z.pow_pos_nonneg; lia); nia). destruct sg.
      * unfold to_i128. destruct ((_ <=? _)%Z && _)%bool; [|reflexivity]. cbn [option_map num_display]. rewrite F, Q. unfold Z_display, signed. replace (-1 * (d * 10 ^ t) <? 0)%Z with true by lia.
        replace (- (-1 * (d * 10 ^ t)))%Z with (d * 10 ^ t)%Z by lia. reflexivity.
      * unfold to_u128. destruct ((_ <=? _)%Z && _)%bool; [|reflexivity]. cbn [option_map num_display]. rewrite F, Q. unfold Z_display, signed. replace (1 * (d * 10 ^ t) <? 0)%Z with false by lia.
        replace (1 * (d * 10 ^ t))%Z with (d * 10 ^ t)%Z by lia. reflexivity.
Qed.
