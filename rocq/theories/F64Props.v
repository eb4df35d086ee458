(** Facts about the float model: rounding is exact on representable values,
    printing reads back. *)
From Verif Require Import Base F64.
Open Scope Z_scope.

Lemma scale_pos : 0 < scale.
Proof. unfold scale. apply Z.pow_pos_nonneg; lia. Qed.

Lemma pow2_pos k : 0 <= k -> 0 < 2 ^ k.
Proof. intros; apply Z.pow_pos_nonneg; lia. Qed.
Lemma pow10_pos k : 0 <= k -> 0 < 10 ^ k.
Proof. intros; apply Z.pow_pos_nonneg; lia. Qed.

(** ** log2 of a fraction *)

Lemma shift_le (p q l K : Z) : Z.max 0 (- l) <= K ->
  (q * 2 ^ (Z.max 0 l) <= p * 2 ^ (Z.max 0 (- l)) <-> q * 2 ^ (K + l) <= p * 2 ^ K).
Proof.
  intros HK.
  replace (K + l) with ((K - Z.max 0 (- l)) + Z.max 0 l) by lia.
  replace (2 ^ K) with (2 ^ (K - Z.max 0 (- l)) * 2 ^ (Z.max 0 (- l)))
    by (rewrite <- Z.pow_add_r by lia; f_equal; lia).
  rewrite Z.pow_add_r by lia.
  pose proof (pow2_pos (K - Z.max 0 (- l)) ltac:(lia)).
  set (c := 2 ^ (K - Z.max 0 (- l))) in *.
  set (u := 2 ^ Z.max 0 l). set (w := 2 ^ Z.max 0 (- l)).
  replace (q * (c * u)) with (c * (q * u)) by ring.
  replace (p * (c * w)) with (c * (p * w)) by ring.
  split; intros; nia.
Qed.

Lemma log2_frac_le p q K : 0 < p -> 0 < q ->
  Z.log2 q + Z.log2 p + 2 <= K ->
  q * 2 ^ (K + log2_frac p q) <= p * 2 ^ K < q * 2 ^ (K + log2_frac p q + 1).
Proof.
  intros Hp Hq HK.
  pose proof (Z.log2_nonneg p). pose proof (Z.log2_nonneg q).
  pose proof (Z.log2_spec p Hp) as [P1 P2]. pose proof (Z.log2_spec q Hq) as [Q1 Q2].
  rewrite Z.pow_succ_r in P2, Q2 by lia.
  set (lp := Z.log2 p) in *. set (lq := Z.log2 q) in *.
  unfold log2_frac. fold lp lq. set (l := lp - lq).
  (* upper bound from l: p * 2^K < q * 2^(K+l+1); lower from l-1 *)
  assert (U : p * 2 ^ K < q * 2 ^ (K + l + 1)).
  { replace (K + l + 1) with ((K - lq) + (lp + 1)) by lia.
    replace K with ((K - lq) + lq) at 1 by lia.
    rewrite !Z.pow_add_r by lia. pose proof (pow2_pos (K - lq) ltac:(lia)).
    pose proof (pow2_pos lq ltac:(lia)). pose proof (pow2_pos lp ltac:(lia)).
    change (2 ^ 1) with 2. set (c := 2 ^ (K - lq)) in *.
    replace (p * (c * 2 ^ lq)) with (c * (p * 2 ^ lq)) by ring.
    replace (q * (c * (2 ^ lp * 2))) with (c * (q * (2 ^ lp * 2))) by ring.
    apply Zmult_lt_compat_l; [lia|]. nia. }
  assert (L : q * 2 ^ (K + (l - 1)) <= p * 2 ^ K).
  { replace (K + (l - 1)) with ((K - lq - 1) + lp) by lia.
    replace K with ((K - lq - 1) + (lq + 1)) at 2 by lia.
    rewrite !Z.pow_add_r by lia. pose proof (pow2_pos (K - lq - 1) ltac:(lia)).
    pose proof (pow2_pos lq ltac:(lia)). pose proof (pow2_pos lp ltac:(lia)).
    change (2 ^ 1) with 2. set (c := 2 ^ (K - lq - 1)) in *.
    replace (q * (c * 2 ^ lp)) with (c * (q * 2 ^ lp)) by ring.
    replace (p * (c * (2 ^ lq * 2))) with (c * (p * (2 ^ lq * 2))) by ring.
    apply Zmult_le_compat_l; [|lia]. nia. }
  destruct (Z.leb_spec (q * 2 ^ Z.max 0 l) (p * 2 ^ Z.max 0 (- l))) as [H1|H1].
  - split; [|exact U].
    apply (proj1 (shift_le p q l K ltac:(lia))). exact H1.
  - split; [exact L|].
    replace (K + (l - 1) + 1) with (K + l) by lia.
    destruct (Z.lt_ge_cases (p * 2 ^ K) (q * 2 ^ (K + l))) as [H2|H2]; [exact H2|].
    apply (proj2 (shift_le p q l K ltac:(lia))) in H2. lia.
Qed.

(** the exponent is the only one with 2^l <= p/q < 2^(l+1) *)
Lemma log2_frac_unique p q l K : 0 < p -> 0 < q ->
  0 <= K + l -> Z.log2 q + Z.log2 p + 2 <= K ->
  q * 2 ^ (K + l) <= p * 2 ^ K < q * 2 ^ (K + l + 1) -> log2_frac p q = l.
Proof.
  intros Hp Hq HKl HK [H1 H2].
  destruct (log2_frac_le p q K Hp Hq HK) as [G1 G2].
  assert (Hb : - Z.log2 q - 1 <= log2_frac p q).
  { unfold log2_frac. pose proof (Z.log2_nonneg p). destruct (_ <=? _); lia. }
  pose proof (Z.log2_nonneg p) as NP.
  set (g := log2_frac p q) in *.
  destruct (Z.lt_trichotomy g l) as [C|[C|C]]; [|exact C|].
  - exfalso. assert (q * 2 ^ (K + g + 1) <= q * 2 ^ (K + l)).
    { apply Zmult_le_compat_l; [|lia]. apply Z.pow_le_mono_r; lia. } lia.
  - exfalso. assert (q * 2 ^ (K + l + 1) <= q * 2 ^ (K + g)).
    { apply Zmult_le_compat_l; [|lia]. apply Z.pow_le_mono_r; lia. } lia.
Qed.

Lemma div_even_exact m q : 0 < q -> div_even (m * q) q = m.
Proof.
  intros Hq. unfold div_even. rewrite Z.div_mul, Z.mod_mul by lia.
  replace (2 * 0) with 0 by ring. destruct (Z.compare_spec 0 q); lia.
Qed.

(** rounding a fraction equal to a representable value gives that float *)
Lemma rne_pos_exact sg p q m e :
  0 < q -> f64_wf (FFin sg m e) = true -> 0 < m ->
  p * 2 ^ (Z.max 0 (- e)) = m * (q * 2 ^ (Z.max 0 e)) ->
  rne_pos sg p q = FFin sg m e.
Proof.
  intros Hq Hwf Hm Heq.
  unfold f64_wf in Hwf.
  assert (Hp : 0 < p).
  { pose proof (pow2_pos (Z.max 0 (-e)) ltac:(lia)).
    pose proof (pow2_pos (Z.max 0 e) ltac:(lia)). nia. }
  pose proof (Z.log2_nonneg m) as NM. pose proof (Z.log2_nonneg p) as NP. pose proof (Z.log2_nonneg q) as NQ.
  pose proof (Z.log2_spec m Hm) as [M1 M2]. rewrite Z.pow_succ_r in M2 by lia.
  assert (HL : log2_frac p q = Z.log2 m + e).
  { set (K := Z.log2 q + Z.log2 p + 2 + Z.max 0 (-e) + Z.max 0 e).
    assert (EK : p * 2 ^ K = m * (q * 2 ^ (K + e))).
    { replace K with ((K - Z.max 0 (-e)) + Z.max 0 (-e)) at 1 by lia.
      replace (K + e) with ((K - Z.max 0 (-e)) + Z.max 0 e) by lia.
      rewrite !Z.pow_add_r by lia.
      set (c := 2 ^ (K - Z.max 0 (-e))).
      transitivity (c * (p * 2 ^ Z.max 0 (-e))); [ring|]. rewrite Heq. ring. }
    apply (log2_frac_unique p q (Z.log2 m + e) K); try lia.
    rewrite EK.
    replace (K + (Z.log2 m + e)) with ((K + e) + Z.log2 m) by lia.
    rewrite (Z.pow_add_r 2 (K + e + Z.log2 m) 1), (Z.pow_add_r 2 (K + e) (Z.log2 m)) by lia.
    change (2^1) with 2.
    pose proof (pow2_pos (K + e) ltac:(lia)).
    set (c := 2 ^ (K + e)) in *. split.
    - replace (q * (c * 2 ^ Z.log2 m)) with (2 ^ Z.log2 m * (q * c)) by ring.
      apply Zmult_le_compat_r; nia.
    - replace (q * (c * 2 ^ Z.log2 m * 2)) with (2 * 2 ^ Z.log2 m * (q * c)) by ring.
      apply Zmult_lt_compat_r; nia. }
  assert (HE : Z.max (-1074) (log2_frac p q - 52) = e).
  { rewrite HL.
    destruct (Z.leb_spec (2 ^ 52) m) as [B|B].
    - assert (Z.log2 m = 52); [|lia].
      apply Z.log2_unique; [lia|]. change (2 ^ Z.succ 52) with (2 ^ 53). lia.
    - assert (e = -1074) by lia.
      assert (Z.log2 m < 52); [|lia].
      apply Z.log2_lt_pow2; lia. }
  unfold rne_pos. rewrite HE. rewrite Heq.
  rewrite div_even_exact.
  2:{ pose proof (pow2_pos (Z.max 0 e) ltac:(lia)). nia. }
  replace (m =? 2 ^ 53) with false by lia.
  replace (971 <? e) with false by lia. reflexivity.
Qed.

(** ** div_even is nearest *)
Lemma div_even_near p q : 0 <= p -> 0 < q ->
  let m := div_even p q in
  0 <= m /\ 2 * Z.abs (m * q - p) <= q.
Proof.
  intros Hp Hq m. subst m. unfold div_even.
  pose proof (Z.div_mod p q ltac:(lia)) as E. pose proof (Z.mod_pos_bound p q Hq).
  pose proof (Z.div_pos p q Hp Hq).
  set (d := p / q) in *. set (r := p mod q) in *.
  destruct (Z.compare_spec (2 * r) q).
  - destruct (Z.even d); split; nia.
  - split; nia.
  - split; nia.
Qed.

Lemma div_even_mono p p' q : 0 <= p <= p' -> 0 < q -> div_even p q <= div_even p' q.
Proof.
  intros Hp Hq. unfold div_even.
  pose proof (Z.div_mod p q ltac:(lia)) as E. pose proof (Z.mod_pos_bound p q Hq).
  pose proof (Z.div_mod p' q ltac:(lia)) as E'. pose proof (Z.mod_pos_bound p' q Hq).
  set (d := p / q) in *. set (r := p mod q) in *.
  set (d' := p' / q) in *. set (r' := p' mod q) in *.
  assert (d <= d') by nia.
  destruct (Z.eq_dec d d') as [e|ne].
  - rewrite <- e in *. assert (r <= r') by nia.
    destruct (Z.compare_spec (2 * r) q), (Z.compare_spec (2 * r') q); destruct (Z.even d); lia.
  - destruct (Z.compare_spec (2 * r) q), (Z.compare_spec (2 * r') q); destruct (Z.even d), (Z.even d'); lia.
Qed.

Lemma div_even_scale p q c : 0 < q -> 0 < c -> div_even (p * c) (q * c) = div_even p q.
Proof.
  intros Hq Hc. unfold div_even.
  rewrite Z.div_mul_cancel_r by lia. rewrite Zmult_mod_distr_r.
  replace (2 * (p mod q * c) ?= q * c) with (2 * (p mod q) ?= q); [reflexivity|].
  destruct (Z.compare_spec (2 * (p mod q)) q); symmetry; [apply Z.compare_eq_iff|apply Z.compare_lt_iff|apply Z.compare_gt_iff]; nia.
Qed.

(** result of rounding is always an f64 *)
Lemma rne_pos_wf sg p q : 0 < p -> 0 < q -> f64_wf (rne_pos sg p q) = true.
Proof.
  intros Hp Hq. unfold rne_pos.
  set (e := Z.max (-1074) (log2_frac p q - 52)).
  pose proof (Z.log2_nonneg p) as NP. pose proof (Z.log2_nonneg q) as NQ.
  set (A := p * 2 ^ Z.max 0 (- e)). set (B := q * 2 ^ Z.max 0 e).
  assert (HB : 0 < B) by (subst B; pose proof (pow2_pos (Z.max 0 e) ltac:(lia)); nia).
  assert (HA : 0 < A) by (subst A; pose proof (pow2_pos (Z.max 0 (-e)) ltac:(lia)); nia).
  destruct (log2_frac_le p q (Z.log2 q + Z.log2 p + 2 + Z.max 0 (-e) + Z.max 0 e + Z.abs (log2_frac p q)) Hp Hq ltac:(lia)) as [G1 G2].
  set (K := Z.log2 q + Z.log2 p + 2 + Z.max 0 (-e) + Z.max 0 e + Z.abs (log2_frac p q)) in *.
  set (L := log2_frac p q) in *.
  assert (EA : A * 2 ^ (K - Z.max 0 (-e)) = p * 2 ^ K).
  { subst A. rewrite <- Z.mul_assoc, <- Z.pow_add_r by lia. do 2 f_equal. lia. }
  assert (EB : B * 2 ^ (K - Z.max 0 (-e)) = q * 2 ^ (K + e)).
  { subst B. rewrite <- Z.mul_assoc, <- Z.pow_add_r by lia. do 2 f_equal. lia. }
  assert (HU : A <= B * 2 ^ 53).
  { assert (A * 2 ^ (K - Z.max 0 (-e)) <= B * 2 ^ (K - Z.max 0 (-e)) * 2 ^ 53).
    { rewrite EA, EB. rewrite <- Z.mul_assoc, <- Z.pow_add_r by lia.
      assert (q * 2 ^ (K + L + 1) <= q * 2 ^ (K + e + 53)).
      { apply Zmult_le_compat_l; [|lia]. apply Z.pow_le_mono_r; lia. } lia. }
    apply Z.mul_le_mono_pos_r with (p := 2 ^ (K - Z.max 0 (-e))); [apply pow2_pos; clear - NP NQ; lia|].
    rewrite <- Z.mul_assoc, (Z.mul_comm (2 ^ 53)), Z.mul_assoc. assumption. }
  assert (HLo : -1074 < e -> B * 2 ^ 52 <= A).
  { intros He.
    assert (B * 2 ^ (K - Z.max 0 (-e)) * 2 ^ 52 <= A * 2 ^ (K - Z.max 0 (-e))).
    { rewrite EA, EB. rewrite <- Z.mul_assoc, <- Z.pow_add_r by lia.
      replace (K + e + 52) with (K + L) by lia. assumption. }
    apply Z.mul_le_mono_pos_r with (p := 2 ^ (K - Z.max 0 (-e))); [apply pow2_pos; clear - NP NQ; lia|].
    rewrite <- Z.mul_assoc, (Z.mul_comm (2 ^ 52)), Z.mul_assoc. assumption. }
  assert (M1 : div_even A B <= 2 ^ 53).
  { rewrite <- (div_even_exact (2 ^ 53) B HB). apply div_even_mono; lia. }
  assert (M0 : 0 <= div_even A B) by (apply (div_even_near A B); lia).
  assert (M2 : -1074 < e -> 2 ^ 52 <= div_even A B).
  { intros He. rewrite <- (div_even_exact (2 ^ 52) B HB). apply div_even_mono; [|lia]. specialize (HLo He). lia. }
  set (m := div_even A B) in *.
  destruct (Z.eqb_spec m (2 ^ 53)) as [Em|Em].
  - destruct (Z.ltb_spec 971 (e + 1)); [reflexivity|]. unfold f64_wf. lia.
  - destruct (Z.ltb_spec 971 e); [reflexivity|]. unfold f64_wf.
    destruct (Z.eq_dec e (-1074)) as [Ee|Ee]; [|specialize (M2 ltac:(lia))]; lia.
Qed.

Lemma rne_wf sg p q : 0 <= p -> 0 < q -> f64_wf (rne sg p q) = true.
Proof.
  intros Hp Hq. unfold rne. destruct (Z.eqb_spec p 0); [reflexivity|]. apply rne_pos_wf; lia.
Qed.

Lemma f64_same_spec a b : f64_same a b = true <-> a = b.
Proof.
  split.
  - destruct a as [sa pa|sa|sa ma ea], b as [sb pb|sb|sb mb eb]; cbn; try discriminate.
    + rewrite andb_true_iff, Bool.eqb_true_iff, N.eqb_eq. intros [-> ->]. reflexivity.
    + rewrite Bool.eqb_true_iff. intros ->. reflexivity.
    + rewrite !andb_true_iff, Bool.eqb_true_iff, !Z.eqb_eq. intros [[-> ->] ->]. reflexivity.
  - intros <-. destruct a; cbn; rewrite ?Bool.eqb_reflx, ?N.eqb_refl, ?Z.eqb_refl; reflexivity.
Qed.
