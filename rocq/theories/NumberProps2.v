(** More proofs about Number: conversions, equality, hashing, text. *)
From Verif Require Import Base BaseProps F64 F64Props F64Text Number NumberSpec NumberProps.
Open Scope Z_scope.
#[local] Opaque scale.

(** ** integer to float *)

Lemma log2_frac_1 p : 0 < p -> log2_frac p 1 = Z.log2 p.
Proof.
  intros Hp. unfold log2_frac. change (Z.log2 1) with 0. rewrite Z.sub_0_r.
  pose proof (Z.log2_nonneg p). pose proof (Z.log2_spec p Hp).
  rewrite Z.max_r, Z.max_l by lia.
  replace (1 * 2 ^ Z.log2 p <=? p * 2 ^ 0) with true; [reflexivity|].
  rewrite Z.pow_0_r. lia.
Qed.

Lemma scale_split e : -1074 <= e -> 2 ^ (e + 1074) * 2 ^ (Z.max 0 (- e)) = scale * 2 ^ (Z.max 0 e).
Proof.
  intros He. change scale with (2 ^ 1074). rewrite <- !Z.pow_add_r by lia. f_equal. lia.
Qed.

(** shape of the rounded integer *)
Definition mant (p : Z) : Z :=
  div_even (p * 2 ^ (Z.max 0 (52 - Z.log2 p))) (2 ^ (Z.max 0 (Z.log2 p - 52))).

Lemma mant_bounds p : 0 < p -> 2 ^ 52 <= mant p <= 2 ^ 53.
Proof.
  intros Hp. unfold mant. pose proof (Z.log2_nonneg p). pose proof (Z.log2_spec p Hp) as [L U].
  rewrite Z.pow_succ_r in U by lia.
  set (k := Z.log2 p) in *.
  pose proof (pow2_pos (Z.max 0 (k - 52)) ltac:(lia)) as P.
  pose proof (pow2_pos (Z.max 0 (52 - k)) ltac:(lia)) as P'.
  set (A := p * 2 ^ Z.max 0 (52 - k)). set (B := 2 ^ Z.max 0 (k - 52)) in *.
  assert (E : 2 ^ k * 2 ^ Z.max 0 (52 - k) = 2 ^ 52 * B).
  { subst B. rewrite <- !Z.pow_add_r by lia. f_equal. lia. }
  assert (2 ^ 52 * B <= A).
  { rewrite <- E. subst A. apply Zmult_le_compat_r; lia. }
  assert (A <= 2 ^ 53 * B).
  { change (2 ^ 53) with (2 * 2 ^ 52). rewrite <- Z.mul_assoc, <- E. subst A. rewrite Z.mul_assoc.
    apply Zmult_le_compat_r; lia. }
  split.
  - rewrite <- (div_even_exact (2 ^ 52) B P). apply div_even_mono; lia.
  - rewrite <- (div_even_exact (2 ^ 53) B P). apply div_even_mono; lia.
Qed.

Lemma rne_int_shape sg p : 0 < p -> p < 2 ^ 1000 ->
  exists m e, rne_pos sg p 1 = FFin sg m e /\ f64_wf (FFin sg m e) = true /\
    m * 2 ^ (e + 1074) = mant p * 2 ^ (Z.log2 p - 52 + 1074) /\ Z.log2 p - 52 <= e.
Proof.
  intros Hp Hb.
  assert (Hl : Z.log2 p < 1000) by (apply Z.log2_lt_pow2; lia).
  pose proof (Z.log2_nonneg p) as Hl0.
  pose proof (rne_pos_wf sg p 1 Hp ltac:(lia)) as Hwf.
  pose proof (mant_bounds p Hp) as HM.
  unfold rne_pos in *. rewrite log2_frac_1 in * by exact Hp. cbv zeta in *.
  rewrite (Z.max_r (-1074) (Z.log2 p - 52)) in * by lia.
  replace (- (Z.log2 p - 52)) with (52 - Z.log2 p) in * by lia. rewrite Z.mul_1_l in *.
  fold (mant p) in *.
  destruct (Z.eqb_spec (mant p) (2 ^ 53)) as [E|E].
  - replace (971 <? Z.log2 p - 52 + 1) with false in * by lia.
    do 2 eexists. split; [reflexivity|]. split; [exact Hwf|]. split; [|lia].
    rewrite E. rewrite <- !Z.pow_add_r by lia. f_equal. lia.
  - replace (971 <? Z.log2 p - 52) with false in * by lia.
    do 2 eexists. split; [reflexivity|]. split; [exact Hwf|]. split; [reflexivity|lia].
Qed.

(** magnitude of the float of a positive integer *)
Definition mag (p : Z) : Z := mant p * 2 ^ (Z.log2 p - 52 + 1074).

Lemma f_of_Z_shape n : Z.abs n < 2 ^ 1000 ->
  exists m e, f_of_Z n = FFin (n <? 0) m e /\ f64_wf (FFin (n <? 0) m e) = true
    /\ fval (f_of_Z n) = if n =? 0 then 0 else Z.sgn n * mag (Z.abs n).
Proof.
  intros Hb. unfold f_of_Z, rne.
  destruct (Z.eqb_spec (Z.abs n) 0) as [E|E].
  - assert (n = 0) by lia. subst n. do 2 eexists. repeat split.
  - replace (n =? 0) with false by lia.
    destruct (rne_int_shape (n <? 0) (Z.abs n) ltac:(lia) Hb) as (m & e & -> & W & V & _).
    do 2 eexists. split; [reflexivity|]. split; [exact W|].
    cbn [fval]. unfold mag. rewrite V. destruct (Z.ltb_spec n 0); [rewrite Z.sgn_neg|rewrite Z.sgn_pos]; lia.
Qed.

Lemma mag_near p : 0 < p ->
  (Z.log2 p <= 52 -> mag p = p * scale) /\
  (52 <= Z.log2 p -> exists D, mag p = D * 2 ^ (Z.log2 p - 52) * scale /\ 2 ^ 52 <= D <= 2 ^ 53
     /\ 2 * Z.abs (D * 2 ^ (Z.log2 p - 52) - p) <= 2 ^ (Z.log2 p - 52)).
Proof.
  intros Hp. pose proof (mant_bounds p Hp) as HM. unfold mag, mant in *.
  pose proof (Z.log2_nonneg p). split; intros Hl.
  - rewrite (Z.max_l 0 (Z.log2 p - 52)), (Z.max_r 0 (52 - Z.log2 p)) by lia.
    rewrite Z.pow_0_r. rewrite <- (Z.mul_1_r (p * _)), div_even_exact by lia.
    rewrite <- Z.mul_assoc, <- Z.pow_add_r by lia.
    replace (52 - Z.log2 p + (Z.log2 p - 52 + 1074)) with 1074 by lia. reflexivity.
  - rewrite (Z.max_r 0 (Z.log2 p - 52)), (Z.max_l 0 (52 - Z.log2 p)) in * by lia.
    rewrite Z.pow_0_r, Z.mul_1_r in *.
    exists (div_even p (2 ^ (Z.log2 p - 52))). split; [|split; [exact HM|]].
    + rewrite Z.pow_add_r by lia. change (2 ^ 1074) with scale. ring.
    + apply div_even_near; [lia|]. apply pow2_pos. lia.
Qed.

(** nearest among multiples *)
Lemma near_multiple D Y q p : 0 < q -> 2 * Z.abs (D * q - p) <= q -> Z.abs (D * q - p) <= Z.abs (Y * q - p).
Proof.
  intros Hq H. destruct (Z.eq_dec Y D) as [->|N]; [lia|].
  assert (q <= Z.abs (Y * q - D * q)).
  { replace (Y * q - D * q) with ((Y - D) * q) by ring. rewrite Z.abs_mul.
    rewrite (Z.abs_eq q) by lia. nia. }
  lia.
Qed.

Lemma mag_nearest p sy my ey : 0 < p -> f64_wf (FFin sy my ey) = true ->
  Z.abs (mag p - p * scale) <= Z.abs (fval (FFin sy my ey) - p * scale).
Proof.
  intros Hp Hy. destruct (mag_near p Hp) as [H1 H2].
  destruct (Z.le_gt_cases (Z.log2 p) 52) as [Hl|Hl].
  - rewrite H1 by lia. rewrite Z.sub_diag. cbn. lia.
  - destruct (H2 ltac:(lia)) as (D & -> & HD & HN). clear H1 H2.
    pose proof (Z.log2_spec p Hp) as [L _].
    set (k := Z.log2 p - 52) in *.
    assert (Hk : 0 < k) by lia.
    pose proof (pow2_pos k ltac:(lia)) as Pk. pose proof scale_pos as SP.
    assert (L' : 2 ^ 52 * 2 ^ k <= p).
    { rewrite <- Z.pow_add_r by lia. replace (52 + k) with (Z.log2 p) by lia. exact L. }
    replace (D * 2 ^ k * scale - p * scale) with ((D * 2 ^ k - p) * scale) by ring.
    rewrite Z.abs_mul, (Z.abs_eq scale) by lia.
    assert (Wy : 0 <= my < 2 ^ 53 /\ -1074 <= ey) by (unfold f64_wf in Hy; lia).
    destruct (Z.le_gt_cases k ey) as [C|C].
    + set (Y := (if sy then -1 else 1) * (my * 2 ^ (ey - k))).
      assert (EY : fval (FFin sy my ey) = Y * 2 ^ k * scale).
      { cbn [fval]. subst Y. replace (ey + 1074) with ((ey - k) + k + 1074) by lia.
        rewrite !Z.pow_add_r by lia. change (2 ^ 1074) with scale. ring. }
      rewrite EY. replace (Y * 2 ^ k * scale - p * scale) with ((Y * 2 ^ k - p) * scale) by ring.
      rewrite Z.abs_mul, (Z.abs_eq scale) by lia.
      apply Zmult_le_compat_r; [|lia]. now apply near_multiple.
    + assert (EY : fval (FFin sy my ey) <= 2 ^ 52 * 2 ^ k * scale).
      { cbn [fval].
        assert (my * 2 ^ (ey + 1074) <= 2 ^ 53 * 2 ^ (k - 1 + 1074)).
        { apply Z.mul_le_mono_nonneg; try lia. apply Z.pow_le_mono_r; lia. }
        replace (2 ^ 53 * 2 ^ (k - 1 + 1074)) with (2 ^ 52 * 2 ^ k * scale) in H.
        2:{ change scale with (2 ^ 1074). rewrite <- !Z.pow_add_r by lia. f_equal. lia. }
        assert (0 <= my * 2 ^ (ey + 1074)). { pose proof (pow2_pos (ey + 1074) ltac:(lia)). nia. }
        assert (0 <= 2 ^ 52 * 2 ^ k * scale) by nia.
        destruct sy; lia. }
      assert (HB : Z.abs (D * 2 ^ k - p) <= Z.abs (2 ^ 52 * 2 ^ k - p)) by now apply near_multiple.
      assert (Z.abs (D * 2 ^ k - p) * scale <= Z.abs (2 ^ 52 * 2 ^ k - p) * scale) by nia.
      assert (Z.abs (2 ^ 52 * 2 ^ k - p) * scale = p * scale - 2 ^ 52 * 2 ^ k * scale) by nia.
      lia.
Qed.

(** C05: nearest, exact below 2^53, monotone *)
Lemma f_of_Z_nearest n y : Z.abs n < 2 ^ 1000 -> f64_wf y = true -> f_is_finite y = true ->
  Z.abs (fval (f_of_Z n) - n * scale) <= Z.abs (fval y - n * scale).
Proof.
  intros Hn Hy Hf. destruct y as [| |sy my ey]; try discriminate.
  destruct (f_of_Z_shape n Hn) as (m & e & _ & _ & ->).
  destruct (Z.eqb_spec n 0) as [->|N0]; [cbn; lia|].
  destruct (Z.le_gt_cases 0 n) as [Hs|Hs].
  - rewrite Z.sgn_pos, (Z.abs_eq n), Z.mul_1_l by lia. now apply mag_nearest; [lia|].
  - rewrite Z.sgn_neg, (Z.abs_neq n) by lia.
    assert (Hy' : f64_wf (FFin (negb sy) my ey) = true) by exact Hy.
    pose proof (mag_nearest (- n) (negb sy) my ey ltac:(lia) Hy') as G.
    assert (EV : fval (FFin (negb sy) my ey) = - fval (FFin sy my ey)).
    { cbn [fval]. destruct sy; cbn [negb]; lia. }
    rewrite EV in G. set (a := mag (- n)) in *. set (b := fval _) in *. lia.
Qed.

Lemma f_of_Z_exact n : Z.abs n <= 2 ^ 53 -> fval (f_of_Z n) = n * scale.
Proof.
  intros Hn. destruct (f_of_Z_shape n ltac:(lia)) as (m & e & _ & _ & ->).
  destruct (Z.eqb_spec n 0) as [->|N0]; [lia|].
  assert (EM : mag (Z.abs n) = Z.abs n * scale).
  { destruct (Z.eq_dec (Z.abs n) (2 ^ 53)) as [->|N53]; [vm_compute; reflexivity|].
    apply mag_near; [lia|]. assert (Z.log2 (Z.abs n) < 53); [|lia]. apply Z.log2_lt_pow2; lia. }
  rewrite EM. rewrite Z.mul_assoc. f_equal. rewrite Z.mul_comm. apply Z.abs_sgn.
Qed.

Lemma mag_mono p q : 0 < p <= q -> mag p <= mag q.
Proof.
  intros [Hp Hq].
  pose proof (Z.log2_le_mono p q Hq) as HL. pose proof (Z.log2_nonneg p).
  pose proof (mant_bounds p Hp) as Bp. pose proof (mant_bounds q ltac:(lia)) as Bq.
  unfold mag. destruct (Z.eq_dec (Z.log2 p) (Z.log2 q)) as [E|E].
  - rewrite <- E. apply Zmult_le_compat_r; [|apply Z.lt_le_incl, pow2_pos; lia].
    unfold mant. rewrite <- E. apply div_even_mono; [|apply pow2_pos; lia].
    pose proof (pow2_pos (Z.max 0 (52 - Z.log2 p)) ltac:(lia)).
    split; [|apply Zmult_le_compat_r]; nia.
  - apply Z.le_trans with (2 ^ 53 * 2 ^ (Z.log2 p - 52 + 1074)).
    { apply Zmult_le_compat_r; [lia|apply Z.lt_le_incl, pow2_pos; lia]. }
    apply Z.le_trans with (2 ^ 52 * 2 ^ (Z.log2 q - 52 + 1074)).
    { rewrite <- !Z.pow_add_r by lia. apply Z.pow_le_mono_r; lia. }
    apply Zmult_le_compat_r; [lia|apply Z.lt_le_incl, pow2_pos; lia].
Qed.

Lemma mag_pos p : 0 < p -> 0 < mag p.
Proof.
  intros Hp. pose proof (mant_bounds p Hp). pose proof (Z.log2_nonneg p). unfold mag.
  pose proof (pow2_pos (Z.log2 p - 52 + 1074) ltac:(lia)). nia.
Qed.

Lemma f_of_Z_mono a b : Z.abs a < 2 ^ 1000 -> Z.abs b < 2 ^ 1000 -> a <= b ->
  fval (f_of_Z a) <= fval (f_of_Z b).
Proof.
  intros Ha Hb Hab.
  destruct (f_of_Z_shape a Ha) as (? & ? & _ & _ & ->). destruct (f_of_Z_shape b Hb) as (? & ? & _ & _ & ->).
  destruct (Z.eqb_spec a 0) as [->|Na], (Z.eqb_spec b 0) as [->|Nb]; try lia.
  - rewrite Z.sgn_pos, Z.abs_eq by lia. pose proof (mag_pos b ltac:(lia)). lia.
  - rewrite Z.sgn_neg, Z.abs_neq by lia. pose proof (mag_pos (- a) ltac:(lia)). lia.
  - destruct (Z.lt_ge_cases a 0), (Z.lt_ge_cases b 0); try lia.
    + rewrite !Z.sgn_neg, !Z.abs_neq by lia. pose proof (mag_mono (- b) (- a) ltac:(lia)). lia.
    + rewrite Z.sgn_neg, Z.abs_neq, Z.sgn_pos, Z.abs_eq by lia.
      pose proof (mag_pos (- a) ltac:(lia)). pose proof (mag_pos b ltac:(lia)). lia.
    + rewrite !Z.sgn_pos, !Z.abs_eq by lia. pose proof (mag_mono a b ltac:(lia)). lia.
Qed.

(** the float of an integer is an integer *)
Lemma f_of_Z_integral n : Z.abs n < 2 ^ 1000 -> exists k, fval (f_of_Z n) = k * scale.
Proof.
  intros Hn. destruct (Z.le_gt_cases (Z.abs n) (2 ^ 53)) as [H|H].
  - exists n. now apply f_of_Z_exact.
  - destruct (f_of_Z_shape n Hn) as (? & ? & _ & _ & ->). replace (n =? 0) with false by lia.
    assert (52 <= Z.log2 (Z.abs n)).
    { change 52 with (Z.log2 (2 ^ 52)). apply Z.log2_le_mono. lia. }
    destruct (mag_near (Z.abs n) ltac:(lia)) as [_ G]. destruct (G H0) as (D & -> & _).
    eexists. rewrite Z.mul_assoc. reflexivity.
Qed.

Lemma f_of_Z_large n : 2 ^ 53 <= n -> n < 2 ^ 1000 -> 2 ^ 53 * scale <= fval (f_of_Z n).
Proof.
  intros H1 H2. rewrite <- (f_of_Z_exact (2 ^ 53)) by lia. apply f_of_Z_mono; lia.
Qed.
Lemma f_of_Z_large_neg n : n <= - 2 ^ 53 -> - n < 2 ^ 1000 -> fval (f_of_Z n) <= - 2 ^ 53 * scale.
Proof.
  intros H1 H2. rewrite <- (f_of_Z_exact (- 2 ^ 53)) by lia. apply f_of_Z_mono; lia.
Qed.

(** an integer whose value is that of a float converts to that float *)
Lemma f_of_Z_of_float n sg m e :
  f64_wf (FFin sg m e) = true -> negb (sg && (m =? 0)) = true ->
  fval (FFin sg m e) = n * scale -> f_of_Z n = FFin sg m e.
Proof.
  intros Hwf Hz HV.
  assert (Hm : 0 <= m < 2 ^ 53 /\ -1074 <= e) by (unfold f64_wf in Hwf; lia).
  pose proof (fval_sign sg m e Hwf Hz) as Hs. pose proof scale_pos.
  unfold f_of_Z, rne.
  destruct (Z.eq_dec n 0) as [->|N0].
  - cbn [Z.abs Z.eqb Z.ltb Z.compare].
    assert (m = 0). { rewrite Z.mul_0_l in HV. cbn [fval] in HV. pose proof (pow2_pos (e + 1074) ltac:(lia)). destruct sg; nia. }
    subst m. unfold f64_wf in Hwf. destruct sg; [discriminate|]. f_equal. lia.
  - destruct (Z.eqb_spec (Z.abs n) 0); [lia|].
    assert (Esg : (n <? 0) = sg) by (destruct sg; nia). rewrite Esg.
    assert (Hm' : 0 < m).
    { destruct (Z.eq_dec m 0) as [->|]; [|lia]. cbn [fval] in HV. nia. }
    apply rne_pos_exact; [lia|exact Hwf|exact Hm'|].
    rewrite Z.mul_1_l.
    assert (HV' : Z.abs n * scale = m * 2 ^ (e + 1074)).
    { cbn [fval] in HV. destruct sg; lia. }
    pose proof (scale_split e ltac:(lia)) as HS.
    apply Z.mul_reg_r with scale; [lia|].
    transitivity (m * 2 ^ (e + 1074) * 2 ^ Z.max 0 (- e)); [rewrite <- HV'; ring|].
    rewrite <- Z.mul_assoc, HS. ring.
Qed.

(** canonical representation is unique *)
Lemma fval_inj sa ma ea sb mb eb :
  f64_wf (FFin sa ma ea) = true -> f64_wf (FFin sb mb eb) = true ->
  negb (sa && (ma =? 0)) = true -> negb (sb && (mb =? 0)) = true ->
  fval (FFin sa ma ea) = fval (FFin sb mb eb) -> FFin sa ma ea = FFin sb mb eb.
Proof.
  intros Wa Wb Za Zb HV.
  pose proof (fval_sign _ _ _ Wa Za) as Sa. pose proof (fval_sign _ _ _ Wb Zb) as Sb.
  assert (Es : sa = sb) by (destruct sa, sb; lia). subst sb.
  assert (Ba : 0 <= ma < 2 ^ 53 /\ -1074 <= ea /\ (2 ^ 52 <= ma \/ ea = -1074)) by (unfold f64_wf in Wa; lia).
  assert (Bb : 0 <= mb < 2 ^ 53 /\ -1074 <= eb /\ (2 ^ 52 <= mb \/ eb = -1074)) by (unfold f64_wf in Wb; lia).
  clear Wa Wb Za Zb.
  assert (HV' : ma * 2 ^ (ea + 1074) = mb * 2 ^ (eb + 1074)) by (cbn [fval] in HV; destruct sa; lia).
  clear HV Sa Sb.
  assert (G : forall m e m' e', 0 <= m < 2 ^ 53 -> -1074 <= e -> e < e' -> 2 ^ 52 <= m' ->
     m * 2 ^ (e + 1074) = m' * 2 ^ (e' + 1074) -> False).
  { intros m e m' e' Hm He Hlt Hm' E.
    replace (e' + 1074) with ((e' - e - 1) + (1 + (e + 1074))) in E by lia.
    rewrite (Z.pow_add_r 2 (e' - e - 1)), (Z.pow_add_r 2 1) in E by lia.
    pose proof (pow2_pos (e' - e - 1) ltac:(lia)). pose proof (pow2_pos (e + 1074) ltac:(lia)).
    set (c := 2 ^ (e + 1074)) in *. set (d := 2 ^ (e' - e - 1)) in *. change (2 ^ 1) with 2 in E.
    assert (m = m' * d * 2) by nia. nia. }
  assert (ea = eb).
  { destruct (Z.lt_trichotomy ea eb) as [C|[C|C]]; [|exact C|]; exfalso.
    - apply (G ma ea mb eb); lia.
    - apply (G mb eb ma ea); lia. }
  subst eb. f_equal. pose proof (pow2_pos (ea + 1074) ltac:(lia)). nia.
Qed.

(** ** rounding to integer *)

Lemma f_round_near x : 2 * Z.abs (f_round x * scale - fval x) <= scale.
Proof.
  unfold f_round. pose proof scale_pos. set (v := fval x).
  pose proof (Z.div_mod (2 * Z.abs v + scale) (2 * scale) ltac:(lia)) as E.
  pose proof (Z.mod_pos_bound (2 * Z.abs v + scale) (2 * scale) ltac:(lia)) as B.
  set (d := (2 * Z.abs v + scale) / (2 * scale)) in *.
  destruct (Z.lt_trichotomy v 0) as [C|[C|C]].
  - rewrite Z.sgn_neg by lia. nia.
  - rewrite C. cbn [Z.sgn]. nia.
  - rewrite Z.sgn_pos by lia. nia.
Qed.

Lemma tol_small : 2 * fval f_1em10 < scale.
Proof. vm_compute. reflexivity. Qed.

(** an integer within the tolerance is the rounded value *)
Lemma f_round_unique x k : Z.abs (k * scale - fval x) < fval f_1em10 -> f_round x = k.
Proof.
  intros H. pose proof (f_round_near x) as R. pose proof tol_small as T. pose proof scale_pos.
  set (t := fval f_1em10) in *. set (r := f_round x) in *. set (v := fval x) in *.
  destruct (Z.eq_dec r k) as [|N]; [assumption|exfalso].
  assert (scale <= Z.abs (r * scale - k * scale)).
  { replace (r * scale - k * scale) with ((r - k) * scale) by ring. rewrite Z.abs_mul, (Z.abs_eq scale) by lia. nia. }
  lia.
Qed.

Lemma f_is_finite_inv x : f_is_finite x = true -> exists sg m e, x = FFin sg m e.
Proof. destruct x as [| |sg m e]; try discriminate. now exists sg, m, e. Qed.

Lemma as_u128_float x r :
  as_u128 (Float x) = Some r <->
  f_is_finite x = true /\ 0 <= fval x /\
  exists k, Z.abs (fval x - k * scale) < fval f_1em10 /\ r = Z.max 0 (Z.min u128_max k).
Proof.
  cbn [as_u128].
  assert (Hsat : forall k, sat_u128 k = Z.max 0 (Z.min u128_max k)).
  { intros k. pose proof u128_pos. unfold sat_u128, clamp. destruct (Z.ltb_spec k 0), (Z.ltb_spec u128_max k); lia. }
  split.
  - destruct (f_is_finite x); cbn [andb]; [|discriminate].
    destruct (Z.leb_spec 0 (fval x)); cbn [andb]; [|discriminate].
    destruct (Z.ltb_spec (Z.abs (f_round x * scale - fval x)) (fval f_1em10)); [|discriminate].
    intros [= <-]. repeat split; auto. exists (f_round x). split; [lia|]. apply Hsat.
  - intros (Hf & H0 & k & Hk & ->). rewrite Hf. replace (0 <=? fval x) with true by lia. cbn [andb].
    rewrite (f_round_unique x k) by lia.
    destruct (Z.ltb_spec (Z.abs (k * scale - fval x)) (fval f_1em10)); [|lia].
    now rewrite Hsat.
Qed.

Lemma as_i128_float x r :
  as_i128 (Float x) = Some r <->
  f_is_finite x = true /\
  exists k, Z.abs (fval x - k * scale) < fval f_1em10 /\ r = Z.max i128_min (Z.min i128_max k).
Proof.
  cbn [as_i128].
  assert (Hsat : forall k, sat_i128 k = Z.max i128_min (Z.min i128_max k)).
  { intros k. pose proof i128_ord. unfold sat_i128, clamp. destruct (Z.ltb_spec k i128_min), (Z.ltb_spec i128_max k); lia. }
  split.
  - destruct (f_is_finite x); [|discriminate].
    destruct (Z.ltb_spec (Z.abs (f_round x * scale - fval x)) (fval f_1em10)); [|discriminate].
    intros [= <-]. split; auto. exists (f_round x). split; [lia|]. apply Hsat.
  - intros (Hf & k & Hk & ->). rewrite Hf.
    rewrite (f_round_unique x k) by lia.
    destruct (Z.ltb_spec (Z.abs (k * scale - fval x)) (fval f_1em10)); [|lia].
    now rewrite Hsat.
Qed.

(** the f64 subtraction [r - x] of as_u128/as_i128 is exact: the difference is
    itself an f64 *)
Lemma fval_representable v k : 0 <= k -> (exists m, v = m * 2 ^ k) -> 0 <= v < 2 ^ 53 * 2 ^ k -> k <= 971 + 1074 ->
  exists m e, f64_wf (FFin false m e) = true /\ fval (FFin false m e) = v.
Proof.
  intros Hk [m ->] Hv Hk'.
  pose proof (pow2_pos k Hk) as Pk.
  assert (Hm : 0 <= m < 2 ^ 53) by nia.
  destruct (Z.eq_dec m 0) as [->|Nm].
  { exists 0, (-1074). split; [reflexivity|]. cbn [fval]. lia. }
  pose proof (Z.log2_nonneg m) as L0.
  assert (L1 : Z.log2 m < 53) by (apply Z.log2_lt_pow2; lia).
  pose proof (Z.log2_spec m ltac:(lia)) as [M1 M2]. rewrite Z.pow_succ_r in M2 by lia.
  set (sft := Z.min k (52 - Z.log2 m)).
  exists (m * 2 ^ sft), (k - sft - 1074).
  assert (Ps : 0 < 2 ^ sft) by (apply pow2_pos; lia).
  assert (UB : m * 2 ^ sft < 2 ^ 53).
  { apply Z.lt_le_trans with (2 * 2 ^ Z.log2 m * 2 ^ sft); [apply Zmult_lt_compat_r; lia|].
    rewrite <- Z.mul_assoc, <- Z.pow_add_r by lia. change (2 ^ 53) with (2 * 2 ^ 52).
    apply Zmult_le_compat_l; [|lia]. apply Z.pow_le_mono_r; lia. }
  split.
  - unfold f64_wf.
    assert (2 ^ 52 <= m * 2 ^ sft \/ k - sft - 1074 = -1074).
    { destruct (Z.le_gt_cases k (52 - Z.log2 m)); [right; lia|left].
      apply Z.le_trans with (2 ^ Z.log2 m * 2 ^ sft).
      - rewrite <- Z.pow_add_r by lia. apply Z.pow_le_mono_r; lia.
      - apply Zmult_le_compat_r; lia. }
    assert (0 <= m * 2 ^ sft) by nia.
    lia.
  - cbn [fval]. rewrite Z.mul_1_l, <- Z.mul_assoc, <- Z.pow_add_r by lia. do 2 f_equal. lia.
Qed.

Lemma round_sub_exact x : f64_wf x = true -> f_is_finite x = true ->
  exists y, f64_wf y = true /\ f_is_finite y = true /\ fval y = Z.abs (f_round x * scale - fval x).
Proof.
  intros Hwf Hf. destruct (f_is_finite_inv x Hf) as (sg & m & e & ->).
  assert (B : 0 <= m < 2 ^ 53 /\ -1074 <= e <= 971) by (unfold f64_wf in Hwf; lia).
  pose proof (f_round_near (FFin sg m e)) as R. pose proof scale_pos as SP.
  set (r := f_round (FFin sg m e)) in *.
  assert (HA : Z.abs (fval (FFin sg m e)) = m * 2 ^ (e + 1074)).
  { cbn [fval]. pose proof (pow2_pos (e + 1074) ltac:(lia)).
    assert (0 <= m * 2 ^ (e + 1074)) by nia. destruct sg; lia. }
  destruct (Z.le_gt_cases 0 e) as [C|C].
  - (* integral: difference zero *)
    exists (FFin false 0 (-1074)). repeat split.
    assert (EV : fval (FFin sg m e) = ((if sg then -1 else 1) * (m * 2 ^ e)) * scale).
    { cbn [fval]. rewrite Z.pow_add_r by lia. change (2 ^ 1074) with scale. ring. }
    rewrite EV in *. set (w := (if sg then -1 else 1) * (m * 2 ^ e)) in *.
    assert (Erw : r = w); [|rewrite Erw, Z.sub_diag; reflexivity].
    destruct (Z.eq_dec r w) as [|N]; [assumption|exfalso].
    assert (scale <= Z.abs (r * scale - w * scale)).
    { replace (r * scale - w * scale) with ((r - w) * scale) by ring.
      rewrite Z.abs_mul, (Z.abs_eq scale) by lia. nia. }
    lia.
  - (* multiple of 2^(e+1074), at most max(|x|, ...) *)
    destruct (fval_representable (Z.abs (r * scale - fval (FFin sg m e))) (e + 1074)) as (m' & e' & W & V); try lia.
    + assert (ES : scale = 2 ^ (- e) * 2 ^ (e + 1074)).
      { change scale with (2 ^ 1074). rewrite <- Z.pow_add_r by lia. f_equal. lia. }
      exists (Z.abs (r * 2 ^ (- e) - (if sg then -1 else 1) * m)).
      cbn [fval]. rewrite ES.
      replace (r * (2 ^ (- e) * 2 ^ (e + 1074)) - (if sg then -1 else 1) * (m * 2 ^ (e + 1074)))
        with ((r * 2 ^ (- e) - (if sg then -1 else 1) * m) * 2 ^ (e + 1074)) by ring.
      rewrite Z.abs_mul. f_equal. apply Z.abs_eq. apply Z.lt_le_incl, pow2_pos; lia.
    + split; [lia|].
      (* |r*scale - v| <= |v| since either r = 0 or |v| >= scale/2 *)
      assert (HB : Z.abs (r * scale - fval (FFin sg m e)) <= Z.abs (fval (FFin sg m e))).
      { destruct (Z.eq_dec r 0) as [->|N]; [lia|].
        assert (scale <= Z.abs (r * scale)). { rewrite Z.abs_mul, (Z.abs_eq scale) by lia. nia. }
        lia. }
      rewrite HA in HB. pose proof (pow2_pos (e + 1074) ltac:(lia)). nia.
    + exists (FFin false m' e'). auto.
Qed.
