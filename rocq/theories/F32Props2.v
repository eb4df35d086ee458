(** Proofs about f32: the Number of an f32 is printed as the f32 is. *)
From Verif Require Import Base BaseProps F64 F64Props F64Text F32 F32Spec NumberProps2 NumberProps3 F32Props.
Open Scope Z_scope.

(** ** two decimals which read as the same f64 *)
Lemma dec_units d t K : 0 <= K -> 0 <= t + K ->
  exists c, 0 < c /\ 10 ^ Z.max 0 (- t) * c = 10 ^ K /\ d * 10 ^ Z.max 0 t * c = d * 10 ^ (t + K).
Proof.
  intros HK HT. exists (10 ^ (K - Z.max 0 (- t))). split; [apply pow10_pos; lia|].
  rewrite <- Z.pow_add_r, <- Z.mul_assoc, <- Z.pow_add_r by lia. split; do 2 f_equal; lia.
Qed.
Lemma reads_units sg d t m e K : 0 < d -> f_of_dec sg d t = FFin sg m e -> 0 <= K -> 0 <= t + K ->
  2 * Z.abs (val (m, e) * 10 ^ K - d * 10 ^ (t + K) * scale) <= 2 ^ (e + 1074) * 10 ^ K.
Proof.
  intros D F HK HT. destruct (dec_units d t K HK HT) as (c & C0 & EQ & EP). unfold f_of_dec in F.
  pose proof (pow10_pos (Z.max 0 t) ltac:(lia)) as P1. pose proof (pow10_pos (Z.max 0 (- t)) ltac:(lia)) as Q0.
  set (p := d * 10 ^ Z.max 0 t) in *. set (q := 10 ^ Z.max 0 (- t)) in *. assert (P0 : 0 < p) by (subst p; nia). clearbody p q.
  unfold rne in F. replace (p =? 0) with false in F by lia. rewrite rne_rnd in F. pose proof (rnd_half 53 (-1074) ltac:(lia) ltac:(lia) p q P0 Q0) as H.
  destruct (rnd 53 (-1074) p q) as [m' e']. unfold f_make in F. cbn [fst snd] in F. destruct (971 <? e'); [discriminate|]. injection F as <- <-. cbn [snd] in H.
  rewrite <- EQ, <- EP. replace (val (m', e') * (q * c) - p * c * scale) with ((val (m', e') * q - p * scale) * c) by ring.
  rewrite Z.abs_mul, (Z.abs_eq c) by lia. rewrite !Z.mul_assoc. apply Zmult_le_compat_r; lia.
Qed.
Lemma reads_unique sg m e d t c u : 2 ^ 52 <= m -> -1074 <= e -> f_of_dec sg d t = FFin sg m e -> f_of_dec sg c u = FFin sg m e ->
  0 < d < 2 ^ 52 - 1 -> 0 <= c -> t <= u -> d = c * 10 ^ (u - t).
Proof.
  intros M E FD FC [D0 D1] C0 TU.
  assert (C : 0 < c).
  { destruct (Z.eq_dec c 0) as [->|]; [|lia]. exfalso. unfold f_of_dec, rne in FC. rewrite Z.mul_0_l in FC. cbn in FC. injection FC as <- _. lia. }
  set (K := Z.max 0 (- t)).
  pose proof (reads_units sg d t m e K D0 FD ltac:(lia) ltac:(lia)) as H1.
  pose proof (reads_units sg c u m e K C FC ltac:(lia) ltac:(lia)) as H2.
  replace (u + K) with ((u - t) + (t + K)) in H2 by lia. rewrite (Z.pow_add_r 10 (u - t)) in H2 by lia. rewrite Z.mul_assoc in H2.
  set (k := c * 10 ^ (u - t)) in *. pose proof (pow10_pos (t + K) ltac:(lia)) as W0. set (w := 10 ^ (t + K)) in *.
  destruct (Z.eq_dec d k) as [EQ|NE]; [exact EQ|exfalso]. unfold val in *. cbn [fst snd] in *.
  pose proof (pow2_pos (e + 1074) ltac:(lia)) as U0. pose proof (pow10_pos K ltac:(lia)) as Q0. pose proof scale_pos as S0.
  set (U := 2 ^ (e + 1074)) in *. set (Q := 10 ^ K) in *. clearbody U Q k w. clear - M D0 D1 H1 H2 W0 NE U0 Q0 S0. set (S := scale) in *. clearbody S.
  replace (m * U * Q) with (m * (U * Q)) in * by ring. assert (0 < U * Q) by nia. set (X := U * Q) in *. clearbody X.
  replace (d * w * S) with (d * (w * S)) in * by ring. replace (k * w * S) with (k * (w * S)) in * by ring. assert (0 < w * S) by nia. set (Y := w * S) in *. clearbody Y.
  assert (2 ^ 52 * X <= m * X) by (apply Zmult_le_compat_r; lia).
  assert (Y <= X).
  { assert (Y <= Z.abs (d * Y - k * Y)); [|lia]. rewrite <- Z.mul_sub_distr_r, Z.abs_mul, (Z.abs_eq Y) by lia.
    assert (1 <= Z.abs (d - k)) by lia. nia. }
  assert (d * Y <= (2 ^ 52 - 2) * Y) by (apply Zmult_le_compat_r; lia). lia.
Qed.

Lemma f_of_dec_pow sg d n u : 0 <= d -> f_of_dec sg (d * 10 ^ Z.of_nat n) u = f_of_dec sg d (u + Z.of_nat n).
Proof.
  intros D. revert u. induction n as [|n IH]; intros u.
  - change (Z.of_nat 0) with 0. rewrite Z.pow_0_r, Z.mul_1_r, Z.add_0_r. reflexivity.
  - rewrite Nat2Z.inj_succ, Z.pow_succ_r by lia. replace (d * (10 * 10 ^ Z.of_nat n)) with (d * 10 ^ Z.of_nat n * 10) by ring.
    pose proof (pow10_pos (Z.of_nat n) ltac:(lia)). rewrite f_of_dec_10 by nia. rewrite IH. f_equal. lia.
Qed.
Lemma strip0_pow n : forall k d u, d mod 10 <> 0 -> (k <= n)%nat -> strip0 n (d * 10 ^ Z.of_nat k) u = (d, u + Z.of_nat k).
Proof.
  assert (B : forall n d u, d mod 10 <> 0 -> strip0 n d u = (d, u)).
  { intros [|f] d u H; [reflexivity|]. cbn [strip0]. now replace (d mod 10 =? 0) with false by lia. }
  induction n as [|n IH]; intros [|k] d u H L; try lia.
  1,2: change (Z.of_nat 0) with 0; rewrite Z.pow_0_r, Z.mul_1_r, Z.add_0_r; now apply B.
  rewrite Nat2Z.inj_succ, Z.pow_succ_r by lia. replace (d * (10 * 10 ^ Z.of_nat k)) with (d * 10 ^ Z.of_nat k * 10) by ring.
  pose proof (pow10_pos (Z.of_nat k) ltac:(lia)). assert (d <> 0) by (intros ->; now apply H).
  cbn [strip0]. rewrite Z.mod_mul, Z.div_mul by lia. replace (d * 10 ^ Z.of_nat k * 10 =? 0) with false by nia. cbn [Z.eqb andb negb].
  rewrite IH by (assumption || lia). f_equal. lia.
Qed.
Lemma strip0_end n : forall d u, 0 < d < 10 ^ (Z.of_nat n + 1) -> let '(d', u') := strip0 n d u in 0 < d' <= d /\ d' mod 10 <> 0.
Proof.
  induction n as [|n IH]; intros d u H; cbn [strip0].
  - change (Z.of_nat 0 + 1) with 1 in H. rewrite Z.pow_1_r in H. rewrite Z.mod_small by lia. lia.
  - destruct (Z.eqb_spec (d mod 10) 0) as [E|E]; cbn [andb]; [|split; [lia|exact E]]. replace (d =? 0) with false by lia. cbn [negb].
    pose proof (Z.div_mod d 10 ltac:(lia)). assert (B : 0 < d / 10 < 10 ^ (Z.of_nat n + 1)).
    { rewrite Nat2Z.inj_succ in H. replace (Z.succ (Z.of_nat n) + 1) with (Z.succ (Z.of_nat n + 1)) in H by lia. rewrite Z.pow_succ_r in H by lia. lia. }
    specialize (IH (d / 10) (u + 1) B). destruct (strip0 n (d / 10) (u + 1)) as [d' u']. lia.
Qed.

Lemma digits_len D : 0 < D -> 1 <= Z.of_nat (length (dec_of_N (Z.to_N D))) /\
  10 ^ (Z.of_nat (length (dec_of_N (Z.to_N D))) - 1) <= D < 10 ^ Z.of_nat (length (dec_of_N (Z.to_N D))).
Proof.
  intros HD. destruct (dec_of_N_spec (Z.to_N D)) as (V & DG & NE & LB). pose proof (N_of_dec_lt _ DG) as L. rewrite V in L.
  set (len := length (dec_of_N (Z.to_N D))) in *.
  assert (L1 : (1 <= len)%nat) by (subst len; destruct (dec_of_N (Z.to_N D)); [easy|cbn [length]; lia]).
  split; [lia|]. split.
  - specialize (LB ltac:(lia)). apply N2Z.inj_le in LB. rewrite N_Z_pow10, Z2N.id in LB by lia. replace (Z.of_N (N.of_nat len - 1)) with (Z.of_nat len - 1) in LB by lia. exact LB.
  - apply N2Z.inj_lt in L. rewrite N_Z_pow10, Z2N.id in L by lia. rewrite nat_N_Z in L. exact L.
Qed.
Lemma exact_units m e : 0 < m -> -1074 <= e -> let '(D, T) := exact_dec m e in
  0 < D /\ T <= 0 /\ (0 <= e /\ T = 0 \/ e < 0 /\ T = e) /\ val (m, e) * 10 ^ (- T) = D * scale.
Proof.
  intros M E. unfold exact_dec. destruct (Z.leb_spec 0 e) as [H|H]; unfold val; cbn [fst snd].
  - pose proof (pow2_pos e H) as Pe. split; [nia|]. split; [lia|]. split; [left; lia|]. change (- 0) with 0. rewrite Z.pow_0_r, Z.pow_add_r by lia. change (2 ^ 1074) with scale. ring.
  - assert (P5 : 0 < 5 ^ (- e)) by (apply Z.pow_pos_nonneg; lia). split; [nia|]. split; [lia|]. split; [right; lia|].
    replace scale with (2 ^ (e + 1074) * 2 ^ (- e)) by (unfold scale; rewrite <- Z.pow_add_r by lia; f_equal; lia).
    replace (10 ^ (- e)) with (5 ^ (- e) * 2 ^ (- e)) by (rewrite <- Z.pow_mul_l; reflexivity). ring.
Qed.

(** ** what is printed of an f64 which a short decimal reads as *)
Section Shortest.
  Variables (sg : bool) (m e d t : Z).
  Hypothesis M : 2 ^ 52 <= m.
  Hypothesis E : -1074 <= e.
  Hypothesis F : f_of_dec sg d t = FFin sg m e.
  Hypothesis D : 0 < d < 2 ^ 52 - 1.
  Hypothesis D10 : d mod 10 <> 0.

  Lemma level_bound T : (0 <= e /\ T = 0 \/ e < 0 /\ T = e) -> T <= t.
  Proof.
    intros HT. destruct (Z.le_gt_cases T t) as [C|C]; [exact C|exfalso].
    pose proof (reads_units sg d t m e (- t) (proj1 D) F ltac:(lia) ltac:(lia)) as H. rewrite Z.add_opp_diag_r, Z.pow_0_r, Z.mul_1_r in H.
    unfold val in H. cbn [fst snd] in H. pose proof scale_pos as S0.
    assert (B : scale <= 2 ^ (e + 1074) * 10 ^ (- t)).
    { pose proof (pow10_pos (- t) ltac:(lia)) as Q0. destruct HT as [[He ->]|[He ->]].
      - assert (scale <= 2 ^ (e + 1074)) by (unfold scale; apply Z.pow_le_mono_r; lia). nia.
      - assert (2 ^ (- e) <= 10 ^ (- t)).
        { transitivity (10 ^ (- e)); [apply Z.pow_le_mono_l; lia|apply Z.pow_le_mono_r; lia]. }
        replace scale with (2 ^ (e + 1074) * 2 ^ (- e)) by (unfold scale; rewrite <- Z.pow_add_r by lia; f_equal; lia).
        apply Zmult_le_compat_l; [assumption|]. apply Z.pow_nonneg. lia. }
    pose proof (pow2_pos (e + 1074) ltac:(lia)) as U0.
    set (U := 2 ^ (e + 1074)) in *. set (Q := 10 ^ (- t)) in *. clearbody U Q. replace (m * U * Q) with (m * (U * Q)) in H by ring.
    clear - M D H S0 B U0. set (S := scale) in *. clearbody S. set (X := U * Q) in *. clearbody X.
    assert (2 ^ 52 * X <= m * X) by (apply Zmult_le_compat_r; lia).
    assert (d * S <= (2 ^ 52 - 2) * S) by (apply Zmult_le_compat_r; lia). lia.
  Qed.

  Lemma exact_near D0 T : T <= 0 -> T <= t -> 0 < D0 -> val (m, e) * 10 ^ (- T) = D0 * scale ->
    2 ^ 53 * Z.abs (D0 - d * 10 ^ (t - T)) <= D0.
  Proof.
    intros T0 TT HD HV. pose proof (reads_units sg d t m e (- T) (proj1 D) F ltac:(lia) ltac:(lia)) as H. rewrite HV in H.
    change (t + - T) with (t - T) in H. unfold val in HV. cbn [fst snd] in HV.
    pose proof (pow2_pos (e + 1074) ltac:(lia)) as U0. pose proof (pow10_pos (- T) ltac:(lia)) as Q0. pose proof scale_pos as S0.
    set (U := 2 ^ (e + 1074)) in *. set (Q := 10 ^ (- T)) in *. set (D' := d * 10 ^ (t - T)) in *. clearbody U Q D'. replace (m * U * Q) with (m * (U * Q)) in HV by ring.
    clear - M H HV U0 Q0 S0. set (S := scale) in *. clearbody S. assert (0 < U * Q) by nia. set (X := U * Q) in *. clearbody X.
    rewrite <- Z.mul_sub_distr_r, Z.abs_mul, (Z.abs_eq S) in H by lia.
    assert (2 ^ 52 * X <= m * X) by (apply Zmult_le_compat_r; lia).
    apply Z.mul_le_mono_pos_r with (p := S); [exact S0|]. lia.
  Qed.

  Lemma display_short : display_dec (FFin sg m e) = (d, t).
  Proof.
    unfold display_dec. pose proof (exact_units m e ltac:(lia) E) as X. destruct (exact_dec m e) as [D0 T]. destruct X as (HD & T0 & HT & HV).
    pose proof (level_bound T HT) as TT. pose proof (exact_near D0 T T0 TT HD HV) as NR. clear HV HT.
    destruct (digits_len D0 HD) as (N1 & N2 & N3). set (nd := length (dec_of_N (Z.to_N D0))) in *. clearbody nd.
    set (J := Nat.min (nd - 1) (Z.to_nat (t - T))). set (n := (Z.to_nat (t - T) - J)%nat).
    assert (EN : t - T = Z.of_nat n + Z.of_nat J) by lia. pose proof (pow10_pos (Z.of_nat J) ltac:(lia)) as P0. pose proof (pow10_pos (Z.of_nat n) ltac:(lia)) as P0'.
    set (k := d * 10 ^ Z.of_nat n). assert (EK : d * 10 ^ (t - T) = k * 10 ^ Z.of_nat J) by (subst k; rewrite EN, Z.pow_add_r by lia; ring). rewrite EK in NR.
    assert (FK : f_of_dec sg k (T + Z.of_nat J) = FFin sg m e).
    { subst k. rewrite f_of_dec_pow by lia. rewrite <- F. f_equal. lia. }
    assert (K0 : 0 < k) by (subst k; nia).
    assert (CL : Z.abs (D0 - k * 10 ^ Z.of_nat J) < 10 ^ Z.of_nat J /\ (n = 0%nat \/ (n <= nd)%nat) /\ k < 2 ^ 52 - 1).
    { destruct (Nat.le_gt_cases (Z.to_nat (t - T)) (nd - 1)) as [C|C].
      - assert (n = 0%nat) by lia. assert (k = d) by (subst k; rewrite H; change (Z.of_nat 0) with 0; rewrite Z.pow_0_r; lia).
        split; [|split; [left; exact H|lia]]. rewrite H0 in *. clear - NR P0 D HD. set (p := 10 ^ Z.of_nat J) in *. clearbody p. assert (d * p <= 2 ^ 52 * p) by (apply Zmult_le_compat_r; lia). lia.
      - assert (EJ : Z.of_nat J = Z.of_nat nd - 1) by lia. rewrite EJ in *.
        assert (D9 : D0 < 10 * 10 ^ (Z.of_nat nd - 1)) by (rewrite <- Z.pow_succ_r by lia; now replace (Z.succ (Z.of_nat nd - 1)) with (Z.of_nat nd) by lia).
        assert (CLO : Z.abs (D0 - k * 10 ^ (Z.of_nat nd - 1)) < 10 ^ (Z.of_nat nd - 1)) by lia.
        assert (K10 : k <= 10). { clear - CLO D9 P0. set (p := 10 ^ (Z.of_nat nd - 1)) in *. clearbody p. nia. }
        split; [exact CLO|]. split; [|lia]. right. assert (n <= 1)%nat; [|lia].
        destruct n as [|[|n']]; try lia. exfalso. subst k. rewrite 2!Nat2Z.inj_succ, 2!Z.pow_succ_r in K10 by lia. pose proof (pow10_pos (Z.of_nat n') ltac:(lia)). nia. }
    destruct CL as (CL & NN & K52).
    assert (SH : forall j, (J <= j)%nat -> (j <= nd - 1)%nat -> shortest (FFin sg m e) D0 T j = (k, T + Z.of_nat J)).
    { induction j as [|j IH]; intros L1 L2.
      - cbn [shortest]. replace J with 0%nat in * by lia. change (Z.of_nat 0) with 0 in *. rewrite Z.pow_0_r in CL. f_equal; lia.
      - cbn [shortest f_sign]. destruct (Nat.eq_dec J (S j)) as [EQ|NE].
        + rewrite <- EQ. set (p := 10 ^ Z.of_nat J) in *. set (lo := D0 / p).
          assert (LO : lo * p <= D0 < lo * p + p) by (subst lo; pose proof (Z.mul_div_le D0 p P0); pose proof (Z.mul_succ_div_gt D0 p P0); lia).
          assert (LK : k = lo \/ k = lo + 1) by (clear - LO CL P0; nia).
          assert (L0 : 0 <= lo) by (apply Z.div_pos; lia).
          assert (UN : forall c, 0 <= c -> f64_same (f_of_dec sg c (T + Z.of_nat J)) (FFin sg m e) = true <-> c = k).
          { intros c C0. rewrite f64_same_spec. split; [|intros ->; exact FK]. intros FC.
            pose proof (reads_unique sg m e k (T + Z.of_nat J) c (T + Z.of_nat J) M E FK FC ltac:(lia) C0 ltac:(lia)) as U. rewrite Z.sub_diag, Z.pow_0_r in U. lia. }
          pose proof (UN lo L0) as U1. pose proof (UN (lo + 1) ltac:(lia)) as U2.
          destruct LK as [LK|LK].
          * rewrite (proj2 U1 (eq_sym LK)). destruct (f64_same (f_of_dec sg (lo + 1) _) _); [pose proof (proj1 U2 eq_refl); lia|]. transitivity (lo, T + Z.of_nat J); [reflexivity|f_equal; lia].
          * rewrite (proj2 U2 (eq_sym LK)). destruct (f64_same (f_of_dec sg lo _) _); [pose proof (proj1 U1 eq_refl); lia|]. transitivity (lo + 1, T + Z.of_nat J); [reflexivity|f_equal; lia].
        + assert (TJ : t < T + Z.of_nat (S j)) by lia.
          assert (UN : forall c, 0 <= c -> f64_same (f_of_dec sg c (T + Z.of_nat (S j))) (FFin sg m e) = false).
          { intros c C0. destruct (f64_same _ _) eqn:FC; [exfalso|reflexivity]. apply f64_same_spec in FC.
            pose proof (reads_unique sg m e d t c (T + Z.of_nat (S j)) M E F FC D C0 ltac:(lia)) as U.
            apply D10. rewrite U. replace (T + Z.of_nat (S j) - t) with (Z.succ (T + Z.of_nat (S j) - t - 1)) by lia. rewrite Z.pow_succ_r by lia.
            rewrite Z.mul_comm, <- Z.mul_assoc, Z.mul_comm. apply Z.mod_mul. lia. }
          pose proof (Z.div_pos D0 (10 ^ Z.of_nat (S j)) ltac:(lia) (pow10_pos (Z.of_nat (S j)) ltac:(lia))) as L0.
          rewrite !UN by lia. cbn [andb]. apply IH; lia. }
    rewrite SH by lia. subst k. rewrite strip0_pow by (assumption || lia). f_equal. lia.
  Qed.
End Shortest.

(** ** the digits of an f32 *)
Lemma g_shortest_small x D T J : 0 <= D -> (1 <= J)%nat -> g_of_dec (g_sign x) (D / 10 ^ Z.of_nat J) (T + Z.of_nat J) = x ->
  forall j, (J <= j)%nat -> fst (g_shortest x D T j) <= D / 10 ^ Z.of_nat J + 1.
Proof.
  intros HD HJ OK. induction j as [|j IH]; intros L; [lia|]. cbn [g_shortest].
  assert (LE : D / 10 ^ Z.of_nat (S j) <= D / 10 ^ Z.of_nat J) by (apply Z.div_le_compat_l; [lia|]; split; [apply pow10_pos; lia|apply Z.pow_le_mono_r; lia]).
  destruct (Nat.eq_dec J (S j)) as [<-|NE].
  - rewrite OK. rewrite (proj2 (f32_same_spec x x) eq_refl). cbn [andb].
    destruct (f32_same (g_of_dec _ (_ + 1) _) x); cbn [negb orb fst]; [|lia]. destruct (_ <? _); cbn [fst]; lia.
  - destruct (_ && _); cbn [fst]; [lia|]. destruct (f32_same _ x); cbn [fst]; [lia|]. apply IH. lia.
Qed.

Lemma g_shortest_le x D T j : 0 <= D -> fst (g_shortest x D T j) <= D + 1.
Proof.
  intros HD. induction j as [|j IH]; cbn [g_shortest]; [cbn [fst]; lia|].
  pose proof (pow10_pos (Z.of_nat (S j)) ltac:(lia)) as P0. assert (D / 10 ^ Z.of_nat (S j) <= D) by (apply Z.div_le_upper_bound; nia).
  destruct (_ && _); cbn [fst]; [lia|]. destruct (f32_same _ x); cbn [fst]; [lia|]. exact IH.
Qed.
(** a decimal with ten digits is near enough *)
Lemma ten_digits sg m e D T J : f32_wf (GFin sg m e) = true -> 0 < m -> 0 < D -> T <= 0 -> val (m, e) * 10 ^ (- T) = D * scale ->
  10 ^ 9 * 10 ^ Z.of_nat J <= D -> g_of_dec sg (D / 10 ^ Z.of_nat J) (T + Z.of_nat J) = GFin sg m e.
Proof.
  intros W Hm HD T0 HV BIG. destruct (f32_normal sg m e W) as [N E4]. pose proof N as [[[M0 M1] E0] _]. cbn [fst snd] in M0, M1, E0.
  pose proof (pow10_pos (Z.of_nat J) ltac:(lia)) as P0. pose proof (Z.mul_div_le D _ P0) as L1. pose proof (Z.mul_succ_div_gt D _ P0) as L2.
  destruct (dec_units (D / 10 ^ Z.of_nat J) (T + Z.of_nat J) (- T) ltac:(lia) ltac:(lia)) as (c & C0 & EQ & EP).
  replace (T + Z.of_nat J + - T) with (Z.of_nat J) in EP by lia. set (lo := D / 10 ^ Z.of_nat J) in *. set (g := 10 ^ Z.of_nat J) in *.
  assert (LO : 0 < lo) by (clear - BIG L2 P0; nia).
  unfold g_of_dec. pose proof (pow10_pos (Z.max 0 (T + Z.of_nat J)) ltac:(lia)) as P1. pose proof (pow10_pos (Z.max 0 (- (T + Z.of_nat J))) ltac:(lia)) as Q0.
  set (p := lo * 10 ^ Z.max 0 (T + Z.of_nat J)) in *. set (q := 10 ^ Z.max 0 (- (T + Z.of_nat J))) in *. assert (PP : 0 < p) by (subst p; nia). clearbody p q.
  unfold rne32. replace (p =? 0) with false by lia. rewrite rne32_rnd, (rnd_to_frac 24 (-149) ltac:(lia) ltac:(lia) (m, e)); try assumption.
  - unfold g_make. cbn [fst snd]. now replace (104 <? e) with false by lia.
  - assert (BL : exists b, below 24 (-149) (m, e) = val (m, e) - b /\ 2 ^ (e + 1074) <= 2 * b).
    { unfold below, val. cbn [fst snd]. destruct (halved 24 (-149) (m, e)) eqn:H.
      - unfold halved in H. cbn [fst snd] in H. exists (2 ^ (e - 1 + 1074)). replace (e + 1074) with (Z.succ (e - 1 + 1074)) by lia. rewrite Z.pow_succ_r by lia. lia.
      - exists (2 ^ (e + 1074)). pose proof (pow2_pos (e + 1074) ltac:(lia)). lia. }
    destruct BL as (b & -> & B). assert (A : above (m, e) = val (m, e) + 2 ^ (e + 1074)) by (unfold above, val; cbn [fst snd]; ring). rewrite A. clear A.
    pose proof (pow2_pos (e + 1074) ltac:(lia)) as U0. pose proof scale_pos as S0. pose proof (pow10_pos (- T) ltac:(lia)) as K0.
    assert (VU : val (m, e) <= 2 ^ 24 * 2 ^ (e + 1074)) by (unfold val; cbn [fst snd]; apply Zmult_le_compat_r; lia).
    set (U := 2 ^ (e + 1074)) in *. set (V := val (m, e)) in *. set (Q := 10 ^ (- T)) in *. clearbody U V Q lo g. set (S := scale) in *. clearbody S.
    assert (VQ : V * Q <= 2 ^ 24 * (U * Q)) by (rewrite Z.mul_assoc; apply Zmult_le_compat_r; lia).
    assert (BQ : U * Q <= 2 * (b * Q)) by (rewrite Z.mul_assoc; apply Zmult_le_compat_r; lia).
    assert (NEAR : 10 ^ 9 * ((D - g * lo) * S) <= D * S) by (rewrite Z.mul_assoc; apply Zmult_le_compat_r; [lia|lia]).
    assert (POS : 0 <= (D - g * lo) * S) by (apply Z.mul_nonneg_nonneg; lia).
    rewrite Z.mul_sub_distr_r in NEAR, POS.
    assert (UQ : 0 < U * Q) by (apply Z.mul_pos_pos; lia).
    split; apply Z.mul_lt_mono_pos_r with (p := c); try exact C0.
    + replace ((V + (V - b)) * q * c) with (2 * (V * (q * c)) - b * (q * c)) by ring. replace (2 * (p * S) * c) with (2 * (p * c * S)) by ring. rewrite EQ, EP. replace (lo * g * S) with (g * lo * S) by ring. lia.
    + replace ((V + (V + U)) * q * c) with (2 * (V * (q * c)) + U * (q * c)) by ring. replace (2 * (p * S) * c) with (2 * (p * c * S)) by ring. rewrite EQ, EP. replace (lo * g * S) with (g * lo * S) by ring. lia.
Qed.
Lemma g_digits sg m e : f32_wf (GFin sg m e) = true -> 0 < m ->
  let '(d, t) := g_display_dec (GFin sg m e) in 0 < d <= 10 ^ 10 + 1 /\ d mod 10 <> 0.
Proof.
  intros W Hm. pose proof (g_display_dec_value sg m e W Hm) as V. destruct (f32_normal sg m e W) as [N E4]. pose proof N as [[[M0 M1] E0] _]. cbn [fst snd] in M0, M1, E0.
  unfold g_display_dec in *. pose proof (exact_units m e Hm ltac:(lia)) as X. destruct (exact_dec m e) as [D T]. destruct X as (HD & T0 & HT & HV).
  destruct (digits_len D HD) as (N1 & N2 & N3). set (nd := length (dec_of_N (Z.to_N D))) in *. clearbody nd.
  pose proof (g_shortest_le (GFin sg m e) D T (nd - 1) ltac:(lia)) as L1. pose proof (g_shortest_value (GFin sg m e) D T (nd - 1) ltac:(lia)) as GV.
  assert (L2 : fst (g_shortest (GFin sg m e) D T (nd - 1)) <= 10 ^ 10 + 1).
  { destruct (Nat.le_gt_cases nd 10) as [C|C].
    - assert (10 ^ Z.of_nat nd <= 10 ^ 10) by (apply Z.pow_le_mono_r; lia). lia.
    - set (J := (nd - 10)%nat). pose proof (pow10_pos (Z.of_nat J) ltac:(lia)) as P0.
      assert (B9 : 10 ^ 9 * 10 ^ Z.of_nat J <= D) by (rewrite <- Z.pow_add_r by lia; now replace (9 + Z.of_nat J) with (Z.of_nat nd - 1) by lia).
      assert (B10 : D < 10 ^ Z.of_nat J * 10 ^ 10) by (rewrite <- Z.pow_add_r by lia; now replace (Z.of_nat J + 10) with (Z.of_nat nd) by lia).
      pose proof (g_shortest_small (GFin sg m e) D T J ltac:(lia) ltac:(lia) (ten_digits sg m e D T J W Hm HD T0 HV B9) (nd - 1) ltac:(lia)) as G.
      pose proof (Z.div_lt_upper_bound D _ (10 ^ 10) P0 B10). lia. }
  destruct (g_shortest (GFin sg m e) D T (nd - 1)) as [c u]. cbn [fst] in *. destruct GV as [C0 GV].
  assert (C1 : 0 < c).
  { destruct (Z.eq_dec c 0) as [->|]; [|lia]. exfalso. destruct GV as [GV|[GV _]]; [|lia]. unfold g_of_dec, rne32 in GV. rewrite Z.mul_0_l in GV. cbn in GV. injection GV as <- _. lia. }
  assert (C2 : c < 10 ^ (Z.of_nat nd + 1)) by (rewrite Z.pow_add_r, Z.pow_1_r by lia; lia).
  pose proof (strip0_end nd c u ltac:(lia)) as SE. destruct (strip0 nd c u) as [d t]. lia.
Qed.

(** ** the Number of an f32 prints as the f32 *)
Lemma f32_parts sg m e : f32_wf (GFin sg m e) = true -> 0 < m -> exists d t my ey,
  g_display (GFin sg m e) = signed sg (positional d t) /\ 0 < d <= 10 ^ 10 + 1 /\ d mod 10 <> 0 /\
  f32_to_f64 (GFin sg m e) = Ret (FFin sg my ey) /\ f_of_dec sg d t = FFin sg my ey /\ normal 53 (-1074) (my, ey) /\
  val (m, e) + below 24 (-149) (m, e) <= 2 * val (my, ey) <= val (m, e) + above (m, e).
Proof.
  intros W Hm. destruct (f32_normal sg m e W) as [N E4]. pose proof N as [[[M0 M1] E0] _]. cbn [fst snd] in M0, M1, E0.
  pose proof (g_display_dec_value sg m e W Hm) as V. pose proof (g_digits sg m e W Hm) as DG.
  assert (D := g_display_fin sg m e Hm). destruct (g_display_dec (GFin sg m e)) as [d t]. destruct V as [Hd V].
  destruct (f32_there_and_back _ W eq_refl) as (y & FY & YW & YF & _). unfold f32_to_f64 in FY |- *. rewrite D, f_parse_positional in FY |- * by exact Hd.
  injection FY as FY. rewrite FY. unfold g_of_dec, f_of_dec in *.
  pose proof (pow10_pos (Z.max 0 t) ltac:(lia)) as P1. pose proof (pow10_pos (Z.max 0 (- t)) ltac:(lia)) as Q0.
  set (p := d * 10 ^ Z.max 0 t) in *. set (q := 10 ^ Z.max 0 (- t)) in *.
  assert (P0 : 0 < p) by (subst p; nia). clear P1.
  unfold rne32, rne in V, FY. replace (p =? 0) with false in * by lia. rewrite rne32_rnd in V. rewrite rne_rnd in FY.
  assert (RX : rnd 24 (-149) p q = (m, e)) by
    (unfold g_make in V; destruct (104 <? snd (rnd 24 (-149) p q)); [discriminate|]; destruct (rnd 24 (-149) p q); injection V as -> ->; reflexivity).
  pose proof (double_bounds 24 (-149) ltac:(lia) ltac:(lia) p q (m, e) P0 Q0 RX ltac:(cbn [fst]; lia)) as B.
  pose proof (rnd_normal 53 (-1074) ltac:(lia) ltac:(lia) p q P0 Q0) as NY.
  destruct (rnd 53 (-1074) p q) as [my ey] eqn:RY. unfold f_make in FY. cbn [fst snd] in FY.
  exists d, t, my, ey. destruct (971 <? ey) eqn:OV; [subst y; discriminate|]. subst y.
  split; [reflexivity|]. split; [exact (proj1 DG)|]. split; [exact (proj2 DG)|]. split; [reflexivity|]. split; [|split; assumption].
  fold p. unfold rne. replace (p =? 0) with false by lia. rewrite rne_rnd. fold q. rewrite RY. unfold f_make. cbn [fst snd]. now rewrite OV.
Qed.
Lemma below_nonneg m e : normal 24 (-149) (m, e) -> 0 < m -> 0 <= below 24 (-149) (m, e).
Proof.
  intros N Hm. pose proof N as [[[M0 M1] E0] _]. cbn [fst snd] in *. unfold below. cbn [fst snd]. destruct (halved 24 (-149) (m, e)) eqn:H.
  - unfold halved in H. cbn [fst snd] in H. apply Z.mul_nonneg_nonneg; [lia|]. apply Z.pow_nonneg. lia.
  - apply Z.mul_nonneg_nonneg; [lia|apply Z.pow_nonneg; lia].
Qed.
Theorem f32_text x y : f32_wf x = true -> f32_to_f64 x = Ret y -> f_display y = g_display x.
Proof.
  intros W F. destruct x as [sg p|sg|sg m e].
  - injection F as <-. reflexivity.
  - destruct sg; injection F as <-; reflexivity.
  - destruct (f32_normal sg m e W) as [N E4]. pose proof N as [[[M0 M1] E0] _]. cbn [fst snd] in M0, M1, E0.
    destruct (Z.eq_dec m 0) as [->|Nm].
    { assert (e = -149) by (unfold f32_wf in W; lia). subst e. destruct sg; injection F as <-; reflexivity. }
    destruct (f32_parts sg m e W ltac:(lia)) as (d & t & my & ey & G & D & D10 & FY & FD & NY & B1 & B2). rewrite FY in F. injection F as <-. rewrite G.
    pose proof (below_nonneg m e N ltac:(lia)) as BN.
    assert (BIG : 2 ^ 52 <= my).
    { pose proof NY as [[[Y0 Y1] Y2] Y3]. cbn [fst snd] in *. destruct Y3 as [Y3|Y3]; [exact Y3|exfalso]. subst ey.
      unfold val in *. cbn [fst snd] in *. change (2 ^ (-1074 + 1074)) with 1 in B1.
      assert (2 ^ (-149 + 1074) <= 2 ^ (e + 1074)) by (apply Z.pow_le_mono_r; lia).
      assert (2 ^ 100 < 2 ^ (-149 + 1074)) by reflexivity. assert (2 ^ 53 < 2 ^ 99) by reflexivity. change (2 ^ 100) with (2 * 2 ^ 99) in *.
      set (u := 2 ^ (e + 1074)) in *. set (w := 2 ^ (-149 + 1074)) in *. clearbody u w. nia. }
    rewrite f_display_fin by lia. pose proof NY as [[_ Y2] _]. cbn [snd] in Y2.
    rewrite (display_short sg my ey d t BIG Y2 FD) by (assumption || lia). reflexivity.
Qed.

(** ** the f64 is nearest to the f32 *)
Theorem f32_near x y z : f32_wf x = true -> g_is_finite x = true -> f32_to_f64 x = Ret y ->
  f32_wf z = true -> g_is_finite z = true -> Z.abs (fval y - gval x) <= Z.abs (fval y - gval z).
Proof.
  destruct x as [| |sg m e]; try discriminate. destruct z as [| |sz k f]; try discriminate. intros W _ F WZ _.
  destruct (f32_normal sg m e W) as [N E4]. pose proof N as [[[M0 M1] E0] _]. cbn [fst snd] in M0, M1, E0.
  destruct (Z.eq_dec m 0) as [->|Nm].
  { assert (e = -149) by (unfold f32_wf in W; lia). subst e. assert (Y : y = FFin sg 0 (-1074)) by (destruct sg; injection F as <-; reflexivity). subst y.
    cbn [fval gval]. rewrite !Z.mul_0_l. lia. }
  destruct (f32_parts sg m e W ltac:(lia)) as (d & t & my & ey & _ & _ & _ & FY & _ & NY & B1 & B2). rewrite FY in F. injection F as <-.
  pose proof (below_nonneg m e N ltac:(lia)) as BN. destruct (f32_normal sz k f WZ) as [NZ _]. pose proof NZ as [[[K0 K1] F0] _]. cbn [fst snd] in K0, K1, F0.
  pose proof (gap_above 24 (-149) ltac:(lia) ltac:(lia) (m, e) (k, f) N (proj1 NZ)) as GA.
  pose proof (gap_below 24 (-149) ltac:(lia) ltac:(lia) (m, e) (k, f) N (proj1 NZ)) as GB.
  assert (X0 : 0 < val (m, e)) by (unfold val; cbn [fst snd]; pose proof (pow2_pos (e + 1074) ltac:(lia)); nia).
  assert (Z0 : 0 <= val (k, f)) by (unfold val; cbn [fst snd]; pose proof (pow2_pos (f + 1074) ltac:(lia)); nia).
  cbn [fval gval]. change (m * 2 ^ (e + 1074)) with (val (m, e)). change (k * 2 ^ (f + 1074)) with (val (k, f)). change (my * 2 ^ (ey + 1074)) with (val (my, ey)).
  set (X := val (m, e)) in *. set (Z := val (k, f)) in *. set (Y := val (my, ey)) in *. clearbody X Y Z.
  destruct sg, sz; destruct (Z.lt_trichotomy Z X) as [C|[C|C]]; lia.
Qed.
Lemma f32_kind x : f32_wf x = true -> exists y, f32_to_f64 x = Ret y /\ f64_wf y = true /\
  match x, y with GFin _ _ _, FFin _ _ _ => True | GInf sg, FInf sg' => sg = sg' | GNaN _ _, FNaN _ _ => True | _, _ => False end.
Proof.
  intros W. destruct x as [sg p|sg|sg m e].
  - eexists. repeat split; reflexivity.
  - destruct sg; eexists; repeat split; reflexivity.
  - destruct (f32_there_and_back _ W eq_refl) as (y & F & Y & FI & _). exists y. repeat split; try assumption. now destruct y.
Qed.
