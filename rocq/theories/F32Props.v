(** Proofs about f32: rounding to a number of bits is to the nearest, an f32
    read through f64 comes back. *)
From Verif Require Import Base BaseProps F64 F64Props F64Text F32 F32Spec NumberProps2 NumberProps3.
Open Scope Z_scope.

(** ** rounding to P bits and exponents from emin on *)
Section Round.
  Variables P emin : Z.
  Hypothesis P1 : 1 <= P.
  Hypothesis emin0 : -1074 <= emin.

  Definition rnd (p q : Z) : Z * Z :=
    let e := Z.max emin (log2_frac p q - (P - 1)) in
    let m := div_even (p * 2 ^ (Z.max 0 (- e))) (q * 2 ^ (Z.max 0 e)) in
    if m =? 2 ^ P then (2 ^ (P - 1), e + 1) else (m, e).

  (** in units of 2^-1074 *)
  Definition val (x : Z * Z) : Z := fst x * 2 ^ (snd x + 1074).
  Definition repr (x : Z * Z) : Prop := 0 <= fst x < 2 ^ P /\ emin <= snd x.
  Definition normal (x : Z * Z) : Prop := repr x /\ (2 ^ (P - 1) <= fst x \/ snd x = emin).

  Lemma pow_P : 2 ^ P = 2 * 2 ^ (P - 1).
  Proof. rewrite <- Z.pow_succ_r by lia. f_equal. lia. Qed.

  Lemma rnd_shape_tie p q : 0 < p -> 0 < q -> exists E M,
    emin <= E /\ 0 <= M <= 2 ^ P /\ (E <> emin -> 2 ^ (P - 1) <= M) /\
    val (rnd p q) = M * 2 ^ (E + 1074) /\
    normal (rnd p q) /\
    2 * Z.abs (M * 2 ^ (E + 1074) * q - p * scale) <= 2 ^ (E + 1074) * q /\
    (E <> emin -> 2 ^ (P - 1) * 2 ^ (E + 1074) * q <= p * scale) /\ E <= snd (rnd p q) /\
    (2 * Z.abs (M * 2 ^ (E + 1074) * q - p * scale) = 2 ^ (E + 1074) * q -> Z.even M = true) /\
    (fst (rnd p q) = M \/ fst (rnd p q) = 2 ^ (P - 1)).
  Proof.
    intros Hp Hq. unfold rnd.
    set (E := Z.max emin (log2_frac p q - (P - 1))). cbv zeta.
    set (A := p * 2 ^ Z.max 0 (- E)). set (B := q * 2 ^ Z.max 0 E). set (M := div_even A B).
    assert (HE : emin <= E) by (subst E; lia).
    assert (HB : 0 < B) by (subst B; pose proof (pow2_pos (Z.max 0 E) ltac:(lia)); nia).
    assert (HA : 0 < A) by (subst A; pose proof (pow2_pos (Z.max 0 (-E)) ltac:(lia)); nia).
    pose proof (Z.log2_nonneg p) as NP. pose proof (Z.log2_nonneg q) as NQ.
    set (c := 2 ^ (1074 - Z.max 0 (- E))).
    assert (Hc : 0 < c) by (apply pow2_pos; lia).
    assert (EA : A * c = p * scale).
    { subst A c. rewrite <- Z.mul_assoc, <- Z.pow_add_r by lia. unfold scale. do 2 f_equal. lia. }
    assert (EB : B * c = 2 ^ (E + 1074) * q).
    { subst B c. rewrite <- Z.mul_assoc, <- Z.pow_add_r by lia. rewrite (Z.mul_comm q). do 2 f_equal. lia. }
    set (L := log2_frac p q) in *.
    destruct (log2_frac_le p q (Z.log2 q + Z.log2 p + 2 + 1074 + Z.abs L + Z.abs E + P) Hp Hq ltac:(lia)) as [G1 G2].
    fold L in G1, G2. set (K := Z.log2 q + Z.log2 p + 2 + 1074 + Z.abs L + Z.abs E + P) in *.
    assert (HU : A <= 2 ^ P * B).
    { apply Z.mul_le_mono_pos_r with (p := c); [exact Hc|]. rewrite EA, <- Z.mul_assoc, EB.
      apply Z.mul_le_mono_pos_r with (p := 2 ^ (K - 1074)); [apply pow2_pos; lia|].
      replace (p * scale * 2 ^ (K - 1074)) with (p * 2 ^ K).
      2:{ rewrite <- Z.mul_assoc. unfold scale. rewrite <- Z.pow_add_r by lia. do 2 f_equal. lia. }
      replace (2 ^ P * (2 ^ (E + 1074) * q) * 2 ^ (K - 1074)) with (q * 2 ^ (K + E + P)).
      2:{ replace (K + E + P) with (P + (E + 1074) + (K - 1074)) by lia. rewrite !Z.pow_add_r by lia. ring. }
      assert (q * 2 ^ (K + L + 1) <= q * 2 ^ (K + E + P)); [|lia].
      apply Zmult_le_compat_l; [|lia]. apply Z.pow_le_mono_r; lia. }
    assert (HLo : E <> emin -> 2 ^ (P - 1) * B <= A).
    { intros He. apply Z.mul_le_mono_pos_r with (p := c); [exact Hc|]. rewrite EA, <- Z.mul_assoc, EB.
      apply Z.mul_le_mono_pos_r with (p := 2 ^ (K - 1074)); [apply pow2_pos; lia|].
      replace (p * scale * 2 ^ (K - 1074)) with (p * 2 ^ K).
      2:{ rewrite <- Z.mul_assoc. unfold scale. rewrite <- Z.pow_add_r by lia. do 2 f_equal. lia. }
      replace (2 ^ (P - 1) * (2 ^ (E + 1074) * q) * 2 ^ (K - 1074)) with (q * 2 ^ (K + L)); [lia|].
      replace (K + L) with (P - 1 + (E + 1074) + (K - 1074)) by lia. rewrite !Z.pow_add_r by lia. ring. }
    destruct (div_even_near A B ltac:(lia) HB) as [M0 MN]. fold M in M0, MN.
    assert (M1 : M <= 2 ^ P).
    { unfold M. rewrite <- (div_even_exact (2 ^ P) B HB). apply div_even_mono; lia. }
    assert (M2 : E <> emin -> 2 ^ (P - 1) <= M).
    { intros He. unfold M. rewrite <- (div_even_exact (2 ^ (P - 1)) B HB). apply div_even_mono; [|lia].
      specialize (HLo He). split; [|exact HLo]. apply Z.mul_nonneg_nonneg; [|lia]. apply Z.pow_nonneg. lia. }
    exists E, M. split; [exact HE|]. split; [lia|]. split; [exact M2|].
    assert (PP := pow_P). pose proof (pow2_pos (P - 1) ltac:(lia)).
    split; [|split; [|split; [|split]]].
    - destruct (Z.eqb_spec M (2 ^ P)) as [EM|EM]; [|reflexivity]. unfold val. cbn [fst snd]. rewrite EM, PP.
      replace (E + 1 + 1074) with (Z.succ (E + 1074)) by lia. rewrite Z.pow_succ_r by lia. ring.
    - destruct (Z.eqb_spec M (2 ^ P)) as [EM|EM]; unfold normal, repr; cbn [fst snd].
      + clear - HE PP H. lia.
      + split; [lia|]. destruct (Z.eq_dec E emin); [right|left]; auto.
    - rewrite <- EA, <- EB. clear - MN Hc EB.
      replace (M * 2 ^ (E + 1074) * q) with (M * (B * c)) by (rewrite EB; ring).
      replace (M * (B * c) - A * c) with ((M * B - A) * c) by ring. rewrite Z.abs_mul, (Z.abs_eq c) by lia. rewrite Z.mul_assoc. apply Zmult_le_compat_r; lia.
    - intros He. specialize (HLo He). rewrite <- EA, <- Z.mul_assoc, <- EB, Z.mul_assoc. apply Zmult_le_compat_r; lia.
    - split; [destruct (Z.eqb_spec M (2 ^ P)) as [EM|EM]; cbn [snd]; lia|]. split.
      + rewrite <- EA, <- EB. intros T. apply div_even_tie; [lia|exact HB|]. fold M.
        replace (M * 2 ^ (E + 1074) * q) with (M * (B * c)) in T by (rewrite EB; ring).
        replace (M * (B * c) - A * c) with ((M * B - A) * c) in T by ring.
        rewrite Z.abs_mul, (Z.abs_eq c) in T by lia. rewrite Z.mul_assoc in T. apply Z.mul_reg_r in T; lia.
      + destruct (M =? 2 ^ P); cbn [fst]; auto.
  Qed.
  Lemma rnd_shape p q : 0 < p -> 0 < q -> exists E M,
    emin <= E /\ 0 <= M <= 2 ^ P /\ (E <> emin -> 2 ^ (P - 1) <= M) /\
    val (rnd p q) = M * 2 ^ (E + 1074) /\
    normal (rnd p q) /\
    2 * Z.abs (M * 2 ^ (E + 1074) * q - p * scale) <= 2 ^ (E + 1074) * q /\
    (E <> emin -> 2 ^ (P - 1) * 2 ^ (E + 1074) * q <= p * scale) /\ E <= snd (rnd p q).
  Proof.
    intros Hp Hq. destruct (rnd_shape_tie p q Hp Hq) as (E & M & ? & ? & ? & ? & ? & ? & ? & ? & _). exists E, M. tauto.
  Qed.
  (** within half a unit in the last place *)
  Lemma rnd_half p q : 0 < p -> 0 < q -> 2 * Z.abs (val (rnd p q) * q - p * scale) <= 2 ^ (snd (rnd p q) + 1074) * q.
  Proof.
    intros Hp Hq. destruct (rnd_shape p q Hp Hq) as (E & M & HE & _ & _ & -> & _ & NE & _ & LE).
    assert (2 ^ (E + 1074) * q <= 2 ^ (snd (rnd p q) + 1074) * q) by (apply Zmult_le_compat_r; [apply Z.pow_le_mono_r; lia|lia]). lia.
  Qed.

  Lemma rnd_normal p q : 0 < p -> 0 < q -> normal (rnd p q).
  Proof. intros Hp Hq. destruct (rnd_shape p q Hp Hq) as (E & M & _ & _ & _ & _ & N & _). exact N. Qed.

  (** nearest among the representable values *)
  Lemma rnd_near p q y : 0 < p -> 0 < q -> repr y ->
    Z.abs (val (rnd p q) * q - p * scale) <= Z.abs (val y * q - p * scale).
  Proof.
    intros Hp Hq [[Y0 Y1] Y2]. destruct (rnd_shape p q Hp Hq) as (E & M & HE & HM & HM2 & -> & _ & NE & LO & _).
    destruct y as [m e]. unfold val. cbn [fst snd] in *.
    pose proof (pow2_pos (E + 1074) ltac:(lia)) as PE. set (u := 2 ^ (E + 1074)) in *.
    assert (Pu : 0 < u * q) by nia.
    replace (M * u * q) with (M * (u * q)) in * by ring.
    destruct (Z.le_gt_cases E e) as [C|C].
    - replace (m * 2 ^ (e + 1074) * q) with (m * 2 ^ (e - E) * (u * q)).
      2:{ subst u. replace (e + 1074) with (e - E + (E + 1074)) by lia. rewrite (Z.pow_add_r 2 (e - E)) by lia. ring. }
      now apply near_multiple.
    - specialize (LO ltac:(lia)).
      assert (UP : m * 2 ^ (e + 1074) <= 2 ^ (P - 1) * u).
      { assert (m * 2 ^ (e + 1074) <= 2 ^ P * 2 ^ (E - 1 + 1074)).
        { apply Z.mul_le_mono_nonneg; try lia. apply Z.pow_le_mono_r; lia. }
        replace (2 ^ P * 2 ^ (E - 1 + 1074)) with (2 ^ (P - 1) * u) in H; [exact H|].
        subst u. rewrite <- !Z.pow_add_r by lia. f_equal. lia. }
      pose proof (near_multiple M (2 ^ (P - 1)) (u * q) (p * scale) Pu NE) as G.
      replace (2 ^ (P - 1) * (u * q)) with (2 ^ (P - 1) * u * q) in G by ring.
      assert (m * 2 ^ (e + 1074) * q <= 2 ^ (P - 1) * u * q) by nia. lia.
  Qed.

  (** the neighbours of a value *)
  Definition above (x : Z * Z) : Z := (fst x + 1) * 2 ^ (snd x + 1074).
  Definition halved (x : Z * Z) : bool := (fst x =? 2 ^ (P - 1)) && (emin <? snd x).
  Definition below (x : Z * Z) : Z :=
    if halved x then (2 * fst x - 1) * 2 ^ (snd x - 1 + 1074) else (fst x - 1) * 2 ^ (snd x + 1074).

  Lemma gap_above x z : normal x -> repr z -> val x < val z -> above x <= val z.
  Proof.
    destruct x as [m e], z as [k f]. unfold normal, repr, val, above. cbn [fst snd].
    intros [[M1 E1] N] [K F] L.
    pose proof (pow2_pos (e + 1074) ltac:(lia)) as PE. set (u := 2 ^ (e + 1074)) in *.
    destruct (Z.le_gt_cases e f) as [C|C].
    - replace (k * 2 ^ (f + 1074)) with (k * 2 ^ (f - e) * u) in *.
      2:{ subst u. replace (f + 1074) with (f - e + (e + 1074)) by lia. rewrite (Z.pow_add_r 2 (f - e)) by lia. ring. }
      assert (m < k * 2 ^ (f - e)) by nia. nia.
    - exfalso. assert (2 ^ (P - 1) <= m) by lia.
      assert (k * 2 ^ (f + 1074) <= 2 ^ P * 2 ^ (e - 1 + 1074)).
      { apply Z.mul_le_mono_nonneg; try lia. apply Z.pow_le_mono_r; lia. }
      replace (2 ^ P * 2 ^ (e - 1 + 1074)) with (2 ^ (P - 1) * u) in H0; [nia|].
      subst u. rewrite <- !Z.pow_add_r by lia. f_equal. lia.
  Qed.

  Lemma gap_below x z : normal x -> repr z -> val z < val x -> val z <= below x.
  Proof.
    destruct x as [m e], z as [k f]. unfold normal, repr, val, below, halved. cbn [fst snd].
    intros [[M1 E1] N] [K F] L.
    pose proof (pow2_pos (e + 1074) ltac:(lia)) as PE. set (u := 2 ^ (e + 1074)) in *.
    assert (Hh : emin < e -> u = 2 * 2 ^ (e - 1 + 1074)).
    { intros He. subst u. rewrite <- Z.pow_succ_r by lia. f_equal. lia. }
    assert (PP := pow_P). pose proof (pow2_pos (P - 1) ltac:(lia)) as PQ.
    destruct (Z.le_gt_cases e f) as [C|C].
    - replace (k * 2 ^ (f + 1074)) with (k * 2 ^ (f - e) * u) in *.
      2:{ subst u. replace (f + 1074) with (f - e + (e + 1074)) by lia. rewrite (Z.pow_add_r 2 (f - e)) by lia. ring. }
      assert (k * 2 ^ (f - e) <= m - 1) by nia.
      assert (k * 2 ^ (f - e) * u <= (m - 1) * u) by nia.
      destruct ((m =? 2 ^ (P - 1)) && (emin <? e)) eqn:B; [|assumption].
      rewrite Hh in H0 |- * by lia. pose proof (pow2_pos (e - 1 + 1074) ltac:(lia)). nia.
    - assert (He : emin < e) by lia. specialize (Hh He). assert (2 ^ (P - 1) <= m) by lia.
      pose proof (pow2_pos (e - 1 + 1074) ltac:(lia)) as Ph. set (h := 2 ^ (e - 1 + 1074)) in *.
      assert (UP : k * 2 ^ (f + 1074) <= (2 ^ P - 1) * h).
      { replace (k * 2 ^ (f + 1074)) with (k * 2 ^ (f + 1074)) by ring.
        assert (k * 2 ^ (f + 1074) <= (2 ^ P - 1) * 2 ^ (e - 1 + 1074)); [|assumption].
        apply Z.mul_le_mono_nonneg; try lia. apply Z.pow_le_mono_r; lia. }
      destruct (Z.eqb_spec m (2 ^ (P - 1))) as [B|B]; cbn [andb].
      + replace (emin <? e) with true by lia. rewrite B. lia.
      + rewrite Hh. assert (2 ^ (P - 1) * 2 * h <= (m - 1) * 2 * h) by nia. nia.
  Qed.

  Lemma normal_unique x y : normal x -> normal y -> val x = val y -> val x <> 0 -> x = y.
  Proof.
    intros NX NY E Z0. pose proof NX as [[X1 X2] X3]. pose proof NY as [[Y1 Y2] Y3].
    destruct x as [m e], y as [k f]. unfold val in *. cbn [fst snd] in *.
    assert (PP := pow_P).
    pose proof (pow2_pos (e + 1074) ltac:(lia)) as PE. pose proof (pow2_pos (f + 1074) ltac:(lia)) as PF.
    assert (aux : forall m e k f, 0 <= m < 2 ^ P -> -1074 <= e -> e < f -> 2 ^ (P - 1) <= k -> m * 2 ^ (e + 1074) = k * 2 ^ (f + 1074) -> False).
    { clear - PP P1. intros m e k f M E0 C K E. pose proof (pow2_pos (e + 1074) ltac:(lia)) as PE.
      replace (f + 1074) with (f - e + (e + 1074)) in E by lia. rewrite (Z.pow_add_r 2 (f - e)) in E by lia.
      assert (m = k * 2 ^ (f - e)) by nia.
      assert (2 ^ 1 <= 2 ^ (f - e)) by (apply Z.pow_le_mono_r; lia). change (2 ^ 1) with 2 in *.
      pose proof (pow2_pos (P - 1) ltac:(lia)). nia. }
    assert (e = f).
    { destruct (Z.lt_trichotomy e f) as [C|[C|C]]; [exfalso|exact C|exfalso].
      - apply (aux m e k f); lia.
      - apply (aux k f m e); lia. }
    subst f. f_equal. nia.
  Qed.
End Round.

(** ** rounding through f64: the same, unless the f64 is between two f32s *)
Section Double.
  Variables P emin : Z.
  Hypothesis P1 : 1 <= P <= 51.
  Hypothesis emin0 : -1072 <= emin.
  Let rnd32 := rnd P emin.
  Let rnd64 := rnd 53 (-1074).

  Lemma above_normal x : normal P emin x -> exists z, normal P emin z /\ val z = above x /\
    (snd z <= snd x \/ (fst x + 1 = 2 ^ P /\ snd z = snd x + 1)).
  Proof.
    destruct x as [m e]. unfold normal, repr, val, above. cbn [fst snd]. intros [[M E] N].
    assert (PP := pow_P P ltac:(lia)). pose proof (pow2_pos (P - 1) ltac:(lia)).
    destruct (Z.eq_dec (m + 1) (2 ^ P)) as [C|C].
    - exists (2 ^ (P - 1), e + 1). cbn [fst snd]. split; [lia|]. split; [|lia]. rewrite C, PP.
      replace (e + 1 + 1074) with (Z.succ (e + 1074)) by lia. rewrite Z.pow_succ_r by lia. ring.
    - exists (m + 1, e). cbn [fst snd]. split; [lia|]. split; [reflexivity|lia].
  Qed.
  Lemma above_repr x : normal P emin x -> exists z, repr P emin z /\ val z = above x.
  Proof. intros N. destruct (above_normal x N) as (z & [R _] & V & _). eauto. Qed.
  Lemma below_normal x : normal P emin x -> 0 < fst x -> exists z, normal P emin z /\ val z = below P emin x /\ snd z <= snd x.
  Proof.
    destruct x as [m e]. unfold normal, repr, val, below, halved. cbn [fst snd]. intros [[M E] N] M0.
    assert (PP := pow_P P ltac:(lia)). pose proof (pow2_pos (P - 1) ltac:(lia)).
    destruct ((m =? 2 ^ (P - 1)) && (emin <? e)) eqn:C.
    - exists (2 * m - 1, e - 1). cbn [fst snd]. split; [lia|]. split; [reflexivity|lia].
    - exists (m - 1, e). cbn [fst snd]. split; [lia|]. split; [reflexivity|lia].
  Qed.
  Lemma below_repr x : normal P emin x -> 0 < fst x -> exists z, repr P emin z /\ val z = below P emin x.
  Proof. intros N M. destruct (below_normal x N M) as (z & [R _] & V & _). eauto. Qed.
  Lemma mid_above x : normal P emin x -> exists z, repr 53 (-1074) z /\ 2 * val z = val x + above x.
  Proof.
    destruct x as [m e]. unfold normal, repr, val, above. cbn [fst snd]. intros [[M E] _].
    assert (2 ^ P <= 2 ^ 51) by (apply Z.pow_le_mono_r; lia).
    change (2 ^ 53) with (4 * 2 ^ 51).
    exists (2 * m + 1, e - 1). cbn [fst snd]. split; [lia|].
    replace (e + 1074) with (Z.succ (e - 1 + 1074)) by lia. rewrite Z.pow_succ_r by lia. ring.
  Qed.
  Lemma mid_below x : normal P emin x -> 0 < fst x -> exists z, repr 53 (-1074) z /\ 2 * val z = val x + below P emin x.
  Proof.
    destruct x as [m e]. unfold normal, repr, val, below. cbn [fst snd]. intros [[M E] _] M0.
    assert (2 ^ P <= 2 ^ 51) by (apply Z.pow_le_mono_r; lia).
    change (2 ^ 53) with (4 * 2 ^ 51).
    destruct (halved P emin (m, e)).
    - exists (4 * m - 1, e - 2). cbn [fst snd]. split; [lia|].
      replace (e + 1074) with (Z.succ (e - 1 + 1074)) by lia. rewrite Z.pow_succ_r by lia.
      replace (e - 1 + 1074) with (Z.succ (e - 2 + 1074)) by lia. rewrite Z.pow_succ_r by lia. ring.
    - exists (2 * m - 1, e - 1). cbn [fst snd]. split; [lia|].
      replace (e + 1074) with (Z.succ (e - 1 + 1074)) by lia. rewrite Z.pow_succ_r by lia. ring.
  Qed.
  Lemma above_lt x : normal P emin x -> val x < above x.
  Proof. destruct x as [m e]. unfold normal, repr, val, above. cbn [fst snd]. intros [[M E] _]. pose proof (pow2_pos (e + 1074) ltac:(lia)). nia. Qed.
  Lemma below_lt x : normal P emin x -> below P emin x < val x.
  Proof.
    destruct x as [m e]. unfold normal, repr, val, below. cbn [fst snd]. intros [[M E] _].
    pose proof (pow2_pos (e - 1 + 1074) ltac:(lia)).
    replace (e + 1074) with (Z.succ (e - 1 + 1074)) by lia. rewrite Z.pow_succ_r by lia.
    destruct (halved P emin (m, e)); nia.
  Qed.

  Lemma double_bounds p q x : 0 < p -> 0 < q -> rnd32 p q = x -> 0 < fst x ->
    val x + below P emin x <= 2 * val (rnd64 p q) <= val x + above x.
  Proof.
    intros Hp Hq RX MX. pose proof scale_pos as SP.
    assert (NX : normal P emin x) by (rewrite <- RX; apply rnd_normal; lia).
    set (Y := val (rnd64 p q)) in *.
    pose proof (above_lt x NX) as LA. pose proof (below_lt x NX) as LB.
    split.
    - assert (G2 : (val x + below P emin x) * q <= 2 * (p * scale)).
      { destruct (below_repr x NX MX) as (z & Rz & Vz). pose proof (rnd_near P emin ltac:(lia) ltac:(lia) p q z Hp Hq Rz) as G.
        fold (rnd32 p q) in G. rewrite RX, Vz in G. assert (below P emin x * q < val x * q) by nia.
        replace ((val x + below P emin x) * q) with (val x * q + below P emin x * q) by ring. lia. }
      destruct (mid_below x NX MX) as (z & Rz & Vz). pose proof (rnd_near 53 (-1074) ltac:(lia) ltac:(lia) p q z Hp Hq Rz) as G.
      fold (rnd64 p q) in G. fold Y in G. rewrite <- Vz in G2 |- *.
      destruct (Z.le_gt_cases (2 * val z) (2 * Y)) as [C|C]; [exact C|exfalso].
      assert (Y < val z) by lia. assert (Y * q < val z * q) by nia. replace (2 * val z * q) with (2 * (val z * q)) in G2 by ring. lia.
    - assert (G1 : 2 * (p * scale) <= (val x + above x) * q).
      { destruct (above_repr x NX) as (z & Rz & Vz). pose proof (rnd_near P emin ltac:(lia) ltac:(lia) p q z Hp Hq Rz) as G.
        fold (rnd32 p q) in G. rewrite RX, Vz in G. assert (val x * q < above x * q) by nia.
        replace ((val x + above x) * q) with (val x * q + above x * q) by ring. lia. }
      destruct (mid_above x NX) as (z & Rz & Vz). pose proof (rnd_near 53 (-1074) ltac:(lia) ltac:(lia) p q z Hp Hq Rz) as G.
      fold (rnd64 p q) in G. fold Y in G. rewrite <- Vz in G1 |- *.
      destruct (Z.le_gt_cases (2 * Y) (2 * val z)) as [C|C]; [exact C|exfalso].
      assert (val z < Y) by lia. assert (val z * q < Y * q) by nia. replace (2 * val z * q) with (2 * (val z * q)) in G1 by ring. lia.
  Qed.

  (** a value strictly nearer to x than its neighbours *)
  Lemma rnd_to_frac x p q : normal P emin x -> 0 < fst x -> 0 < p -> 0 < q ->
    (val x + below P emin x) * q < 2 * (p * scale) < (val x + above x) * q -> rnd32 p q = x.
  Proof.
    intros NX MX P0 Q0 [G4 G3].
    pose proof (rnd_normal P emin ltac:(lia) ltac:(lia) p q P0 Q0) as NZ.
    pose proof (rnd_near P emin ltac:(lia) ltac:(lia) p q x P0 Q0 (proj1 NX)) as G5.
    fold (rnd32 p q) in NZ, G5 |- *. set (z := rnd32 p q) in *.
    assert (V0 : 0 < val x).
    { destruct x as [m e]. destruct NX as [[? ?] _]. unfold val. cbn [fst snd] in *. pose proof (pow2_pos (e + 1074) ltac:(lia)). nia. }
    enough (EV : val z = val x) by (apply (normal_unique P emin); [lia|lia|assumption..|lia]).
    rewrite Z.mul_add_distr_r in G3, G4.
    destruct (Z.lt_trichotomy (val z) (val x)) as [C|[C|C]]; [exfalso| |exfalso]; try lia.
    - pose proof (gap_below P emin ltac:(lia) ltac:(lia) x z NX (proj1 NZ) C) as L.
      apply (Zmult_le_compat_r _ _ q) in L; [|lia]. apply (Zmult_lt_compat_r _ _ q Q0) in C. lia.
    - pose proof (gap_above P emin ltac:(lia) ltac:(lia) x z NX (proj1 NZ) C) as L.
      apply (Zmult_le_compat_r _ _ q) in L; [|lia]. apply (Zmult_lt_compat_r _ _ q Q0) in C. lia.
  Qed.
  Lemma rnd_to x Y : normal P emin x -> 0 < fst x -> val x + below P emin x < 2 * Y < val x + above x -> 0 < Y -> rnd32 Y scale = x.
  Proof.
    intros NX MX [G4 G3] Y0. pose proof scale_pos as SP.
    pose proof (rnd_normal P emin ltac:(lia) ltac:(lia) Y scale Y0 SP) as NZ.
    pose proof (rnd_near P emin ltac:(lia) ltac:(lia) Y scale x Y0 SP (proj1 NX)) as G5.
    fold (rnd32 Y scale) in NZ, G5 |- *. set (z := rnd32 Y scale) in *.
    replace (val z * scale - Y * scale) with ((val z - Y) * scale) in G5 by ring.
    replace (val x * scale - Y * scale) with ((val x - Y) * scale) in G5 by ring.
    rewrite !Z.abs_mul, !(Z.abs_eq scale) in G5 by lia. apply Z.mul_le_mono_pos_r in G5; [|exact SP].
    assert (V0 : 0 < val x).
    { destruct x as [m e]. destruct NX as [[? ?] _]. unfold val. cbn [fst snd] in *. pose proof (pow2_pos (e + 1074) ltac:(lia)). nia. }
    enough (EV : val z = val x) by (apply (normal_unique P emin); [lia|lia|assumption..|lia]).
    destruct (Z.lt_trichotomy (val z) (val x)) as [C|[C|C]]; [exfalso| |exfalso]; try lia.
    - pose proof (gap_below P emin ltac:(lia) ltac:(lia) x z NX (proj1 NZ) C). lia.
    - pose proof (gap_above P emin ltac:(lia) ltac:(lia) x z NX (proj1 NZ) C). lia.
  Qed.
End Double.

(** ** f32 *)
Definition g_make (sg : bool) (x : Z * Z) : f32 := if 104 <? snd x then GInf sg else GFin sg (fst x) (snd x).
Definition f_make (sg : bool) (x : Z * Z) : f64 := if 971 <? snd x then FInf sg else FFin sg (fst x) (snd x).
Lemma rne32_rnd sg p q : rne32_pos sg p q = g_make sg (rnd 24 (-149) p q).
Proof. unfold rne32_pos, rnd, g_make. cbv zeta. change (24 - 1) with 23. destruct (div_even _ _ =? 2 ^ 24); reflexivity. Qed.
Lemma rne_rnd sg p q : rne_pos sg p q = f_make sg (rnd 53 (-1074) p q).
Proof. unfold rne_pos, rnd, f_make. cbv zeta. change (53 - 1) with 52. destruct (div_even _ _ =? 2 ^ 53); reflexivity. Qed.

Lemma f32_same_spec a b : f32_same a b = true <-> a = b.
Proof.
  split.
  - destruct a as [sa pa|sa|sa ma ea], b as [sb pb|sb|sb mb eb]; cbn; try discriminate.
    + rewrite andb_true_iff, Bool.eqb_true_iff, N.eqb_eq. intros [-> ->]. reflexivity.
    + rewrite Bool.eqb_true_iff. intros ->. reflexivity.
    + rewrite !andb_true_iff, Bool.eqb_true_iff, !Z.eqb_eq. intros [[-> ->] ->]. reflexivity.
  - intros <-. destruct a; cbn; rewrite ?Bool.eqb_reflx, ?N.eqb_refl, ?Z.eqb_refl; reflexivity.
Qed.

Lemma f32_normal sg m e : f32_wf (GFin sg m e) = true -> normal 24 (-149) (m, e) /\ e <= 104.
Proof. unfold f32_wf, normal, repr. cbn [fst snd]. change (24 - 1) with 23. lia. Qed.

Lemma rnd_exact P emin p q x : 1 <= P -> -1074 <= emin -> 0 < p -> 0 < q -> normal P emin x -> val x * q = p * scale -> rnd P emin p q = x.
Proof.
  intros HP HE Hp Hq NX E. pose proof scale_pos as SP.
  pose proof (rnd_near P emin HP HE p q x Hp Hq (proj1 NX)) as G. rewrite E, Z.sub_diag in G. cbn [Z.abs] in G.
  pose proof (rnd_normal P emin HP HE p q Hp Hq) as NZ.
  assert (val (rnd P emin p q) * q = val x * q) by lia. assert (val (rnd P emin p q) = val x) by nia.
  apply (normal_unique P emin); try assumption. intros Z0. rewrite Z0 in H. nia.
Qed.

Lemma rne32_exact sg p q m e : 0 < q -> f32_wf (GFin sg m e) = true -> 0 < m -> m * 2 ^ (e + 1074) * q = p * scale -> rne32 sg p q = GFin sg m e.
Proof.
  intros Hq W Hm E. destruct (f32_normal sg m e W) as [N E4]. pose proof scale_pos.
  assert (0 < 2 ^ (e + 1074)) by (apply pow2_pos; destruct N as [[_ N] _]; cbn [snd] in N; lia).
  assert (0 < m * 2 ^ (e + 1074) * q) by nia. assert (0 < p) by nia.
  unfold rne32. replace (p =? 0) with false by lia. rewrite rne32_rnd.
  rewrite (rnd_exact 24 (-149) p q (m, e)); try lia; try assumption. unfold g_make. cbn [fst snd]. now replace (104 <? e) with false by lia.
Qed.

Lemma rne32_scale sg p q c : 0 <= p -> 0 < q -> 0 < c -> rne32 sg (p * c) (q * c) = rne32 sg p q.
Proof.
  intros Hp Hq Hc. unfold rne32.
  destruct (Z.eqb_spec p 0) as [->|Np]; [reflexivity|].
  destruct (Z.eqb_spec (p * c) 0); [nia|].
  unfold rne32_pos. rewrite log2_frac_scale by lia. cbv zeta.
  set (e := Z.max (-149) _).
  replace (p * c * 2 ^ Z.max 0 (- e)) with (p * 2 ^ Z.max 0 (- e) * c) by ring.
  replace (q * c * 2 ^ Z.max 0 e) with (q * 2 ^ Z.max 0 e * c) by ring.
  rewrite div_even_scale; [reflexivity| |lia].
  pose proof (pow2_pos (Z.max 0 e) ltac:(lia)). nia.
Qed.

Lemma g_of_dec_10 sg d t : 0 <= d -> g_of_dec sg (d * 10) t = g_of_dec sg d (t + 1).
Proof.
  intros Hd. unfold g_of_dec.
  destruct (Z.leb_spec 0 t) as [H|H].
  - rewrite (Z.max_r 0 t), (Z.max_r 0 (t + 1)), (Z.max_l 0 (- t)), (Z.max_l 0 (- (t + 1))) by lia.
    rewrite Z.pow_add_r by lia. f_equal. change (10 ^ 1) with 10. ring.
  - rewrite (Z.max_l 0 t), (Z.max_l 0 (t + 1)), (Z.max_r 0 (- t)), (Z.max_r 0 (- (t + 1))) by lia.
    rewrite !Z.pow_0_r, !Z.mul_1_r.
    replace (- t) with (- (t + 1) + 1) by lia. rewrite Z.pow_add_r by lia. change (10 ^ 1) with 10.
    apply rne32_scale; first [lia | apply pow10_pos; lia].
Qed.

Lemma g_strip0_value sg n : forall d t, 0 <= d ->
  let '(d', t') := strip0 n d t in 0 <= d' /\ g_of_dec sg d' t' = g_of_dec sg d t.
Proof.
  induction n as [|n IH]; intros d t Hd; cbn [strip0]; [auto|].
  destruct (Z.eqb_spec (d mod 10) 0) as [E|E]; cbn [andb]; [|auto].
  destruct (Z.eqb_spec d 0) as [E0|E0]; cbn [negb andb]; [auto|].
  specialize (IH (d / 10) (t + 1) (Z.div_pos d 10 Hd ltac:(lia))).
  destruct (strip0 n (d / 10) (t + 1)) as [d' t']. destruct IH as [A B]. split; [exact A|].
  rewrite B. rewrite <- g_of_dec_10 by (apply Z.div_pos; lia). f_equal.
  pose proof (Z.div_mod d 10 ltac:(lia)). lia.
Qed.

Lemma g_shortest_value x d t j : 0 <= d ->
  let '(d', t') := g_shortest x d t j in
  0 <= d' /\ (g_of_dec (g_sign x) d' t' = x \/ (d' = d /\ t' = t)).
Proof.
  intros Hd. induction j as [|j IH]; cbn [g_shortest]; [auto|].
  pose proof (pow10_pos (Z.of_nat (S j)) ltac:(lia)) as Hp.
  pose proof (Z.div_pos d _ Hd Hp) as Hq.
  match goal with |- context [if ?c then _ else _] => destruct c eqn:C end.
  - apply andb_true_iff in C as [C _]. apply f32_same_spec in C. split; [exact Hq|left; exact C].
  - match goal with |- context [if ?c then _ else _] => destruct c eqn:C' end.
    + apply f32_same_spec in C'. split; [lia|left; exact C'].
    + exact IH.
Qed.

Lemma g_exact_dec_value sg m e : f32_wf (GFin sg m e) = true -> 0 < m ->
  let '(d, t) := exact_dec m e in 0 < d /\ g_of_dec sg d t = GFin sg m e.
Proof.
  intros W Hm. unfold exact_dec.
  destruct (Z.leb_spec 0 e) as [H|H].
  - pose proof (pow2_pos e H) as Pe. split; [nia|].
    unfold g_of_dec. change (Z.max 0 0) with 0. change (Z.max 0 (-0)) with 0. rewrite Z.pow_0_r, Z.mul_1_r.
    apply rne32_exact; try assumption; [lia|]. rewrite Z.pow_add_r by lia. change (2 ^ 1074) with scale. ring.
  - assert (E2 : -149 <= e) by (unfold f32_wf in W; lia).
    assert (P5 : 0 < 5 ^ (- e)) by (apply Z.pow_pos_nonneg; lia). split; [nia|].
    unfold g_of_dec. rewrite (Z.max_l 0 e), (Z.max_r 0 (- e)) by lia. rewrite Z.pow_0_r, Z.mul_1_r.
    apply rne32_exact; try assumption; [apply pow10_pos; lia|].
    replace scale with (2 ^ (e + 1074) * 2 ^ (- e)) by (unfold scale; rewrite <- Z.pow_add_r by lia; f_equal; lia).
    replace (10 ^ (- e)) with (5 ^ (- e) * 2 ^ (- e)) by (rewrite <- Z.pow_mul_l; reflexivity). ring.
Qed.

(** the digits which are printed *)
Definition g_display_dec (x : f32) : Z * Z :=
  match x with
  | GFin sg m e =>
      let '(d, t) := exact_dec m e in
      let nd := length (dec_of_N (Z.to_N d)) in
      let '(d, t) := g_shortest x d t (nd - 1) in
      strip0 nd d t
  | _ => (0, 0)
  end.
Lemma g_display_dec_value sg m e : f32_wf (GFin sg m e) = true -> 0 < m ->
  let '(d, t) := g_display_dec (GFin sg m e) in 0 < d /\ g_of_dec sg d t = GFin sg m e.
Proof.
  intros Hwf Hm. unfold g_display_dec.
  pose proof (g_exact_dec_value sg m e Hwf Hm) as HE.
  destruct (exact_dec m e) as [D T]. destruct HE as [HD HE].
  set (nd := length (dec_of_N (Z.to_N D))).
  pose proof (g_shortest_value (GFin sg m e) D T (nd - 1) ltac:(lia)) as HS.
  destruct (g_shortest (GFin sg m e) D T (nd - 1)) as [d t]. destruct HS as [Hd HS].
  cbn [g_sign] in HS.
  assert (HV : g_of_dec sg d t = GFin sg m e).
  { destruct HS as [HS|[-> ->]]; assumption. }
  pose proof (g_strip0_value sg nd d t Hd) as HV'.
  destruct (strip0 nd d t) as [d' t']. destruct HV' as [Hd' HV'].
  rewrite HV in HV'. split; [|exact HV'].
  destruct (Z.eq_dec d' 0) as [E|E]; [|lia].
  subst d'. unfold g_of_dec, rne32 in HV'. rewrite Z.mul_0_l in HV'. cbn in HV'.
  injection HV' as <- _. lia.
Qed.
Lemma g_display_fin sg m e : 0 < m ->
  g_display (GFin sg m e) = let '(d, t) := g_display_dec (GFin sg m e) in signed sg (positional d t).
Proof.
  intros Hm. unfold g_display, g_display_dec.
  replace (m =? 0) with false by lia.
  destruct (exact_dec m e) as [D T].
  destruct (g_shortest _ D T _) as [d t]. destruct (strip0 _ d t). reflexivity.
Qed.

(** ** reading a positional text *)
Lemma f_parse_integer sg ds : forallb is_digit ds = true -> ds <> [] -> f_parse (signed sg ds) = Some (f_of_dec sg (Z.of_N (N_of_dec ds)) 0).
Proof.
  intros D NE. unfold f_parse, signed.
  assert (HS : split_sign ((if sg then s "-" else []) ++ ds) = (sg, ds)).
  { destruct sg; [reflexivity|]. unfold split_sign. destruct ds as [|c ds]; [easy|]. cbn [app] in *.
    cbn [forallb] in D. apply andb_true_iff in D as [D _].
    now rewrite !(digit_not c) by (assumption || lia). }
  rewrite HS. clear HS. rewrite take_while_spec_nil by assumption.
  destruct ds as [|c r] eqn:E; [easy|]. cbn [app]. rewrite app_nil_r. reflexivity.
Qed.
Lemma f_parse_positional sg d t : 0 < d -> f_parse (signed sg (positional d t)) = Some (f_of_dec sg d t).
Proof.
  intros Hd. destruct (Z.le_gt_cases 0 t) as [C|C].
  - destruct (positional_int d t Hd C) as (D & NE & V). rewrite f_parse_integer by assumption. rewrite V. f_equal. unfold f_of_dec.
    change (Z.max 0 0) with 0. change (Z.max 0 (-0)) with 0. rewrite (Z.max_r 0 t), (Z.max_l 0 (- t)), !Z.pow_0_r, Z.mul_1_r by lia. reflexivity.
  - destruct (positional_frac d t Hd C) as (ip & fp & E & NE & NE2 & Di & Df & V & L).
    rewrite E, f_parse_digits by assumption. now rewrite V, L, Z.opp_involutive.
Qed.

(** ** from f32 to Number and back *)
Lemma normal_f32 sg m e : normal 24 (-149) (m, e) -> e <= 104 -> f32_wf (GFin sg m e) = true.
Proof. unfold f32_wf, normal, repr. cbn [fst snd]. change (24 - 1) with 23. lia. Qed.
Lemma normal_f64 sg m e : normal 53 (-1074) (m, e) -> e <= 971 -> f64_wf (FFin sg m e) = true.
Proof. unfold f64_wf, normal, repr. cbn [fst snd]. change (53 - 1) with 52. lia. Qed.

Lemma f32_core sg m e p q : f32_wf (GFin sg m e) = true -> 0 < m -> ~ (m = 2 ^ 24 - 1 /\ e = 104) -> 0 < p -> 0 < q ->
  rnd 24 (-149) p q = (m, e) -> let y := f_make sg (rnd 53 (-1074) p q) in
  f64_wf y = true /\ f_is_finite y = true /\ (~ between (GFin sg m e) y -> f64_to_f32 y = GFin sg m e).
Proof.
  intros W Hm MAX P0 Q0 RX y. destruct (f32_normal sg m e W) as [N E4]. pose proof N as [[[M0 M1] E0] _]. cbn [fst snd] in M0, M1, E0.
  destruct (double_bounds 24 (-149) ltac:(lia) ltac:(lia) p q (m, e) P0 Q0 RX ltac:(cbn [fst]; lia)) as [B1 B2].
  pose proof (rnd_normal 53 (-1074) ltac:(lia) ltac:(lia) p q P0 Q0) as NY.
  subst y. destruct (rnd 53 (-1074) p q) as [my ey] eqn:RY. clear RX RY.
  pose proof (pow2_pos (e + 1074) ltac:(lia)) as Pu.
  assert (Y1 : ey <= 971).
  { destruct (Z.le_gt_cases ey 971) as [C|C]; [exact C|exfalso]. destruct NY as [[[_ Y1] Y2] Y3]. cbn [fst snd] in *.
    assert (2 ^ 52 <= my) by (destruct Y3 as [Y3|Y3]; [exact Y3|lia]).
    unfold val, above in B2. cbn [fst snd] in B2.
    assert (2 ^ (e + 1074) <= 2 ^ (ey + 1074)) by (apply Z.pow_le_mono_r; lia).
    set (u := 2 ^ (e + 1074)) in *. set (w := 2 ^ (ey + 1074)) in *.
    assert (2 ^ 52 * u <= my * w) by (apply Z.mul_le_mono_nonneg; lia).
    assert (m * u < 2 ^ 24 * u) by (apply Zmult_lt_compat_r; lia). change (2 ^ 52) with (2 ^ 24 * 2 ^ 28) in *. lia. }
  unfold f_make. cbn [fst snd]. replace (971 <? ey) with false by lia.
  split; [now apply normal_f64|]. split; [reflexivity|]. intros NB.
  assert (BP : 0 <= below 24 (-149) (m, e)).
  { unfold below. cbn [fst snd]. destruct (halved 24 (-149) (m, e)) eqn:H.
    - unfold halved in H. cbn [fst snd] in H. apply Z.mul_nonneg_nonneg; [lia|]. apply Z.pow_nonneg. lia.
    - apply Z.mul_nonneg_nonneg; lia. }
  assert (X0 : 0 < val (m, e)) by (unfold val; cbn [fst snd]; nia).
  assert (TA : 2 * val (my, ey) <> val (m, e) + above (m, e)).
  { intros T. destruct (above_normal 24 (-149) ltac:(lia) ltac:(lia) (m, e) N) as ([k f] & NZ & VZ & KB). cbn [fst snd] in KB.
    pose proof (above_lt 24 (-149) ltac:(lia) ltac:(lia) (m, e) N) as L.
    apply NB. exists (GFin sg k f). split; [apply normal_f32; [exact NZ|lia]|]. split; [reflexivity|].
    unfold val in *. cbn [gval fval fst snd] in *. rewrite VZ. destruct sg; lia. }
  assert (TB : 2 * val (my, ey) <> val (m, e) + below 24 (-149) (m, e)).
  { intros T. destruct (below_normal 24 (-149) ltac:(lia) (m, e) N Hm) as ([k f] & NZ & VZ & KB). cbn [fst snd] in KB.
    pose proof (below_lt 24 (-149) ltac:(lia) ltac:(lia) (m, e) N) as L.
    apply NB. exists (GFin sg k f). split; [apply normal_f32; [exact NZ|lia]|]. split; [reflexivity|].
    unfold val in *. cbn [gval fval fst snd] in *. rewrite VZ. destruct sg; lia. }
  unfold f64_to_f32, rne32. change (my * 2 ^ (ey + 1074)) with (val (my, ey)). replace (val (my, ey) =? 0) with false by lia.
  rewrite rne32_rnd, (rnd_to 24 (-149) ltac:(lia) ltac:(lia) (m, e)); try assumption; [|lia|lia].
  unfold g_make. cbn [fst snd]. now replace (104 <? e) with false by lia.
Qed.

Lemma f32_there_and_back x : f32_wf x = true -> g_is_finite x = true -> exists y, f32_to_f64 x = Ret y /\ f64_wf y = true /\ f_is_finite y = true /\
  (~ between x y -> f64_to_f32 y = x).
Proof.
  destruct x as [| |sg m e]; try discriminate. intros W _. destruct (f32_normal sg m e W) as [N E4].
  pose proof N as [[[M0 M1] E0] _]. cbn [fst snd] in M0, M1, E0.
  destruct (Z.eq_dec m 0) as [->|Nm].
  { assert (e = -149) by (unfold f32_wf in W; lia). subst e.
    exists (FFin sg 0 (-1074)). destruct sg; repeat split; intros; vm_compute; reflexivity. }
  assert (MAX : m = 2 ^ 24 - 1 /\ e = 104 \/ ~ (m = 2 ^ 24 - 1 /\ e = 104)) by lia.
  destruct MAX as [[-> ->]|MAX].
  { destruct sg; eexists; (split; [vm_compute; reflexivity|]); (split; [reflexivity|]); (split; [reflexivity|]); intros _; vm_compute; reflexivity. }
  pose proof (g_display_dec_value sg m e W ltac:(lia)) as V.
  assert (D := g_display_fin sg m e ltac:(lia)). destruct (g_display_dec (GFin sg m e)) as [d t]. destruct V as [Hd V].
  unfold f32_to_f64. rewrite D, f_parse_positional by exact Hd. unfold g_of_dec, f_of_dec in *.
  pose proof (pow10_pos (Z.max 0 t) ltac:(lia)) as P1. pose proof (pow10_pos (Z.max 0 (- t)) ltac:(lia)) as Q0.
  set (p := d * 10 ^ Z.max 0 t) in *. set (q := 10 ^ Z.max 0 (- t)) in *.
  assert (P0 : 0 < p) by (subst p; nia). clearbody p q. clear D P1.
  unfold rne32, rne in *. replace (p =? 0) with false in * by lia. rewrite rne32_rnd in V. rewrite rne_rnd.
  assert (RX : rnd 24 (-149) p q = (m, e)) by
    (unfold g_make in V; destruct (104 <? snd (rnd 24 (-149) p q)); [discriminate|]; destruct (rnd 24 (-149) p q); injection V as -> ->; reflexivity).
  eexists. split; [reflexivity|]. apply f32_core; assumption || lia.
Qed.
Lemma f32_inf sg : f32_to_f64 (GInf sg) = Ret (FInf sg) /\ f64_to_f32 (FInf sg) = GInf sg.
Proof. destruct sg; split; reflexivity. Qed.
Lemma f32_nan sg p : exists q r, f32_to_f64 (GNaN sg p) = Ret (FNaN false q) /\ f64_to_f32 (FNaN false q) = GNaN false r.
Proof. do 2 eexists. split; [vm_compute; reflexivity|]. vm_compute. reflexivity. Qed.

Lemma f32_number x : f32_wf x = true -> exists y, f32_to_f64 x = Ret y /\ f64_wf y = true.
Proof.
  intros W. destruct x as [sg p|sg|sg m e].
  - eexists. split; reflexivity.
  - destruct sg; eexists; split; reflexivity.
  - destruct (f32_there_and_back _ W eq_refl) as (y & F & Y & _). eauto.
Qed.

Lemma f32_back x y : f32_wf x = true -> f32_kept x -> f32_to_f64 x = Ret y -> f64_to_f32 y = x.
Proof.
  intros W K F. destruct x as [sg p|sg|sg m e]; [destruct K|destruct (f32_inf sg) as [I1 I2]; rewrite I1 in F; injection F as <-; exact I2|].
  destruct (f32_there_and_back _ W eq_refl) as (y' & F' & _ & _ & B). rewrite F in F'. injection F' as <-. apply B. now apply K.
Qed.
