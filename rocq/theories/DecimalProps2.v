(** Proofs for C56: the printed digits are the fewest which read back, and the
    nearest of those. *)
From Verif Require Import Base F64 Number NumberSpec BaseProps F64Props NumberProps NumberProps2 NumberProps3 F64Text F32 F32Props DecimalSpec DecimalProps.
Open Scope Z_scope.

Lemma pow10_add a b : 0 <= a -> 0 <= b -> 10 ^ (a + b) = 10 ^ a * 10 ^ b.
Proof. intros. now apply Z.pow_add_r. Qed.

(** reading with any denominator 10^K *)
Lemma f_of_dec_K sg d t K : 0 <= d -> 0 <= K -> 0 <= t + K -> f_of_dec sg d t = rne sg (d * 10 ^ (t + K)) (10 ^ K).
Proof.
  intros Hd HK Ht. unfold f_of_dec. destruct (Z.le_gt_cases 0 t) as [C|C].
  - rewrite (Z.max_r 0 t), (Z.max_l 0 (- t)) by lia. rewrite pow10_add by lia. rewrite Z.pow_0_r, Z.mul_assoc.
    rewrite <- (Z.mul_1_l (10 ^ K)) at 2. symmetry. apply rne_scale; [|lia|apply pow10_pos; lia].
    pose proof (pow10_pos t C). nia.
  - rewrite (Z.max_l 0 t), (Z.max_r 0 (- t)) by lia. rewrite Z.pow_0_r, Z.mul_1_r.
    replace (10 ^ K) with (10 ^ (- t) * 10 ^ (t + K)) by (rewrite <- pow10_add by lia; f_equal; lia).
    symmetry. apply rne_scale; [lia|apply pow10_pos; lia..].
Qed.

(** what lies between two numbers which round to the same rounds to it *)
Lemma rne_between sg m e p1 p2 p3 q : 0 < p1 -> 0 < q -> p1 <= p2 -> p2 <= p3 -> 0 < m ->
  rne sg p1 q = FFin sg m e -> rne sg p3 q = FFin sg m e -> rne sg p2 q = FFin sg m e.
Proof.
  intros H1 Hq L1 L2 Hm. unfold rne.
  replace (p1 =? 0) with false by lia. replace (p2 =? 0) with false by lia. replace (p3 =? 0) with false by lia.
  rewrite !rne_rnd. unfold f_make.
  destruct (971 <? snd (rnd 53 (-1074) p1 q)) eqn:O1; [discriminate|]. destruct (971 <? snd (rnd 53 (-1074) p3 q)) eqn:O3; [discriminate|].
  intros [= A1 B1] [= A3 B3].
  assert (E1 : rnd 53 (-1074) p1 q = (m, e)) by (rewrite <- A1, <- B1; now destruct (rnd 53 (-1074) p1 q)).
  assert (E3 : rnd 53 (-1074) p3 q = (m, e)) by (rewrite <- A3, <- B3; now destruct (rnd 53 (-1074) p3 q)).
  assert (E2 : rnd 53 (-1074) p2 q = (m, e)).
  { destruct (Z.eq_dec p1 p2) as [<-|N1]; [exact E1|]. destruct (Z.eq_dec p2 p3) as [->|N2]; [exact E3|].
    assert (Hp2 : 0 < p2) by lia. assert (Hp3 : 0 < p3) by lia.
    assert (G1 : val (rnd 53 (-1074) p1 q) <= val (rnd 53 (-1074) p2 q)).
    { apply rnd_mono; try assumption; try lia. apply Zmult_lt_compat_r; lia. }
    assert (G2 : val (rnd 53 (-1074) p2 q) <= val (rnd 53 (-1074) p3 q)).
    { apply rnd_mono; try assumption; try lia. apply Zmult_lt_compat_r; lia. }
    rewrite E1 in G1. rewrite E3 in G2.
    pose proof (rnd_normal 53 (-1074) ltac:(lia) ltac:(lia) p1 q H1 Hq) as NM. rewrite E1 in NM.
    apply (normal_unique 53 (-1074)); try lia; [now apply rnd_normal|exact NM|].
    destruct NM as [[_ NE] _]. cbn [snd] in NE. unfold val in G1 |- *. cbn [fst snd] in *. pose proof (pow2_pos (e + 1074) ltac:(lia)).
    assert (0 < m * 2 ^ (e + 1074)) by (apply Z.mul_pos_pos; lia). lia. }
  rewrite E2. cbn [fst snd]. rewrite <- B1. now rewrite O1.
Qed.

(** ** the search *)
Section Shortest.
  Variables (sg : bool) (m e d t : Z).
  Let x := FFin sg m e.
  Hypothesis Hm : 0 < m.
  Hypothesis Hd : 0 < d.
  Hypothesis Hx : f_of_dec sg d t = x.
  Let lo (j : Z) : Z := d / 10 ^ j.
  Let low (j : Z) : Prop := f_of_dec sg (lo j) (t + j) = x.
  Let high (j : Z) : Prop := f_of_dec sg (lo j + 1) (t + j) = x.

  Lemma shortest_found j0 : let '(d', t') := shortest x d t j0 in exists j, 0 <= j <= Z.of_nat j0 /\ t' = t + j /\
    (forall i, j < i <= Z.of_nat j0 -> ~ low i /\ ~ high i) /\
    ((j = 0 /\ d' = d) \/
     (0 < j /\ d' = lo j /\ (high j -> d - lo j * 10 ^ j < (lo j + 1) * 10 ^ j - d)) \/
     (0 < j /\ d' = lo j + 1 /\ (low j -> (lo j + 1) * 10 ^ j - d <= d - lo j * 10 ^ j))).
  Proof.
    induction j0 as [|j0 IH]; cbn [shortest].
    - exists 0. split; [lia|]. split; [lia|]. split; [intros; lia|]. left. auto.
    - set (jz := Z.of_nat (S j0)). cbn [f_sign x]. change (f_sign x) with sg. fold (lo jz). cbv zeta.
      destruct (f64_same (f_of_dec sg (lo jz) (t + jz)) x) eqn:L, (f64_same (f_of_dec sg (lo jz + 1) (t + jz)) x) eqn:H; cbn [andb negb orb].
      + apply f64_same_spec in L, H. destruct (Z.ltb_spec (d - lo jz * 10 ^ jz) ((lo jz + 1) * 10 ^ jz - d)) as [C|C].
        * exists jz. split; [lia|]. split; [lia|]. split; [intros; lia|]. right. left. split; [lia|]. auto.
        * exists jz. split; [lia|]. split; [lia|]. split; [intros; lia|]. right. right. split; [lia|]. auto.
      + apply f64_same_spec in L. exists jz. split; [lia|]. split; [lia|]. split; [intros; lia|]. right. left. split; [lia|]. split; [reflexivity|].
        intros HH. exfalso. unfold high in HH. apply f64_same_spec in HH. congruence.
      + apply f64_same_spec in H. exists jz. split; [lia|]. split; [lia|]. split; [intros; lia|]. right. right. split; [lia|]. split; [reflexivity|].
        intros HH. exfalso. unfold low in HH. apply f64_same_spec in HH. congruence.
      + destruct (shortest x d t j0) as [d' t']. destruct IH as (j & B & T & NF & R). exists j. split; [lia|]. split; [exact T|]. split; [|exact R].
        intros i Hi. destruct (Z.eq_dec i jz) as [->|N]; [|apply NF; lia].
        unfold low, high. split; intros HH; apply f64_same_spec in HH; congruence.
  Qed.

  Variable nd : Z.
  Hypothesis Hnd : 1 <= nd.
  Hypothesis Dlo : 10 ^ (nd - 1) <= d.
  Hypothesis Dhi : d < 10 ^ nd.

  Lemma lo_bounds j : 0 <= j <= nd - 1 -> 10 ^ (nd - 1 - j) <= lo j < 10 ^ (nd - j) /\ lo j * 10 ^ j <= d < (lo j + 1) * 10 ^ j.
  Proof.
    intros Hj. pose proof (pow10_pos j ltac:(lia)) as P. unfold lo.
    pose proof (Z.div_mod d (10 ^ j) ltac:(lia)) as DM. pose proof (Z.mod_pos_bound d (10 ^ j) P) as MB.
    assert (E1 : 10 ^ (nd - 1) = 10 ^ (nd - 1 - j) * 10 ^ j) by (rewrite <- pow10_add by lia; f_equal; lia).
    assert (E2 : 10 ^ nd = 10 ^ (nd - j) * 10 ^ j) by (rewrite <- pow10_add by lia; f_equal; lia).
    split; [split|].
    - apply Z.div_le_lower_bound; [exact P|]. lia.
    - apply Z.div_lt_upper_bound; [exact P|]. lia.
    - split; [rewrite Z.mul_comm; lia|]. rewrite Z.mul_add_distr_r. lia.
  Qed.

  (** a decimal of at most nd - j digits is not strictly between the two candidates *)
  Lemma outside D T j K : 0 < D < 10 ^ (nd - j) -> 0 <= j <= nd - 1 -> 0 <= T + K -> 0 <= t + K ->
    D * 10 ^ (T + K) <= lo j * 10 ^ (t + j + K) \/ (lo j + 1) * 10 ^ (t + j + K) <= D * 10 ^ (T + K).
  Proof.
    intros HD Hj HT Ht. destruct (lo_bounds j Hj) as [[L1 _] _].
    destruct (Z.le_gt_cases (t + j) T) as [C|C].
    - assert (E : D * 10 ^ (T + K) = D * 10 ^ (T - t - j) * 10 ^ (t + j + K)).
      { rewrite <- Z.mul_assoc, <- pow10_add by lia. do 2 f_equal. lia. }
      rewrite E. pose proof (pow10_pos (t + j + K) ltac:(lia)) as P. set (c := D * 10 ^ (T - t - j)).
      destruct (Z.le_gt_cases c (lo j)) as [F|F]; [left|right]; apply Zmult_le_compat_r; lia.
    - left. transitivity (10 ^ (nd - j) * 10 ^ (t + j - 1 + K)).
      + apply Z.mul_le_mono_nonneg; try lia. apply Z.pow_le_mono_r; lia.
      + replace (10 ^ (nd - j) * 10 ^ (t + j - 1 + K)) with (10 ^ (nd - 1 - j) * 10 ^ (t + j + K)).
        2:{ rewrite <- !pow10_add by lia. f_equal. lia. }
        apply Zmult_le_compat_r; [exact L1|]. apply Z.pow_nonneg. lia.
  Qed.

  Lemma scaled a j K : 0 <= j -> 0 <= t + K -> a * 10 ^ (t + j + K) = a * 10 ^ j * 10 ^ (t + K).
  Proof. intros. rewrite <- Z.mul_assoc, <- pow10_add by lia. do 2 f_equal. lia. Qed.

  (** if it reads as x, so does the candidate on its side *)
  Lemma candidate D T j : 0 < D < 10 ^ (nd - j) -> 0 <= j <= nd - 1 -> f_of_dec sg D T = x ->
    forall K, 0 <= K -> 0 <= T + K -> 0 <= t + K ->
    (low j /\ D * 10 ^ (T + K) <= lo j * 10 ^ (t + j + K)) \/ (high j /\ (lo j + 1) * 10 ^ (t + j + K) <= D * 10 ^ (T + K)).
  Proof.
    intros HD Hj HR K HK HT Ht. destruct (lo_bounds j Hj) as [[L1 _] [L2 L3]].
    pose proof (pow10_pos (nd - 1 - j) ltac:(lia)) as PL.
    pose proof (pow10_pos K HK) as PK. pose proof (pow10_pos (t + K) Ht) as PT. pose proof (pow10_pos (T + K) HT) as PTK.
    pose proof (pow10_pos (t + j + K) ltac:(lia)) as PJ.
    rewrite (f_of_dec_K sg D T K) in HR by lia. pose proof Hx as HX. rewrite (f_of_dec_K sg d t K) in HX by lia.
    destruct (outside D T j K HD Hj HT Ht) as [C|C]; [left|right]; (split; [|exact C]).
    - unfold low. rewrite (f_of_dec_K sg (lo j) (t + j) K) by lia.
      apply (rne_between sg m e (D * 10 ^ (T + K)) _ (d * 10 ^ (t + K))); auto.
      + apply Z.mul_pos_pos; lia.
      + rewrite (scaled (lo j) j K) by lia. apply Zmult_le_compat_r; lia.
    - unfold high. rewrite (f_of_dec_K sg (lo j + 1) (t + j) K) by lia.
      apply (rne_between sg m e (d * 10 ^ (t + K)) _ (D * 10 ^ (T + K))); auto.
      + apply Z.mul_pos_pos; lia.
      + rewrite (scaled (lo j + 1) j K) by lia. apply Zmult_le_compat_r; lia.
  Qed.

  Lemma shortest_fits d' t' : shortest x d t (Z.to_nat (nd - 1)) = (d', t') ->
    exists w, (1 <= w)%nat /\ fits d' w /\ t <= t' /\
      (forall D T n, 0 < D < 10 ^ Z.of_nat n -> f_of_dec sg D T = x -> (w <= n)%nat) /\
      (forall D T, 0 < D < 10 ^ Z.of_nat w -> f_of_dec sg D T = x -> forall K, 0 <= K -> 0 <= T + K -> 0 <= t + K ->
         Z.abs (d' * 10 ^ (t' + K) - d * 10 ^ (t + K)) <= Z.abs (D * 10 ^ (T + K) - d * 10 ^ (t + K))).
  Proof.
    intros ES. pose proof (shortest_found (Z.to_nat (nd - 1))) as F. rewrite ES in F. rewrite Z2Nat.id in F by lia.
    destruct F as (j & Bj & -> & NF & R). destruct (lo_bounds j Bj) as [[L1 L2] [L3 L4]].
    pose proof (pow10_pos (nd - 1 - j) ltac:(lia)) as PL.
    exists (Z.to_nat (nd - j)). split; [lia|]. rewrite Z2Nat.id by lia. split; [|split; [lia|split]].
    - unfold fits. rewrite Z2Nat.id by lia. destruct R as [[-> ->]|[(_ & -> & _)|(_ & -> & _)]].
      + exists d, 0. rewrite Z.pow_0_r, Z.sub_0_r. lia.
      + exists (lo j), 0. rewrite Z.pow_0_r. lia.
      + destruct (Z.eq_dec (lo j + 1) (10 ^ (nd - j))) as [E|N].
        * exists 1, (nd - j). rewrite Z.mul_1_l. split; [exact E|]. split; [lia|]. split; [lia|]. apply (Z.lt_le_trans _ (10 ^ 1)); [lia|]. apply Z.pow_le_mono_r; lia.
        * exists (lo j + 1), 0. rewrite Z.pow_0_r. lia.
    - intros D T n HD HR. destruct (Z.le_gt_cases (nd - j) (Z.of_nat n)) as [C|C]; [lia|exfalso].
      assert (1 <= Z.of_nat n). { destruct n; [change (10 ^ Z.of_nat 0) with 1 in HD; lia|lia]. }
      set (i := nd - Z.of_nat n). assert (Hi : j < i <= nd - 1) by lia. destruct (NF i Hi) as [N1 N2].
      destruct (candidate D T i ltac:(subst i; replace (nd - (nd - Z.of_nat n)) with (Z.of_nat n) by lia; exact HD) ltac:(lia) HR (Z.abs T + Z.abs t) ltac:(lia) ltac:(lia) ltac:(lia)) as [[A _]|[A _]]; auto.
    - intros D T HD HR K HK HT Ht.
      pose proof (pow10_pos (t + K) Ht) as PT.
      destruct R as [[-> ->]|R].
      { rewrite Z.add_0_r, Z.sub_diag. cbn [Z.abs]. lia. }
      assert (B1 : lo j * 10 ^ (t + j + K) <= d * 10 ^ (t + K)) by (rewrite scaled by lia; apply Zmult_le_compat_r; lia).
      assert (B2 : d * 10 ^ (t + K) <= (lo j + 1) * 10 ^ (t + j + K)) by (rewrite scaled by lia; apply Zmult_le_compat_r; lia).
      assert (LE : (high j -> d - lo j * 10 ^ j < (lo j + 1) * 10 ^ j - d) -> high j ->
                   d * 10 ^ (t + K) - lo j * 10 ^ (t + j + K) <= (lo j + 1) * 10 ^ (t + j + K) - d * 10 ^ (t + K)).
      { intros H1 H2. specialize (H1 H2). rewrite !scaled by lia. rewrite <- !Z.mul_sub_distr_r. apply Zmult_le_compat_r; lia. }
      assert (GE : (low j -> (lo j + 1) * 10 ^ j - d <= d - lo j * 10 ^ j) -> low j ->
                   (lo j + 1) * 10 ^ (t + j + K) - d * 10 ^ (t + K) <= d * 10 ^ (t + K) - lo j * 10 ^ (t + j + K)).
      { intros H1 H2. specialize (H1 H2). rewrite !scaled by lia. rewrite <- !Z.mul_sub_distr_r. apply Zmult_le_compat_r; lia. }
      destruct (candidate D T j HD Bj HR K HK HT Ht) as [[A B]|[A B]], R as [(_ & -> & R)|(_ & -> & R)].
      + lia.
      + specialize (GE R A). lia.
      + specialize (LE R A). lia.
      + lia.
  Qed.
End Shortest.

Lemma strip0_spec n : forall d t, 0 < d -> let '(d', t') := strip0 n d t in exists z, 0 <= z /\ d = d' * 10 ^ z /\ t' = t + z /\ 0 < d'.
Proof.
  induction n as [|n IH]; intros d t Hd; cbn [strip0].
  { exists 0. rewrite Z.pow_0_r. lia. }
  destruct (Z.eqb_spec (d mod 10) 0) as [E|E]; cbn [andb]; [|exists 0; rewrite Z.pow_0_r; lia].
  replace (d =? 0) with false by lia. cbn [negb andb].
  pose proof (Z.div_mod d 10 ltac:(lia)) as DM. specialize (IH (d / 10) (t + 1) ltac:(lia)).
  destruct (strip0 n (d / 10) (t + 1)) as [d' t']. destruct IH as (z & Hz & E1 & E2 & E3).
  exists (z + 1). split; [lia|]. split; [|split; [lia|exact E3]]. rewrite pow10_add by lia. change (10 ^ 1) with 10. rewrite E, E1 in DM. lia.
Qed.

Lemma fits_mul d z k : 0 <= z -> fits d k -> fits (d * 10 ^ z) k.
Proof.
  intros Hz (D & a & -> & Ha & HD). exists D, (a + z). split; [|split; [lia|exact HD]]. rewrite pow10_add by lia. ring.
Qed.
Lemma fits_strip d z k : 0 <= z -> fits (d * 10 ^ z) k -> fits d k.
Proof.
  intros Hz (D & a & E & Ha & HD). pose proof (pow10_pos z Hz) as PZ.
  destruct (Z.le_gt_cases z a) as [C|C].
  - exists D, (a - z). split; [|split; [lia|exact HD]]. apply (Z.mul_reg_r _ _ (10 ^ z)); [lia|].
    rewrite E, <- Z.mul_assoc, <- pow10_add by lia. do 2 f_equal. lia.
  - exists d, 0. rewrite Z.pow_0_r. split; [lia|]. split; [lia|].
    pose proof (pow10_pos a Ha) as PA. pose proof (pow10_pos (z - a) ltac:(lia)) as PD.
    assert (E2 : d * 10 ^ (z - a) = D).
    { apply (Z.mul_reg_r _ _ (10 ^ a)); [lia|]. rewrite <- E, <- Z.mul_assoc, <- pow10_add by lia. do 2 f_equal. lia. }
    nia.
Qed.
Lemma fits_mono d k k' : (k <= k')%nat -> fits d k -> fits d k'.
Proof.
  intros L (D & a & E & Ha & HD). exists D, a. split; [exact E|]. split; [exact Ha|].
  assert (10 ^ Z.of_nat k <= 10 ^ Z.of_nat k') by (apply Z.pow_le_mono_r; lia). lia.
Qed.

Lemma exact_dec_fval sg m e d t : f64_wf (FFin sg m e) = true -> exact_dec m e = (d, t) ->
  t <= 0 /\ forall K, 0 <= K -> 0 <= t + K -> d * 10 ^ (t + K) * scale = Z.abs (fval (FFin sg m e)) * 10 ^ K.
Proof.
  intros W E. destruct (f64_repr _ _ _ _ eq_refl W) as [[[M0 _] E0] ->]. unfold val. cbn [fst snd] in *.
  unfold exact_dec in E. destruct (Z.leb_spec 0 e) as [C|C]; injection E as <- <-; (split; [lia|]); intros K HK HT; unfold scale.
  - rewrite Z.add_0_l, (Z.pow_add_r 2 e 1074) by lia. ring.
  - replace (10 ^ K) with (10 ^ (e + K) * (5 ^ (- e) * 2 ^ (- e))).
    2:{ rewrite <- Z.pow_mul_l. change (5 * 2) with 10. rewrite <- pow10_add by lia. f_equal. lia. }
    replace (2 ^ 1074) with (2 ^ (e + 1074) * 2 ^ (- e)) by (rewrite <- Z.pow_add_r by lia; f_equal; lia). ring.
Qed.

Lemma dec_len d : 0 < d -> let n := Z.of_nat (length (dec_of_N (Z.to_N d))) in 1 <= n /\ 10 ^ (n - 1) <= d < 10 ^ n.
Proof.
  intros Hd n. destruct (dec_of_N_spec (Z.to_N d)) as (V & D & NE & LB).
  assert (N1 : 1 <= n). { subst n. destruct (dec_of_N (Z.to_N d)); [congruence|cbn [length]; lia]. }
  split; [exact N1|]. split.
  - specialize (LB ltac:(lia)). apply N2Z.inj_le in LB. rewrite N_Z_pow10, Z2N.id in LB by lia. subst n.
    replace (Z.of_nat (length (dec_of_N (Z.to_N d))) - 1) with (Z.of_N (N.of_nat (length (dec_of_N (Z.to_N d))) - 1)) by lia. exact LB.
  - destruct (Z.lt_ge_cases d (10 ^ n)) as [C|C]; [exact C|exfalso]. pose proof (digits_count d n Hd ltac:(lia) C). lia.
Qed.

Lemma sign_text_signed sg : sign_text sg (if sg then s "-" else []).
Proof. destruct sg; [left|right]; auto. Qed.

Lemma read_dec w sg M T x : decimal w sg M T -> num_from_str w = Some (Float x) -> f_of_dec sg M T = x.
Proof.
  intros D R. destruct (int_text w) eqn:I.
  - exfalso. rewrite from_str_int_text in R by exact I. destruct (has_digit w); [|discriminate].
    destruct w as [|c r]; [discriminate|]. destruct (c =? 45)%N; destruct (_ <=? _); discriminate.
  - rewrite from_str_float, (decimal_parse _ _ _ _ D) in R by exact I. now injection R.
Qed.

Lemma abs_scale a b c : 0 < c -> Z.abs (a * c) <= Z.abs (b * c) -> Z.abs a <= Z.abs b.
Proof. intros H. rewrite !Z.abs_mul, (Z.abs_eq c) by lia. apply Z.mul_le_mono_pos_r. exact H. Qed.

Lemma display_shortest x : f64_wf x = true -> f_is_finite x = true -> fval x <> 0 ->
  exists d t, decimal (num_display (Float x)) (f_sign x) d t /\
    forall w sg M T, decimal w sg M T -> num_from_str w = Some (Float x) ->
      (forall k, fits M k -> fits d k) /\ ((forall k, fits d k -> fits M k) -> nearer x d t M T).
Proof.
  intros W F NZ. destruct x as [| |sg m e]; try discriminate. cbn [f_sign num_display].
  assert (Hm : 0 < m).
  { destruct (Z.eq_dec m 0) as [->|N]; [exfalso; apply NZ; cbn; destruct sg; reflexivity|]. cbn [f64_wf] in W. clear - W N. lia. }
  clear NZ F. rewrite f_display_fin by exact Hm.
  pose proof (display_dec_value sg m e W Hm) as HV. unfold display_dec in *.
  pose proof (exact_dec_value sg m e W Hm) as HE. destruct (exact_dec m e) as [d0 t0] eqn:EE. destruct HE as [D0 HE].
  destruct (exact_dec_fval sg m e d0 t0 W EE) as [T0 FV].
  destruct (dec_len d0 D0) as (N1 & N2 & N3). set (nd := length (dec_of_N (Z.to_N d0))) in *. set (x := FFin sg m e) in *.
  destruct (shortest x d0 t0 (nd - 1)) as [d' t'] eqn:ES.
  assert (ES' : shortest x d0 t0 (Z.to_nat (Z.of_nat nd - 1)) = (d', t')) by (replace (Z.to_nat (Z.of_nat nd - 1)) with (nd - 1)%nat by lia; exact ES).
  destruct (shortest_fits sg m e d0 t0 Hm D0 HE (Z.of_nat nd) N1 N2 N3 d' t' ES') as (w & W1 & FW & TT & MIN & NEAR).
  assert (D'0 : 0 < d').
  { pose proof (shortest_value x d0 t0 (nd - 1) ltac:(lia)) as SV. rewrite ES in SV. destruct SV as [SV0 SV]. cbn [f_sign x] in SV. change (f_sign x) with sg in SV.
    destruct (Z.eq_dec d' 0) as [->|N]; [|lia]. exfalso. destruct SV as [SV|[SV _]]; [|lia].
    unfold f_of_dec, rne in SV. rewrite Z.mul_0_l in SV. cbn [Z.eqb] in SV. injection SV as SV _. lia. }
  pose proof (strip0_spec nd d' t' D'0) as SZ. destruct (strip0 nd d' t') as [d t]. destruct SZ as (z & Z0 & Ed & Et & Hd). destruct HV as [_ _].
  assert (KEY : exists dd tt, decimal (signed sg (positional d t)) sg dd tt /\ (exists y, 0 <= y /\ dd = d * 10 ^ y /\ tt = t - y)).
  { destruct (Z.le_gt_cases 0 t) as [C|C].
    - destruct (positional_int d t Hd C) as (PD & PN & PV). exists (d * 10 ^ t), 0. split; [|exists t; lia].
      assert (DG := proj2 (digits_spec _) PD). rewrite <- PV, <- (spells_digits _ DG).
      pose proof (Decimal _ sg (positional d t) [] [] [] 0 (sign_text_signed sg) DG (or_introl (conj eq_refl eq_refl)) (Forall_nil _)) as G.
      rewrite !app_nil_r in G. cbn [length] in G. exact (G PN NoExponent).
    - destruct (positional_frac d t Hd C) as (ip & fp & EP & I1 & I2 & DI & DF & PV & LF). exists d, t. split; [|exists 0; rewrite Z.pow_0_r; lia].
      assert (GI := proj2 (digits_spec _) DI). assert (GF := proj2 (digits_spec _) DF).
      rewrite EP. rewrite <- PV, <- (spells_digits (ip ++ fp)) by (apply Forall_app; auto).
      pose proof (Decimal _ sg ip (ch "." :: fp) fp [] 0 (sign_text_signed sg) GI (or_intror eq_refl) GF) as G.
      assert (NE : ip ++ fp <> []) by (destruct ip; [congruence|discriminate]). specialize (G NE NoExponent).
      replace (0 - Z.of_nat (length fp)) with t in G by lia. rewrite app_nil_r in G. exact G. }
  destruct KEY as (dd & tt & DEC & y & Y0 & -> & ->). exists (d * 10 ^ y), (t - y). split; [exact DEC|].
  intros txt sg' M T DM RM. pose proof (read_dec _ _ _ _ _ DM RM) as RD.
  assert (M0 : 0 < M).
  { pose proof (decimal_nonneg _ _ _ _ DM). destruct (Z.eq_dec M 0) as [->|N]; [|lia]. exfalso.
    unfold f_of_dec, rne in RD. rewrite Z.mul_0_l in RD. cbn [Z.eqb] in RD. injection RD as _ RD _. lia. }
  assert (sg' = sg) as ->.
  { unfold f_of_dec, rne in RD. destruct (_ =? 0); [now injection RD|]. unfold rne_pos in RD. destruct (if div_even _ _ =? 2 ^ 53 then _ else _) as [m1 e1] in RD.
    destruct (971 <? e1); [discriminate|]. now injection RD. }
  assert (SPLIT : forall k, fits M k -> exists D a, M = D * 10 ^ a /\ 0 <= a /\ 0 < D < 10 ^ Z.of_nat k /\ f_of_dec sg D (T + a) = x).
  { intros k (D & a & -> & Ha & HD). exists D, a. split; [reflexivity|]. split; [exact Ha|]. split; [|].
    - pose proof (pow10_pos a Ha). nia.
    - rewrite <- RD. set (K := Z.abs T). rewrite (f_of_dec_K sg D (T + a) K), (f_of_dec_K sg (D * 10 ^ a) T K) by lia.
      f_equal. rewrite <- Z.mul_assoc, <- pow10_add by lia. do 2 f_equal. lia. }
  assert (FD : forall k, fits d' k -> fits (d * 10 ^ y) k).
  { intros k G. apply fits_mul; [exact Y0|]. rewrite Ed in G. now apply fits_strip in G. }
  split.
  - intros k FM. destruct (SPLIT k FM) as (D & a & EM & Ha & HD & RR). apply FD. apply (fits_mono _ w); [|exact FW]. exact (MIN D (T + a) k HD RR).
  - intros FE. specialize (FE w (FD w FW)). destruct (SPLIT w FE) as (D & a & EM & Ha & HD & RR).
    intros K HK HT HTM. set (c := 10 ^ (- t0)). assert (Pc : 0 < c) by (apply pow10_pos; lia).
    specialize (NEAR D (T + a) HD RR (K + - t0) ltac:(lia) ltac:(lia) ltac:(lia)).
    pose proof (FV (K + - t0) ltac:(lia) ltac:(lia)) as V.
    apply (abs_scale _ _ c Pc).
    replace ((d * 10 ^ y * 10 ^ (t - y + K) * scale - Z.abs (fval x) * 10 ^ K) * c) with ((d' * 10 ^ (t' + (K + - t0)) - d0 * 10 ^ (t0 + (K + - t0))) * scale).
    2:{ rewrite !Z.mul_sub_distr_r. f_equal.
        - rewrite Ed. subst c. replace (d * 10 ^ y * 10 ^ (t - y + K) * scale * 10 ^ (- t0)) with (d * (10 ^ y * 10 ^ (t - y + K) * 10 ^ (- t0)) * scale) by ring.
          rewrite <- (Z.mul_assoc d). f_equal. f_equal. rewrite <- !pow10_add by lia. f_equal. lia.
        - rewrite V. subst c. rewrite pow10_add by lia. ring. }
    replace ((M * 10 ^ (T + K) * scale - Z.abs (fval x) * 10 ^ K) * c) with ((D * 10 ^ (T + a + (K + - t0)) - d0 * 10 ^ (t0 + (K + - t0))) * scale).
    2:{ rewrite !Z.mul_sub_distr_r. f_equal.
        - rewrite EM. subst c. replace (D * 10 ^ a * 10 ^ (T + K) * scale * 10 ^ (- t0)) with (D * (10 ^ a * 10 ^ (T + K) * 10 ^ (- t0)) * scale) by ring.
          f_equal. f_equal. rewrite <- !pow10_add by lia. f_equal. lia.
        - rewrite V. subst c. rewrite pow10_add by lia. ring. }
    pose proof scale_pos as SP. rewrite !Z.abs_mul, (Z.abs_eq scale) by lia. apply Zmult_le_compat_r; [exact NEAR|lia].
Qed.

(** the tolerance of as_u128 and as_i128 *)
Lemma tolerance : rounds false 1 (10 ^ 10) f_1em10.
Proof.
  assert (D : decimal (s "1e-10") false 1 (-10)).
  { apply (Decimal [] false (s "1") [] [] (s "e-10") (-10)).
    - right. split; [now right|reflexivity].
    - repeat constructor; discriminate.
    - left. split; reflexivity.
    - constructor.
    - discriminate.
    - apply (Exponent (ch "e") (s "-") true (s "10")); [now left|now left|repeat constructor; discriminate|discriminate]. }
  destruct (read_decimal (s "1e-10") false 1 (-10) eq_refl D) as (f & F & R).
  assert (E : num_from_str (s "1e-10") = Some (Float f_1em10)) by (vm_compute; reflexivity).
  rewrite E in F. injection F as <-. exact R.
Qed.
