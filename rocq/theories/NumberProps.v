(** Proofs about Number. *)
From Verif Require Import Base BaseProps F64 F64Props F64Text Number NumberSpec.
Open Scope Z_scope.
#[local] Opaque scale.

Lemma f_floor_ceil x : f_floor x <= f_ceil x <= f_floor x + 1.
Proof.
  unfold f_floor, f_ceil. pose proof scale_pos.
  set (v := fval x).
  pose proof (Z.div_mod v scale ltac:(lia)). pose proof (Z.mod_pos_bound v scale ltac:(lia)).
  pose proof (Z.div_mod (- v) scale ltac:(lia)). pose proof (Z.mod_pos_bound (- v) scale ltac:(lia)).
  set (a := v / scale) in *. set (b := (- v) / scale) in *.
  split; nia.
Qed.

Lemma f_floor_spec x : f_floor x * scale <= fval x < (f_floor x + 1) * scale.
Proof.
  unfold f_floor. pose proof scale_pos.
  pose proof (Z.div_mod (fval x) scale ltac:(lia)). pose proof (Z.mod_pos_bound (fval x) scale ltac:(lia)). lia.
Qed.
Lemma f_ceil_spec x : (f_ceil x - 1) * scale < fval x <= f_ceil x * scale.
Proof.
  unfold f_ceil. pose proof scale_pos.
  pose proof (Z.div_mod (- fval x) scale ltac:(lia)). pose proof (Z.mod_pos_bound (- fval x) scale ltac:(lia)). lia.
Qed.

Lemma cmp_bounds_ret fl ce r : fl <= ce <= fl + 1 -> exists c, cmp_bounds fl ce r = Ret c.
Proof.
  intros H. unfold cmp_bounds.
  destruct (Z.compare_spec fl r), (Z.compare_spec ce r); try (eexists; reflexivity); lia.
Qed.

Lemma clamp_mono lo hi a b : lo <= hi -> a <= b <= a + 1 -> clamp lo hi a <= clamp lo hi b <= clamp lo hi a + 1.
Proof.
  intros. unfold clamp.
  destruct (Z.ltb_spec a lo), (Z.ltb_spec hi a), (Z.ltb_spec b lo), (Z.ltb_spec hi b); lia.
Qed.
Lemma clamp_in lo hi a : lo <= a <= hi -> clamp lo hi a = a.
Proof. intros. unfold clamp. destruct (Z.ltb_spec a lo), (Z.ltb_spec hi a); lia. Qed.

Lemma u128_pos : 0 <= u128_max. Proof. unfold u128_max. lia. Qed.
Lemma i128_ord : i128_min <= i128_max. Proof. unfold i128_min, i128_max. lia. Qed.

Lemma num_cmp_no_panic a b : exists c, num_cmp_res a b = Ret c.
Proof.
  assert (HU : forall x r, exists c, cmp_float_to_uint x r = Ret c).
  { intros x r. unfold cmp_float_to_uint. destruct (f_sign x); [eauto|].
    destruct (_ || _); [eauto|]. apply cmp_bounds_ret. unfold sat_u128.
    apply clamp_mono; [apply u128_pos|apply f_floor_ceil]. }
  assert (HI : forall x r, exists c, cmp_float_to_int x r = Ret c).
  { intros x r. unfold cmp_float_to_int. destruct (_ && _); [eauto|].
    destruct (_ || _); [eauto|]. apply cmp_bounds_ret. unfold sat_i128.
    apply clamp_mono; [apply i128_ord|apply f_floor_ceil]. }
  destruct a as [l|l|l], b as [r|r|r]; cbn [num_cmp_res]; eauto.
  - destruct (HU r l) as [c ->]. cbn. eauto.
  - destruct (HI r l) as [c ->]. cbn. eauto.
Qed.

Lemma rev_opp c : rev_ordering c = CompOpp c.
Proof. now destruct c. Qed.

Lemma f_partial_cmp_antisym a b :
  f_partial_cmp b a = option_map CompOpp (f_partial_cmp a b).
Proof.
  destruct a as [sa pa|sa|sa ma ea], b as [sb pb|sb|sb mb eb];
    cbn [f_partial_cmp option_map]; try reflexivity; try (now destruct sa); try (now destruct sb).
  - now destruct sa, sb.
  - now rewrite Z.compare_antisym.
Qed.

Lemma cmp_ff_antisym a b : cmp_float_to_float b a = CompOpp (cmp_float_to_float a b).
Proof.
  unfold cmp_float_to_float. rewrite f_partial_cmp_antisym.
  destruct (f_partial_cmp a b) eqn:E; cbn [option_map]; [reflexivity|].
  destruct a, b; cbn in *; try discriminate; reflexivity.
Qed.

Lemma num_cmp_antisym a b : num_cmp b a = CompOpp (num_cmp a b).
Proof.
  unfold num_cmp.
  destruct a as [l|l|l], b as [r|r|r]; cbn [num_cmp_res];
    rewrite ?rev_opp, ?CompOpp_involutive; try reflexivity.
  - apply Z.compare_antisym.
  - destruct (cmp_float_to_uint r l); cbn [rmap]; rewrite ?rev_opp, ?CompOpp_involutive; reflexivity.
  - apply Z.compare_antisym.
  - destruct (cmp_float_to_int r l); cbn [rmap]; rewrite ?rev_opp, ?CompOpp_involutive; reflexivity.
  - destruct (cmp_float_to_uint l r); cbn [rmap]; rewrite ?rev_opp; reflexivity.
  - destruct (cmp_float_to_int l r); cbn [rmap]; rewrite ?rev_opp; reflexivity.
  - apply cmp_ff_antisym.
Qed.

Lemma num_cmp_refl a : num_cmp a a = Eq.
Proof.
  pose proof (num_cmp_antisym a a). destruct (num_cmp a a); easy.
Qed.

(** ** order is the order of values *)

Lemma fval_sign sg m e : f64_wf (FFin sg m e) = true -> negb (sg && (m =? 0)) = true ->
  if sg then fval (FFin sg m e) < 0 else 0 <= fval (FFin sg m e).
Proof.
  unfold f64_wf. intros H1 H2. cbn [fval].
  assert (0 < 2 ^ (e + 1074)) by (apply pow2_pos; lia).
  destruct sg; [|nia]. assert (0 < m) by lia. nia.
Qed.

(** comparing clamped floor and ceil with an in-range integer is comparing the
    value, when the float itself is in range *)
Lemma cmp_bounds_spec x r lo hi :
  lo <= r <= hi -> lo <= f_floor x -> f_ceil x <= hi ->
  cmp_bounds (clamp lo hi (f_floor x)) (clamp lo hi (f_ceil x)) r = Ret (fval x ?= r * scale).
Proof.
  intros Hr Hf Hc. pose proof (f_floor_ceil x). pose proof (f_floor_spec x). pose proof (f_ceil_spec x).
  pose proof scale_pos.
  assert (E1 : clamp lo hi (f_floor x) = f_floor x) by (apply clamp_in; lia).
  assert (E2 : clamp lo hi (f_ceil x) = f_ceil x) by (apply clamp_in; lia).
  rewrite E1, E2. unfold cmp_bounds.
  set (f := f_floor x) in *. set (c := f_ceil x) in *.
  destruct (Z.compare_spec f r), (Z.compare_spec c r); try lia; f_equal; symmetry;
    first [apply Z.compare_eq_iff|apply Z.compare_lt_iff|apply Z.compare_gt_iff]; nia.
Qed.

Lemma scale_mono a b : a * scale < b * scale <-> a < b.
Proof. pose proof scale_pos. nia. Qed.

(** an f64 below 2^k, k >= 53, is at most 2^k - 1 rounded up *)
Lemma f_ceil_lt sg m e k : f64_wf (FFin sg m e) = true -> 53 <= k ->
  fval (FFin sg m e) < 2 ^ k * scale -> f_ceil (FFin sg m e) <= 2 ^ k - 1.
Proof.
  intros Hwf Hk Hlt.
  assert (Hm : 0 <= m < 2 ^ 53 /\ -1074 <= e) by (unfold f64_wf in Hwf; lia).
  pose proof (f_ceil_spec (FFin sg m e)) as [C1 C2]. pose proof scale_pos.
  destruct (Z.le_gt_cases (f_ceil (FFin sg m e)) (2 ^ k - 1)) as [|Hgt]; [assumption|exfalso].
  (* then 2^k - 1 < value < 2^k; value integral if e >= 0, below 2^53 otherwise *)
  assert (V1 : (2 ^ k - 1) * scale < fval (FFin sg m e)) by nia.
  assert (K53 : 2 ^ 53 <= 2 ^ k) by (apply Z.pow_le_mono_r; lia).
  destruct (Z.leb_spec 0 e) as [He|He].
  - assert (EV : fval (FFin sg m e) = ((if sg then -1 else 1) * (m * 2 ^ e)) * scale).
    { cbn [fval]. rewrite Z.pow_add_r by lia. change (2 ^ 1074) with scale. ring. }
    rewrite EV in V1, Hlt. set (w := (if sg then -1 else 1) * (m * 2 ^ e)) in *.
    apply (proj1 (scale_mono _ _)) in V1. apply (proj1 (scale_mono _ _)) in Hlt. lia.
  - assert (EV : fval (FFin sg m e) * 2 <= m * scale).
    { cbn [fval].
      assert (ES : scale = 2 ^ (e + 1074) * 2 ^ (- e)).
      { rewrite <- Z.pow_add_r by lia. replace (e + 1074 + - e) with 1074 by lia. reflexivity. }
      assert (2 <= 2 ^ (- e)) by (change 2 with (2 ^ 1) at 1; apply Z.pow_le_mono_r; lia).
      assert (0 < 2 ^ (e + 1074)) by (apply pow2_pos; lia).
      rewrite ES. destruct sg; nia. }
    nia.
Qed.


Lemma compare_scale a b : (a * scale ?= b * scale) = (a ?= b).
Proof.
  pose proof scale_pos.
  destruct (Z.compare_spec a b); [subst; apply Z.compare_refl|apply Z.compare_lt_iff|apply Z.compare_gt_iff]; nia.
Qed.

Lemma fu_spec x r : ordinary (Float x) = true -> 0 <= r <= u128_max ->
  cmp_float_to_uint x r = Ret (xcmp (f_xval x) (XFin (r * scale))).
Proof.
  intros Ho Hr. unfold cmp_float_to_uint.
  destruct x as [sg p|sg|sg m e].
  - unfold ordinary in Ho. destruct sg; [now rewrite andb_false_r in Ho|]. reflexivity.
  - destruct sg; reflexivity.
  - unfold ordinary in Ho. rewrite !andb_true_iff in Ho. destruct Ho as [Hwf [[Hz H1] H2]].
    cbn [num_wf] in Hwf. pose proof (fval_sign _ _ _ Hwf Hz) as Hs.
    pose proof scale_pos.
    cbn [f_sign f_is_inf f_is_nan orb f_xval xcmp].
    destruct sg.
    + f_equal. symmetry. apply Z.compare_lt_iff. nia.
    + apply cmp_bounds_spec; [lia| |].
      * unfold f_floor. apply Z.div_pos; lia.
      * pose proof (f_ceil_lt false m e 127 Hwf ltac:(lia) ltac:(lia)). unfold u128_max. lia.
Qed.

Lemma fi_spec x r : ordinary (Float x) = true -> i128_min <= r <= i128_max ->
  cmp_float_to_int x r = Ret (xcmp (f_xval x) (XFin (r * scale))).
Proof.
  intros Ho Hr. unfold cmp_float_to_int.
  destruct x as [sg p|sg|sg m e].
  - unfold ordinary in Ho. destruct sg; [now rewrite andb_false_r in Ho|]. reflexivity.
  - destruct sg; reflexivity.
  - unfold ordinary in Ho. rewrite !andb_true_iff in Ho. destruct Ho as [Hwf [[Hz H1] H2]].
    cbn [num_wf] in Hwf. pose proof scale_pos.
    cbn [f_sign f_is_inf f_is_nan orb andb f_xval xcmp]. rewrite andb_false_r.
    apply cmp_bounds_spec; [lia| |].
    + unfold f_floor. apply Z.div_le_lower_bound; lia.
    + pose proof (f_ceil_lt sg m e 127 Hwf ltac:(lia) ltac:(lia)). unfold i128_max. lia.
Qed.

Lemma xcmp_antisym a b : xcmp b a = CompOpp (xcmp a b).
Proof. destruct a, b; cbn; try reflexivity. apply Z.compare_antisym. Qed.

Lemma cmp_ff_val x y : cmp_float_to_float x y = xcmp (f_xval x) (f_xval y).
Proof.
  destruct x as [sa pa|sa|sa ma ea], y as [sb pb|sb|sb mb eb]; try (destruct sa); try (destruct sb); reflexivity.
Qed.

Lemma num_cmp_val a b : ordinary a = true -> ordinary b = true ->
  num_cmp a b = xcmp (num_val a) (num_val b).
Proof.
  intros Ha Hb. unfold num_cmp.
  assert (Wa : num_wf a = true) by (unfold ordinary in Ha; now apply andb_true_iff in Ha).
  assert (Wb : num_wf b = true) by (unfold ordinary in Hb; now apply andb_true_iff in Hb).
  destruct a as [l|l|l], b as [r|r|r]; cbn [num_cmp_res num_val]; cbn [num_wf] in Wa, Wb.
  - cbn [xcmp]. now rewrite compare_scale.
  - cbn [xcmp]. rewrite compare_scale. unfold cmp_uint_to_int, to_u128.
    destruct (Z.leb_spec 0 r); cbn [andb].
    + replace (r <=? u128_max) with true; [reflexivity|]. unfold u128_max, i128_max in *. lia.
    + symmetry. apply Z.compare_gt_iff. lia.
  - rewrite fu_spec by (assumption || lia). cbn [rmap]. rewrite rev_opp.
    rewrite <- xcmp_antisym. reflexivity.
  - cbn [xcmp]. rewrite compare_scale, rev_opp. unfold cmp_uint_to_int, to_u128.
    rewrite (Z.compare_antisym r l). f_equal.
    destruct (Z.leb_spec 0 l); cbn [andb].
    + replace (l <=? u128_max) with true; [reflexivity|]. unfold u128_max, i128_max in *. lia.
    + symmetry. apply Z.compare_gt_iff. lia.
  - cbn [xcmp]. now rewrite compare_scale.
  - rewrite fi_spec by (assumption || lia). cbn [rmap]. rewrite rev_opp.
    rewrite <- xcmp_antisym. reflexivity.
  - rewrite fu_spec by (assumption || lia). reflexivity.
  - rewrite fi_spec by (assumption || lia). reflexivity.
  - apply cmp_ff_val.
Qed.

Lemma xcmp_eq a b : xcmp a b = Eq <-> a = b.
Proof.
  destruct a, b; cbn; split; try easy.
  - intros ->%Z.compare_eq_iff. reflexivity.
  - intros [= ->]. apply Z.compare_refl.
Qed.
Lemma xcmp_lt_trans a b c : xcmp a b = Lt -> xcmp b c = Lt -> xcmp a c = Lt.
Proof.
  destruct a, b, c; cbn; try easy. rewrite !Z.compare_lt_iff. lia.
Qed.

Lemma num_cmp_trans a b c : ordinary a = true -> ordinary b = true -> ordinary c = true ->
  num_cmp a b <> Gt -> num_cmp b c <> Gt -> num_cmp a c <> Gt.
Proof.
  intros Ha Hb Hc. rewrite !num_cmp_val by assumption.
  destruct (xcmp (num_val a) (num_val b)) eqn:E1; [| |easy]; intros _;
  destruct (xcmp (num_val b) (num_val c)) eqn:E2; try easy; intros _.
  - apply xcmp_eq in E1, E2. rewrite E1, E2. rewrite (proj2 (xcmp_eq _ _) eq_refl). easy.
  - apply xcmp_eq in E1. rewrite E1, E2. easy.
  - apply xcmp_eq in E2. rewrite <- E2, E1. easy.
  - rewrite (xcmp_lt_trans _ _ _ E1 E2). easy.
Qed.
