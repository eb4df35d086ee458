From Verif Require Import Base F64 F64Props Number NumberSpec NumberProps NumberProps2 NumberProps3 F32 F32Spec F32Props F32Props2 F32Props3 NumPrim.
Open Scope Z_scope.

Lemma num_of_int_wf t k : in_ntype t k = true -> num_wf (num_of_int t k) = true.
Proof.
  unfold in_ntype, ntype_min, ntype_max, num_of_int, num_wf, u128_max, i128_min, i128_max.
  intros H. destruct t; cbn [ntype_signed ntype_bits] in *; lia.
Qed.

Lemma num_of_int_cases t k : num_of_int t k = Uint k \/ num_of_int t k = Int k.
Proof. unfold num_of_int. destruct (ntype_signed t); auto. Qed.

Lemma prim_num p : prim_wf p = true -> exists m, num_of_prim p = Ret m /\ num_wf m = true.
Proof.
  destruct p as [t k|x|x]; cbn [prim_wf num_of_prim]; intros W.
  - exists (num_of_int t k). split; [reflexivity|]. now apply num_of_int_wf.
  - destruct (f32_kind x W) as (y & -> & Wy & _). exists (Float y). split; [reflexivity|exact Wy].
  - exists (Float x). split; [reflexivity|exact W].
Qed.

Lemma prim_total n p : prim_wf p = true ->
  exists b c, num_eq_prim n p = Ret b /\ num_cmp_prim n p = Ret (Some c).
Proof.
  intros W. destruct (prim_num p W) as (m & E & _). unfold num_eq_prim, num_cmp_prim. rewrite E.
  destruct (num_cmp_no_panic n m) as (c & ->). eauto.
Qed.

Lemma prim_self n p : num_of_prim p = Ret n -> num_eq_prim n p = Ret true /\ num_cmp_prim n p = Ret (Some Eq).
Proof.
  intros E. unfold num_eq_prim, num_cmp_prim. rewrite E, num_eqb_refl. split; [reflexivity|].
  pose proof (num_cmp_refl n) as R. unfold num_cmp in R. destruct (num_cmp_no_panic n n) as (c & H). rewrite H in *. now subst.
Qed.

Lemma prim_int n i t k : num_wf n = true -> n = Uint i \/ n = Int i -> in_ntype t k = true ->
  num_eq_prim n (PInt t k) = Ret (i =? k) /\ num_cmp_prim n (PInt t k) = Ret (Some (i ?= k)).
Proof.
  intros Wn Hn W. pose proof (num_of_int_wf _ _ W) as Wm. unfold num_eq_prim, num_cmp_prim. cbn [num_of_prim].
  pose proof (num_of_int_cases t k) as Hm. set (m := num_of_int t k) in *. clearbody m.
  assert (En : exact n = true) by (unfold exact, ordinary; rewrite Wn; destruct Hn as [-> | ->]; reflexivity).
  assert (Em : exact m = true) by (unfold exact, ordinary; rewrite Wm; destruct Hm as [-> | ->]; reflexivity).
  assert (On : ordinary n = true) by (unfold exact in En; now apply andb_true_iff in En).
  assert (Om : ordinary m = true) by (unfold exact in Em; now apply andb_true_iff in Em).
  pose proof (num_cmp_val n m On Om) as C. destruct (num_eqb_iff n m En Em) as [V _].
  unfold num_cmp in C. destruct (num_cmp_no_panic n m) as (c & Hc). rewrite Hc in C |- *.
  assert (Vn : num_val n = XFin (i * scale)) by (destruct Hn as [-> | ->]; reflexivity).
  assert (Vm : num_val m = XFin (k * scale)) by (destruct Hm as [-> | ->]; reflexivity).
  rewrite Vn, Vm in *. cbn [xcmp] in C. rewrite compare_scale in C. subst c. split; [|reflexivity]. f_equal.
  apply Bool.eq_iff_eq_true. rewrite V, Z.eqb_eq. pose proof scale_pos. split; [intros [= H0]; nia|intros ->; reflexivity].
Qed.

Lemma in_ntype_small t k : in_ntype t k = true -> Z.abs k < 2 ^ 1000.
Proof.
  unfold in_ntype, ntype_min, ntype_max. intros H.
  assert (2 ^ 128 < 2 ^ 1000) by reflexivity. destruct t; cbn [ntype_signed ntype_bits] in *; lia.
Qed.

(** a float and an integer: equal when the float is the f64 the integer becomes *)
Lemma prim_float_int x t k : f64_wf x = true -> in_ntype t k = true -> Z.abs k <= 2 ^ 53 ->
  num_eq_prim (Float x) (PInt t k) = Ret (f_is_finite x && (fval x =? k * scale)).
Proof.
  intros Wx W K. unfold num_eq_prim. cbn [num_of_prim]. f_equal.
  assert (E : num_eqb (Float x) (num_of_int t k) = f_eq x (f_of_Z k)).
  { destruct (num_of_int_cases t k) as [-> | ->]; reflexivity. }
  rewrite E. pose proof (f_of_Z_exact k K) as V.
  destruct (f_of_Z_shape k (in_ntype_small t k W)) as (a & b & F & _). rewrite F in *.
  destruct x as [sg p|sg|sg m e]; unfold f_eq.
  - reflexivity.
  - destruct sg; reflexivity.
  - cbn [f_is_finite andb]. rewrite <- V. apply Bool.eq_iff_eq_true. rewrite Z.eqb_eq.
    cbn [f_partial_cmp]. destruct (Z.compare_spec (fval (FFin sg m e)) (fval (FFin (k <? 0) a b))); split; intros; try easy; lia.
Qed.

Lemma prim_float_int_cmp x t k : ordinary (Float x) = true -> in_ntype t k = true ->
  num_cmp_prim (Float x) (PInt t k) = Ret (Some (xcmp (f_xval x) (XFin (k * scale)))).
Proof.
  intros O W. unfold num_cmp_prim. cbn [num_of_prim].
  assert (Om : ordinary (num_of_int t k) = true).
  { unfold ordinary. rewrite num_of_int_wf by exact W. destruct (num_of_int_cases t k) as [-> | ->]; reflexivity. }
  pose proof (num_cmp_val _ _ O Om) as C. unfold num_cmp in C.
  destruct (num_cmp_no_panic (Float x) (num_of_int t k)) as (c & Hc). rewrite Hc in *. subst c.
  destruct (num_of_int_cases t k) as [-> | ->]; reflexivity.
Qed.

Lemma prim_float_float x y :
  num_eq_prim (Float x) (PF64 y) = Ret (match xcmp (f_xval x) (f_xval y) with Eq => true | _ => false end) /\
  num_cmp_prim (Float x) (PF64 y) = Ret (Some (xcmp (f_xval x) (f_xval y))).
Proof. unfold num_eq_prim, num_cmp_prim. cbn [num_of_prim num_eqb num_cmp_res]. rewrite cmp_ff_val. auto. Qed.

Lemma gval_zero sg m e : f32_wf (GFin sg m e) = true -> gval (GFin sg m e) = 0 -> m = 0 /\ e = -149.
Proof.
  unfold f32_wf. cbn [gval]. intros W H. pose proof (pow2_pos (e + 1074) ltac:(lia)).
  assert (m = 0) by (destruct sg; nia). subst. split; [reflexivity|]. lia.
Qed.

Lemma f32_zero_val x y : f32_wf x = true -> g_is_finite x = true -> gval x = 0 -> f32_to_f64 x = Ret y -> fval y = 0.
Proof.
  destruct x as [sg p|sg|sg m e]; try discriminate. intros W _ Z0 H. destruct (gval_zero _ _ _ W Z0) as [-> ->].
  destruct sg; vm_compute in H; injection H as <-; reflexivity.
Qed.

Lemma gval_inj x x' : f32_wf x = true -> f32_wf x' = true -> g_is_finite x = true -> g_is_finite x' = true ->
  gval x <> 0 -> gval x = gval x' -> x = x'.
Proof.
  destruct x as [sg p|sg|sa ma ea]; try discriminate. destruct x' as [sg p|sg|sb mb eb]; try discriminate.
  intros Wa Wb _ _ NZ HV.
  assert (Ba : 0 <= ma < 2 ^ 24 /\ -149 <= ea /\ (2 ^ 23 <= ma \/ ea = -149)) by (unfold f32_wf in Wa; lia).
  assert (Bb : 0 <= mb < 2 ^ 24 /\ -149 <= eb /\ (2 ^ 23 <= mb \/ eb = -149)) by (unfold f32_wf in Wb; lia).
  clear Wa Wb. cbn [gval] in *.
  pose proof (pow2_pos (ea + 1074) ltac:(lia)) as Pa. pose proof (pow2_pos (eb + 1074) ltac:(lia)) as Pb.
  assert (Es : sa = sb) by (destruct sa, sb; try reflexivity; exfalso; nia). subst sb.
  assert (HV' : ma * 2 ^ (ea + 1074) = mb * 2 ^ (eb + 1074)) by (destruct sa; lia). clear HV NZ.
  assert (G : forall m e m' e', 0 <= m < 2 ^ 24 -> -149 <= e -> e < e' -> 2 ^ 23 <= m' ->
     m * 2 ^ (e + 1074) = m' * 2 ^ (e' + 1074) -> False).
  { intros m e m' e' Hm He Hlt Hm' E.
    replace (e' + 1074) with ((e' - e - 1) + (1 + (e + 1074))) in E by lia.
    rewrite (Z.pow_add_r 2 (e' - e - 1)), (Z.pow_add_r 2 1) in E by lia.
    pose proof (pow2_pos (e' - e - 1) ltac:(lia)). pose proof (pow2_pos (e + 1074) ltac:(lia)).
    set (c := 2 ^ (e + 1074)) in *. set (d := 2 ^ (e' - e - 1)) in *. change (2 ^ 1) with 2 in E.
    assert (m = m' * d * 2) by nia. nia. }
  assert (ea = eb).
  { destruct (Z.lt_trichotomy ea eb) as [L|[L|L]]; [exfalso|exact L|exfalso].
    - apply (G ma ea mb eb); try lia.
    - apply (G mb eb ma ea); try lia. }
  subst eb. f_equal. nia.
Qed.

Lemma f32_fin x y : f32_wf x = true -> g_is_finite x = true -> f32_to_f64 x = Ret y -> f64_wf y = true /\ exists sg m e, y = FFin sg m e.
Proof.
  intros W F H. destruct (f32_kind x W) as (y' & H' & Wy & K). rewrite H in H'. injection H' as <-.
  split; [exact Wy|]. destruct x; try discriminate. destruct y; try easy. eauto.
Qed.

(** the Numbers of f32s are in the order of the f32s *)
Lemma f32_lt x x' y y' : f32_wf x = true -> f32_wf x' = true -> g_is_finite x = true -> g_is_finite x' = true ->
  f32_to_f64 x = Ret y -> f32_to_f64 x' = Ret y' -> gval x < gval x' -> fval y < fval y'.
Proof.
  intros W W' F F' H H' L.
  pose proof (f32_near x y x' W F H W' F') as N1. pose proof (f32_near x' y' x W' F' H' W F) as N2.
  assert (fval y <= fval y') by lia.
  destruct (Z.eq_dec (fval y) (fval y')) as [E|]; [exfalso|lia].
  destruct (f32_fin x y W F H) as (Wy & sg & m & e & ->). destruct (f32_fin x' y' W' F' H') as (Wy' & sg' & m' & e' & ->).
  destruct (Z.eq_dec (fval (FFin sg m e)) 0) as [Z0|NZ].
  - set (z := GFin false 0 (-149)).
    pose proof (f32_near x _ z W F H eq_refl eq_refl) as M1. pose proof (f32_near x' _ z W' F' H' eq_refl eq_refl) as M2.
    replace (gval z) with 0 in * by reflexivity. lia.
  - assert (Nm : negb (sg && (m =? 0)) = true /\ negb (sg' && (m' =? 0)) = true).
    { cbn [fval] in *. split.
      - destruct (Z.eqb_spec m 0) as [->|]; [|now rewrite andb_false_r]. exfalso. apply NZ. destruct sg; lia.
      - destruct (Z.eqb_spec m' 0) as [->|]; [|now rewrite andb_false_r]. exfalso. apply NZ. rewrite E. destruct sg'; lia. }
    destruct Nm as [A B]. pose proof (fval_inj _ _ _ _ _ _ Wy Wy' A B E) as Q. rewrite <- Q in H'.
    assert (x = x') by (apply (f32_distinct x x' (FFin sg m e)); auto; intros ? ? ->; discriminate). subst. lia.
Qed.

Lemma f32_order x x' y y' : f32_wf x = true -> f32_wf x' = true -> g_is_finite x = true -> g_is_finite x' = true ->
  f32_to_f64 x = Ret y -> f32_to_f64 x' = Ret y' -> (fval y ?= fval y') = (gval x ?= gval x').
Proof.
  intros W W' F F' H H'. destruct (Z.compare_spec (gval x) (gval x')) as [E|L|L].
  - apply Z.compare_eq_iff. destruct (Z.eq_dec (gval x) 0) as [Z0|NZ].
    + rewrite (f32_zero_val x y), (f32_zero_val x' y'); auto. lia.
    + pose proof (gval_inj x x' W W' F F' NZ E). subst x'. congruence.
  - apply Z.compare_lt_iff. now apply (f32_lt x x').
  - apply Z.compare_gt_iff. now apply (f32_lt x' x).
Qed.

Lemma f32_cmp x x' y : f32_wf x = true -> f32_wf x' = true -> g_is_finite x = true -> g_is_finite x' = true ->
  num_of_prim (PF32 x) = Ret y ->
  num_eq_prim y (PF32 x') = Ret (gval x =? gval x') /\ num_cmp_prim y (PF32 x') = Ret (Some (gval x ?= gval x')).
Proof.
  intros W W' F F' H. cbn [num_of_prim] in H. destruct (f32_to_f64 x) as [z|] eqn:E; [|discriminate].
  cbn [rmap] in H. injection H as <-.
  destruct (f32_kind x' W') as (z' & E' & _). pose proof (f32_order _ _ _ _ W W' F F' E E') as O.
  destruct (f32_fin x z W F E) as (_ & a & b & c & ->). destruct (f32_fin x' z' W' F' E') as (_ & a' & b' & c' & ->).
  unfold num_eq_prim, num_cmp_prim. cbn [num_of_prim]. rewrite E'. cbn [rmap num_eqb num_cmp_res].
  rewrite cmp_ff_val. cbn [f_xval xcmp]. rewrite O. split; [|reflexivity]. f_equal.
  destruct (Z.compare_spec (gval x) (gval x')) as [Q|Q|Q].
  - symmetry. now apply Z.eqb_eq.
  - symmetry. apply Z.eqb_neq. lia.
  - symmetry. apply Z.eqb_neq. lia.
Qed.

Lemma prim_near n i x : num_wf n = true -> n = Uint i \/ n = Int i -> f64_wf x = true ->
  (num_eq_prim n (PF64 x) = Ret true <->
   f_is_finite x = true /\
   exists k, Z.abs (fval x - k * scale) < fval f_1em10 /\
     match n with
     | Uint _ => 0 <= fval x /\ i = Z.max 0 (Z.min u128_max k)
     | _ => i = Z.max i128_min (Z.min i128_max k)
     end).
Proof.
  intros Wn Hn W. unfold num_eq_prim. cbn [num_of_prim].
  assert (R : forall b, Ret b = Ret true <-> b = true) by (intros b; split; [intros [= H]; exact H|intros ->; reflexivity]).
  rewrite R. destruct Hn as [-> | ->]; cbn [num_eqb].
  - destruct (as_u128 (Float x)) as [r|] eqn:E.
    + apply (as_u128_spec (Float x) r W) in E. destruct E as (F & P & k & D & E). rewrite Z.eqb_eq. split.
      * intros ->. split; [exact F|]. exists k. auto.
      * intros (_ & k' & D' & _ & ->). enough (k = k') by (subst; reflexivity).
        assert (2 * fval f_1em10 < scale) by reflexivity. pose proof scale_pos. nia.
    + split; [discriminate|]. intros (F & k & D & P & ->). exfalso.
      assert (G : as_u128 (Float x) = Some (Z.max 0 (Z.min u128_max k))).
      { apply (as_u128_spec (Float x) _ W). split; [exact F|]. split; [exact P|]. exists k. auto. }
      congruence.
  - destruct (as_i128 (Float x)) as [r|] eqn:E.
    + apply (as_i128_spec (Float x) r W) in E. destruct E as (F & k & D & E). rewrite Z.eqb_eq. split.
      * intros ->. split; [exact F|]. exists k. auto.
      * intros (_ & k' & D' & ->). enough (k = k') by (subst; reflexivity).
        assert (2 * fval f_1em10 < scale) by reflexivity. pose proof scale_pos. nia.
    + split; [discriminate|]. intros (F & k & D & ->). exfalso.
      assert (G : as_i128 (Float x) = Some (Z.max i128_min (Z.min i128_max k))).
      { apply (as_i128_spec (Float x) _ W). split; [exact F|]. exists k. auto. }
      congruence.
Qed.
