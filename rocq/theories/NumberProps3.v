(** Number equality, hashing and text. *)
From Verif Require Import Base BaseProps F64 F64Props F64Text Number NumberSpec NumberProps NumberProps2.
Open Scope Z_scope.
#[local] Opaque scale.

(** ** equality *)

Lemma cmp_ff_refl x : cmp_float_to_float x x = Eq.
Proof. rewrite cmp_ff_val. destruct x as [| [] |]; cbn; try reflexivity. apply Z.compare_refl. Qed.

Lemma num_eqb_refl a : num_eqb a a = true.
Proof. destruct a; cbn [num_eqb]; try apply Z.eqb_refl. now rewrite cmp_ff_refl. Qed.

Definition xeqb (a b : xval) : bool := match xcmp a b with Eq => true | _ => false end.

Lemma xeqb_eq a b : xeqb a b = true <-> a = b.
Proof. unfold xeqb. rewrite <- xcmp_eq. destruct (xcmp a b); split; congruence. Qed.

Definition near_or_exact (x : f64) : Prop :=
  (exists k, fval x = k * scale /\ Z.abs k < 2 ^ 53) \/
  (forall k, fval f_1em10 <= Z.abs (fval x - k * scale)).

Lemma exact_near sg m e : exact (Float (FFin sg m e)) = true -> near_or_exact (FFin sg m e).
Proof.
  intros H. unfold exact in H. apply andb_true_iff in H as [_ H].
  pose proof scale_pos as SP. set (v := fval (FFin sg m e)) in *.
  pose proof (Z.div_mod v scale ltac:(lia)) as DM. pose proof (Z.mod_pos_bound v scale SP) as MB.
  apply orb_true_iff in H as [H|H]; [left|right].
  - exists (v / scale). fold v. assert (v mod scale = 0) by lia.
    split; [lia|]. assert (HB : Z.abs v < 2 ^ 53 * scale) by lia.
    replace v with (v / scale * scale) in HB by lia.
    rewrite Z.abs_mul, (Z.abs_eq scale) in HB by lia. nia.
  - intros k. fold v. assert (H1 : fval f_1em10 <= v mod scale) by lia.
    assert (H2 : v mod scale <= scale - fval f_1em10) by lia.
    set (t := fval f_1em10) in *. set (q := v / scale) in *. set (r := v mod scale) in *.
    destruct (Z.le_gt_cases k q); nia.
Qed.

Lemma near_or_exact_int_eq x n sg m e : x = FFin sg m e -> near_or_exact x -> Z.abs n < 2 ^ 1000 ->
  f_eq x (f_of_Z n) = (n * scale =? fval x).
Proof.
  intros -> HN Hn. destruct (f_of_Z_shape n Hn) as (m' & e' & E & _).
  pose proof scale_pos as SP.
  assert (EV : f_eq (FFin sg m e) (f_of_Z n) = (fval (FFin sg m e) =? fval (f_of_Z n))).
  { rewrite E. unfold f_eq. cbn [f_partial_cmp]. rewrite Z.eqb_compare. now destruct (_ ?= _). }
  rewrite EV. clear EV E m' e'.
  destruct HN as [(k & Ek & Hk)|HN].
  - rewrite Ek.
    destruct (Z.le_gt_cases (Z.abs n) (2 ^ 53)) as [C|C].
    + rewrite f_of_Z_exact by lia.
      destruct (Z.eqb_spec (k * scale) (n * scale)), (Z.eqb_spec (n * scale) (k * scale)); congruence.
    + destruct (Z.le_gt_cases 0 n) as [S|S].
      * pose proof (f_of_Z_large n ltac:(lia) ltac:(lia)).
        assert (k * scale < 2 ^ 53 * scale) by nia. assert (k * scale < n * scale) by nia. lia.
      * pose proof (f_of_Z_large_neg n ltac:(lia) ltac:(lia)).
        assert (- 2 ^ 53 * scale < k * scale) by nia. assert (n * scale < k * scale) by nia. lia.
  - destruct (f_of_Z_integral n Hn) as [k Ek]. rewrite Ek.
    pose proof (HN k) as H1. pose proof (HN n) as H2.
    assert (0 < fval f_1em10) by (vm_compute; reflexivity). lia.
Qed.

Lemma as_u128_exact sg m e l : near_or_exact (FFin sg m e) -> (sg = false -> 0 <= fval (FFin sg m e)) ->
  (sg = true -> fval (FFin sg m e) < 0) -> 0 <= l <= u128_max ->
  match as_u128 (Float (FFin sg m e)) with Some r => l =? r | None => false end = (l * scale =? fval (FFin sg m e)).
Proof.
  intros HN S0 S1 Hl. pose proof scale_pos as SP.
  destruct (as_u128 (Float (FFin sg m e))) as [r|] eqn:E.
  - apply as_u128_float in E as (_ & H0 & k & Hk & ->).
    destruct HN as [(k' & Ek & Hk')|HN].
    + assert (k = k').
      { rewrite Ek in Hk. replace (k' * scale - k * scale) with ((k' - k) * scale) in Hk by ring.
        pose proof tol_small. rewrite Z.abs_mul, (Z.abs_eq scale) in Hk by lia. nia. }
      subst k'. rewrite Ek in *. assert (0 <= k) by nia.
      unfold u128_max in *. rewrite Z.min_r, Z.max_r by lia.
      destruct (Z.eqb_spec l k), (Z.eqb_spec (l * scale) (k * scale)); nia.
    + specialize (HN k). lia.
  - destruct HN as [(k & Ek & Hk)|HN].
    + destruct (Z.eqb_spec (l * scale) (fval (FFin sg m e))) as [C|C]; [|reflexivity].
      exfalso.
      assert (as_u128 (Float (FFin sg m e)) = Some (Z.max 0 (Z.min u128_max l))); [|congruence].
      apply as_u128_float. repeat split; [nia|]. exists l. split; [|reflexivity].
      rewrite C, Z.sub_diag. vm_compute. reflexivity.
    + specialize (HN l). assert (0 < fval f_1em10) by (vm_compute; reflexivity). lia.
Qed.

Lemma as_i128_exact sg m e l : near_or_exact (FFin sg m e) -> i128_min <= l <= i128_max ->
  match as_i128 (Float (FFin sg m e)) with Some r => l =? r | None => false end = (l * scale =? fval (FFin sg m e)).
Proof.
  intros HN Hl. pose proof scale_pos as SP.
  destruct (as_i128 (Float (FFin sg m e))) as [r|] eqn:E.
  - apply as_i128_float in E as (_ & k & Hk & ->).
    destruct HN as [(k' & Ek & Hk')|HN].
    + assert (k = k').
      { rewrite Ek in Hk. replace (k' * scale - k * scale) with ((k' - k) * scale) in Hk by ring.
        pose proof tol_small. rewrite Z.abs_mul, (Z.abs_eq scale) in Hk by lia. nia. }
      subst k'. rewrite Ek in *.
      unfold i128_max, i128_min in *. rewrite Z.min_r, Z.max_r by lia.
      destruct (Z.eqb_spec l k), (Z.eqb_spec (l * scale) (k * scale)); nia.
    + specialize (HN k). lia.
  - destruct HN as [(k & Ek & Hk)|HN].
    + destruct (Z.eqb_spec (l * scale) (fval (FFin sg m e))) as [C|C]; [|reflexivity].
      exfalso.
      assert (as_i128 (Float (FFin sg m e)) = Some (Z.max i128_min (Z.min i128_max l))); [|congruence].
      apply as_i128_float. repeat split. exists l. split; [|reflexivity].
      rewrite C, Z.sub_diag. vm_compute. reflexivity.
    + specialize (HN l). assert (0 < fval f_1em10) by (vm_compute; reflexivity). lia.
Qed.

Lemma exact_ordinary a : exact a = true -> ordinary a = true.
Proof. unfold exact. rewrite andb_true_iff. tauto. Qed.

Lemma ordinary_wf a : ordinary a = true -> num_wf a = true.
Proof. unfold ordinary. rewrite andb_true_iff. tauto. Qed.

Lemma int_bound_u l : num_wf (Uint l) = true -> 0 <= l <= u128_max /\ Z.abs l < 2 ^ 1000.
Proof. unfold num_wf, u128_max. lia. Qed.
Lemma int_bound_i l : num_wf (Int l) = true -> i128_min <= l <= i128_max /\ Z.abs l < 2 ^ 1000.
Proof. unfold num_wf, i128_max, i128_min. lia. Qed.

Lemma f_eq_of_Z_inf sg n : Z.abs n < 2 ^ 1000 -> f_eq (FInf sg) (f_of_Z n) = false.
Proof. intros H. destruct (f_of_Z_shape n H) as (? & ? & -> & _). destruct sg; reflexivity. Qed.

Lemma eqb_scale a b : (a * scale ?= b * scale) = (a ?= b).
Proof. apply compare_scale. Qed.

Lemma num_eqb_val a b : exact a = true -> exact b = true ->
  num_eqb a b = xeqb (num_val a) (num_val b).
Proof.
  intros Ha Hb.
  pose proof (ordinary_wf _ (exact_ordinary _ Ha)) as Wa. pose proof (ordinary_wf _ (exact_ordinary _ Hb)) as Wb.
  assert (EQ : forall u v, (u =? v) = match u ?= v with Eq => true | _ => false end) by (intros; apply Z.eqb_compare).
  unfold xeqb.
  destruct a as [l|l|[sa pa|sa|sa ma ea]], b as [r|r|[sb pb|sb|sb mb eb]]; cbn [num_eqb num_val f_xval xcmp];
    try (now destruct sa); try (now destruct sb); try (now destruct sa, sb).
  - rewrite eqb_scale. apply EQ.
  - (* Uint Int *) cbn [as_u128]. unfold to_u128. apply int_bound_u in Wa. rewrite eqb_scale.
    destruct (Z.leb_spec 0 r); cbn [andb]; [destruct (Z.leb_spec r u128_max); [apply EQ|]|];
      destruct (Z.compare_spec l r); lia.
  - (* Uint Float fin *)
    pose proof (exact_ordinary _ Hb) as Ob. unfold ordinary in Ob.
    rewrite as_u128_exact.
    + apply EQ.
    + now apply exact_near.
    + intros ->. pose proof (fval_sign false mb eb ltac:(exact Wb) ltac:(reflexivity)). assumption.
    + intros ->. pose proof (fval_sign true mb eb ltac:(exact Wb)) as F.
      apply F. cbn [andb] in Ob. destruct (mb =? 0); [|reflexivity]. cbn [negb andb] in Ob.
      rewrite andb_false_r in Ob. discriminate.
    + now apply int_bound_u in Wa.
  - (* Int Uint *) cbn [as_i128]. unfold to_i128. apply int_bound_i in Wa. rewrite eqb_scale.
    destruct (Z.leb_spec i128_min r); cbn [andb]; [destruct (Z.leb_spec r i128_max); [apply EQ|]|];
      destruct (Z.compare_spec l r); lia.
  - rewrite eqb_scale. apply EQ.
  - rewrite as_i128_exact; [apply EQ|now apply exact_near|now apply int_bound_i in Wa].
  - cbn [as_f64]. rewrite f_eq_of_Z_inf by (apply int_bound_u in Wb; lia). now destruct sa.
  - cbn [as_f64]. rewrite f_eq_of_Z_inf by (apply int_bound_i in Wb; lia). now destruct sa.
  - cbn [as_f64]. rewrite (near_or_exact_int_eq _ r sa ma ea eq_refl);
      [|now apply exact_near|apply int_bound_u in Wb; lia].
    rewrite Z.eqb_sym. apply EQ.
  - cbn [as_f64]. rewrite (near_or_exact_int_eq _ r sa ma ea eq_refl);
      [|now apply exact_near|apply int_bound_i in Wb; lia].
    rewrite Z.eqb_sym. apply EQ.
Qed.

Lemma num_eqb_cmp a b : exact a = true -> exact b = true ->
  num_eqb a b = match num_cmp a b with Eq => true | _ => false end.
Proof.
  intros Ha Hb. rewrite num_eqb_val by assumption.
  now rewrite num_cmp_val by now apply exact_ordinary.
Qed.

(** ** hashing *)

Lemma hash_same a b : hashable a = true -> hashable b = true -> num_val a = num_val b ->
  num_hash_bits a = num_hash_bits b.
Proof.
  assert (G : forall a x, hashable (Float x) = true -> num_val a = f_xval x ->
      match a with Float _ => False | _ => True end -> as_f64 a = x).
  { intros c x Hx E Hc. unfold hashable in Hx. apply andb_true_iff in Hx as [Wx Hx].
    destruct x as [|[]|sg m e]; try discriminate; destruct c; try easy; cbn [num_val f_xval as_f64] in *;
      apply f_of_Z_of_float; try assumption; congruence. }
  intros Ha Hb E. unfold num_hash_bits. f_equal.
  destruct a as [l|l|x], b as [r|r|y]; cbn [num_val] in E;
    try (injection E as E; cbn [as_f64]; f_equal; pose proof scale_pos; nia).
  - now apply G.
  - now apply G.
  - symmetry. now apply G.
  - symmetry. now apply G.
  - unfold hashable in *. apply andb_true_iff in Ha as [Wa Ha]. apply andb_true_iff in Hb as [Wb Hb].
    cbn [as_f64]. destruct x as [|[]|sa ma ea], y as [|[]|sb mb eb]; try discriminate; try reflexivity.
    cbn [f_xval] in E. injection E as E. now apply fval_inj.
Qed.

(** ** text *)

Lemma digits_valid ds : forallb is_digit ds = true -> forallb (fun b => is_digit b || (b =? 95)%N) ds = true.
Proof.
  induction ds as [|c ds IH]; [reflexivity|]. cbn [forallb]. rewrite andb_true_iff. intros [H H'].
  rewrite H. cbn [orb andb]. auto.
Qed.
Lemma digits_filter ds : forallb is_digit ds = true -> filter is_digit ds = ds.
Proof.
  induction ds as [|c ds IH]; [reflexivity|]. cbn [forallb filter]. rewrite andb_true_iff. intros [H H'].
  rewrite H. f_equal. auto.
Qed.

Lemma from_str_digits ds : forallb is_digit ds = true -> ds <> [] ->
  num_from_str ds = option_map Uint (to_u128 (Z.of_N (N_of_dec ds))).
Proof.
  intros D NE. destruct ds as [|c ds]; [easy|]. unfold num_from_str.
  assert (Hc : (c =? 45)%N = false). { cbn [forallb] in D. unfold is_digit in D. lia. }
  rewrite Hc, digits_valid, digits_filter by assumption. reflexivity.
Qed.

Lemma from_str_neg ds : forallb is_digit ds = true -> ds <> [] ->
  num_from_str (45%N :: ds) = option_map Int (to_i128 (- Z.of_N (N_of_dec ds))).
Proof.
  intros D NE. unfold num_from_str.
  replace ((45 =? 45)%N) with true by reflexivity.
  rewrite digits_valid, digits_filter by assumption. cbn [negb].
  destruct ds; [easy|reflexivity].
Qed.

Lemma from_str_frac sg ip fp : forallb is_digit ip = true -> ip <> [] ->
  num_from_str (signed sg (ip ++ s "." ++ fp)) = option_map Float (f_parse (signed sg (ip ++ s "." ++ fp))).
Proof.
  intros Di NE. unfold signed.
  assert (NV : forallb (fun b => is_digit b || (b =? 95)%N) (ip ++ s "." ++ fp) = false).
  { rewrite forallb_app. apply andb_false_iff. right. reflexivity. }
  destruct sg.
  - change (s "-" ++ ?r) with (45%N :: r) in *. unfold num_from_str.
    replace ((45 =? 45)%N) with true by reflexivity. now rewrite NV.
  - change ([] ++ ?r) with r in *. destruct ip as [|c ip]; [easy|].
    cbn [app] in *. unfold num_from_str.
    assert (Hc : (c =? 45)%N = false). { cbn [forallb] in Di. unfold is_digit in Di. lia. }
    rewrite Hc, NV. reflexivity.
Qed.

Lemma Z_display_spec n : exists ds, Z_display n = (if n <? 0 then 45%N :: ds else ds)
  /\ forallb is_digit ds = true /\ ds <> [] /\ Z.of_N (N_of_dec ds) = Z.abs n.
Proof.
  unfold Z_display. destruct (Z.ltb_spec n 0) as [H|H].
  - destruct (dec_of_N_spec (Z.to_N (- n))) as (V & D & NE & LB).
    exists (dec_of_N (Z.to_N (- n))). repeat split; auto. lia.
  - destruct (dec_of_N_spec (Z.to_N n)) as (V & D & NE & LB).
    exists (dec_of_N (Z.to_N n)). repeat split; auto. lia.
Qed.

Lemma from_str_Z n : i128_min <= n <= u128_max ->
  num_from_str (Z_display n) = Some (if n <? 0 then Int n else Uint n).
Proof.
  intros B. destruct (Z_display_spec n) as (ds & -> & D & NE & V).
  destruct (Z.ltb_spec n 0) as [H|H].
  - rewrite from_str_neg, V by assumption. unfold to_i128, i128_max, i128_min in *.
    replace (- Z.abs n) with n by lia.
    destruct (Z.leb_spec (- 2 ^ 127) n), (Z.leb_spec n (2 ^ 127 - 1)); cbn [andb]; try lia. reflexivity.
  - rewrite from_str_digits, V by assumption. unfold to_u128, u128_max in *.
    rewrite Z.abs_eq by lia.
    destruct (Z.leb_spec 0 n), (Z.leb_spec n (2 ^ 128 - 1)); cbn [andb]; try lia. reflexivity.
Qed.

(** integral text of a float: t >= 0 *)
Lemma f_of_dec_int sg d t : 0 < d -> 0 <= t ->
  f_of_dec sg d t = f_of_Z ((if sg then -1 else 1) * (d * 10 ^ t)).
Proof.
  intros Hd Ht. pose proof (pow10_pos t Ht). unfold f_of_dec, f_of_Z.
  rewrite Z.max_r, (Z.max_l 0 (- t)) by lia. rewrite Z.pow_0_r.
  assert (0 < d * 10 ^ t) by nia. destruct sg.
  - replace (-1 * (d * 10 ^ t) <? 0) with true by lia.
    f_equal. lia.
  - replace (1 * (d * 10 ^ t) <? 0) with false by lia. f_equal. lia.
Qed.

Lemma rne_pos_neg_exp sg p m e : 0 < p -> rne_pos sg p 1 = FFin sg m e -> e < 0 -> p <= 2 ^ 53.
Proof.
  intros Hp H He. unfold rne_pos in H. rewrite log2_frac_1 in H by exact Hp. cbv zeta in H.
  set (E := Z.max (-1074) (Z.log2 p - 52)) in *. set (M := div_even _ _) in *.
  assert (E < 0).
  { destruct (M =? 2 ^ 53); destruct (971 <? _); try discriminate; injection H; intros; lia. }
  assert (Z.log2 p < 52) by lia.
  assert (p < 2 ^ 52) by (apply Z.log2_lt_pow2; lia). lia.
Qed.

Lemma display_result sg m e : 0 < m -> f64_wf (FFin sg m e) = true ->
  let '(d, t) := display_dec (FFin sg m e) in
  (t < 0 /\ num_from_str (f_display (FFin sg m e)) = Some (Float (FFin sg m e)))
  \/ (0 <= t /\ 0 < d /\ let n := (if sg then -1 else 1) * (d * 10 ^ t) in
       f_of_Z n = FFin sg m e /\
       num_from_str (f_display (FFin sg m e))
       = if sg then option_map Int (to_i128 n) else option_map Uint (to_u128 n)).
Proof.
  intros Hm Hwf. rewrite f_display_fin by exact Hm.
  pose proof (f_parse_display sg m e Hm Hwf) as HP. rewrite f_display_fin in HP by exact Hm.
  pose proof (display_dec_value sg m e Hwf Hm) as HV.
  destruct (display_dec (FFin sg m e)) as [d t]. destruct HV as [Hd HV].
  destruct (Z.lt_ge_cases t 0) as [Ht|Ht].
  - left. split; [exact Ht|]. specialize (HP Ht).
    destruct (positional_frac d t Hd Ht) as (ip & fp & E & NE & NE2 & Di & Df & V & L).
    rewrite E in *. rewrite from_str_frac by assumption. now rewrite HP.
  - right. split; [exact Ht|]. split; [exact Hd|]. cbv zeta. split; [now rewrite <- f_of_dec_int|].
    destruct (positional_int d t Hd Ht) as (D & NE & V).
    unfold signed. destruct sg.
    + change (s "-" ++ ?r) with (45%N :: r). rewrite from_str_neg, V by assumption.
      do 2 f_equal; lia.
    + change ([] ++ ?r) with r. rewrite from_str_digits, V by assumption. do 2 f_equal; lia.
Qed.

(** a float with a fraction prints with a point *)
Lemma display_fraction sg m e : 0 < m -> f64_wf (FFin sg m e) = true ->
  fval (FFin sg m e) mod scale <> 0 ->
  num_from_str (f_display (FFin sg m e)) = Some (Float (FFin sg m e)).
Proof.
  intros Hm Hwf HF. pose proof (display_result sg m e Hm Hwf) as H. pose proof scale_pos as SP.
  destruct (display_dec (FFin sg m e)) as [d t]. destruct H as [[_ H]|(Ht & Hd & H & _)]; [exact H|exfalso].
  set (n := (if sg then -1 else 1) * (d * 10 ^ t)) in *.
  assert (B : 0 <= m < 2 ^ 53 /\ -1074 <= e) by (unfold f64_wf in Hwf; lia).
  assert (He : e < 0).
  { destruct (Z.le_gt_cases 0 e) as [C|C]; [exfalso|exact C]. apply HF.
    cbn [fval]. rewrite Z.pow_add_r by lia. change (2 ^ 1074) with scale.
    rewrite !Z.mul_assoc. apply Z_mod_mult. }
  pose proof (pow10_pos t Ht). assert (0 < d * 10 ^ t) by nia.
  assert (Hn : Z.abs n <= 2 ^ 53).
  { unfold f_of_Z, rne in H. destruct (Z.eqb_spec (Z.abs n) 0); [lia|].
    assert (E : (n <? 0) = sg) by (subst n; destruct sg; lia). rewrite E in H.
    eapply rne_pos_neg_exp; [|exact H|exact He]. lia. }
  apply HF. rewrite <- H. rewrite f_of_Z_exact by exact Hn. apply Z_mod_mult.
Qed.

(** whatever comes back has the same f64 *)
Lemma display_same_f64 x n : f64_wf x = true -> f_is_finite x = true ->
  num_from_str (f_display x) = Some n -> f_eq (as_f64 n) x = true.
Proof.
  intros Hwf Hfin H. destruct (f_is_finite_inv x Hfin) as (sg & m & e & ->).
  assert (R : f_eq (FFin sg m e) (FFin sg m e) = true).
  { unfold f_eq. cbn [f_partial_cmp]. now rewrite Z.compare_refl. }
  destruct (Z.eq_dec m 0) as [->|Nm].
  - assert (e = -1074) by (unfold f64_wf in Hwf; lia). subst e.
    destruct sg; vm_compute in H; injection H as <-; vm_compute; reflexivity.
  - assert (Hm : 0 < m) by (unfold f64_wf in Hwf; lia).
    pose proof (display_result sg m e Hm Hwf) as G. destruct (display_dec _) as [d t].
    destruct G as [[_ G]|(_ & _ & G1 & G2)].
    + rewrite G in H. injection H as <-. exact R.
    + cbv zeta in *. set (k := (if sg then -1 else 1) * (d * 10 ^ t)) in *. rewrite G2 in H.
      destruct sg; [unfold to_i128 in H|unfold to_u128 in H];
        (destruct ((_ <=? k) && (k <=? _)) in H; [|discriminate]); injection H as <-;
        cbn [as_f64]; rewrite G1; exact R.
Qed.

(** it does come back within the i128 range *)
Lemma display_parses x : f64_wf x = true -> f_is_finite x = true -> Z.abs (fval x) < 2 ^ 127 * scale ->
  exists n, num_from_str (f_display x) = Some n.
Proof.
  intros Hwf Hfin HB. destruct (f_is_finite_inv x Hfin) as (sg & m & e & ->).
  destruct (Z.eq_dec m 0) as [->|Nm].
  - assert (e = -1074) by (unfold f64_wf in Hwf; lia). subst e.
    destruct sg; eexists; vm_compute; reflexivity.
  - assert (Hm : 0 < m) by (unfold f64_wf in Hwf; lia).
    pose proof (display_result sg m e Hm Hwf) as G. destruct (display_dec _) as [d t].
    destruct G as [[_ G]|(Ht & Hd & G1 & G2)]; [eauto|].
    cbv zeta in *. pose proof (pow10_pos t Ht) as P10.
    assert (Hk0 : 0 < d * 10 ^ t) by nia.
    set (k := (if sg then -1 else 1) * (d * 10 ^ t)) in *. rewrite G2.
    rewrite <- G1 in HB.
    assert (Hk : Z.abs k < 2 ^ 127).
    { destruct (Z.lt_ge_cases (Z.abs k) (2 ^ 127)) as [C|C]; [exact C|exfalso].
      destruct (Z.lt_ge_cases (Z.abs k) (2 ^ 1000)) as [C'|C'].
      - assert (E127 : fval (f_of_Z (2 ^ 127)) = 2 ^ 127 * scale) by (vm_compute; reflexivity).
        assert (E127' : fval (f_of_Z (- 2 ^ 127)) = - 2 ^ 127 * scale) by (vm_compute; reflexivity).
        destruct (Z.le_gt_cases 0 k).
        + pose proof (f_of_Z_mono (2 ^ 127) k ltac:(lia) C' ltac:(lia)). lia.
        + pose proof (f_of_Z_mono k (- 2 ^ 127) C' ltac:(lia) ltac:(lia)). lia.
      - (* then the exponent is large *)
        assert (HE : 200 <= e).
        { unfold f_of_Z, rne in G1. destruct (Z.eqb_spec (Z.abs k) 0); [lia|].
          unfold rne_pos in G1. rewrite log2_frac_1 in G1 by lia. cbv zeta in G1.
          assert (1000 <= Z.log2 (Z.abs k)).
          { change 1000 with (Z.log2 (2 ^ 1000)). apply Z.log2_le_mono. exact C'. }
          set (M := div_even _ _) in *.
          destruct (M =? 2 ^ 53) in G1; destruct (971 <? _) in G1; try discriminate; injection G1; intros; lia. }
        rewrite G1 in HB. cbn [fval] in HB.
        assert (B : 2 ^ 52 <= m) by (unfold f64_wf in Hwf; lia).
        assert (2 ^ 52 * 2 ^ 200 * scale <= m * 2 ^ (e + 1074)).
        { rewrite Z.pow_add_r by lia. change (2 ^ 1074) with scale. rewrite Z.mul_assoc.
          apply Zmult_le_compat_r; [|pose proof scale_pos; lia].
          apply Z.mul_le_mono_nonneg; try lia. apply Z.pow_le_mono_r; lia. }
        assert (2 ^ 127 * scale < 2 ^ 52 * 2 ^ 200 * scale).
        { apply Zmult_lt_compat_r; [apply scale_pos|reflexivity]. }
        destruct sg; lia. }
    destruct sg; [unfold to_i128, i128_min, i128_max|unfold to_u128, u128_max];
      match goal with |- context [if ?c then _ else _] => replace c with true by lia end; eexists; reflexivity.
Qed.

(** an integral float below 2^53 prints as that integer *)
Lemma shortest_int x D T j X : 0 < X -> D = X * 10 ^ (- T) -> T <= 0 -> - T <= Z.of_nat j ->
  f_of_dec (f_sign x) X 0 = x -> f_of_dec (f_sign x) (X + 1) 0 <> x ->
  0 <= snd (shortest x D T j).
Proof.
  intros HX HD HT Hj Hlo Hhi. induction j as [|j IH].
  - cbn [shortest snd]. lia.
  - cbn [shortest]. set (jz := Z.of_nat (S j)) in *.
    destruct (Z.eq_dec jz (- T)) as [E|E].
    + assert (P : 0 < 10 ^ jz) by (apply pow10_pos; lia).
      assert (EL : D / 10 ^ jz = X). { rewrite HD, <- E. apply Z.div_mul. lia. }
      rewrite EL. replace (T + jz) with 0 by lia.
      rewrite Hlo. replace (f64_same x x) with true by (symmetry; now apply f64_same_spec).
      destruct (f64_same (f_of_dec (f_sign x) (X + 1) 0) x) eqn:C; [apply f64_same_spec in C; congruence|].
      cbn [negb orb andb snd]. lia.
    + assert (- T <= Z.of_nat j) by lia. specialize (IH H).
      match goal with |- context [if ?c then _ else _] => destruct c; [cbn [snd]; lia|] end.
      match goal with |- context [if ?c then _ else _] => destruct c; [cbn [snd]; lia|] end.
      exact IH.
Qed.

Lemma strip0_mono n : forall d t, t <= snd (strip0 n d t).
Proof.
  induction n as [|n IH]; intros d t; cbn [strip0 snd]; [lia|].
  destruct (_ && _); cbn [snd]; [|lia]. specialize (IH (d / 10) (t + 1)). lia.
Qed.

Lemma digits_count d k : 0 < d -> 0 <= k -> 10 ^ k <= d -> k < Z.of_nat (length (dec_of_N (Z.to_N d))).
Proof.
  intros Hd Hk Hle. destruct (dec_of_N_spec (Z.to_N d)) as (V & D & NE & LB).
  pose proof (N_of_dec_lt _ D) as L. rewrite V in L.
  destruct (Z.lt_ge_cases k (Z.of_nat (length (dec_of_N (Z.to_N d))))) as [C|C]; [exact C|exfalso].
  set (len := length (dec_of_N (Z.to_N d))) in *.
  assert (d < 10 ^ Z.of_nat len).
  { apply N2Z.inj_lt in L. rewrite N_Z_pow10, Z2N.id in L by lia. rewrite nat_N_Z in L. exact L. }
  assert (10 ^ Z.of_nat len <= 10 ^ k) by (apply Z.pow_le_mono_r; lia). lia.
Qed.

Lemma f_of_Z_inj_small a b : Z.abs a <= 2 ^ 53 -> Z.abs b <= 2 ^ 53 -> f_of_Z a = f_of_Z b -> a = b.
Proof.
  intros Ha Hb E. pose proof scale_pos.
  assert (a * scale = b * scale). { rewrite <- !f_of_Z_exact by assumption. now rewrite E. }
  nia.
Qed.

Lemma display_integral sg m e k : 0 < m -> f64_wf (FFin sg m e) = true ->
  fval (FFin sg m e) = k * scale -> Z.abs k <= 2 ^ 53 ->
  num_from_str (f_display (FFin sg m e)) = Some (if sg then Int k else Uint k).
Proof.
  intros Hm Hwf HV Hk.
  assert (NZ : negb (sg && (m =? 0)) = true) by (destruct sg; cbn; lia).
  pose proof (f_of_Z_of_float k sg m e Hwf NZ HV) as HF.
  assert (B : 0 <= m < 2 ^ 53 /\ -1074 <= e) by (unfold f64_wf in Hwf; lia).
  pose proof scale_pos as SP.
  assert (Hsk : if sg then k < 0 else 0 < k).
  { cbn [fval] in HV. assert (0 < m * 2 ^ (e + 1074)). { pose proof (pow2_pos (e + 1074) ltac:(lia)). nia. }
    destruct sg; nia. }
  destruct (Z.eq_dec (Z.abs k) (2 ^ 53)) as [E53|N53].
  { (* the boundary *)
    assert (k = if sg then - 2 ^ 53 else 2 ^ 53) by (destruct sg; lia). subst k. rewrite <- HF.
    destruct sg; vm_compute; reflexivity. }
  assert (HT : let '(d, t) := display_dec (FFin sg m e) in 0 <= t).
  { unfold display_dec. destruct (exact_dec m e) as [D T] eqn:ED.
    set (nd := length (dec_of_N (Z.to_N D))).
    assert (HDT : T <= 0 /\ D = Z.abs k * 10 ^ (- T)).
    { unfold exact_dec in ED. destruct (Z.leb_spec 0 e) as [C|C]; injection ED as <- <-; split; try lia.
      - rewrite Z.pow_0_r, Z.mul_1_r. apply Z.mul_reg_r with scale; [lia|].
        replace (Z.abs k * scale) with (Z.abs (k * scale)) by (rewrite Z.abs_mul; lia).
        rewrite <- HV. cbn [fval]. rewrite Z.pow_add_r by lia. change (2 ^ 1074) with scale.
        pose proof (pow2_pos e C). assert (0 < m * 2 ^ e) by nia. destruct sg; nia.
      - assert (EK : m = Z.abs k * 2 ^ (- e)).
        { pose proof (pow2_pos (e + 1074) ltac:(lia)) as P. apply Z.mul_reg_r with (2 ^ (e + 1074)); [lia|].
          rewrite <- Z.mul_assoc, <- Z.pow_add_r by lia. replace (- e + (e + 1074)) with 1074 by lia.
          change (2 ^ 1074) with scale.
          replace (Z.abs k * scale) with (Z.abs (k * scale)) by (rewrite Z.abs_mul; lia).
          rewrite <- HV. cbn [fval]. assert (0 < m * 2 ^ (e + 1074)) by nia. destruct sg; lia. }
        rewrite EK. rewrite <- Z.mul_assoc, <- Z.pow_mul_l. reflexivity. }
    destruct HDT as [HT0 HD].
    assert (HS : 0 <= snd (shortest (FFin sg m e) D T (nd - 1))).
    { assert (P10 : 0 < 10 ^ (- T)) by (apply pow10_pos; lia).
      assert (HDpos : 0 < D) by nia.
      apply (shortest_int _ D T (nd - 1) (Z.abs k)); try assumption; try lia.
      - assert (- T < Z.of_nat nd) by (apply digits_count; [lia|lia|nia]). lia.
      - cbn [f_sign]. rewrite f_of_dec_int by lia. rewrite Z.pow_0_r, <- HF. f_equal. destruct sg; lia.
      - cbn [f_sign]. rewrite f_of_dec_int by lia. rewrite Z.pow_0_r, <- HF. intros E.
        apply f_of_Z_inj_small in E; destruct sg; lia. }
    pose proof (strip0_mono nd (fst (shortest (FFin sg m e) D T (nd - 1))) (snd (shortest (FFin sg m e) D T (nd - 1)))) as HM.
    destruct (shortest (FFin sg m e) D T (nd - 1)) as [d t]. cbn [fst snd] in *.
    destruct (strip0 nd d t) as [d' t']. cbn [snd] in HM. lia. }
  pose proof (display_result sg m e Hm Hwf) as G. destruct (display_dec (FFin sg m e)) as [d t].
  destruct G as [[C _]|(Ht & Hd & G1 & G2)]; [lia|].
  cbv zeta in *. pose proof (pow10_pos t Ht) as P10.
  assert (Hk0 : 0 < d * 10 ^ t) by nia.
  destruct (Z.lt_ge_cases (Z.abs ((if sg then -1 else 1) * (d * 10 ^ t))) (2 ^ 53)) as [C|C].
  - assert (EN : (if sg then -1 else 1) * (d * 10 ^ t) = k).
    { apply f_of_Z_inj_small; try lia. congruence. }
    rewrite EN in G2. rewrite G2.
    destruct sg; [unfold to_i128, i128_min, i128_max|unfold to_u128, u128_max];
      match goal with |- context [if ?c then _ else _] => replace c with true by lia end; reflexivity.
  - exfalso. set (n := (if sg then -1 else 1) * (d * 10 ^ t)) in *.
    assert (Hn : Z.abs n < 2 ^ 1000).
    { destruct (Z.lt_ge_cases (Z.abs n) (2 ^ 1000)) as [C'|C']; [exact C'|exfalso].
      assert (HE : 200 <= e).
      { unfold f_of_Z, rne in G1. destruct (Z.eqb_spec (Z.abs n) 0); [lia|].
        unfold rne_pos in G1. rewrite log2_frac_1 in G1 by lia. cbv zeta in G1.
        assert (1000 <= Z.log2 (Z.abs n)).
        { change 1000 with (Z.log2 (2 ^ 1000)). apply Z.log2_le_mono. exact C'. }
        set (M := div_even _ _) in *.
        destruct (M =? 2 ^ 53) in G1; destruct (971 <? _) in G1; try discriminate; injection G1; intros; lia. }
      cbn [fval] in HV.
      assert (B' : 2 ^ 52 <= m) by (unfold f64_wf in Hwf; lia).
      assert (2 ^ 52 * 2 ^ 200 * scale <= m * 2 ^ (e + 1074)).
      { rewrite Z.pow_add_r by lia. change (2 ^ 1074) with scale. rewrite Z.mul_assoc.
        apply Zmult_le_compat_r; [|lia].
        apply Z.mul_le_mono_nonneg; try lia. apply Z.pow_le_mono_r; lia. }
      assert (2 ^ 53 * scale < 2 ^ 52 * 2 ^ 200 * scale).
      { apply Zmult_lt_compat_r; [lia|reflexivity]. }
      assert (Z.abs k * scale <= 2 ^ 53 * scale) by (apply Zmult_le_compat_r; lia).
      assert (Z.abs (k * scale) = Z.abs k * scale) by (rewrite Z.abs_mul; lia).
      destruct sg; lia. }
    assert (EV : fval (f_of_Z n) = k * scale) by (rewrite G1; exact HV).
    assert (- 2 ^ 53 < k < 2 ^ 53) by lia.
    destruct (Z.le_gt_cases 0 n) as [Hs|Hs].
    + pose proof (f_of_Z_large n ltac:(lia) ltac:(lia)). nia.
    + pose proof (f_of_Z_large_neg n ltac:(lia) ltac:(lia)). nia.
Qed.

(** ** parsed numbers *)

Lemma f_of_dec_wf sg d t : 0 <= d -> f64_wf (f_of_dec sg d t) = true.
Proof.
  intros Hd. unfold f_of_dec. apply rne_wf; [|apply pow10_pos; lia].
  pose proof (pow10_pos (Z.max 0 t) ltac:(lia)). nia.
Qed.

Lemma f_parse_wf t x : f_parse t = Some x -> f64_wf x = true.
Proof.
  unfold f_parse, parse_special. destruct (split_sign t) as [sg r].
  destruct (take_while is_digit r) as [ip r'].
  destruct (match r' with [] => _ | _ => _ end) as [fp r''].
  destruct (ip ++ fp) as [|c ds] eqn:E.
  - destruct (str_eqb _ _); [intros [= <-]; reflexivity|].
    destruct (_ || _); [intros [= <-]; reflexivity|discriminate].
  - destruct (parse_exp r''); [|discriminate]. intros [= <-]. apply f_of_dec_wf. lia.
Qed.

Lemma num_from_str_wf t n : num_from_str t = Some n -> num_wf n = true.
Proof.
  unfold num_from_str. destruct t as [|c r]; [discriminate|].
  set (body := if (c =? 45)%N then r else c :: r).
  destruct (negb _).
  - destruct (f_parse (c :: r)) eqn:E; [|discriminate]. intros [= <-]. now apply f_parse_wf in E.
  - destruct (filter is_digit body) as [|c' ds]; [discriminate|].
    set (k := Z.of_N _). assert (0 <= k) by lia.
    destruct (c =? 45)%N; [unfold to_i128|unfold to_u128].
    + destruct (_ && _) eqn:E; [|discriminate]. intros [= <-]. exact E.
    + destruct (_ && _) eqn:E; [|discriminate]. intros [= <-]. exact E.
Qed.

(** ** ties to even *)

Lemma div_even_tie p q : 0 <= p -> 0 < q -> 2 * Z.abs (div_even p q * q - p) = q -> Z.even (div_even p q) = true.
Proof.
  intros Hp Hq. unfold div_even. cbv zeta.
  pose proof (Z.div_mod p q ltac:(lia)) as DM. pose proof (Z.mod_pos_bound p q Hq) as MB.
  set (d := p / q) in *. set (r := p mod q) in *.
  destruct (Z.compare_spec (2 * r) q) as [C|C|C]; intros H.
  - destruct (Z.even d) eqn:E; [exact E|]. rewrite Z.even_add, E. reflexivity.
  - exfalso. nia.
  - exfalso. nia.
Qed.

Lemma f_of_Z_mant n : n <> 0 -> Z.abs n < 2 ^ 1000 ->
  exists m e, f_of_Z n = FFin (n <? 0) m e /\ (m = mant (Z.abs n) \/ m = 2 ^ 52).
Proof.
  intros Hn Hb. unfold f_of_Z, rne. replace (Z.abs n =? 0) with false by lia.
  assert (Hp : 0 < Z.abs n) by lia. set (p := Z.abs n) in *.
  assert (Hl : Z.log2 p < 1000) by (apply Z.log2_lt_pow2; lia).
  pose proof (Z.log2_nonneg p) as Hl0.
  unfold rne_pos. rewrite log2_frac_1 by exact Hp. cbv zeta.
  rewrite (Z.max_r (-1074) (Z.log2 p - 52)) by lia.
  replace (- (Z.log2 p - 52)) with (52 - Z.log2 p) by lia. rewrite Z.mul_1_l.
  fold (mant p).
  destruct (Z.eqb_spec (mant p) (2 ^ 53)) as [E|E].
  - replace (971 <? Z.log2 p - 52 + 1) with false by lia. eauto.
  - replace (971 <? Z.log2 p - 52) with false by lia. eauto.
Qed.

Lemma f_of_Z_tie n y : Z.abs n < 2 ^ 1000 -> f64_wf y = true -> f_is_finite y = true ->
  Z.abs (fval (f_of_Z n) - n * scale) = Z.abs (fval y - n * scale) -> fval y <> fval (f_of_Z n) ->
  exists sg m e, f_of_Z n = FFin sg m e /\ Z.even m = true.
Proof.
  intros Hn Hy Hf HE HNe. destruct (f_is_finite_inv y Hf) as (sy & my & ey & ->).
  pose proof scale_pos as SP.
  destruct (Z.le_gt_cases (Z.abs n) (2 ^ 53)) as [Hs|Hs].
  { rewrite f_of_Z_exact in * by exact Hs. rewrite Z.sub_diag in HE. exfalso. apply HNe. lia. }
  destruct (f_of_Z_mant n ltac:(lia) Hn) as (m & e & E & HM).
  exists (n <? 0), m, e. split; [exact E|]. destruct HM as [->| ->]; [|reflexivity].
  (* pass to the magnitude *)
  destruct (f_of_Z_shape n Hn) as (m' & e' & _ & _ & EV). rewrite EV in HE, HNe.
  replace (n =? 0) with false in * by lia. clear E EV m' e'.
  set (p := Z.abs n) in *. assert (Hp : 0 < p) by lia.
  assert (H53 : 53 <= Z.log2 p).
  { change 53 with (Z.log2 (2 ^ 53)). apply Z.log2_le_mono. lia. }
  pose proof (Z.log2_spec p Hp) as [L _].
  assert (HM : exists sy', Z.abs (mag p - p * scale) = Z.abs (fval (FFin sy' my ey) - p * scale)
                  /\ fval (FFin sy' my ey) <> mag p).
  { destruct (Z.lt_ge_cases n 0) as [C|C].
    - exists (negb sy). rewrite Z.sgn_neg in * by lia.
      assert (EVn : fval (FFin (negb sy) my ey) = - fval (FFin sy my ey)) by (cbn [fval]; destruct sy; cbn [negb]; lia).
      rewrite EVn. assert (EP : p * scale = - (n * scale)) by nia. rewrite EP. set (a := mag p) in *. set (b := fval _) in *. lia.
    - exists sy. rewrite Z.sgn_pos in * by lia. assert (EP : p * scale = n * scale) by nia. rewrite EP.
      set (a := mag p) in *. set (b := fval _) in *. lia. }
  clear HE HNe. destruct HM as (sy' & HE & HNe).
  set (k := Z.log2 p - 52) in *. assert (Hk : 0 < k) by lia.
  pose proof (pow2_pos k ltac:(lia)) as Pk.
  assert (EM : mag p = mant p * 2 ^ k * scale).
  { unfold mag. fold k. rewrite Z.pow_add_r by lia. change (2 ^ 1074) with scale. ring. }
  assert (EMD : mant p = div_even p (2 ^ k)).
  { unfold mant. rewrite (Z.max_l 0 (52 - Z.log2 p)), (Z.max_r 0 (Z.log2 p - 52)) by lia.
    rewrite Z.pow_0_r, Z.mul_1_r. reflexivity. }
  pose proof (div_even_near p (2 ^ k) ltac:(lia) Pk) as HN. rewrite <- EMD in HN. cbv zeta in HN. destruct HN as [_ HN].
  assert (L' : 2 ^ 52 * 2 ^ k <= p).
  { rewrite <- Z.pow_add_r by lia. replace (52 + k) with (Z.log2 p) by lia. exact L. }
  (* some multiple Y <> mant p is as near *)
  assert (HY : exists Y, fval (FFin sy' my ey) = Y * 2 ^ k * scale).
  { assert (Wy : 0 <= my < 2 ^ 53 /\ -1074 <= ey) by (unfold f64_wf in Hy; lia).
    destruct (Z.le_gt_cases k ey) as [C|C].
    - exists ((if sy' then -1 else 1) * (my * 2 ^ (ey - k))).
      cbn [fval]. replace (ey + 1074) with ((ey - k) + k + 1074) by lia.
      rewrite !Z.pow_add_r by lia. change (2 ^ 1074) with scale. ring.
    - exists (2 ^ 52).
      assert (EY : fval (FFin sy' my ey) <= 2 ^ 52 * 2 ^ k * scale).
      { cbn [fval].
        assert (my * 2 ^ (ey + 1074) <= 2 ^ 53 * 2 ^ (k - 1 + 1074)).
        { apply Z.mul_le_mono_nonneg; try lia. apply Z.pow_le_mono_r; lia. }
        replace (2 ^ 53 * 2 ^ (k - 1 + 1074)) with (2 ^ 52 * 2 ^ k * scale) in H.
        2:{ change scale with (2 ^ 1074). rewrite <- !Z.pow_add_r by lia. f_equal. lia. }
        assert (0 <= my * 2 ^ (ey + 1074)). { pose proof (pow2_pos (ey + 1074) ltac:(lia)). nia. }
        assert (0 <= 2 ^ 52 * 2 ^ k * scale) by nia.
        destruct sy'; lia. }
      assert (HB : Z.abs (mant p * 2 ^ k - p) <= Z.abs (2 ^ 52 * 2 ^ k - p)) by (apply near_multiple; [exact Pk|exact HN]).
      assert (Z.abs (mant p * 2 ^ k - p) * scale <= Z.abs (2 ^ 52 * 2 ^ k - p) * scale) by (apply Zmult_le_compat_r; lia).
      assert (Z.abs (2 ^ 52 * 2 ^ k - p) * scale = p * scale - 2 ^ 52 * 2 ^ k * scale) by (rewrite Z.abs_neq by lia; ring).
      rewrite EM in HE. replace (mant p * 2 ^ k * scale - p * scale) with ((mant p * 2 ^ k - p) * scale) in HE by ring.
      rewrite Z.abs_mul, (Z.abs_eq scale) in HE by lia.
      assert (2 ^ 52 * 2 ^ k * scale <= p * scale) by (apply Zmult_le_compat_r; lia).
      lia. }
  destruct HY as [Y EY]. rewrite EY, EM in HE, HNe.
  assert (YD : Y <> mant p) by congruence.
  replace (mant p * 2 ^ k * scale - p * scale) with ((mant p * 2 ^ k - p) * scale) in HE by ring.
  replace (Y * 2 ^ k * scale - p * scale) with ((Y * 2 ^ k - p) * scale) in HE by ring.
  rewrite !Z.abs_mul, (Z.abs_eq scale) in HE by lia.
  assert (HE' : Z.abs (mant p * 2 ^ k - p) = Z.abs (Y * 2 ^ k - p)) by (apply Z.mul_reg_r with scale; [lia|exact HE]).
  rewrite EMD. apply div_even_tie; try lia. rewrite <- EMD.
  assert (2 ^ k <= Z.abs (Y * 2 ^ k - mant p * 2 ^ k)).
  { replace (Y * 2 ^ k - mant p * 2 ^ k) with ((Y - mant p) * 2 ^ k) by ring.
    rewrite Z.abs_mul, (Z.abs_eq (2 ^ k)) by lia.
    rewrite <- (Z.mul_1_l (2 ^ k)) at 1. apply Zmult_le_compat_r; lia. }
  lia.
Qed.

(** ** integer texts *)

Lemma spells_filter ds acc : spells ds (Z.of_N acc) =
  Z.of_N (fold_left (fun a c => (a * 10 + (c - 48))%N) (filter is_digit ds) acc).
Proof.
  revert acc. induction ds as [|c ds IH]; intros acc; cbn [spells filter]; [reflexivity|].
  destruct (is_digit c) eqn:E; [|apply IH].
  cbn [fold_left]. rewrite <- IH. f_equal. unfold is_digit in E. lia.
Qed.

Lemma spells_spec ds : spells ds 0 = Z.of_N (N_of_dec (filter is_digit ds)).
Proof. unfold N_of_dec. rewrite <- spells_filter. reflexivity. Qed.

Lemma has_digit_filter ds : has_digit ds = match filter is_digit ds with [] => false | _ => true end.
Proof.
  unfold has_digit. induction ds as [|c ds IH]; cbn [existsb filter]; [reflexivity|].
  destruct (is_digit c); cbn [orb]; [reflexivity|exact IH].
Qed.

Lemma from_str_int_text t : int_text t = true ->
  num_from_str t =
  if has_digit t then
    match t with
    | c :: r => if (c =? 45)%N then
                  (if spells r 0 <=? 2 ^ 127 then Some (Int (- spells r 0)) else None)
                else (if spells t 0 <=? 2 ^ 128 - 1 then Some (Uint (spells t 0)) else None)
    | [] => None
    end
  else None.
Proof.
  unfold int_text. destruct t as [|c r]; [reflexivity|]. unfold num_from_str.
  destruct (c =? 45)%N eqn:Ec; intros H; rewrite H; cbn [negb].
  - assert (HD : has_digit (c :: r) = has_digit r).
    { unfold has_digit. cbn [existsb]. replace (is_digit c) with false; [reflexivity|]. unfold is_digit. lia. }
    rewrite HD, has_digit_filter, spells_spec.
    destruct (filter is_digit r) as [|d ds] eqn:EF; [reflexivity|].
    unfold to_i128, i128_min, i128_max. set (k := Z.of_N _). assert (0 <= k) by lia.
    destruct (Z.leb_spec k (2 ^ 127)).
    + now replace ((- 2 ^ 127 <=? - k) && (- k <=? 2 ^ 127 - 1)) with true by lia.
    + now replace ((- 2 ^ 127 <=? - k) && (- k <=? 2 ^ 127 - 1)) with false by lia.
  - rewrite has_digit_filter, spells_spec.
    destruct (filter is_digit (c :: r)) as [|d ds] eqn:EF; [reflexivity|].
    unfold to_u128, u128_max. set (k := Z.of_N _). assert (0 <= k) by lia.
    destruct (Z.leb_spec k (2 ^ 128 - 1)).
    + now replace (0 <=? k) with true by lia.
    + now replace (0 <=? k) with true by lia.
Qed.

Lemma from_str_not_int_text t n : int_text t = false -> num_from_str t = Some n -> exists x, n = Float x.
Proof.
  unfold int_text, num_from_str. destruct t as [|c r]; [discriminate|]. intros ->. cbn [negb].
  destruct (f_parse (c :: r)); [|discriminate]. intros [= <-]. eauto.
Qed.

(** ** closing lemmas used by PropertiesNum.v *)

Lemma text_round_trip n : num_wf n = true ->
  match n with
  | Uint k => num_from_str (num_display n) = Some (Uint k)
  | Int k => num_from_str (num_display n) = Some (if k <? 0 then Int k else Uint k)
  | Float (FNaN _ _) => exists p, num_from_str (num_display n) = Some (Float (FNaN false p))
  | Float (FInf _) => num_from_str (num_display n) = Some n
  | Float (FFin sg m e) =>
      let x := FFin sg m e in
      (fval x mod scale <> 0 -> num_from_str (num_display n) = Some n)
      /\ (forall k, fval x = k * scale -> Z.abs k <= 2 ^ 53 ->
            num_from_str (num_display n) = Some (if sg then Int k else Uint k))
      /\ (Z.abs (fval x) < 2 ^ 127 * scale -> exists n', num_from_str (num_display n) = Some n')
      /\ (forall n', num_from_str (num_display n) = Some n' -> f_eq (as_f64 n') x = true)
  end.
Proof.
  intros Hwf. destruct n as [k|k|[sg p|sg|sg m e]]; cbn [num_display].
  - rewrite from_str_Z by (unfold num_wf, i128_min in *; lia). unfold num_wf in Hwf.
    now replace (k <? 0) with false by lia.
  - apply from_str_Z. unfold num_wf, i128_max, u128_max in *. lia.
  - exists (2 ^ 51)%N. reflexivity.
  - destruct sg; reflexivity.
  - cbv zeta. cbn [num_wf] in Hwf.
    assert (HZ : m = 0 \/ 0 < m) by (unfold f64_wf in Hwf; lia).
    split; [|split; [|split]].
    + intros HF. destruct HZ as [->|Hm]; [|now apply display_fraction].
      exfalso. apply HF. cbn [fval]. rewrite Z.mul_0_l, Z.mul_0_r. apply Z.mod_0_l. pose proof scale_pos. lia.
    + intros k HV Hk. destruct HZ as [->|Hm]; [|now apply display_integral].
      cbn [fval] in HV. rewrite Z.mul_0_l, Z.mul_0_r in HV. assert (k = 0) by (pose proof scale_pos; nia). subst k.
      destruct sg; reflexivity.
    + now apply display_parses.
    + intros n'. now apply display_same_f64.
Qed.

Lemma num_cmp_res_ret a b : num_cmp_res a b = Ret (num_cmp a b).
Proof. unfold num_cmp. destruct (num_cmp_no_panic a b) as [c ->]. reflexivity. Qed.

Lemma xcmp_trans_le a b c : xcmp a b <> Gt -> xcmp b c <> Gt ->
  xcmp a c <> Gt /\ (xcmp a c = Eq -> xcmp a b = Eq /\ xcmp b c = Eq).
Proof.
  intros H1 H2. destruct (xcmp a b) eqn:E1; [|clear H1|easy].
  - apply xcmp_eq in E1. subst b. split; [exact H2|]. intros E. split; auto.
  - destruct (xcmp b c) eqn:E2; [|clear H2|easy].
    + apply xcmp_eq in E2. subst c. rewrite E1. split; congruence.
    + rewrite (xcmp_lt_trans a b c E1 E2). split; congruence.
Qed.

Lemma num_cmp_trans_le a b c : ordinary a = true -> ordinary b = true -> ordinary c = true ->
  num_cmp a b <> Gt -> num_cmp b c <> Gt ->
  num_cmp a c <> Gt /\ (num_cmp a c = Eq -> num_cmp a b = Eq /\ num_cmp b c = Eq).
Proof. intros Ha Hb Hc. rewrite !num_cmp_val by assumption. apply xcmp_trans_le. Qed.

Lemma num_eqb_iff a b : exact a = true -> exact b = true ->
  (num_eqb a b = true <-> num_val a = num_val b) /\
  (num_eqb a b = true <-> num_cmp a b = Eq).
Proof.
  intros Ha Hb. split.
  - rewrite num_eqb_val by assumption. apply xeqb_eq.
  - rewrite num_eqb_cmp by assumption. destruct (num_cmp a b); split; congruence.
Qed.

Lemma as_u128_spec n r : num_wf n = true ->
  (as_u128 n = Some r <->
   match n with
   | Uint k => r = k
   | Int k => 0 <= k /\ r = k
   | Float x => f_is_finite x = true /\ 0 <= fval x /\
       exists k, Z.abs (fval x - k * scale) < fval f_1em10 /\ r = Z.max 0 (Z.min u128_max k)
   end).
Proof.
  intros Hw. destruct n as [k|k|x]; [| |apply as_u128_float]; cbn [as_u128].
  - split; congruence.
  - unfold to_u128. unfold num_wf, i128_max in Hw. unfold u128_max.
    destruct (Z.leb_spec 0 k); cbn [andb].
    + replace (k <=? 2 ^ 128 - 1) with true by lia. split; [|intros [_ ->]; reflexivity].
      intros [= ->]. auto.
    + split; [discriminate|]. lia.
Qed.

Lemma as_i128_spec n r : num_wf n = true ->
  (as_i128 n = Some r <->
   match n with
   | Uint k => k <= i128_max /\ r = k
   | Int k => r = k
   | Float x => f_is_finite x = true /\
       exists k, Z.abs (fval x - k * scale) < fval f_1em10 /\ r = Z.max i128_min (Z.min i128_max k)
   end).
Proof.
  intros Hw. destruct n as [k|k|x]; [| |apply as_i128_float]; cbn [as_i128].
  - unfold to_i128. unfold num_wf in Hw.
    replace (i128_min <=? k) with true by (unfold i128_min; lia). cbn [andb].
    destruct (Z.leb_spec k i128_max).
    + split; [|intros [_ ->]; reflexivity]. intros [= ->]. auto.
    + split; [discriminate|]. lia.
  - split; congruence.
Qed.

Lemma as_f64_spec n k : num_wf n = true -> (n = Uint k \/ n = Int k) ->
  exists sg m e,
    as_f64 n = FFin sg m e /\ f64_wf (as_f64 n) = true /\
    (forall y, f64_wf y = true -> f_is_finite y = true ->
       Z.abs (fval (as_f64 n) - k * scale) <= Z.abs (fval y - k * scale) /\
       (Z.abs (fval (as_f64 n) - k * scale) = Z.abs (fval y - k * scale) ->
        fval y <> fval (as_f64 n) -> Z.even m = true)) /\
    (Z.abs k <= 2 ^ 53 -> fval (as_f64 n) = k * scale).
Proof.
  intros Hw Hn.
  assert (Hk : Z.abs k < 2 ^ 1000).
  { destruct Hn as [-> | ->]; [apply int_bound_u in Hw|apply int_bound_i in Hw]; lia. }
  assert (E : as_f64 n = f_of_Z k) by (destruct Hn as [-> | ->]; reflexivity). rewrite E.
  destruct (f_of_Z_shape k Hk) as (m & e & E1 & W & _).
  exists (k <? 0), m, e. split; [exact E1|]. split; [rewrite E1; exact W|]. split.
  - intros y Hy Hf. split; [now apply f_of_Z_nearest|].
    intros HE HN. destruct (f_of_Z_tie k y Hk Hy Hf HE HN) as (sg' & m' & e' & E2 & Ev).
    rewrite E1 in E2. injection E2 as _ -> _. exact Ev.
  - apply f_of_Z_exact.
Qed.

Lemma as_f64_mono a b i j : num_wf a = true -> num_wf b = true ->
  (a = Uint i \/ a = Int i) -> (b = Uint j \/ b = Int j) -> i <= j ->
  fval (as_f64 a) <= fval (as_f64 b).
Proof.
  intros Ha Hb Ea Eb Hij.
  assert (Hi : Z.abs i < 2 ^ 1000).
  { destruct Ea as [-> | ->]; [apply int_bound_u in Ha|apply int_bound_i in Ha]; lia. }
  assert (Hj : Z.abs j < 2 ^ 1000).
  { destruct Eb as [-> | ->]; [apply int_bound_u in Hb|apply int_bound_i in Hb]; lia. }
  replace (as_f64 a) with (f_of_Z i) by (destruct Ea as [-> | ->]; reflexivity).
  replace (as_f64 b) with (f_of_Z j) by (destruct Eb as [-> | ->]; reflexivity).
  now apply f_of_Z_mono.
Qed.

Lemma hash_eq_contract a b :
  exact a = true -> exact b = true -> hashable a = true -> hashable b = true ->
  num_eqb a b = true -> num_hash_bits a = num_hash_bits b.
Proof. intros Ea Eb Ha Hb E. apply hash_same; try assumption. now apply num_eqb_iff. Qed.

Lemma bits_fields sg e m : 0 <= e < 2 ^ 11 -> 0 <= m < 2 ^ 52 ->
  let b := (if sg : bool then 2 ^ 63 else 0) + (e * 2 ^ 52 + m) in
  0 <= b < 2 ^ 64 /\ (b / 2 ^ 63 =? 1) = sg /\ b / 2 ^ 52 mod 2 ^ 11 = e /\ b mod 2 ^ 52 = m.
Proof.
  intros He Hm b.
  assert (E1 : b / 2 ^ 52 = (if sg then 2 ^ 11 else 0) + e).
  { symmetry. apply (Z.div_unique _ _ _ m); [lia|]. subst b. destruct sg; lia. }
  split; [subst b; destruct sg; lia|]. split; [|split].
  - replace (b / 2 ^ 63) with (if sg then 1 else 0); [now destruct sg|]. apply (Z.div_unique _ _ _ (e * 2 ^ 52 + m)); [lia|]. subst b. destruct sg; lia.
  - rewrite E1. symmetry. apply (Z.mod_unique _ _ (if sg then 1 else 0)); [lia|]. destruct sg; lia.
  - symmetry. apply (Z.mod_unique _ _ ((if sg then 2 ^ 11 else 0) + e)); [lia|]. subst b. destruct sg; lia.
Qed.
Lemma f_bits_read x : f64_wf x = true -> 0 <= f_bits x < 2 ^ 64 /\ binary64 (f_bits x) = x.
Proof.
  intros W. unfold binary64. destruct x as [sg p|sg|sg m e]; cbn [f_bits f64_wf] in *.
  - rewrite <- Z.add_assoc. destruct (bits_fields sg 2047 (Z.of_N p)) as (B & -> & -> & ->); [lia|lia|].
    split; [exact B|]. cbn [Z.eqb]. replace (Z.of_N p =? 0) with false by lia. rewrite N2Z.id. reflexivity.
  - destruct (bits_fields sg 2047 0) as (B & E1 & E2 & E3); [lia|lia|]. rewrite Z.add_0_r in B, E1, E2, E3. rewrite E1, E2, E3. split; [exact B|reflexivity].
  - destruct (Z.ltb_spec m (2 ^ 52)) as [C|C].
    + destruct (bits_fields sg 0 m) as (B & E1 & E2 & E3); [lia|lia|]. rewrite Z.mul_0_l, Z.add_0_l in B, E1, E2, E3. rewrite E1, E2, E3.
      split; [exact B|]. cbn [Z.eqb]. f_equal. lia.
    + destruct (bits_fields sg (e + 1075) (m - 2 ^ 52)) as (B & E1 & E2 & E3); [lia|lia|]. rewrite E1, E2, E3.
      split; [exact B|]. replace (e + 1075 =? 2047) with false by lia. replace (e + 1075 =? 0) with false by lia. f_equal; lia.
Qed.
Lemma as_f64_wf n : num_wf n = true -> f64_wf (as_f64 n) = true.
Proof.
  intros W. destruct n as [k|k|x]; [| |exact W].
  - destruct (as_f64_spec (Uint k) k W (or_introl eq_refl)) as (? & ? & ? & _ & H & _). exact H.
  - destruct (as_f64_spec (Int k) k W (or_intror eq_refl)) as (? & ? & ? & _ & H & _). exact H.
Qed.
Lemma hash_layout n : num_wf n = true -> 0 <= num_hash_bits n < 2 ^ 64 /\ binary64 (num_hash_bits n) = as_f64 n.
Proof. intros W. apply f_bits_read, as_f64_wf, W. Qed.
