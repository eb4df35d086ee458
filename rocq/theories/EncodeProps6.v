(** Proofs about encoding and decoding: integers. *)
From Verif Require Import Base F64 Number NumberSpec NumberProps NumberProps2 NumberProps3 Value Encode EncodeSpec.
Open Scope Z_scope.

Lemma in_range t r : in_ntype t r = true <-> int_range t r.
Proof.
  unfold in_ntype, int_range, ntype_min, ntype_max. destruct (ntype_signed t); rewrite andb_true_iff, !Z.leb_le; lia.
Qed.
Lemma tol_scale : 0 < fval f_1em10 < scale.
Proof. now vm_compute. Qed.
Lemma max_lt t : (ntype_bits t < 128) -> int_range t u128_max -> False.
Proof. destruct t; unfold int_range; cbn [ntype_signed ntype_bits]; intros H; try (exfalso; lia); intros [_ X]; vm_compute in X; discriminate. Qed.
Lemma imax_lt t : (ntype_bits t < 128) -> int_range t i128_max -> False.
Proof. destruct t; unfold int_range; cbn [ntype_signed ntype_bits]; intros H; try (exfalso; lia); intros [_ X]; vm_compute in X; discriminate. Qed.
Lemma imin_lt t : (ntype_bits t < 128) -> int_range t i128_min -> False.
Proof. destruct t; unfold int_range; cbn [ntype_signed ntype_bits]; intros H; try (exfalso; lia); intros [X _]; vm_compute in X; now apply X. Qed.
Lemma range_wide t r : int_range t r -> if ntype_signed t then i128_min <= r <= i128_max else 0 <= r <= u128_max.
Proof.
  unfold int_range. destruct t; cbn [ntype_signed ntype_bits]; unfold i128_min, i128_max, u128_max; intros [A B]; (split; [|apply Z.lt_succ_r]; first [eapply Z.le_trans; [|exact A]; now vm_compute|eapply Z.lt_le_trans; [exact B|]; now vm_compute]).
Qed.

Lemma near_le k v b : Z.abs (v - k * scale) < fval f_1em10 -> v <= b * scale -> k <= b.
Proof.
  pose proof tol_scale as TS. generalize dependent (fval f_1em10). generalize scale. intros sc tol TS K H.
  apply Z.lt_succ_r. apply (Z.mul_lt_mono_pos_r sc); lia.
Qed.
Lemma near_ge k v b : Z.abs (v - k * scale) < fval f_1em10 -> b * scale <= v -> b <= k.
Proof.
  pose proof tol_scale as TS. generalize dependent (fval f_1em10). generalize scale. intros sc tol TS K H.
  apply Z.lt_succ_r. apply (Z.mul_lt_mono_pos_r sc); lia.
Qed.

Lemma int_decoding E t i n r : num_wf n = true -> no_saturation t n ->
  (dec E (TyInt t) (Kserd i (VNum n)) = Some (DInt r) <-> int_range t r /\ is_integer t n r).
Proof.
  intros Hw NS. cbn [dec]. unfold deserialize_int. cbn [kval].
  assert (G : forall o : option Z, option_map DInt (opt_bind o (fun x => if in_ntype t x then Some x else None)) = Some (DInt r) <-> o = Some r /\ int_range t r).
  { intros [x|]; cbn [opt_bind]; [|split; [discriminate|intros [? _]; discriminate]]. destruct (in_ntype t x) eqn:X; cbn [option_map].
    - split; [intros [= <-]; split; [reflexivity|now apply in_range]|now intros [[= ->] _]].
    - split; [discriminate|]. intros [[= ->] Y]. apply in_range in Y. congruence. }
  rewrite G. clear G. pose proof tol_scale as TS. destruct (ntype_signed t) eqn:S.
  - rewrite (as_i128_spec n r Hw). split.
    + intros [A R]. split; [exact R|]. destruct n as [k|k|x]; cbn [is_integer]; [exact (proj2 A)|exact A|]. destruct A as (F & k & K & ->). split; [exact F|]. split; [|congruence].
      enough (k = Z.max i128_min (Z.min i128_max k)) as <- by exact K.
      pose proof (near_le k (fval x) (2 ^ 127 - 1) K) as NL. pose proof (near_ge k (fval x) (- 2 ^ 127) K) as NG.
      change i128_min with (- 2 ^ 127) in *. change i128_max with (2 ^ 127 - 1) in *.
      assert (LL : - 2 ^ 127 <= k). { destruct (Z_le_gt_dec (- 2 ^ 127) k) as [L|L]; [exact L|exfalso]. rewrite Z.max_l in R by lia.
        destruct NS as [N|N]; [now apply (imin_lt t)|]. destruct N as [N _]. specialize (NG N). lia. }
      assert (LU : k <= 2 ^ 127 - 1). { destruct (Z_le_gt_dec k (2 ^ 127 - 1)) as [L|L]; [exact L|exfalso]. rewrite Z.min_l, Z.max_r in R by lia.
        destruct NS as [N|N]; [now apply (imax_lt t)|]. destruct N as [_ N]. rewrite S in N. specialize (NL N). lia. }
      lia.
    + intros [R A]. split; [|exact R]. pose proof (range_wide t r R) as RW. rewrite S in RW. destruct n as [k|k|x]; cbn [is_integer] in A; [split; [lia|exact A]|exact A|].
      destruct A as (F & K & _). split; [exact F|]. exists r. split; [exact K|lia].
  - rewrite (as_u128_spec n r Hw). split.
    + intros [A R]. split; [exact R|]. destruct n as [k|k|x]; cbn [is_integer]; [exact A|exact (proj2 A)|]. destruct A as (F & P & k & K & ->). split; [exact F|]. split; [|auto].
      enough (k = Z.max 0 (Z.min u128_max k)) as <- by exact K.
      pose proof (near_le k (fval x) (2 ^ 128 - 1) K) as NL. pose proof (near_ge k (fval x) 0 K ltac:(lia)) as NG. change u128_max with (2 ^ 128 - 1) in *.
      assert (LU : k <= 2 ^ 128 - 1). { destruct (Z_le_gt_dec k (2 ^ 128 - 1)) as [L|L]; [exact L|exfalso]. rewrite Z.min_l, Z.max_r in R by lia.
        destruct NS as [N|N]; [now apply (max_lt t)|]. destruct N as [_ N]. rewrite S in N. specialize (NL N). lia. }
      lia.
    + intros [R A]. split; [|exact R]. pose proof (range_wide t r R) as RW. rewrite S in RW. destruct n as [k|k|x]; cbn [is_integer] in A; [exact A|split; [lia|exact A]|].
      destruct A as (F & K & P). split; [exact F|]. split; [now apply P|]. exists r. split; [exact K|lia].
Qed.
Lemma int_decoding_other E t i v d : (forall n, v <> VNum n) -> dec E (TyInt t) (Kserd i v) = Some d -> False.
Proof. intros N. cbn [dec]. unfold deserialize_int. cbn [kval]. destruct v; try discriminate. now destruct (N n). Qed.
