(** No two f32s become the same f64. *)
From Verif Require Import Base BaseProps F64 F64Props F64Text NumberProps2 NumberProps3 F32 F32Spec F32Props F32Props2.
Open Scope Z_scope.

Lemma g_of_dec_pow sg d n u : 0 <= d -> g_of_dec sg (d * 10 ^ Z.of_nat n) u = g_of_dec sg d (u + Z.of_nat n).
Proof.
  intros D. revert u. induction n as [|n IH]; intros u; [now rewrite Z.mul_1_r, Z.add_0_r|].
  rewrite Nat2Z.inj_succ, Z.pow_succ_r by lia. pose proof (pow10_pos (Z.of_nat n) ltac:(lia)).
  replace (d * (10 * 10 ^ Z.of_nat n)) with (d * 10 ^ Z.of_nat n * 10) by ring. rewrite g_of_dec_10 by nia. rewrite IH. f_equal. lia.
Qed.

Lemma f32_dec sg m e : f32_wf (GFin sg m e) = true -> 0 < m -> exists d t my ey,
  0 < d <= 10 ^ 10 + 1 /\ g_of_dec sg d t = GFin sg m e /\ f32_to_f64 (GFin sg m e) = Ret (FFin sg my ey) /\
  f_of_dec sg d t = FFin sg my ey /\ 2 ^ 52 <= my /\ -1074 <= ey.
Proof.
  intros W Hm. destruct (f32_parts sg m e W Hm) as (_ & _ & my & ey & _ & _ & _ & FY & _ & NY & B1 & _).
  pose proof (g_display_dec_value sg m e W Hm) as V. pose proof (g_digits sg m e W Hm) as DG.
  assert (D := g_display_fin sg m e Hm). destruct (g_display_dec (GFin sg m e)) as [d t]. destruct V as [Hd V]. exists d, t, my, ey.
  split; [exact (proj1 DG)|]. split; [exact V|]. split; [exact FY|].
  unfold f32_to_f64 in FY. rewrite D, f_parse_positional in FY by exact Hd. injection FY as FY. split; [exact FY|].
  destruct (f32_normal sg m e W) as [N E4]. pose proof N as [[[M0 M1] E0] _]. cbn [fst snd] in M0, M1, E0.
  pose proof (below_nonneg m e N ltac:(lia)) as BN.
  pose proof NY as [[[Y0 Y1] Y2] Y3]. cbn [fst snd] in *. split; [|exact Y2]. destruct Y3 as [Y3|Y3]; [exact Y3|exfalso]. subst ey.
  unfold val in *. cbn [fst snd] in *. change (2 ^ (-1074 + 1074)) with 1 in B1.
  assert (2 ^ (-149 + 1074) <= 2 ^ (e + 1074)) by (apply Z.pow_le_mono_r; lia).
  assert (2 ^ 100 < 2 ^ (-149 + 1074)) by reflexivity. assert (2 ^ 53 < 2 ^ 99) by reflexivity. change (2 ^ 100) with (2 * 2 ^ 99) in *.
  set (u := 2 ^ (e + 1074)) in *. set (w := 2 ^ (-149 + 1074)) in *. clearbody u w. nia.
Qed.

Lemma dec_same sg d t c u m e : t <= u -> 0 < d <= 10 ^ 10 + 1 -> 0 < c -> 2 ^ 52 <= m -> -1074 <= e ->
  f_of_dec sg d t = FFin sg m e -> f_of_dec sg c u = FFin sg m e -> g_of_dec sg d t = g_of_dec sg c u.
Proof.
  intros T D C M E F G. assert (d = c * 10 ^ (u - t)).
  { apply (reads_unique sg m e); try assumption; lia. }
  subst d. replace (u - t) with (Z.of_nat (Z.to_nat (u - t))) by lia. rewrite g_of_dec_pow by lia. f_equal. lia.
Qed.

Theorem f32_distinct x x' y : f32_wf x = true -> f32_wf x' = true -> (forall sg p, x <> GNaN sg p) -> 
  f32_to_f64 x = Ret y -> f32_to_f64 x' = Ret y -> x = x'.
Proof.
  intros W W' NN F F'. destruct (f32_kind x W) as (y1 & F1 & _ & K), (f32_kind x' W') as (y2 & F2 & _ & K').
  rewrite F in F1. injection F1 as <-. rewrite F' in F2. injection F2 as <-.
  destruct x as [sg p|sg|sg m e]; [now destruct (NN sg p)| |].
  - destruct y; try contradiction. destruct x'; try contradiction. congruence.
  - destruct y as [| |sy my ey]; try contradiction. destruct x' as [| |sg' m' e']; try contradiction.
    assert (Z0 : forall sg m e, f32_wf (GFin sg m e) = true -> m = 0 -> e = -149) by (intros; unfold f32_wf in *; lia).
    assert (P0 : forall sg m e, f32_wf (GFin sg m e) = true -> 0 <= m) by (intros; unfold f32_wf in *; lia).
    pose proof (P0 _ _ _ W). pose proof (P0 _ _ _ W').
    destruct (Z.eq_dec m 0) as [->|Nm], (Z.eq_dec m' 0) as [->|Nm'].
    + rewrite (Z0 _ _ _ W eq_refl) in *. rewrite (Z0 _ _ _ W' eq_refl) in *. destruct sg, sg'; try reflexivity; vm_compute in F, F'; congruence.
    + exfalso. rewrite (Z0 _ _ _ W eq_refl) in *. assert (Y : FFin sy my ey = FFin sg 0 (-1074)) by (destruct sg; vm_compute in F; congruence).
      destruct (f32_dec sg' m' e' W' ltac:(lia)) as (d & t & k & f & _ & _ & G & _ & B & _). rewrite F', Y in G. injection G as G1 G2 G3. lia.
    + exfalso. rewrite (Z0 _ _ _ W' eq_refl) in *. assert (Y : FFin sy my ey = FFin sg' 0 (-1074)) by (destruct sg'; vm_compute in F'; congruence).
      destruct (f32_dec sg m e W ltac:(lia)) as (d & t & k & f & _ & _ & G & _ & B & _). rewrite F, Y in G. injection G as G1 G2 G3. lia.
    + destruct (f32_dec sg m e W ltac:(lia)) as (d & t & k & f & D1 & G & A & B & C1 & C2).
      destruct (f32_dec sg' m' e' W' ltac:(lia)) as (c & u & k' & f' & D1' & G' & A' & B' & _ & _).
      rewrite F in A. rewrite F' in A'. injection A as -> -> ->. injection A' as -> -> ->.
      rewrite <- G, <- G'. destruct (Z.le_gt_cases t u).
      * apply (dec_same sg' d t c u k' f'); try assumption; lia.
      * symmetry. apply (dec_same sg' c u d t k' f'); try assumption; lia.
Qed.
