(** Printing a float and reading it back. *)
From Verif Require Import Base BaseProps F64 F64Props.
Open Scope Z_scope.

Lemma log2_frac_scale p q c : 0 < p -> 0 < q -> 0 < c -> log2_frac (p * c) (q * c) = log2_frac p q.
Proof.
  intros Hp Hq Hc.
  pose proof (Z.log2_nonneg p). pose proof (Z.log2_nonneg q).
  pose proof (Z.log2_nonneg (p * c)). pose proof (Z.log2_nonneg (q * c)).
  assert (Hb : - Z.log2 q - 1 <= log2_frac p q).
  { unfold log2_frac. destruct (_ <=? _); lia. }
  set (K := Z.log2 q + Z.log2 p + 2 + Z.log2 (q * c) + Z.log2 (p * c)).
  apply (log2_frac_unique (p * c) (q * c) _ K); try nia.
  destruct (log2_frac_le p q K Hp Hq ltac:(lia)) as [A B].
  replace (q * c * 2 ^ (K + log2_frac p q)) with (q * 2 ^ (K + log2_frac p q) * c) by ring.
  replace (q * c * 2 ^ (K + log2_frac p q + 1)) with (q * 2 ^ (K + log2_frac p q + 1) * c) by ring.
  replace (p * c * 2 ^ K) with (p * 2 ^ K * c) by ring.
  split; [apply Zmult_le_compat_r|apply Zmult_lt_compat_r]; lia.
Qed.

Lemma rne_scale sg p q c : 0 <= p -> 0 < q -> 0 < c -> rne sg (p * c) (q * c) = rne sg p q.
Proof.
  intros Hp Hq Hc. unfold rne.
  destruct (Z.eqb_spec p 0) as [->|Np]; [reflexivity|].
  destruct (Z.eqb_spec (p * c) 0); [nia|].
  unfold rne_pos. rewrite log2_frac_scale by lia. cbv zeta.
  set (e := Z.max (-1074) _).
  replace (p * c * 2 ^ Z.max 0 (- e)) with (p * 2 ^ Z.max 0 (- e) * c) by ring.
  replace (q * c * 2 ^ Z.max 0 e) with (q * 2 ^ Z.max 0 e * c) by ring.
  rewrite div_even_scale; [reflexivity| |lia].
  pose proof (pow2_pos (Z.max 0 e) ltac:(lia)). nia.
Qed.

Lemma f_of_dec_10 sg d t : 0 <= d -> f_of_dec sg (d * 10) t = f_of_dec sg d (t + 1).
Proof.
  intros Hd. unfold f_of_dec.
  destruct (Z.leb_spec 0 t) as [H|H].
  - rewrite (Z.max_r 0 t), (Z.max_r 0 (t + 1)), (Z.max_l 0 (- t)), (Z.max_l 0 (- (t + 1))) by lia.
    rewrite Z.pow_add_r by lia. f_equal. change (10 ^ 1) with 10. ring.
  - rewrite (Z.max_l 0 t), (Z.max_l 0 (t + 1)), (Z.max_r 0 (- t)), (Z.max_r 0 (- (t + 1))) by lia.
    rewrite !Z.pow_0_r, !Z.mul_1_r.
    replace (- t) with (- (t + 1) + 1) by lia. rewrite Z.pow_add_r by lia. change (10 ^ 1) with 10.
    apply rne_scale; first [lia | apply pow10_pos; lia].
Qed.

Lemma strip0_value sg n : forall d t, 0 <= d ->
  let '(d', t') := strip0 n d t in 0 <= d' /\ f_of_dec sg d' t' = f_of_dec sg d t.
Proof.
  induction n as [|n IH]; intros d t Hd; cbn [strip0]; [auto|].
  destruct (Z.eqb_spec (d mod 10) 0) as [E|E]; cbn [andb]; [|auto].
  destruct (Z.eqb_spec d 0) as [E0|E0]; cbn [negb andb]; [auto|].
  specialize (IH (d / 10) (t + 1) (Z.div_pos d 10 Hd ltac:(lia))).
  destruct (strip0 n (d / 10) (t + 1)) as [d' t']. destruct IH as [A B]. split; [exact A|].
  rewrite B. rewrite <- f_of_dec_10 by (apply Z.div_pos; lia). f_equal.
  pose proof (Z.div_mod d 10 ltac:(lia)). lia.
Qed.

Lemma strip0_pos n : forall d t, 0 < d ->
  let '(d', t') := strip0 n d t in 0 < d' /\ t <= t'.
Proof.
  induction n as [|n IH]; intros d t Hd; cbn [strip0]; [lia|].
  destruct (Z.eqb_spec (d mod 10) 0) as [E|E]; cbn [andb]; [|lia].
  destruct (Z.eqb_spec d 0) as [E0|E0]; cbn [negb andb]; [lia|].
  assert (0 < d / 10) by (pose proof (Z.div_mod d 10 ltac:(lia)); lia).
  specialize (IH (d / 10) (t + 1) H).
  destruct (strip0 n (d / 10) (t + 1)) as [d' t']. lia.
Qed.

(** either the search found digits which read back, or it is the full expansion *)
Lemma shortest_value x d t j :
  0 <= d ->
  let '(d', t') := shortest x d t j in
  0 <= d' /\ (f_of_dec (f_sign x) d' t' = x \/ (d' = d /\ t' = t)).
Proof.
  intros Hd. induction j as [|j IH]; cbn [shortest]; [auto|].
  pose proof (pow10_pos (Z.of_nat (S j)) ltac:(lia)) as Hp.
  pose proof (Z.div_pos d _ Hd Hp) as Hq.
  match goal with |- context [if ?c then _ else _] => destruct c eqn:C end.
  - apply andb_true_iff in C as [C _]. apply f64_same_spec in C. split; [exact Hq|left; exact C].
  - match goal with |- context [if ?c then _ else _] => destruct c eqn:C' end.
    + apply f64_same_spec in C'. split; [lia|left; exact C'].
    + exact IH.
Qed.

(** full expansion reads back *)
Lemma exact_dec_value sg m e :
  f64_wf (FFin sg m e) = true -> 0 < m ->
  let '(d, t) := exact_dec m e in 0 < d /\ f_of_dec sg d t = FFin sg m e.
Proof.
  intros Hwf Hm. unfold exact_dec.
  destruct (Z.leb_spec 0 e) as [H|H].
  - pose proof (pow2_pos e H) as P. split; [nia|].
    unfold f_of_dec, rne. change (Z.max 0 0) with 0. change (Z.max 0 (-0)) with 0.
    rewrite Z.pow_0_r, Z.mul_1_r.
    destruct (Z.eqb_spec (m * 2 ^ e) 0); [nia|].
    apply rne_pos_exact; try assumption; [lia|].
    rewrite (Z.max_l 0 (- e)), (Z.max_r 0 e) by lia. rewrite Z.pow_0_r. ring.
  - assert (P5 : 0 < 5 ^ (- e)) by (apply Z.pow_pos_nonneg; lia). split; [nia|].
    unfold f_of_dec, rne. rewrite (Z.max_l 0 e), (Z.max_r 0 (- e)) by lia.
    rewrite Z.pow_0_r, Z.mul_1_r.
    destruct (Z.eqb_spec (m * 5 ^ (- e)) 0); [nia|].
    apply rne_pos_exact; try assumption; [apply pow10_pos; lia|].
    rewrite (Z.max_l 0 e), (Z.max_r 0 (- e)) by lia. rewrite Z.pow_0_r, Z.mul_1_r.
    replace 10 with (5 * 2) at 1 by reflexivity. rewrite Z.pow_mul_l. ring.
Qed.

(** the digits [f_display] prints: decimal mantissa and exponent *)
Definition display_dec (x : f64) : Z * Z :=
  match x with
  | FFin sg m e =>
      let '(d, t) := exact_dec m e in
      let nd := length (dec_of_N (Z.to_N d)) in
      let '(d, t) := shortest x d t (nd - 1) in
      strip0 nd d t
  | _ => (0, 0)
  end.

Lemma display_dec_value sg m e :
  f64_wf (FFin sg m e) = true -> 0 < m ->
  let '(d, t) := display_dec (FFin sg m e) in
  0 < d /\ f_of_dec sg d t = FFin sg m e.
Proof.
  intros Hwf Hm. unfold display_dec.
  pose proof (exact_dec_value sg m e Hwf Hm) as HE.
  destruct (exact_dec m e) as [D T]. destruct HE as [HD HE].
  set (nd := length (dec_of_N (Z.to_N D))).
  pose proof (shortest_value (FFin sg m e) D T (nd - 1) ltac:(lia)) as HS.
  destruct (shortest (FFin sg m e) D T (nd - 1)) as [d t]. destruct HS as [Hd HS].
  cbn [f_sign] in HS.
  assert (HV : f_of_dec sg d t = FFin sg m e).
  { destruct HS as [HS|[-> ->]]; assumption. }
  pose proof (strip0_value sg nd d t Hd) as HV'.
  destruct (strip0 nd d t) as [d' t']. destruct HV' as [Hd' HV'].
  rewrite HV in HV'. split; [|exact HV'].
  destruct (Z.eq_dec d' 0) as [E|E]; [|lia].
  subst d'. unfold f_of_dec, rne in HV'. rewrite Z.mul_0_l in HV'. cbn in HV'.
  injection HV' as <- _. lia.
Qed.

(** ** reading positional text *)

Lemma digit_not c k : is_digit c = true -> (k < 48 \/ 57 < k)%N -> (c =? k)%N = false.
Proof. unfold is_digit. intros. lia. Qed.

Definition signed (sg : bool) (t : str) : str := (if sg then s "-" else []) ++ t.

Lemma f_parse_digits sg ip fp :
  forallb is_digit ip = true -> forallb is_digit fp = true -> ip <> [] ->
  f_parse (signed sg (ip ++ s "." ++ fp))
  = Some (f_of_dec sg (Z.of_N (N_of_dec (ip ++ fp))) (- Z.of_nat (length fp))).
Proof.
  intros Hi Hf Hne.
  assert (Hhd : match (ip ++ s "." ++ fp) with c :: _ => is_digit c = true | [] => True end).
  { destruct ip as [|c ip]; [easy|]. cbn in Hi |- *. destruct (is_digit c); [reflexivity|discriminate]. }
  unfold f_parse, signed.
  assert (HS : split_sign ((if sg then s "-" else []) ++ ip ++ s "." ++ fp) = (sg, ip ++ s "." ++ fp)).
  { destruct sg; [reflexivity|]. unfold split_sign.
    destruct ip as [|c ip]; [easy|]. cbn [app] in *.
    now rewrite !(digit_not c) by (assumption || lia). }
  rewrite HS. clear HS.
  rewrite take_while_spec; [|assumption|reflexivity].
  cbn [app s list_ascii_of_string map]. change (N_of_ascii "."%char) with 46%N. rewrite N.eqb_refl.
  rewrite take_while_spec_nil by assumption.
  destruct (ip ++ fp) as [|c r] eqn:E; [destruct ip; easy|].
  rewrite <- E. cbn [parse_exp]. f_equal.
Qed.

Lemma N_Z_pow10 k : Z.of_N (10 ^ k) = 10 ^ Z.of_N k.
Proof. apply N2Z.inj_pow. Qed.

(** positional text of d * 10^t: an integer when t >= 0, otherwise with point *)
Lemma positional_int d t : 0 < d -> 0 <= t ->
  let ds := positional d t in
  forallb is_digit ds = true /\ ds <> [] /\ Z.of_N (N_of_dec ds) = d * 10 ^ t.
Proof.
  intros Hd Ht. unfold positional.
  destruct (dec_of_N_spec (Z.to_N d)) as (V & D & NE & LB).
  replace (0 <=? t) with true by lia. unfold zeros. cbv zeta.
  repeat split.
  - rewrite forallb_app, D. apply zeros_digits.
  - destruct (dec_of_N (Z.to_N d)); easy.
  - rewrite N_of_dec_app, V, N_of_dec_zeros, repeat_length.
    rewrite N.add_0_r, N2Z.inj_mul, N_Z_pow10.
    rewrite Z2N.id by lia. do 2 f_equal. lia.
Qed.

Lemma positional_frac d t : 0 < d -> t < 0 ->
  exists ip fp, positional d t = ip ++ s "." ++ fp /\ ip <> [] /\ fp <> []
    /\ forallb is_digit ip = true /\ forallb is_digit fp = true
    /\ Z.of_N (N_of_dec (ip ++ fp)) = d /\ Z.of_nat (length fp) = - t.
Proof.
  intros Hd Ht. unfold positional.
  destruct (dec_of_N_spec (Z.to_N d)) as (V & D & NE & LB).
  set (ds := dec_of_N (Z.to_N d)) in *. cbv zeta.
  replace (0 <=? t) with false by lia.
  destruct (Z.ltb_spec (- t) (Z.of_nat (length ds))) as [H|H].
  - exists (firstn (Z.to_nat (Z.of_nat (length ds) + t)) ds), (skipn (Z.to_nat (Z.of_nat (length ds) + t)) ds).
    assert (L1 : length (firstn (Z.to_nat (Z.of_nat (length ds) + t)) ds) = Z.to_nat (Z.of_nat (length ds) + t))
      by (rewrite firstn_length; lia).
    assert (L2 : length (skipn (Z.to_nat (Z.of_nat (length ds) + t)) ds) = Z.to_nat (- t))
      by (rewrite skipn_length; lia).
    rewrite <- (firstn_skipn (Z.to_nat (Z.of_nat (length ds) + t)) ds) in D.
    rewrite forallb_app in D. apply andb_true_iff in D as [D1 D2].
    repeat split; auto.
    + intros E. rewrite E in L1. cbn [length] in L1. lia.
    + intros E. rewrite E in L2. cbn [length] in L2. lia.
    + rewrite firstn_skipn, V. lia.
    + rewrite L2. lia.
  - exists (s "0"), (zeros (- t - Z.of_nat (length ds)) ++ ds). unfold zeros.
    repeat split; try easy.
    + destruct ds; [easy|]. now destruct (repeat _ _).
    + rewrite forallb_app, zeros_digits. exact D.
    + rewrite app_assoc. rewrite N_of_dec_app, V.
      change (s "0" ++ ?r) with ([48]%N ++ r). rewrite N_of_dec_app, N_of_dec_zeros.
      cbn [N_of_dec fold_left]. rewrite N.sub_diag. lia.
    + rewrite app_length, repeat_length. lia.
Qed.

Lemma f_display_fin sg m e : 0 < m ->
  f_display (FFin sg m e) =
  let '(d, t) := display_dec (FFin sg m e) in signed sg (positional d t).
Proof.
  intros Hm. unfold f_display, display_dec.
  replace (m =? 0) with false by lia.
  destruct (exact_dec m e) as [D T].
  destruct (shortest _ D T _) as [d t]. destruct (strip0 _ d t). reflexivity.
Qed.

(** [t] is an integer text: digits with optional minus *)
Lemma f_parse_display sg m e : 0 < m -> f64_wf (FFin sg m e) = true ->
  let '(d, t) := display_dec (FFin sg m e) in
  t < 0 -> f_parse (f_display (FFin sg m e)) = Some (FFin sg m e).
Proof.
  intros Hm Hwf. rewrite f_display_fin by exact Hm.
  pose proof (display_dec_value sg m e Hwf Hm) as H.
  destruct (display_dec (FFin sg m e)) as [d t]. destruct H as [Hd HV].
  intros Ht. destruct (positional_frac d t Hd Ht) as (ip & fp & E & NE & NE2 & Di & Df & V & L).
  rewrite E. rewrite f_parse_digits by assumption. rewrite V, L, Z.opp_involutive. now rewrite HV.
Qed.
