(** base91 round trip. *)
From Verif Require Import Base BaseProps Base91.
Open Scope N_scope.

Lemma b91_index_char i : i < 91 -> b91_index (b91_char i) = Some i.
Proof.
  intros H.
  assert (G : forallb (fun j => match b91_index (b91_char (N.of_nat j)) with Some k => k =? N.of_nat j | None => false end) (seq 0 91) = true)
    by (vm_compute; reflexivity).
  rewrite forallb_forall in G. specialize (G (N.to_nat i)).
  rewrite N2Nat.id in G. destruct (b91_index (b91_char i)).
  - f_equal. apply N.eqb_eq. apply G. apply in_seq. lia.
  - exfalso. assert (false = true); [|discriminate]. apply G. apply in_seq. lia.
Qed.
Lemma b91_char_in i : i < 91 -> In (b91_char i) b91_alphabet.
Proof. intros H. apply nth_In. change (length b91_alphabet) with 91%nat. lia. Qed.

Fixpoint le_bytes (m : nat) (x : N) : list N :=
  match m with O => [] | S m => x mod 256 :: le_bytes m (x / 256) end.

Lemma pow8 (m : nat) : 2 ^ (8 * N.of_nat (S m)) = 256 * 2 ^ (8 * N.of_nat m).
Proof.
  replace (8 * N.of_nat (S m)) with (8 + 8 * N.of_nat m) by lia. rewrite N.pow_add_r. reflexivity.
Qed.

Lemma le_bytes_app p : forall q x, le_bytes (p + q) x = le_bytes p x ++ le_bytes q (x / 2 ^ (8 * N.of_nat p)).
Proof.
  induction p as [|p IH]; intros q x.
  - cbn [le_bytes app plus]. change (2 ^ (8 * N.of_nat 0)) with 1. now rewrite N.div_1_r.
  - cbn [le_bytes app plus]. rewrite IH, pow8, N.div_div; [reflexivity|lia|]. apply N.pow_nonzero. lia.
Qed.
Lemma le_bytes_mod m : forall x y, le_bytes m (x + y * 2 ^ (8 * N.of_nat m)) = le_bytes m x.
Proof.
  induction m as [|m IH]; intros x y; [reflexivity|]. cbn [le_bytes]. rewrite pow8.
  replace (y * (256 * 2 ^ (8 * N.of_nat m))) with (y * 2 ^ (8 * N.of_nat m) * 256) by lia.
  rewrite N.mod_add, N.div_add by lia. now rewrite IH.
Qed.

Lemma drain_spec b n : 8 <= n < 24 ->
  b91_drain 3 b n = (le_bytes (N.to_nat (n / 8)) b, (b / 2 ^ (8 * (n / 8)), n mod 8)).
Proof.
  intros H. destruct (N.ltb_spec n 16).
  - replace (n / 8) with 1 by (apply (N.div_unique n 8 1 (n - 8)); lia).
    replace (n mod 8) with (n - 8) by (apply (N.mod_unique n 8 1); lia).
    cbn [b91_drain]. destruct (N.ltb_spec 7 (n - 8)); [lia|]. reflexivity.
  - replace (n / 8) with 2 by (apply (N.div_unique n 8 2 (n - 16)); lia).
    replace (n mod 8) with (n - 16) by (apply (N.mod_unique n 8 2); lia).
    cbn [b91_drain]. destruct (N.ltb_spec 7 (n - 8)); [|lia]. destruct (N.ltb_spec 7 (n - 8 - 8)); [lia|].
    change (2 ^ (8 * 2)) with (256 * 256). rewrite <- N.div_div by lia.
    replace (n - 8 - 8) with (n - 16) by lia. reflexivity.
Qed.

Definition code_len (v : N) : N := if 88 <? v mod 8192 then 13 else 14.
Lemma code_len_range v : 13 <= code_len v <= 14.
Proof. unfold code_len. destruct (88 <? v mod 8192); lia. Qed.

Lemma decode_code v db dn t : v < 8281 -> dn <= 7 ->
  b91_decode_from db dn None (b91_char (v mod 91) :: b91_char (v / 91) :: t) =
  let y := db + v * 2 ^ dn in
  let n := dn + code_len v in
  le_bytes (N.to_nat (n / 8)) y ++ b91_decode_from (y / 2 ^ (8 * (n / 8))) (n mod 8) None t.
Proof.
  intros Hv Hn. cbn [b91_decode_from].
  rewrite b91_index_char by (apply N.mod_lt; lia).
  rewrite b91_index_char by (apply N.div_lt_upper_bound; lia).
  replace (v mod 91 + v / 91 * 91) with v by (rewrite (N.div_mod v 91) at 1; lia).
  fold (code_len v). pose proof (code_len_range v). rewrite drain_spec by lia. reflexivity.
Qed.

Lemma pow_le a b : a <= b -> 2 ^ a <= 2 ^ b.
Proof. intros. apply N.pow_le_mono_r; lia. Qed.

Lemma div8_exact t : t mod 8 = 0 -> t = 8 * (t / 8).
Proof. intros H. pose proof (N.div_mod t 8). lia. Qed.

(** decoding one code, in terms of the pending value *)
Lemma code_step db dn v l eb en bytes rest :
  v < 8281 -> dn <= 7 -> db < 2 ^ dn -> v < 2 ^ l -> l = code_len v ->
  (dn + l + en) mod 8 = 0 ->
  (forall db' dn', dn' <= 7 -> db' < 2 ^ dn' -> (dn' + en) mod 8 = 0 ->
     b91_decode_from db' dn' None rest = le_bytes (N.to_nat ((dn' + en) / 8)) (db' + eb * 2 ^ dn') ++ bytes) ->
  b91_decode_from db dn None (b91_char (v mod 91) :: b91_char (v / 91) :: rest) =
  le_bytes (N.to_nat ((dn + l + en) / 8)) (db + (v + eb * 2 ^ l) * 2 ^ dn) ++ bytes.
Proof.
  intros Hv Hdn Hdb Hvl -> Hm IH. rewrite decode_code by assumption. cbv zeta.
  pose proof (code_len_range v) as HL. set (l := code_len v) in *.
  set (n := dn + l) in *. set (q := n / 8). set (y := db + v * 2 ^ dn).
  assert (Hq : n = 8 * q + n mod 8) by (apply N.div_mod; lia).
  pose proof (N.mod_lt n 8 ltac:(lia)) as Hr.
  assert (Hy : y < 2 ^ n).
  { unfold y, n. rewrite N.pow_add_r. pose proof (N.pow_nonzero 2 dn ltac:(lia)). nia. }
  assert (P1 : 2 ^ n = 2 ^ (8 * q) * 2 ^ (n mod 8)) by (rewrite Hq at 1; apply N.pow_add_r).
  pose proof (N.pow_nonzero 2 (8 * q) ltac:(lia)) as NZ.
  assert (Hm' : (n mod 8 + en) mod 8 = 0) by (rewrite N.add_mod_idemp_l by lia; exact Hm).
  rewrite IH; [|lia| |exact Hm'].
  2:{ apply N.div_lt_upper_bound; [exact NZ|]. now rewrite <- P1. }
  rewrite app_assoc. f_equal.
  set (r := (n mod 8 + en) / 8).
  replace ((n + en) / 8) with (q + r).
  2:{ pose proof (div8_exact _ Hm). pose proof (div8_exact _ Hm'). fold r in H0. lia. }
  rewrite N2Nat.inj_add, le_bytes_app, N2Nat.id.
  assert (W : db + (v + eb * 2 ^ l) * 2 ^ dn = y + eb * 2 ^ (n mod 8) * 2 ^ (8 * q)).
  { unfold y. replace (eb * 2 ^ (n mod 8) * 2 ^ (8 * q)) with (eb * 2 ^ n) by (rewrite P1; ring).
    unfold n. rewrite N.pow_add_r. ring. }
  rewrite W. f_equal.
  - rewrite <- (N2Nat.id q) at 3. now rewrite le_bytes_mod.
  - now rewrite N.div_add.
Qed.

Lemma decode_encode_from bytes : Forall (fun x => x < 256) bytes -> forall eb en db dn,
  eb < 2 ^ en -> en <= 13 -> dn <= 7 -> db < 2 ^ dn -> (dn + en) mod 8 = 0 ->
  b91_decode_from db dn None (b91_encode_from eb en bytes) =
  le_bytes (N.to_nat ((dn + en) / 8)) (db + eb * 2 ^ dn) ++ bytes.
Proof.
  induction 1 as [|x bytes Hx HF IH]; intros eb en db dn Heb Hen Hdn Hdb Hm.
  - cbn [b91_encode_from]. rewrite app_nil_r. destruct (N.ltb_spec 0 en).
    2:{ assert (en = 0) by lia. subst en. rewrite N.add_0_r in *. rewrite N.mod_small in Hm by lia. subst dn. reflexivity. }
    assert (H8192 : eb < 8192) by (pose proof (pow_le en 13 Hen); change (2 ^ 13) with 8192 in *; lia).
    destruct ((7 <? en) || (90 <? eb)) eqn:E.
    + rewrite decode_code by lia. cbv zeta. cbn [b91_decode_from]. rewrite app_nil_r. f_equal. f_equal.
      assert (E7 : 7 <= en).
      { apply orb_true_iff in E as [E|E]; apply N.ltb_lt in E; [lia|].
        destruct (N.le_gt_cases 7 en); [assumption|]. pose proof (pow_le en 6 ltac:(lia)). change (2 ^ 6) with 64 in *. lia. }
      pose proof (code_len_range eb). pose proof (div8_exact _ Hm) as D. 
      set (t := (dn + en) / 8) in *. symmetry. apply (N.div_unique _ 8 t (dn + code_len eb - 8 * t)); lia.
    + apply orb_false_iff in E as [E1 E2]. apply N.ltb_ge in E1, E2.
      cbn [b91_decode_from]. rewrite b91_index_char by (apply N.mod_lt; lia). cbn [b91_decode_from].
      rewrite (N.mod_small eb 91) by lia. pose proof (div8_exact _ Hm) as D.
      replace ((dn + en) / 8) with 1 by lia. reflexivity.
  - cbn [b91_encode_from].
    set (b := eb + x * 2 ^ en). set (n := en + 8).
    assert (Hb : b < 2 ^ n).
    { unfold b, n. rewrite N.pow_add_r. change (2 ^ 8) with 256. nia. }
    assert (Hmn : (dn + n) mod 8 = 0).
    { unfold n. rewrite N.add_assoc, <- (N.add_mod_idemp_r _ 8) by lia. change (8 mod 8) with 0. now rewrite N.add_0_r. }
    assert (Fin : le_bytes (N.to_nat ((dn + n) / 8)) (db + b * 2 ^ dn) ++ bytes =
                  le_bytes (N.to_nat ((dn + en) / 8)) (db + eb * 2 ^ dn) ++ x :: bytes).
    { pose proof (div8_exact _ Hm) as D. set (t := (dn + en) / 8) in *.
      replace ((dn + n) / 8) with (t + 1).
      2:{ unfold n. rewrite N.add_assoc. replace (dn + en + 8) with (dn + en + 1 * 8) by lia. rewrite N.div_add by lia. reflexivity. }
      rewrite N2Nat.inj_add, le_bytes_app, N2Nat.id.
      replace (db + b * 2 ^ dn) with (db + eb * 2 ^ dn + x * 2 ^ (8 * t)).
      2:{ unfold b. rewrite <- D, N.pow_add_r. ring. }
      rewrite N.div_add by (apply N.pow_nonzero; lia).
      rewrite <- (N2Nat.id t) at 2. rewrite le_bytes_mod.
      rewrite <- app_assoc. f_equal. rewrite N.div_small.
      2:{ rewrite <- D, N.pow_add_r. pose proof (N.pow_nonzero 2 dn ltac:(lia)). nia. }
      rewrite N.add_0_l. change (N.to_nat 1) with 1%nat. cbn [le_bytes app]. now rewrite N.mod_small. }
    destruct (N.ltb_spec 13 n).
    + assert (Hl : exists v l, (if 88 <? b mod 8192 then (b mod 8192, 13) else (b mod 16384, 14)) = (v, l)
               /\ l = code_len v /\ v < 8281 /\ v < 2 ^ l /\ b = v + b / 2 ^ l * 2 ^ l).
      { destruct (N.ltb_spec 88 (b mod 8192)).
        - exists (b mod 8192), 13. change (2 ^ 13) with 8192. pose proof (N.mod_lt b 8192 ltac:(lia)).
          refine (conj eq_refl (conj _ (conj _ (conj _ _)))); [|lia|lia|].
          + unfold code_len. rewrite N.mod_mod by lia. destruct (N.ltb_spec 88 (b mod 8192)); lia.
          + rewrite (N.div_mod b 8192) at 1 by lia. lia.
        - exists (b mod 16384), 14. change (2 ^ 14) with 16384. pose proof (N.mod_lt b 16384 ltac:(lia)).
          assert (MM : (b mod 16384) mod 8192 = b mod 8192).
          { change 16384 with (8192 * 2). rewrite N.mod_mul_r by lia. rewrite N.add_comm, (N.mul_comm 8192), N.add_comm.
            rewrite N.mod_add by lia. now rewrite N.mod_mod by lia. }
          refine (conj eq_refl (conj _ (conj _ (conj _ _)))); [| |lia|].
          + unfold code_len. rewrite MM. destruct (N.ltb_spec 88 (b mod 8192)); lia.
          + rewrite (N.div_mod (b mod 16384) 8192) by lia. rewrite MM.
            assert (b mod 16384 / 8192 < 2) by (apply N.div_lt_upper_bound; lia). lia.
          + rewrite (N.div_mod b 16384) at 1 by lia. lia. }
      destruct Hl as (v & l & -> & Hl & Hv & Hvl & Hbv).
      pose proof (code_len_range v) as HL. rewrite <- Hl in HL.
      rewrite <- Fin. rewrite Hbv at 2.
      replace (dn + n) with (dn + l + (n - l)) by lia.
      apply code_step; auto.
      * replace (dn + l + (n - l)) with (dn + n) by lia. exact Hmn.
      * intros db' dn' H1 H2 H3. apply IH; auto.
        -- apply N.div_lt_upper_bound; [apply N.pow_nonzero; lia|]. rewrite <- N.pow_add_r.
           replace (l + (n - l)) with n by lia. exact Hb.
        -- lia.
    + rewrite <- Fin. apply IH; auto; lia.
Qed.

Lemma b91_round_trip bytes : Forall (fun x => x < 256) bytes -> b91_decode (b91_encode bytes) = bytes.
Proof.
  intros H. unfold b91_decode, b91_encode. now rewrite decode_encode_from by (try assumption; reflexivity || lia).
Qed.

Lemma encode_alphabet bytes : Forall (fun x => x < 256) bytes -> forall b n, b < 2 ^ n -> n <= 13 ->
  Forall (fun c => In c b91_alphabet) (b91_encode_from b n bytes).
Proof.
  assert (C : forall v, v < 8281 -> In (b91_char (v mod 91)) b91_alphabet /\ In (b91_char (v / 91)) b91_alphabet).
  { intros v Hv. split; apply b91_char_in; [apply N.mod_lt; lia|apply N.div_lt_upper_bound; lia]. }
  induction 1 as [|x bytes Hx HF IH]; intros eb n Heb Hn; cbn [b91_encode_from].
  - destruct (N.ltb_spec 0 n); [|constructor].
    pose proof (pow_le n 13 Hn). change (2 ^ 13) with 8192 in *. destruct (C eb ltac:(lia)) as [C1 C2].
    constructor; [exact C1|]. destruct ((7 <? n) || (90 <? eb)); [constructor; [exact C2|constructor]|constructor].
  - set (b := eb + x * 2 ^ n).
    assert (Hb : b < 2 ^ (n + 8)).
    { unfold b. rewrite N.pow_add_r. change (2 ^ 8) with 256. nia. }
    destruct (N.ltb_spec 13 (n + 8)); [|now apply IH].
    destruct (N.ltb_spec 88 (b mod 8192)).
    + pose proof (N.mod_lt b 8192 ltac:(lia)). destruct (C (b mod 8192) ltac:(lia)) as [C1 C2].
      constructor; [exact C1|]. constructor; [exact C2|]. apply IH; [|lia].
      apply N.div_lt_upper_bound; [apply N.pow_nonzero; lia|]. rewrite <- N.pow_add_r.
      replace (13 + (n + 8 - 13)) with (n + 8) by lia. exact Hb.
    + assert (MM : (b mod 16384) mod 8192 = b mod 8192).
      { change 16384 with (8192 * 2). rewrite N.mod_mul_r by lia. rewrite N.add_comm, (N.mul_comm 8192), N.add_comm.
        rewrite N.mod_add by lia. now rewrite N.mod_mod by lia. }
      assert (b mod 16384 < 8281).
      { rewrite (N.div_mod (b mod 16384) 8192) by lia. rewrite MM. pose proof (N.mod_lt b 16384 ltac:(lia)).
        assert (b mod 16384 / 8192 < 2) by (apply N.div_lt_upper_bound; lia). lia. }
      destruct (C (b mod 16384) ltac:(lia)) as [C1 C2].
      constructor; [exact C1|]. constructor; [exact C2|]. apply IH; [|lia].
      apply N.div_lt_upper_bound; [apply N.pow_nonzero; lia|]. rewrite <- N.pow_add_r.
      replace (14 + (n + 8 - 14)) with (n + 8) by lia. exact Hb.
Qed.
Lemma b91_encode_alphabet bytes : Forall (fun x => x < 256) bytes -> Forall (fun c => In c b91_alphabet) (b91_encode bytes).
Proof. intros. apply encode_alphabet; [assumption|reflexivity|lia]. Qed.
