(** Proofs about debug texts: one line, or several with the indents taken away. *)
From Verif Require Import Base BaseProps F64 Number BTree Value ValueSpec ValueProps Nav Debug DebugSpec.
Open Scope N_scope.

(** ** hexadecimal digits *)
Definition unhex_digit (c : char) : N := if c <? 58 then c - 48 else c - 87.
Definition unhex (t : str) : N := fold_left (fun a c => a * 16 + unhex_digit c) t 0.
Lemma unhex_fold t : forall a, fold_left (fun a c => a * 16 + unhex_digit c) t a = a * 16 ^ N.of_nat (length t) + unhex t.
Proof.
  unfold unhex. induction t as [|c t IH]; intros a; [cbn; lia|].
  cbn [fold_left length]. rewrite IH, (IH (0 * 16 + _)), Nnat.Nat2N.inj_succ, N.pow_succ_r'. lia.
Qed.
Lemma unhex_one n : n < 16 -> unhex_digit (hex_digit n) = n.
Proof.
  intros H. unfold unhex_digit, hex_digit. destruct (N.ltb_spec n 10).
  - destruct (N.ltb_spec (48 + n) 58); lia.
  - destruct (N.ltb_spec (87 + n) 58); lia.
Qed.
Lemma hex_digits_spec f : forall n acc, n < 16 ^ N.of_nat f -> unhex (hex_digits f n acc) = n * 16 ^ N.of_nat (length acc) + unhex acc.
Proof.
  induction f as [|f IH]; intros n acc H.
  - cbn in H. cbn [hex_digits]. replace n with 0 by lia. lia.
  - cbn [hex_digits]. pose proof (N.mod_lt n 16 ltac:(lia)) as L.
    assert (E : forall a, unhex (hex_digit a :: acc) = unhex_digit (hex_digit a) * 16 ^ N.of_nat (length acc) + unhex acc).
    { intros a. unfold unhex. cbn [fold_left]. rewrite unhex_fold. unfold unhex. lia. }
    destruct (N.ltb_spec n 16).
    + rewrite E, unhex_one by exact L. rewrite N.mod_small by assumption. reflexivity.
    + rewrite IH.
      * rewrite E, unhex_one by exact L. cbn [length]. rewrite Nnat.Nat2N.inj_succ, N.pow_succ_r'.
        pose proof (N.div_mod n 16 ltac:(lia)) as D. rewrite D at 3. lia.
      * rewrite Nnat.Nat2N.inj_succ, N.pow_succ_r' in H. apply N.div_lt_upper_bound; lia.
Qed.
Lemma hex_unhex n : unhex (hex_of_N n) = n.
Proof.
  unfold hex_of_N. rewrite hex_digits_spec; [unfold unhex; cbn; lia|].
  eapply N.lt_le_trans; [apply size_nat_pow10|]. apply N.pow_le_mono_l. lia.
Qed.
Lemma hex_digits_chars f : forall n acc, forallb (fun c => negb (mem c [10; 125])) acc = true -> forallb (fun c => negb (mem c [10; 125])) (hex_digits f n acc) = true.
Proof.
  induction f as [|f IH]; intros n acc H; [exact H|]. cbn [hex_digits].
  assert (G : forallb (fun c => negb (mem c [10; 125])) (hex_digit (n mod 16) :: acc) = true).
  { cbn [forallb]. rewrite H, andb_true_r. pose proof (N.mod_lt n 16 ltac:(lia)) as L. unfold hex_digit, mem. cbn [existsb].
    destruct (N.ltb_spec (n mod 16) 10); apply negb_true_iff, orb_false_iff; (split; [apply N.eqb_neq; lia|]); apply orb_false_iff; (split; [apply N.eqb_neq; lia|reflexivity]). }
  destruct (n <? 16); [exact G|]. now apply IH.
Qed.
Lemma hex_chars n : forallb (fun c => negb (mem c [10; 125])) (hex_of_N n) = true.
Proof. now apply hex_digits_chars. Qed.

(** ** texts up to a character *)
Lemma until_same c (p : char -> bool) : p c = false -> forall t u r r', forallb p t = true -> forallb p u = true -> t ++ c :: r = u ++ c :: r' -> t = u /\ r = r'.
Proof.
  intros Hc. induction t as [|a t IH]; intros [|b u] r r' Ht Hu E; cbn [forallb app] in *.
  - now injection E.
  - injection E as -> _. apply andb_true_iff in Hu as [Hu _]. congruence.
  - injection E as -> _. apply andb_true_iff in Ht as [Ht _]. congruence.
  - injection E as -> E. apply andb_true_iff in Ht as [_ Ht], Hu as [_ Hu]. destruct (IH u r r' Ht Hu E) as [-> ->]. auto.
Qed.
Lemma dec_until n m c r r' : is_digit c = false -> dec_of_N n ++ c :: r = dec_of_N m ++ c :: r' -> n = m /\ r = r'.
Proof.
  intros Hc E. destruct (dec_of_N_spec n) as (V & D & _), (dec_of_N_spec m) as (V' & D' & _).
  destruct (until_same c is_digit Hc _ _ _ _ D D' E) as [E1 E2]. split; [congruence|exact E2].
Qed.

(** ** strings *)
Section Style.
Variable plain : char -> bool.
Variable f_debug : f64 -> str.
Hypothesis FD : float_debug f_debug.

Notation esc := (escape_debug plain).
Lemma esc_num c : esc c =
  if c =? 0 then [92; 48] else if c =? 9 then [92; 116] else if c =? 13 then [92; 114] else if c =? 10 then [92; 110]
  else if c =? 34 then [92; 34] else if c =? 92 then [92; 92]
  else if plain c then [c] else [92; 117; 123] ++ hex_of_N c ++ [125].
Proof. reflexivity. Qed.
Lemma esc_head c : exists d r, esc c = d :: r /\ d <> 34 /\ d <> 10 /\ (d <> 92 -> d = c /\ r = []).
Proof.
  unfold escape_debug.
  repeat match goal with |- context [N.eqb c ?n] => destruct (N.eqb_spec c n) end; [..|destruct (plain c)];
    (do 2 eexists; split; [reflexivity|]); (split; [congruence || discriminate|]); (split; [congruence || discriminate|]); intros X; try (exfalso; now apply X); auto.
Qed.
Lemma esc_prefix c d r r' : esc c ++ r = esc d ++ r' -> c = d /\ r = r'.
Proof.
  rewrite !esc_num.
  repeat match goal with |- context [N.eqb c ?n] => destruct (N.eqb_spec c n) end; [..|destruct (plain c)];
  (repeat match goal with |- context [N.eqb d ?n] => destruct (N.eqb_spec d n) end; [..|destruct (plain d)]);
  cbn [app]; intros E; try discriminate E; try (injection E; intros; subst; split; congruence); try (injection E; intros; exfalso; congruence).
  injection E as E. rewrite <- !app_assoc in E.
  destruct (until_same 125 (fun c => negb (mem c [10; 125])) eq_refl _ _ _ _ (hex_chars c) (hex_chars d) E) as [E1 E2].
  split; [|exact E2]. rewrite <- (hex_unhex c), <- (hex_unhex d). now f_equal.
Qed.
Lemma str_prefix t : forall u r r', debug_str plain t ++ r = debug_str plain u ++ r' -> t = u /\ r = r'.
Proof.
  unfold debug_str. assert (G : forall u r r', flat_map esc t ++ 34 :: r = flat_map esc u ++ 34 :: r' -> t = u /\ r = r').
  { induction t as [|c t IH]; intros [|d u] r r' E; cbn [flat_map app] in E.
    - now injection E.
    - destruct (esc_head d) as (x & y & Ed & H & _). rewrite Ed in E. cbn [app] in E. injection E as E _. congruence.
    - destruct (esc_head c) as (x & y & Ed & H & _). rewrite Ed in E. cbn [app] in E. injection E as E _. congruence.
    - rewrite <- !app_assoc in E. apply esc_prefix in E as [-> E]. destruct (IH u r r' E) as [-> ->]. auto. }
  intros u r r' E. rewrite <- !app_assoc in E. cbn [app] in E. injection E as E. now apply G.
Qed.
End Style.
