(** Facts about the text helpers. *)
From Verif Require Import Base.
Open Scope N_scope.

Lemma str_eqb_eq a b : str_eqb a b = true <-> a = b.
Proof.
  revert b; induction a as [|x a IH]; destruct b as [|y b]; cbn; split; try easy.
  - rewrite andb_true_iff, N.eqb_eq, IH. now intros [-> ->].
  - intros [= -> ->]. rewrite N.eqb_refl. cbn. now apply IH.
Qed.
Lemma str_eqb_refl a : str_eqb a a = true.
Proof. now apply str_eqb_eq. Qed.

Lemma mem_In c l : mem c l = true <-> In c l.
Proof.
  unfold mem. rewrite existsb_exists. split.
  - intros [x [H E]]. apply N.eqb_eq in E. now subst.
  - intros H. exists c. split; [exact H|apply N.eqb_refl].
Qed.
Lemma mem_not_In c l : mem c l = false <-> ~ In c l.
Proof. rewrite <- mem_In. destruct (mem c l); split; congruence. Qed.

Lemma str_cmp_refl a : str_cmp a a = Eq.
Proof. induction a as [|x a IH]; cbn; [reflexivity|]. now rewrite N.compare_refl. Qed.
Lemma str_cmp_eq a b : str_cmp a b = Eq <-> a = b.
Proof.
  revert b; induction a as [|x a IH]; destruct b as [|y b]; cbn; split; try easy.
  - destruct (N.compare_spec x y); try easy. subst. intros H%IH. now subst.
  - intros [= -> ->]. rewrite N.compare_refl. now apply IH.
Qed.
Lemma str_cmp_antisym a b : str_cmp b a = CompOpp (str_cmp a b).
Proof.
  revert b; induction a as [|x a IH]; destruct b as [|y b]; cbn; try easy.
  rewrite (N.compare_antisym x y). destruct (N.compare x y); cbn; auto.
Qed.
Lemma str_cmp_lt_trans a b c : str_cmp a b = Lt -> str_cmp b c = Lt -> str_cmp a c = Lt.
Proof.
  revert b c; induction a as [|x a IH]; destruct b as [|y b], c as [|z c]; cbn; try easy.
  destruct (N.compare_spec x y), (N.compare_spec y z); try easy; subst.
  - rewrite N.compare_refl. apply IH.
  - intros _ _. now rewrite (proj2 (N.compare_lt_iff y z)).
  - intros _ _. now rewrite (proj2 (N.compare_lt_iff x z)).
  - intros _ _. rewrite (proj2 (N.compare_lt_iff x z)); [easy|lia].
Qed.

Lemma take_while_app f t : fst (take_while f t) ++ snd (take_while f t) = t.
Proof.
  induction t as [|c t IH]; cbn; [reflexivity|].
  destruct (f c); cbn; [|reflexivity].
  destruct (take_while f t); cbn in *. now rewrite IH.
Qed.
Lemma take_while_all f t : forallb f (fst (take_while f t)) = true.
Proof.
  induction t as [|c t IH]; cbn; [reflexivity|].
  destruct (f c) eqn:E; cbn; [|reflexivity].
  destruct (take_while f t); cbn in *. now rewrite E.
Qed.
Lemma take_while_spec f a b :
  forallb f a = true -> match b with [] => True | c :: _ => f c = false end ->
  take_while f (a ++ b) = (a, b).
Proof.
  induction a as [|c a IH]; cbn.
  - intros _. destruct b as [|c b]; cbn; [reflexivity|]. now intros ->.
  - destruct (f c); cbn; [|discriminate]. intros Ha Hb. now rewrite IH.
Qed.
Lemma take_while_spec_nil f a :
  forallb f a = true -> take_while f a = (a, []).
Proof. intros. rewrite <- (app_nil_r a) at 1. now apply take_while_spec. Qed.
Lemma take_while_rest f t : match snd (take_while f t) with [] => True | c :: _ => f c = false end.
Proof.
  induction t as [|c t IH]; cbn; [exact I|].
  destruct (f c) eqn:E; cbn; [|exact E].
  destruct (take_while f t); cbn in *. exact IH.
Qed.

Lemma starts_with_app p t : starts_with p (p ++ t) = true.
Proof. induction p; cbn; [reflexivity|]. now rewrite N.eqb_refl. Qed.
Lemma starts_with_spec p t : starts_with p t = true <-> exists r, t = p ++ r.
Proof.
  split.
  - revert t; induction p as [|x p IH]; intros t; cbn.
    + intros _. now exists t.
    + destruct t as [|y t]; [discriminate|].
      rewrite andb_true_iff, N.eqb_eq. intros [-> [r ->]%IH]. now exists r.
  - intros [r ->]. apply starts_with_app.
Qed.

Lemma pop_app_last a c : pop (a ++ [c]) = a.
Proof. apply removelast_last. Qed.

Lemma byte_len_app a b : byte_len (a ++ b) = (byte_len a + byte_len b)%nat.
Proof.
  unfold byte_len. induction a as [|x a IH]; cbn [app fold_right]; [reflexivity|].
  rewrite IH. lia.
Qed.
Lemma utf8_len_pos c : (1 <= utf8_len c)%nat.
Proof. unfold utf8_len. repeat destruct (_ <? _); lia. Qed.

(** ** decimal digits *)
Lemma N_of_dec_app a b : N_of_dec (a ++ b) = N_of_dec a * 10 ^ N.of_nat (length b) + N_of_dec b.
Proof.
  unfold N_of_dec.
  assert (G : forall l acc, fold_left (fun a c => a * 10 + (c - 48)) l acc
     = acc * 10 ^ N.of_nat (length l) + fold_left (fun a c => a * 10 + (c - 48)) l 0).
  { induction l as [|x l IH]; intros acc; cbn [fold_left length].
    - cbn. lia.
    - rewrite IH. rewrite (IH (0 * 10 + (x - 48))).
      rewrite Nnat.Nat2N.inj_succ, N.pow_succ_r'. lia. }
  rewrite fold_left_app, G. reflexivity.
Qed.

Lemma N_of_dec_single c : N_of_dec [c] = c - 48.
Proof. reflexivity. Qed.

Lemma dec_digits_spec fuel n acc :
  (0 < fuel)%nat -> n < 10 ^ N.of_nat fuel ->
  exists ds, dec_digits fuel n acc = ds ++ acc /\ N_of_dec ds = n
             /\ forallb is_digit ds = true /\ ds <> []
             /\ (0 < n -> 10 ^ (N.of_nat (length ds) - 1) <= n).
Proof.
  revert n acc; induction fuel as [|fuel IH]; intros n acc Hf Hn; [lia|].
  cbn [dec_digits].
  assert (Dg : is_digit (48 + n mod 10) = true).
  { pose proof (N.mod_upper_bound n 10 ltac:(lia)). unfold is_digit. lia. }
  destruct (N.ltb_spec n 10) as [H|H].
  - exists [48 + n mod 10]. repeat split; [ |cbn; now rewrite Dg|easy|].
    + rewrite N_of_dec_single. rewrite N.mod_small by exact H. lia.
    + intros. change (10 ^ (N.of_nat (length [48 + n mod 10]) - 1)) with 1. lia.
  - destruct fuel as [|fuel].
    { cbn in Hn. lia. }
    destruct (IH (n / 10) ((48 + n mod 10) :: acc)) as (ds & E & V & D & NE & LB); [lia| |].
    { rewrite Nnat.Nat2N.inj_succ, N.pow_succ_r' in Hn.
      apply N.div_lt_upper_bound; lia. }
    exists (ds ++ [48 + n mod 10]). repeat split.
    + rewrite E. rewrite <- app_assoc. reflexivity.
    + rewrite N_of_dec_app, V, N_of_dec_single. cbn [length].
      change (10 ^ N.of_nat 1) with 10.
      pose proof (N.div_mod n 10 ltac:(lia)). lia.
    + rewrite forallb_app, D. cbn. now rewrite Dg.
    + destruct ds; cbn; easy.
    + intros _. rewrite app_length. cbn [length].
      assert (0 < n / 10) by (apply N.div_str_pos; lia).
      specialize (LB H0).
      replace (N.of_nat (length ds + 1) - 1) with (N.succ (N.of_nat (length ds) - 1)).
      2:{ destruct ds; [easy|]. cbn [length]. lia. }
      rewrite N.pow_succ_r'.
      pose proof (N.mul_div_le n 10 ltac:(lia)). lia.
Qed.

Lemma size_nat_pow10 n : n < 10 ^ N.of_nat (S (N.size_nat n)).
Proof.
  destruct n as [|p]; [reflexivity|].
  assert (N.pos p < 2 ^ N.of_nat (N.size_nat (N.pos p))).
  { assert (G : forall q, N.pos q < 2 ^ N.of_nat (Pos.size_nat q)).
    { induction q as [q IH|q IH|]; cbn [Pos.size_nat]; rewrite ?Nnat.Nat2N.inj_succ, ?N.pow_succ_r'; [lia|lia|].
      reflexivity. }
    apply G. }
  eapply N.lt_trans; [exact H|].
  apply N.lt_le_trans with (10 ^ N.of_nat (N.size_nat (N.pos p))).
  - apply N.pow_lt_mono_l; [|lia]. destruct p; cbn; lia.
  - apply N.pow_le_mono_r; lia.
Qed.

Lemma dec_of_N_spec n :
  N_of_dec (dec_of_N n) = n /\ forallb is_digit (dec_of_N n) = true /\ dec_of_N n <> []
  /\ (0 < n -> 10 ^ (N.of_nat (length (dec_of_N n)) - 1) <= n).
Proof.
  unfold dec_of_N.
  destruct (dec_digits_spec (S (N.size_nat n)) n [] ltac:(lia) (size_nat_pow10 n))
    as (ds & E & V & D & NE & LB).
  rewrite E, app_nil_r. auto.
Qed.

Lemma N_of_dec_zeros k : N_of_dec (repeat 48 k) = 0.
Proof.
  induction k as [|k IH]; [reflexivity|].
  replace (repeat 48 (S k)) with ([48] ++ repeat 48 k) by reflexivity.
  rewrite N_of_dec_app, IH. cbn. lia.
Qed.
Lemma zeros_digits k : forallb is_digit (repeat 48 k) = true.
Proof. induction k; cbn; auto. Qed.

(** a digit string is below 10^length *)
Lemma N_of_dec_lt ds : forallb is_digit ds = true -> N_of_dec ds < 10 ^ N.of_nat (length ds).
Proof.
  induction ds as [|c ds IH] using rev_ind; intros H; [cbn; lia|].
  rewrite forallb_app in H. apply andb_true_iff in H as [H1 H2]. cbn in H2.
  rewrite N_of_dec_app, N_of_dec_single, app_length. cbn [length].
  specialize (IH H1).
  replace (N.of_nat (length ds + 1)) with (N.succ (N.of_nat (length ds))) by lia.
  rewrite N.pow_succ_r'. change (10 ^ N.of_nat 1) with 10.
  unfold is_digit in H2. lia.
Qed.
