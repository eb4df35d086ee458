(** Proofs for C56. *)
From Verif Require Import Base F64 Number NumberSpec BaseProps F64Props NumberProps NumberProps2 NumberProps3 F64Text F32 F32Props DecimalSpec.
Open Scope Z_scope.

(** ** rounding: ties, overflow, monotonicity *)
Section Tie.
  Variables P emin : Z.
  Hypothesis P1 : 2 <= P.
  Hypothesis emin0 : -1074 <= emin.

  Lemma rnd_tie p q y : 0 < p -> 0 < q -> repr P emin y ->
    Z.abs (val (rnd P emin p q) * q - p * scale) = Z.abs (val y * q - p * scale) ->
    val y <> val (rnd P emin p q) -> Z.even (fst (rnd P emin p q)) = true.
  Proof.
    intros Hp Hq [[Y0 Y1] Y2].
    destruct (rnd_shape_tie P emin ltac:(lia) ltac:(lia) p q Hp Hq) as (E & M & HE & HM & HM2 & -> & _ & NE & LO & _ & TI & FS).
    intros D N. enough (Z.even M = true).
    { destruct FS as [-> | ->]; [assumption|]. replace (P - 1) with (Z.succ (P - 2)) by lia. rewrite Z.pow_succ_r by lia. now rewrite Z.even_mul. }
    apply TI. clear TI FS. destruct y as [m e]. unfold val in D, N. cbn [fst snd] in *.
    pose proof (pow2_pos (E + 1074) ltac:(lia)) as PE. set (u := 2 ^ (E + 1074)) in *.
    assert (Pu : 0 < u * q) by nia.
    enough (u * q <= 2 * Z.abs (M * u * q - p * scale)) by lia.
    destruct (Z.le_gt_cases E e) as [C|C].
    - assert (EY : m * 2 ^ (e + 1074) = m * 2 ^ (e - E) * u).
      { subst u. replace (e + 1074) with (e - E + (E + 1074)) by lia. rewrite (Z.pow_add_r 2 (e - E)) by lia. ring. }
      rewrite EY in D, N. set (k := m * 2 ^ (e - E)) in *.
      assert (k <> M) by (intros ->; now apply N).
      assert (u * q <= Z.abs (k * u * q - M * u * q)).
      { replace (k * u * q - M * u * q) with ((k - M) * (u * q)) by ring. rewrite Z.abs_mul, (Z.abs_eq (u * q)) by lia. rewrite <- (Z.mul_1_l (u * q)) at 1. apply Zmult_le_compat_r; lia. }
      lia.
    - specialize (LO ltac:(lia)). specialize (HM2 ltac:(lia)).
      assert (UP : m * 2 ^ (e + 1074) <= 2 ^ (P - 1) * u).
      { assert (m * 2 ^ (e + 1074) <= 2 ^ P * 2 ^ (E - 1 + 1074)).
        { apply Z.mul_le_mono_nonneg; try lia. apply Z.pow_le_mono_r; lia. }
        replace (2 ^ P * 2 ^ (E - 1 + 1074)) with (2 ^ (P - 1) * u) in H; [exact H|].
        subst u. rewrite <- !Z.pow_add_r by lia. f_equal. lia. }
      set (y := m * 2 ^ (e + 1074)) in *.
      assert (y * q <= 2 ^ (P - 1) * u * q) by nia.
      assert (y < M * u) by nia. assert (y * q < M * u * q) by nia.
      assert (2 ^ (P - 1) * u * q < M * u * q) by lia.
      assert (2 ^ (P - 1) < M) by nia.
      assert (2 ^ (P - 1) * u * q + u * q <= M * u * q) by nia. lia.
  Qed.

  Lemma rnd_mono p q p' q' : 0 < p -> 0 < q -> 0 < p' -> 0 < q' -> p * q' < p' * q ->
    val (rnd P emin p q) <= val (rnd P emin p' q').
  Proof.
    intros Hp Hq Hp' Hq' L. pose proof scale_pos as SP.
    pose proof (rnd_normal P emin ltac:(lia) ltac:(lia) p q Hp Hq) as [R _].
    pose proof (rnd_normal P emin ltac:(lia) ltac:(lia) p' q' Hp' Hq') as [R' _].
    pose proof (rnd_near P emin ltac:(lia) ltac:(lia) p q _ Hp Hq R') as G.
    pose proof (rnd_near P emin ltac:(lia) ltac:(lia) p' q' _ Hp' Hq' R) as G'.
    set (v := val (rnd P emin p q)) in *. set (v' := val (rnd P emin p' q')) in *.
    destruct (Z.le_gt_cases v v') as [C|C]; [exact C|exfalso].
    assert ((v + v') * q <= 2 * (p * scale)) by nia.
    assert (2 * (p' * scale) <= (v + v') * q') by nia.
    assert (p * scale * q' < p' * scale * q) by nia.
    assert ((v + v') * q * q' <= 2 * (p * scale) * q') by nia.
    assert (2 * (p' * scale) * q <= (v + v') * q' * q) by nia. nia.
  Qed.
End Tie.

Lemma f_make_inj sg x y : normal 53 (-1074) x -> normal 53 (-1074) y -> val x = val y -> val x <> 0 -> f_make sg x = f_make sg y.
Proof. intros. f_equal. apply (normal_unique 53 (-1074)); auto; lia. Qed.

Lemma ov_lt O K p q s u : 0 < s -> 2 * (O * s) = K * u -> p < O * q -> 2 * (p * s) < K * u * q.
Proof. intros S E H. rewrite <- E. apply (Zmult_lt_compat_r _ _ s S) in H. lia. Qed.
Lemma ov_ge O K p q s u : 0 < s -> 2 * (O * s) = K * u -> O * q <= p -> K * u * q <= 2 * (p * s).
Proof. intros S E H. rewrite <- E. apply (Zmult_le_compat_r _ _ s) in H; lia. Qed.

Lemma rnd_overflow p q : 0 < p -> 0 < q -> (971 < snd (rnd 53 (-1074) p q) <-> overflow * q <= p).
Proof.
  intros Hp Hq. pose proof scale_pos as SP.
  pose proof (rnd_normal 53 (-1074) ltac:(lia) ltac:(lia) p q Hp Hq) as N.
  set (x := rnd 53 (-1074) p q) in *.
  set (u := 2 ^ (971 + 1074)). assert (U : 0 < u) by (apply pow2_pos; lia).
  assert (Rm : repr 53 (-1074) (2 ^ 53 - 1, 971)) by (unfold repr; cbn [fst snd]; lia).
  assert (Rt : repr 53 (-1074) (2 ^ 52, 972)) by (unfold repr; cbn [fst snd]; lia).
  assert (Vm : val (2 ^ 53 - 1, 971) = (2 ^ 53 - 1) * u) by reflexivity.
  assert (Vt : val (2 ^ 52, 972) = 2 ^ 53 * u).
  { unfold val. cbn [fst snd]. subst u. replace (972 + 1074) with (Z.succ (971 + 1074)) by lia. rewrite Z.pow_succ_r by lia. change (2 ^ 53) with (2 ^ 52 * 2). ring. }
  pose proof (rnd_near 53 (-1074) ltac:(lia) ltac:(lia) p q _ Hp Hq Rm) as Gm. rewrite Vm in Gm.
  pose proof (rnd_near 53 (-1074) ltac:(lia) ltac:(lia) p q _ Hp Hq Rt) as Gt. rewrite Vt in Gt.
  fold x in Gm, Gt.
  assert (O2 : 2 * (overflow * scale) = (2 ^ 54 - 1) * u).
  { unfold overflow, scale. subst u. replace (971 + 1074) with (1 + 970 + 1074) by lia. rewrite !Z.pow_add_r by lia. change (2 ^ 1) with 2. ring. }
  destruct x as [m e] eqn:EX. cbn [snd]. destruct N as [[[M0 M1] E0] Nm]. unfold val in Gm, Gt. cbn [fst snd] in *.
  pose proof (pow2_pos (e + 1074) ltac:(lia)) as PE.
  assert (Hi : 971 < e -> 2 ^ 53 * u <= m * 2 ^ (e + 1074)).
  { intros H. assert (2 ^ (53 - 1) <= m) by lia.
    assert (2 ^ (972 + 1074) <= 2 ^ (e + 1074)) by (apply Z.pow_le_mono_r; lia).
    rewrite <- Vt. unfold val. cbn [fst snd]. change (2 ^ (53 - 1)) with (2 ^ 52) in *.
    apply Z.mul_le_mono_nonneg; lia. }
  assert (Lo : e <= 971 -> m * 2 ^ (e + 1074) <= (2 ^ 53 - 1) * u).
  { intros H. apply Z.mul_le_mono_nonneg; try lia. apply Z.pow_le_mono_r; lia. }
  set (v := m * 2 ^ (e + 1074)) in *. change (2 ^ 53) with 9007199254740992 in *. change (2 ^ 54) with 18014398509481984 in *.
  assert (UQ : 0 < u * q) by (apply Z.mul_pos_pos; assumption).
  pose proof (ov_lt overflow (18014398509481984 - 1) p q scale u SP O2) as OL.
  pose proof (ov_ge overflow (18014398509481984 - 1) p q scale u SP O2) as OG.
  set (ps := p * scale) in *. clear O2 SP PE.
  split; intros H.
  - specialize (Hi H). destruct (Z.le_gt_cases (overflow * q) p) as [C|C]; [exact C|exfalso].
    specialize (OL C). apply (Zmult_le_compat_r _ _ q) in Hi; [|lia]. clearbody ps v u. lia.
  - destruct (Z.le_gt_cases e 971) as [C|C]; [exfalso|exact C].
    specialize (Lo C). specialize (OG H). assert (VQ := Zmult_le_compat_r _ _ q Lo ltac:(lia)).
    assert (Ev : v = (9007199254740992 - 1) * u).
    { apply (Z.mul_reg_r _ _ q); [lia|]. clearbody ps v u. lia. }
    assert (EM : (m, e) = (9007199254740992 - 1, 971)).
    { apply (normal_unique 53 (-1074)); try lia.
      - unfold normal, repr. cbn [fst snd]. change (2 ^ 53) with 9007199254740992. lia.
      - unfold normal, repr. cbn [fst snd]. change (2 ^ 53) with 9007199254740992. change (2 ^ (53 - 1)) with 4503599627370496. lia.
      - rewrite Vm. unfold val. cbn [fst snd]. exact Ev.
      - unfold val. cbn [fst snd]. fold v. rewrite Ev. lia. }
    assert (EVN : Z.even (fst (rnd 53 (-1074) p q)) = true).
    { apply (rnd_tie 53 (-1074) ltac:(lia) ltac:(lia) p q (2 ^ 52, 972) Hp Hq).
      - unfold repr. cbn [fst snd]. lia.
      - fold x. rewrite EX, Vt. unfold val. cbn [fst snd]. fold v. fold ps. clearbody ps v u. lia.
      - fold x. rewrite EX, Vt. unfold val. cbn [fst snd]. fold v. clearbody ps v u. lia. }
    fold x in EVN. rewrite EX, EM in EVN. discriminate EVN.
Qed.

Lemma sub_abs_le b v : 0 <= v -> Z.abs (Z.abs b - v) <= Z.abs (b - v).
Proof. lia. Qed.

Lemma f64_repr y sg m e : y = FFin sg m e -> f64_wf y = true -> repr 53 (-1074) (m, e) /\ Z.abs (fval y) = val (m, e).
Proof.
  intros -> W. cbn [f64_wf] in W. assert (0 <= m < 2 ^ 53 /\ -1074 <= e) as [? ?] by (clear - W; lia). split; [unfold repr; cbn [fst snd]; lia|].
  unfold val. cbn [fst snd fval]. pose proof (pow2_pos (e + 1074) ltac:(lia)). destruct sg; nia.
Qed.

Lemma rne_rounds sg p q : 0 <= p -> 0 < q -> rounds sg p q (rne sg p q).
Proof.
  intros Hp Hq. unfold rne. destruct (Z.eqb_spec p 0) as [->|N].
  - cbn [rounds]. split; [reflexivity|]. split; [reflexivity|]. split; [unfold overflow; nia|].
    intros y _ _. replace (fval (FFin sg 0 (-1074))) with 0 by (cbn; destruct sg; reflexivity).
    replace ((if sg then -1 else 1) * 0 * scale) with 0 by ring. split; [|intros; reflexivity]. cbn [Z.mul Z.sub]. change (Z.abs (0 + 0)) with 0. lia.
  - assert (P0 : 0 < p) by lia. rewrite rne_rnd. unfold f_make.
    pose proof (rnd_overflow p q P0 Hq) as OV.
    pose proof (rnd_normal 53 (-1074) ltac:(lia) ltac:(lia) p q P0 Hq) as NM.
    destruct (Z.ltb_spec 971 (snd (rnd 53 (-1074) p q))) as [C|C].
    { cbn [rounds]. split; [reflexivity|]. now apply OV. }
    assert (W : f64_wf (FFin sg (fst (rnd 53 (-1074) p q)) (snd (rnd 53 (-1074) p q))) = true).
    { destruct NM as [[? ?] ?]. cbn [f64_wf]. change (53 - 1) with 52 in *. lia. }
    cbn [rounds]. split; [reflexivity|]. split; [exact W|]. split; [lia|].
    set (r := rnd 53 (-1074) p q) in *. intros y Wy Fy.
    destruct y as [| |sy m e]; try discriminate. destruct (f64_repr _ _ _ _ eq_refl Wy) as [R V].
    pose proof (rnd_near 53 (-1074) ltac:(lia) ltac:(lia) p q _ P0 Hq R) as G.
    pose proof (rnd_tie 53 (-1074) ltac:(lia) ltac:(lia) p q _ P0 Hq R) as T. fold r in G, T.
    rewrite <- V in G, T. set (fy := fval (FFin sy m e)) in *.
    assert (EX : fval (FFin sg (fst r) (snd r)) = (if sg then -1 else 1) * val r) by reflexivity. rewrite EX.
    assert (V0 : 0 <= val r). { destruct NM as [[? ?] ?]. unfold val. pose proof (pow2_pos (snd r + 1074) ltac:(lia)). nia. }
    pose proof scale_pos as SP. assert (0 <= p * scale) by nia. set (v := p * scale) in *.
    replace ((if sg then -1 else 1) * p * scale) with ((if sg then -1 else 1) * v) by (subst v; ring).
    assert (A1 : Z.abs ((if sg then -1 else 1) * val r * q - (if sg then -1 else 1) * v) = Z.abs (val r * q - v)).
    { destruct sg; [|f_equal; ring]. rewrite <- Z.abs_opp. f_equal. ring. }
    rewrite A1.
    assert (A2 : Z.abs (fy * q - (if sg then -1 else 1) * v) = Z.abs ((if sg then -1 else 1) * fy * q - v)).
    { destruct sg; [|f_equal; ring]. rewrite <- Z.abs_opp. f_equal. ring. }
    rewrite A2. set (gy := (if sg then -1 else 1) * fy) in *.
    assert (EG : Z.abs fy = Z.abs gy) by (subst gy; destruct sg; lia). rewrite EG in *.
    assert (A3 : Z.abs (Z.abs gy * q - v) <= Z.abs (gy * q - v)).
    { replace (Z.abs gy * q) with (Z.abs (gy * q)) by (rewrite Z.abs_mul; f_equal; lia). now apply sub_abs_le. }
    split; [lia|]. intros E1 E2. apply T; [lia|].
    intros E3. apply E2. destruct (Z.le_gt_cases 0 gy) as [D|D].
    + rewrite Z.abs_eq in E3 by lia. subst gy. destruct sg; lia.
    + (* gy < 0 : equal distances only when v = 0 *)
      exfalso. assert (gy * q < 0) by (apply Z.mul_neg_pos; lia). assert (0 < v) by (apply Z.mul_pos_pos; lia).
      assert (Z.abs gy * q = - (gy * q)) by (rewrite Z.abs_neq by lia; ring). clearbody v gy. lia.
Qed.

(** ** the texts *)
Lemma digits_spec t : digits t <-> forallb is_digit t = true.
Proof. unfold digits. rewrite forallb_forall, Forall_forall. split; intros H c Hc; specialize (H c Hc); unfold is_digit in *; lia. Qed.
Lemma filter_all {A} (f : A -> bool) l : forallb f l = true -> filter f l = l.
Proof. induction l as [|a l IH]; cbn; [reflexivity|]. destruct (f a); [|discriminate]. intros H. now rewrite IH. Qed.
Lemma spells_digits ds : digits ds -> spells ds 0 = Z.of_N (N_of_dec ds).
Proof. intros H. rewrite spells_spec, filter_all; [reflexivity|]. now apply digits_spec. Qed.

Lemma sign_text_split sg sign r : sign_text sg sign ->
  match r with [] => True | c :: _ => c <> 45%N /\ c <> 43%N end -> split_sign (sign ++ r) = (sg, r).
Proof.
  intros [[-> ->]|[[-> | ->] ->]] H; try reflexivity. cbn [app]. destruct r as [|c r]; [reflexivity|]. cbn [split_sign]. destruct H as [H1 H2].
  apply N.eqb_neq in H1, H2. now rewrite H1, H2.
Qed.
Lemma split_sign_text t : exists sign, sign_text (fst (split_sign t)) sign /\ t = sign ++ snd (split_sign t).
Proof.
  destruct t as [|c r]; cbn [split_sign].
  - exists []. cbn. split; [right; auto|reflexivity].
  - destruct (N.eqb_spec c 45) as [->|A]; [exists (s "-"); split; [left; auto|reflexivity]|].
    destruct (N.eqb_spec c 43) as [->|B]; [exists (s "+"); split; [right; auto|reflexivity]|].
    exists []. cbn. split; [right; auto|reflexivity].
Qed.

Lemma parse_exp_text t x : parse_exp t = Some x <-> exponent_text t x.
Proof.
  split.
  - destruct t as [|c r]; cbn [parse_exp]; [intros [= <-]; constructor|].
    destruct (((c =? 101) || (c =? 69))%N) eqn:C; [|discriminate].
    destruct (split_sign_text r) as (sign & S & E). destruct (split_sign r) as [neg ds]. cbn [fst snd] in *. subst r.
    destruct ds as [|d ds']; [discriminate|]. destruct (forallb is_digit (d :: ds')) eqn:D; [|discriminate]. intros [= <-].
    assert (D' : digits (d :: ds')) by now apply digits_spec.
    rewrite <- (spells_digits _ D').
    constructor; auto; [|discriminate]. apply orb_true_iff in C. rewrite !N.eqb_eq in C. exact C.
  - intros H. inversion H as [|c sign sg ds C S D N]; subst; [reflexivity|].
    cbn [parse_exp]. replace (((c =? 101) || (c =? 69))%N) with true by (destruct C as [-> | ->]; reflexivity).
    destruct ds as [|d ds']; [congruence|].
    rewrite (sign_text_split sg sign); [|exact S|].
    2:{ inversion D; subst. lia. }
    assert (D2 := proj1 (digits_spec _) D). rewrite D2, spells_digits by exact D. reflexivity.
Qed.
Lemma exponent_head t x : exponent_text t x -> match t with [] => True | c :: _ => is_digit c = false /\ c <> 46%N end.
Proof. intros H. inversion H as [|c sign sg ds C S D N]; subst; [exact Logic.I|]. destruct C as [-> | ->]; split; (reflexivity || discriminate). Qed.

Lemma decimal_parse t sg m x : decimal t sg m x -> f_parse t = Some (f_of_dec sg m x).
Proof.
  intros H. inversion H as [sign sg' ip frac fp ex x' S I F P N X]; subst.
  assert (EH := exponent_head _ _ X). assert (I' := proj1 (digits_spec _) I). assert (P' := proj1 (digits_spec _) P).
  unfold f_parse. rewrite (sign_text_split sg sign); [|exact S|].
  2:{ destruct ip as [|c ip]; cbn [app].
      - destruct F as [[-> ->]| ->]; [now cbn in N|cbn [app]; split; discriminate].
      - inversion I; subst; lia. }
  rewrite take_while_spec; [|exact I'|].
  2:{ destruct F as [[-> ->]| ->]; cbn [app]; [|reflexivity]. destruct ex; [exact Logic.I|apply EH]. }
  assert (EF : (match frac ++ ex with c :: r' => if (c =? 46)%N then take_while is_digit r' else ([], frac ++ ex) | [] => ([], frac ++ ex) end) = (fp, ex)).
  { destruct F as [[-> ->]| ->]; cbn [app].
    - destruct ex as [|c ex]; [reflexivity|]. destruct EH as [_ EH]. apply N.eqb_neq in EH. now rewrite EH.
    - cbn [N.eqb]. change ((ch "." =? 46)%N) with true. cbn [andb]. apply take_while_spec; [exact P'|]. destruct ex; [exact Logic.I|apply EH]. }
  match goal with |- (let '(_, _) := ?X in _) = _ => replace X with (fp, ex) by (symmetry; exact EF) end. destruct (ip ++ fp) as [|c ds] eqn:E; [congruence|]. rewrite <- E.
  rewrite (proj2 (parse_exp_text ex x') X). rewrite spells_digits; [reflexivity|]. apply Forall_app; auto.
Qed.

Lemma word_lower l t : Forall (fun c => 97 <= c <= 122)%N l -> (word l t <-> map lower t = l).
Proof.
  intros L. split.
  - intros H. induction H as [|c d l t H _ IH]; [reflexivity|]. inversion L; subst. cbn [map]. rewrite IH by assumption. f_equal.
    unfold lower. destruct (_ && _)%N eqn:E; lia.
  - intros <-. induction t as [|d t IH]; [constructor|]. cbn [map] in *. inversion L; subst. constructor; [|now apply IH].
    unfold lower. destruct (_ && _)%N eqn:E; lia.
Qed.

Lemma parse_special_word t x : parse_special t = Some x -> special t x.
Proof.
  unfold parse_special.
  destruct (split_sign_text t) as (sign & S & E). destruct (split_sign t) as [sg r]. cbn [fst snd] in *.
  assert (LW : forall l, str_eqb (map lower r) l = true -> Forall (fun c => 97 <= c <= 122)%N l -> word l r).
  { intros l Q F. apply word_lower; [exact F|]. now apply str_eqb_eq. }
  destruct (str_eqb (map lower r) (s "nan")) eqn:N1.
  { intros [= <-]. exists sign, sg, r. split; [exact E|]. split; [exact S|]. left. split; [|eauto]. apply LW; [exact N1|]. repeat constructor; cbn; lia. }
  destruct (str_eqb (map lower r) (s "inf")) eqn:N2; cbn [orb].
  { intros [= <-]. exists sign, sg, r. split; [exact E|]. split; [exact S|]. right. split; [|reflexivity]. left. apply LW; [exact N2|]. repeat constructor; cbn; lia. }
  destruct (str_eqb (map lower r) (s "infinity")) eqn:N3; [|discriminate].
  intros [= <-]. exists sign, sg, r. split; [exact E|]. split; [exact S|]. right. split; [|reflexivity]. right. apply LW; [exact N3|]. repeat constructor; cbn; lia.
Qed.

Lemma word_head l t : Forall (fun c => 97 <= c <= 122)%N l -> word l t -> match t with [] => True | c :: _ => (65 <= c /\ c <> 95)%N end.
Proof. intros F H. inversion H as [|c d l' t' D]; subst; [exact Logic.I|]. inversion F; subst. lia. Qed.

Lemma special_parse t x : special t x -> int_text t = false /\ exists y, f_parse t = Some y /\ special t y.
Proof.
  intros (sign & sg & w & -> & S & H).
  assert (L1 : Forall (fun c => 97 <= c <= 122)%N (s "nan")) by (repeat constructor; cbn; lia).
  assert (L2 : Forall (fun c => 97 <= c <= 122)%N (s "inf")) by (repeat constructor; cbn; lia).
  assert (L3 : Forall (fun c => 97 <= c <= 122)%N (s "infinity")) by (repeat constructor; cbn; lia).
  assert (HW : match w with [] => False | c :: _ => (65 <= c /\ c <> 95)%N end).
  { assert (exists l, Forall (fun c => 97 <= c <= 122)%N l /\ l <> [] /\ word l w) as (l & F & N & W).
    { destruct H as [[W _]|[[W|W] _]]; eexists; (split; [|split; [|exact W]]); auto; discriminate. }
    pose proof (word_head l w F W). destruct w; [inversion W; subst; congruence|assumption]. }
  assert (EP : f_parse (sign ++ w) = parse_special (sign ++ w)).
  { unfold f_parse. rewrite (sign_text_split sg sign w S) by (destruct w; [exact Logic.I|lia]).
    destruct w as [|c w]; [contradiction|]. cbn [take_while]. replace (is_digit c) with false by (unfold is_digit; lia).
    replace (c =? 46)%N with false by lia. cbn [app]. reflexivity. }
  split.
  { unfold int_text. destruct w as [|c w]; [contradiction|].
    destruct S as [[-> ->]|[[-> | ->] ->]]; [|reflexivity|].
    - change (s "-" ++ c :: w) with (45%N :: c :: w). cbv beta iota. change (45 =? 45)%N with true. cbn [forallb]. replace (is_digit c || (c =? 95)%N) with false by (unfold is_digit; lia). reflexivity.
    - cbn [app]. replace (c =? 45)%N with false by lia. cbn [forallb]. replace (is_digit c || (c =? 95)%N) with false by (unfold is_digit; lia). reflexivity. }
  enough (exists y, parse_special (sign ++ w) = Some y) as [y E].
  { exists y. split; [now rewrite EP|now apply parse_special_word]. }
  unfold parse_special. rewrite (sign_text_split sg sign w S) by (destruct w; [exact Logic.I|lia]).
  destruct H as [[W _]|[[W|W] _]]; apply word_lower in W; auto; rewrite W; eexists; reflexivity.
Qed.

Lemma parse_decimal t x : f_parse t = Some x -> special t x \/ exists sg m e, decimal t sg m e /\ x = f_of_dec sg m e.
Proof.
  unfold f_parse. destruct (split_sign_text t) as (sign & S & E). destruct (split_sign t) as [sg r]. cbn [fst snd] in *.
  pose proof (take_while_app is_digit r) as A. pose proof (take_while_all is_digit r) as D.
  destruct (take_while is_digit r) as [ip r1]. cbn [fst snd] in *.
  assert (F : exists frac, let '(fp, r2) := match r1 with c :: r' => if (c =? 46)%N then take_while is_digit r' else ([], r1) | [] => ([], r1) end in
    r1 = frac ++ r2 /\ digits fp /\ ((frac = [] /\ fp = []) \/ frac = ch "." :: fp)).
  { destruct r1 as [|c r']; [exists []; repeat split; auto; constructor|].
    destruct (N.eqb_spec c 46) as [->|C]; [|exists []; repeat split; auto; constructor].
    pose proof (take_while_app is_digit r') as A'. pose proof (take_while_all is_digit r') as D'.
    destruct (take_while is_digit r') as [fp r2]. cbn [fst snd] in *. exists (ch "." :: fp). split; [now rewrite <- A'|]. split; [now apply digits_spec|auto]. }
  destruct F as (frac & F). destruct (match r1 with [] => _ | _ => _ end) as [fp r2]. destruct F as (E1 & DF & F).
  destruct (ip ++ fp) as [|c ds] eqn:N; [intros H; left; now apply parse_special_word|].
  destruct (parse_exp r2) as [y|] eqn:X; [|discriminate]. intros [= <-]. right.
  apply parse_exp_text in X.
  assert (DA : digits (ip ++ fp)) by (apply Forall_app; split; [now apply digits_spec|exact DF]).
  exists sg, (spells (ip ++ fp) 0), (y - Z.of_nat (length fp)). split.
  - rewrite E, <- A, E1. constructor; auto; [now apply digits_spec|congruence].
  - rewrite spells_digits by exact DA. now rewrite N.
Qed.

(** ** reading *)
Lemma from_str_float t : int_text t = false -> num_from_str t = option_map Float (f_parse t).
Proof. unfold int_text, num_from_str. destruct t as [|c r]; [discriminate|]. intros ->. reflexivity. Qed.

Lemma spells_nonneg t : forall a, 0 <= a -> 0 <= spells t a.
Proof. induction t as [|c t IH]; intros a H; cbn [spells]; [exact H|]. destruct (is_digit c) eqn:D; apply IH; unfold is_digit in D; lia. Qed.
Lemma decimal_nonneg t sg m x : decimal t sg m x -> 0 <= m.
Proof. intros H. inversion H; subst. apply spells_nonneg. lia. Qed.
Lemma f_of_dec_rounds sg m x : 0 <= m -> rounds sg (numer m x) (denom x) (f_of_dec sg m x).
Proof.
  intros H. unfold f_of_dec, numer, denom. apply rne_rounds; [|apply pow10_pos; lia].
  pose proof (pow10_pos (Z.max 0 x) ltac:(lia)). nia.
Qed.

Lemma read_decimal t sg m x : int_text t = false -> decimal t sg m x ->
  exists f, num_from_str t = Some (Float f) /\ rounds sg (numer m x) (denom x) f.
Proof.
  intros I D. exists (f_of_dec sg m x). rewrite from_str_float, (decimal_parse _ _ _ _ D) by exact I.
  split; [reflexivity|]. apply f_of_dec_rounds. eapply decimal_nonneg, D.
Qed.
Lemma read_special t x : special t x -> exists y, num_from_str t = Some (Float y) /\ special t y.
Proof.
  intros H. destruct (special_parse t x H) as (I & y & P & Y). exists y. split; [|exact Y].
  now rewrite from_str_float, P.
Qed.
Lemma read_only t n : int_text t = false -> num_from_str t = Some n ->
  exists x, n = Float x /\ (special t x \/ exists sg m e, decimal t sg m e /\ rounds sg (numer m e) (denom e) x).
Proof.
  intros I. rewrite from_str_float by exact I. destruct (f_parse t) as [x|] eqn:P; [|discriminate]. intros [= <-].
  exists x. split; [reflexivity|]. destruct (parse_decimal t x P) as [S|(sg & m & e & D & ->)]; [left; exact S|right].
  exists sg, m, e. split; [exact D|]. apply f_of_dec_rounds. eapply decimal_nonneg, D.
Qed.
