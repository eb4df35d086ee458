(** The parser is total and what it returns is well formed. *)
From Verif Require Import Base BaseProps F64 Number NumberSpec NumberProps3 BTree Value BTreeProps ValueSpec ValueProps ValueProps2
  Base91 Base91Props Nom Parse ParseSpec MapOrder.
Open Scope N_scope.

Lemma suffix_refl i : suffix i i. Proof. now exists []. Qed.
Lemma suffix_trans a b c : suffix a b -> suffix b c -> suffix a c.
Proof. intros [p ->] [q ->]. exists (q ++ p). now rewrite app_assoc. Qed.
Lemma suffix_cons c r : suffix r (c :: r). Proof. now exists [c]. Qed.
Lemma suffix_len r i : suffix r i -> (length r <= length i)%nat.
Proof. intros [p ->]. rewrite app_length. lia. Qed.
Lemma suffix_skipn n i : suffix (skipn n i) i.
Proof. exists (firstn n i). symmetry. apply firstn_skipn. Qed.
Lemma suffix_tl i : suffix (tl i) i.
Proof. destruct i; [apply suffix_refl|apply suffix_cons]. Qed.

Definition err_in (i : str) (e : perr) : Prop :=
  e <> [] /\ Forall (fun x => suffix (fst x) i) e /\ ForallOrdPairs (fun x y => suffix (fst x) (fst y)) e.
(** the outcome of a parser on [i] *)
Definition sp {A} (Q : A -> Prop) (i : str) (r : pres A) : Prop :=
  match r with
  | POk rest a => suffix rest i /\ Q a
  | PErr e | PFail e => err_in i e
  | PPanic | PFuel => False
  end.
(** on all inputs shorter than [n] *)
Definition okl {A} (n : nat) (Q : A -> Prop) (p : parser A) : Prop := forall i, (length i < n)%nat -> sp Q i (p i).
Definition any {A} (a : A) : Prop := True.

Lemma err_mono i j e : suffix i j -> err_in i e -> err_in j e.
Proof. intros S (N & F & O). split; [assumption|]. split; [|exact O]. eapply Forall_impl; [|exact F]. cbn. intros x H. eauto using suffix_trans. Qed.
Lemma sp_mono {A} (Q : A -> Prop) i j r : suffix i j -> sp Q i r -> sp Q j r.
Proof. intros S. destruct r; cbn; eauto using err_mono. intros [H1 H2]. split; eauto using suffix_trans. Qed.
Lemma sp_weak {A} (Q R : A -> Prop) i r : (forall a, Q a -> R a) -> sp Q i r -> sp R i r.
Proof. intros W. destruct r; cbn; auto. intros [H1 H2]. auto. Qed.
Lemma sp_ok {A} (Q : A -> Prop) i a : Q a -> sp Q i (POk i a).
Proof. intros H. split; [apply suffix_refl|assumption]. Qed.
Lemma err_one i k : err_in i [(i, k)].
Proof. split; [discriminate|]. split; repeat constructor. apply suffix_refl. Qed.
Lemma err_snoc i e k : err_in i e -> err_in i (e ++ [(i, k)]).
Proof.
  intros (N & F & O). split; [now destruct e|]. split.
  - apply Forall_app. split; [assumption|]. repeat constructor. apply suffix_refl.
  - clear N. induction O as [|x e X O IH]; cbn [app]; [repeat constructor|]. inversion F; subst. constructor; [|auto].
    apply Forall_app. split; [exact X|]. now repeat constructor.
Qed.

Lemma sp_bind {A B} (Q : A -> Prop) (R : B -> Prop) i j (r : pres A) (f : str -> A -> pres B) :
  suffix i j -> sp Q i r -> (forall i' a, r = POk i' a -> suffix i' j -> (length i' <= length j)%nat -> Q a -> sp R i' (f i' a)) -> sp R j (pbind r f).
Proof.
  intros S H K. destruct r as [rest a|e|e| |]; cbn in *; eauto using err_mono.
  destruct H as [H1 H2]. assert (S' : suffix rest j) by eauto using suffix_trans.
  eapply sp_mono; [exact S'|]. apply K; auto using suffix_len.
Qed.

Section Comb.
  Variable n : nat.

  Lemma okl_mono {A} m (Q : A -> Prop) p : (m <= n)%nat -> okl n Q p -> okl m Q p.
  Proof. intros H K i Hi. apply K. lia. Qed.
  Lemma okl_weak {A} (Q R : A -> Prop) p : (forall a, Q a -> R a) -> okl n Q p -> okl n R p.
  Proof. intros W K i Hi. eapply sp_weak; eauto. Qed.

  Lemma okl_pmap {A B} (Q : A -> Prop) (R : B -> Prop) p (f : A -> B) :
    okl n Q p -> (forall a, Q a -> R (f a)) -> okl n R (pmap p f).
  Proof.
    intros H K i Hi. unfold pmap. eapply sp_bind; [apply suffix_refl|now apply H|].
    intros. apply sp_ok. auto.
  Qed.
  Lemma okl_preceded {A B} (P : A -> Prop) (Q : B -> Prop) p q : okl n P p -> okl n Q q -> okl n Q (preceded p q).
  Proof.
    intros H K i Hi. unfold preceded. eapply sp_bind; [apply suffix_refl|now apply H|].
    intros. apply K. lia.
  Qed.
  Lemma okl_terminated {A B} (P : A -> Prop) (Q : B -> Prop) p q : okl n P p -> okl n Q q -> okl n P (terminated p q).
  Proof.
    intros H K i Hi. unfold terminated. eapply sp_bind; [apply suffix_refl|now apply H|]. intros i1 a E1 S1 L1 H1.
    eapply sp_bind; [apply suffix_refl|apply K; lia|]. intros. now apply sp_ok.
  Qed.
  Lemma okl_separated_pair {A B C} (P : A -> Prop) (Q : B -> Prop) (R : C -> Prop) p q r :
    okl n P p -> okl n Q q -> okl n R r -> okl n (fun x => P (fst x) /\ R (snd x)) (separated_pair p q r).
  Proof.
    intros H K M i Hi. unfold separated_pair. eapply sp_bind; [apply suffix_refl|now apply H|]. intros i1 a E1 S1 L1 H1.
    eapply sp_bind; [apply suffix_refl|apply K; lia|]. intros i2 b E2 S2 L2 H2.
    eapply sp_bind; [apply suffix_refl|apply M; lia|]. intros. now apply sp_ok.
  Qed.
  Lemma okl_opt {A} (Q : A -> Prop) p : okl n Q p -> okl n (fun o => match o with Some a => Q a | None => True end) (opt p).
  Proof. intros H i Hi. specialize (H i Hi). unfold opt. destruct (p i); cbn in *; auto. split; [apply suffix_refl|exact I]. Qed.
  Lemma okl_cut {A} (Q : A -> Prop) p : okl n Q p -> okl n Q (cut p).
  Proof. intros H i Hi. specialize (H i Hi). unfold cut. destruct (p i); cbn in *; auto. Qed.
  Lemma okl_uncut {A} (Q : A -> Prop) p : okl n Q p -> okl n Q (uncut p).
  Proof. intros H i Hi. specialize (H i Hi). unfold uncut. destruct (p i); cbn in *; auto. Qed.
  Lemma okl_context {A} (Q : A -> Prop) t p : okl n Q p -> okl n Q (context t p).
  Proof. intros H i Hi. specialize (H i Hi). unfold context. destruct (p i); cbn in *; auto using err_snoc. Qed.
  Lemma okl_alt2 {A} (Q : A -> Prop) p q : okl n Q p -> okl n Q q -> okl n Q (alt2 p q).
  Proof.
    intros H K i Hi. specialize (H i Hi). specialize (K i Hi). unfold alt2.
    destruct (p i); cbn in *; auto. destruct (q i); cbn in *; auto using err_snoc.
  Qed.
  Lemma okl_alt5 {A} (Q : A -> Prop) p1 p2 p3 p4 p5 : okl n Q p1 -> okl n Q p2 -> okl n Q p3 -> okl n Q p4 -> okl n Q p5 ->
    okl n Q (alt5 p1 p2 p3 p4 p5).
  Proof.
    intros H1 H2 H3 H4 H5 i Hi. specialize (H1 i Hi). specialize (H2 i Hi). specialize (H3 i Hi). specialize (H4 i Hi). specialize (H5 i Hi).
    unfold alt5. destruct (p1 i); cbn in *; auto. destruct (p2 i); cbn in *; auto. destruct (p3 i); cbn in *; auto.
    destruct (p4 i); cbn in *; auto. destruct (p5 i); cbn in *; auto using err_snoc.
  Qed.
  Lemma okl_pchar c : okl n any (pchar c).
  Proof.
    intros i Hi. unfold pchar. destruct i as [|x r]; [apply err_one|].
    destruct (x =? c); [|apply err_one]. split; [apply suffix_cons|exact I].
  Qed.
  Lemma okl_tag t : okl n any (tag t).
  Proof.
    intros i Hi. unfold tag. destruct (starts_with t i); [|apply err_one]. split; [apply suffix_skipn|exact I].
  Qed.
  Lemma take_while_suffix f i : suffix (snd (take_while f i)) i.
  Proof. exists (fst (take_while f i)). symmetry. apply take_while_app. Qed.
  Lemma okl_take_while f : okl n (fun t => forallb f t = true) (ptake_while f).
  Proof.
    intros i Hi. unfold ptake_while. pose proof (take_while_suffix f i). pose proof (take_while_all f i).
    destruct (take_while f i). now split.
  Qed.
  Lemma okl_take_till f : okl n any (ptake_till f).
  Proof. eapply okl_weak; [|apply okl_take_while]. easy. Qed.
  Lemma okl_take_while1 f : okl n (fun t => t <> [] /\ forallb f t = true) (ptake_while1 f).
  Proof.
    intros i Hi. unfold ptake_while1. pose proof (take_while_suffix f i). pose proof (take_while_all f i).
    destruct (take_while f i) as [a r]. destruct a; [apply err_one|]. now repeat split.
  Qed.
  Lemma okl_alpha1 : okl n any alpha1.
  Proof.
    intros i Hi. unfold alpha1. pose proof (take_while_suffix is_alpha i).
    destruct (take_while is_alpha i) as [a r]. destruct a; [apply err_one|]. now split.
  Qed.
  Lemma okl_line_ending : okl n any line_ending.
  Proof.
    intros i Hi. unfold line_ending.
    destruct i as [|c i]; [apply err_one|].
    destruct (N.eq_dec c 10) as [->|N10]; [split; [apply suffix_cons|exact I]|].
    destruct (N.eq_dec c 13) as [->|N13].
    - destruct i as [|d i]; [apply err_one|]. destruct (N.eq_dec d 10) as [->|D10].
      + split; [|exact I]. now exists [13; 10].
      + assert (forall A (x : A) y, match d with 10 => x | _ => y end = y) as E.
        { intros. destruct d as [|p]; [reflexivity|]. do 4 (try (destruct p as [p|p|]; try reflexivity)). congruence. }
        cbn. rewrite E. apply err_one.
    - assert (forall A (x : A) z y, match c with 10 => x | 13 => z | _ => y end = y) as E.
      { intros. destruct c as [|p]; [reflexivity|]. do 4 (try (destruct p as [p|p|]; try reflexivity)); congruence. }
      rewrite E. apply err_one.
  Qed.
  Lemma okl_ignore_ws {A} (Q : A -> Prop) p : okl n Q p -> okl n Q (ignore_ws p).
  Proof.
    intros H i Hi. unfold ignore_ws. eapply sp_bind; [apply suffix_refl|apply okl_opt; [apply okl_take_while|exact Hi]|].
    intros. apply H. lia.
  Qed.
  Lemma okl_all_consuming {A} (Q : A -> Prop) p : okl n Q p -> okl n Q (all_consuming p).
  Proof.
    intros H i Hi. unfold all_consuming. eapply sp_bind; [apply suffix_refl|now apply H|].
    intros. destruct i'; [now apply sp_ok|apply err_one].
  Qed.
  Lemma okl_many0 {A} (Q : A -> Prop) p : okl n Q p -> okl n (Forall Q) (many0 p).
  Proof.
    intros H i Hi. unfold many0.
    assert (G : forall fuel acc i, (length i < n)%nat -> (length i < fuel)%nat -> Forall Q acc -> sp (Forall Q) i (many0_loop fuel p acc i)).
    { clear i Hi. induction fuel as [|fuel IH]; intros acc i Hi Hf HA; [lia|]. cbn [many0_loop].
      specialize (H i Hi). destruct (p i) as [i1 a|e|e| |]; cbn in H; try contradiction; try assumption.
      - destruct H as [S Ha]. pose proof (suffix_len _ _ S). destruct (Nat.eqb_spec (length i1) (length i)); [apply err_one|].
        eapply sp_mono; [exact S|]. apply IH; try lia. apply Forall_app. auto.
      - now apply sp_ok. }
    apply G; [assumption|lia|constructor].
  Qed.
  Lemma okl_sep {A B} (P : B -> Prop) (Q : A -> Prop) sep p : okl n P sep -> okl n Q p -> okl n (Forall Q) (separated_list0 sep p).
  Proof.
    intros K H i Hi. unfold separated_list0.
    assert (G : forall fuel acc i, (length i < n)%nat -> (length i < fuel)%nat -> Forall Q acc -> sp (Forall Q) i (sep_loop fuel sep p acc i)).
    { clear i Hi. induction fuel as [|fuel IH]; intros acc i Hi Hf HA; [lia|]. cbn [sep_loop].
      specialize (K i Hi). destruct (sep i) as [i1 b|e|e| |]; cbn in K; try contradiction; try assumption; [|now apply sp_ok].
      destruct K as [S _]. pose proof (suffix_len _ _ S). destruct (Nat.eqb_spec (length i1) (length i)).
      { eapply sp_mono; [exact S|]. apply err_one. }
      assert (Hi1 : (length i1 < n)%nat) by lia. specialize (H i1 Hi1).
      destruct (p i1) as [i2 a|e|e| |]; cbn in H; try contradiction; try assumption.
      - destruct H as [S2 Ha]. pose proof (suffix_len _ _ S2). eapply sp_mono; [eapply suffix_trans; eassumption|].
        apply IH; try lia. apply Forall_app. auto.
      - now apply sp_ok.
      - eapply err_mono; eassumption. }
    specialize (H i Hi). destruct (p i) as [i1 a|e|e| |]; cbn in H; try contradiction; try assumption.
    - destruct H as [S Ha]. pose proof (suffix_len _ _ S). eapply sp_mono; [exact S|]. apply G; [lia|lia|]. now constructor.
    - apply sp_ok. constructor.
  Qed.
End Comb.

(** strict consumption *)
Lemma blank_pchar_lt c i i' a : ignore_ws (pchar c) i = POk i' a -> (length i' < length i)%nat.
Proof.
  unfold ignore_ws, opt, inline_whitespace, ptake_while. pose proof (take_while_suffix is_blank i) as S.
  destruct (take_while is_blank i) as [w r]. cbn [pbind snd] in *. apply suffix_len in S.
  destruct r as [|x r]; cbn [pchar]; [discriminate|]. destruct (x =? c); [|discriminate].
  intros E. injection E as <- _. cbn in S. lia.
Qed.

(** ** names *)
Lemma word_char_eq c : word_char c = is_name_char c.
Proof. unfold word_char, is_name_char, is_alnum, is_alpha, is_digit. reflexivity. Qed.
Lemma word_chars_eq t : forallb word_char t = forallb is_name_char t.
Proof. induction t as [|c t IH]; [reflexivity|]. cbn [forallb]. now rewrite IH, word_char_eq. Qed.

Definition idok (t : str) : Prop := parsed_id t = true.

Lemma okl_valid_name n : okl n idok valid_name.
Proof.
  intros i Hi. unfold valid_name.
  destruct (alt2 alpha1 (tag (s "_")) i) as [r a|e|e| |] eqn:E.
  2-5: assert (H := okl_alt2 n any _ _ (okl_alpha1 n) (okl_tag n (s "_")) i Hi); rewrite E in H; exact H.
  cbn [pbind].
  assert (H : exists c t, i = c :: t /\ is_name_char c = true /\ negb ((48 <=? c) && (c <=? 57)) && negb (c =? 45) = true).
  { clear Hi. unfold alt2 in E. destruct (alpha1 i) as [r' a'|e|e| |] eqn:E1; try discriminate E.
    - unfold alpha1 in E1. destruct i as [|c t]; [discriminate E1|]. exists c, t. split; [reflexivity|].
      cbn [take_while] in E1. destruct (is_alpha c) eqn:Ec; [|discriminate E1].
      unfold is_name_char, is_alnum. rewrite Ec. split; [reflexivity|]. unfold is_alpha in Ec. lia.
    - unfold tag in E. destruct i as [|c t]; [discriminate E|]. exists c, t. split; [reflexivity|].
      cbn [starts_with s map list_ascii_of_string] in E. change (N_of_ascii "_") with 95 in E.
      destruct (95 =? c) eqn:Ec; cbn [andb] in E; [|discriminate E]. apply N.eqb_eq in Ec. subst c. split; reflexivity. }
  destruct H as (c & t & -> & Hc & Hd).
  unfold context, cut, ptake_while1. pose proof (take_while_suffix is_name_char (c :: t)) as S.
  pose proof (take_while_all is_name_char (c :: t)) as F.
  cbn [take_while] in *. rewrite Hc in *. destruct (take_while is_name_char t) as [a' r'].
  cbn [fst snd] in *. split; [exact S|]. unfold idok, parsed_id. rewrite word_chars_eq, F, Hd. reflexivity.
Qed.

Create HintDb okl.
#[global] Hint Resolve okl_pchar okl_tag okl_take_while okl_take_till okl_take_while1 okl_line_ending okl_valid_name
  okl_preceded okl_terminated okl_opt okl_cut okl_uncut okl_context okl_ignore_ws okl_all_consuming : okl.

Lemma okl_any {A} n (Q : A -> Prop) p : okl n Q p -> okl n any p.
Proof. apply okl_weak. easy. Qed.

Lemma okl_inline_ws n : okl n any inline_whitespace.
Proof. eapply okl_any, okl_take_while. Qed.
Lemma okl_multi_ws n : okl n any multiline_whitespace.
Proof. eapply okl_any, okl_take_while. Qed.
#[global] Hint Resolve okl_inline_ws okl_multi_ws : okl.

Lemma okl_ident n b : okl n idok (ident b).
Proof. destruct b; unfold ident; eauto 8 with okl. Qed.
#[global] Hint Resolve okl_ident : okl.
Lemma okl_field_name n : okl n (fun t => forallb word_char t = true) field_name.
Proof. eapply okl_weak; [|apply okl_take_while]. exact (fun a H => eq_trans (word_chars_eq a) H). Qed.
#[global] Hint Resolve okl_field_name : okl.

(** ** primitives *)
Definition wfv (v : value kserd) : Prop :=
  parsed_node (Kserd None v) = true /\ Forall (fun k => k_parsed k = true) (vchildren v).
Definition wfk (k : kserd) : Prop := k_parsed k = true.

Lemma okl_unit_value n : okl n any unit_value.
Proof.
  unfold unit_value. eapply okl_context, okl_pmap; [|easy]. eauto with okl.
Qed.
Lemma okl_boolean n : okl n any boolean.
Proof. unfold boolean. apply okl_context, okl_alt2; eapply okl_pmap; eauto with okl; easy. Qed.
Lemma okl_num n : okl n (fun x => num_wf x = true) num.
Proof.
  unfold num. apply okl_context. intros i Hi. pose proof (take_while_suffix is_num_char i) as S.
  destruct (take_while is_num_char i) as [t r]. destruct (num_from_str t) eqn:E; [|apply err_one].
  split; [exact S|]. eapply num_from_str_wf; eassumption.
Qed.
Lemma okl_parse_str n d : okl n any (parse_str d).
Proof. unfold parse_str. eauto 8 with okl. Qed.
Lemma okl_pstring n : okl n any pstring.
Proof.
  intros i Hi. unfold pstring. destruct (starts_with (s "str") i).
  - pose proof (suffix_skipn 3 i) as S. pose proof (suffix_len _ _ S).
    eapply sp_mono; [exact S|]. apply (okl_context n); [apply okl_parse_str|lia].
  - apply (okl_context n); [apply okl_parse_str|assumption].
Qed.
Lemma b91_decode_bytes t : forall b n v, Forall (fun x => x < 256) (b91_decode_from b n v t).
Proof.
  assert (D : forall fuel b n, Forall (fun x => x < 256) (fst (b91_drain fuel b n))).
  { induction fuel as [|fuel IH]; intros b n; cbn [b91_drain]; [constructor|].
    specialize (IH (b / 256) (n - 8)). destruct (7 <? n - 8); [destruct (b91_drain fuel (b / 256) (n - 8))|]; cbn [fst] in *;
      constructor; auto; apply N.mod_lt; lia. }
  induction t as [|c t IH]; intros b n v; cbn [b91_decode_from].
  - destruct v; repeat constructor. apply N.mod_lt. lia.
  - destruct (b91_index c) as [d|]; [|apply IH]. destruct v as [v|]; [|apply IH]. cbv zeta.
    match goal with |- context [b91_drain ?f ?x ?y] => pose proof (D f x y) as DD; destruct (b91_drain f x y) as [out [b' n']] end.
    apply Forall_app. auto.
Qed.
Lemma okl_barr n : okl n (fun b => forallb (fun x => x <? 256) b = true) barr.
Proof.
  unfold barr. eapply okl_context, okl_preceded; [apply okl_tag|]. eapply okl_cut, okl_terminated; [|apply okl_pchar].
  eapply okl_pmap; [apply okl_take_till|]. intros a _. apply forallb_forall. intros x Hx.
  pose proof (b91_decode_bytes a 0 0 None) as F. rewrite Forall_forall in F. apply N.ltb_lt. now apply F.
Qed.
Lemma okl_prim_value n : okl n wfv prim_value.
Proof.
  unfold prim_value. apply okl_context, okl_alt5.
  - eapply okl_pmap; [apply okl_unit_value|]. intros. split; [reflexivity|constructor].
  - eapply okl_pmap; [apply okl_boolean|]. intros. split; [reflexivity|constructor].
  - eapply okl_pmap; [apply okl_num|]. intros. split; [assumption|constructor].
  - eapply okl_pmap; [apply okl_pstring|]. intros. split; [reflexivity|constructor].
  - eapply okl_pmap; [apply okl_barr|]. intros. split; [assumption|constructor].
Qed.

Definition idopt (o : option str) : Prop := match o with Some id => idok id | None => True end.

Lemma parsed_id_allowed id : parsed_id id = true -> forallb (fun c => negb (mem c reserved)) id = true.
Proof.
  unfold parsed_id. rewrite andb_true_iff. intros [_ H]. rewrite forallb_forall in *. intros c Hc. specialize (H c Hc).
  unfold word_char in H. unfold mem, reserved. cbn [existsb].
  repeat match goal with |- context [N.eqb c ?k] => destruct (N.eqb_spec c k); [subst; discriminate H|] end. reflexivity.
Qed.
Lemma wfk_intro id v : idopt id -> wfv v -> wfk (Kserd id v).
Proof.
  intros Hi [Hn Hc]. unfold wfk, k_parsed. apply k_all_children. split; [|exact Hc].
  unfold parsed_node in *. cbn [kid kval] in *. destruct id; [cbn in Hi; now rewrite Hi|exact Hn].
Qed.
Lemma sp_ctor id v i : idopt id -> wfv v -> sp wfk i (kserd_ctor id v i).
Proof.
  intros Hi Hv. unfold kserd_ctor. destruct id as [id|].
  - rewrite with_id_spec, (parsed_id_allowed id Hi). apply sp_ok. now apply wfk_intro.
  - apply sp_ok. now apply wfk_intro.
Qed.
Lemma okl_prim n : okl n wfk prim.
Proof.
  intros i Hi. unfold prim.
  eapply sp_bind; [apply suffix_refl|eapply okl_context; [|exact Hi]|].
  { eapply okl_separated_pair; [apply okl_opt, okl_ident|apply okl_inline_ws|apply okl_prim_value]. }
  intros i' [id v] _ _ _ [H1 H2]. now apply sp_ctor.
Qed.

(** ** heuristics: the input is handed back *)
Lemma pattern_spec n : forall i, (length i < n)%nat ->
  match pattern_match_delimited i with
  | POk r _ => r = i
  | PErr e | PFail e => err_in i e
  | _ => False
  end.
Proof.
  intros i Hi. unfold pattern_match_delimited.
  destruct (starts_with (s "true") i || starts_with (s "false") i); [reflexivity|].
  assert (O : forall b, sp idopt i (opt (ident b) i)).
  { intros b. apply (okl_opt n); [apply okl_ident|exact Hi]. }
  assert (M : forall r, suffix r i -> sp any r (multiline_whitespace r)).
  { intros r Hr. apply suffix_len in Hr. apply (okl_multi_ws n). lia. }
  assert (T : forall i1 k, suffix i1 i -> match (
      let? (i, _) := multiline_whitespace i1 in
      let next := hd 32 i in
      let? (_, r) :=
        if next =? ch "[" then POk i NpSeq
        else if next =? ch "{" then POk i NpMap
        else if next =? ch "(" then
          if match k with IkNonprim => false | _ => is_ok (unit_value i) end then POk i NpNone
          else
            let? (j, _) := multiline_whitespace (tl i) in
            if recognise_field_assign j then POk i NpCntr else POk i NpTuple
        else POk i NpNone in
      let r := match k with IkPrim => NpNone | _ => r end in
      POk i r) with POk _ _ => True | PErr e | PFail e => err_in i e | _ => False end).
  { intros i1 k S1. pose proof (M i1 S1) as Hm. destruct (multiline_whitespace i1) as [i2 w|e|e| |]; cbn [pbind sp] in *;
      try contradiction; try (eapply err_mono; eassumption).
    destruct Hm as [S2 _]. assert (S3 : suffix (tl i2) i) by eauto using suffix_trans, suffix_tl.
    pose proof (M _ S3) as Hm.
    destruct (hd 32 i2 =? ch "["); [exact I|]. destruct (hd 32 i2 =? ch "{"); [exact I|].
    destruct (hd 32 i2 =? ch "("); [|exact I].
    destruct (match k with IkNonprim => false | _ => is_ok (unit_value i2) end); [exact I|].
    destruct (multiline_whitespace (tl i2)) as [j w'|e|e| |]; cbn [pbind sp] in *;
      try contradiction; try (eapply err_mono; eassumption).
    destruct (recognise_field_assign j); exact I. }
  assert (T' : forall i1 k, suffix i1 i -> match (
      let? (i', _) := multiline_whitespace i1 in
      let next := hd 32 i' in
      let? (_, r) :=
        if next =? ch "[" then POk i' NpSeq
        else if next =? ch "{" then POk i' NpMap
        else if next =? ch "(" then
          if match k with IkNonprim => false | _ => is_ok (unit_value i') end then POk i' NpNone
          else
            let? (j, _) := multiline_whitespace (tl i') in
            if recognise_field_assign j then POk i' NpCntr else POk i' NpTuple
        else POk i' NpNone in
      let r := match k with IkPrim => NpNone | _ => r end in
      POk i r) with POk r _ => r = i | PErr e | PFail e => err_in i e | _ => False end).
  { intros i1 k S1. specialize (T i1 k S1). destruct (multiline_whitespace i1) as [i2 w|e|e| |]; cbn [pbind] in *; auto.
    cbv zeta in *. match goal with |- context [@pbind nonprim nonprim ?r _] => destruct r end; cbn [pbind] in *; auto. }
  clear T. pose proof (O true) as O1. destruct (opt (ident true) i) as [i1 [id|]|e|e| |]; cbn [sp pbind] in *; try contradiction; try assumption.
  - exact (T' i1 IkPrim (proj1 O1)).
  - pose proof (O false) as O2. destruct (opt (ident false) i) as [i2 [id|]|e|e| |]; cbn [sp pbind] in *; try contradiction; try assumption.
    + exact (T' i2 IkNonprim (proj1 O2)).
    + exact (T' i IkNone (suffix_refl i)).
Qed.

(** ** delimited forms *)
Lemma wfv_tuple l : Forall wfk l -> wfv (VTuple l).
Proof. intros H. now split. Qed.
Lemma wfv_seq l : Forall wfk l -> wfv (VSeq l).
Proof. intros H. now split. Qed.
Definition wff (e : str * kserd) : Prop := forallb word_char (fst e) = true /\ wfk (snd e).
Lemma wfv_cntr m : strictly_sorted str_cmp m = true -> Forall wff m -> wfv (VCntr m).
Proof.
  intros S F. split.
  - unfold parsed_node. cbn [kid kval]. rewrite S. apply forallb_forall. rewrite Forall_forall in F. intros e He. now apply F.
  - cbn [vchildren]. apply Forall_map. eapply Forall_impl; [|exact F]. now intros e [_ H].
Qed.
Lemma wfv_fields l : Forall wff l -> wfv (VCntr (fields_of l)).
Proof.
  intros F. destruct (fields_of_spec l) as (S & I & _). apply wfv_cntr; [exact S|].
  rewrite Forall_forall in *. auto.
Qed.
Definition wfe (e : kserd * kserd) : Prop := wfk (fst e) /\ wfk (snd e).
Lemma wfv_map m : Forall wfe m -> sorted_plain m -> wfv (VMap m).
Proof.
  intros F S. split.
  { unfold parsed_node. cbn [kid kval]. destruct (forallb (fun e => no_numbers (fst e)) m) eqn:E; [|reflexivity].
    cbn [implb andb]. apply S. rewrite forallb_forall in E. now apply Forall_forall. }
  clear S. cbn [vchildren]. induction F as [|e m [H1 H2] F IH]; [constructor|].
  unfold entry_list in *. cbn [flat_map app]. repeat constructor; auto.
Qed.
Lemma from_list_in {K V} cmp eqb (l : list (K * V)) e : In e (bt_from_list cmp eqb l) -> In e l.
Proof.
  unfold bt_from_list. intros H. apply (bt_sort_in cmp). revert H. generalize (bt_sort cmp l). clear l.
  induction l as [|a l IH]; cbn [bt_dedup]; [easy|]. destruct l as [|b l]; [auto|].
  destruct (eqb (fst a) (fst b)); [intros H; right; auto|]. intros [->|H]; [now left|right; auto].
Qed.

Section Delim.
  Variable n : nat.
  Variables inl con : parser kserd.
  Hypothesis Hinl : okl n wfk inl.
  Hypothesis Hcon : okl n wfk con.

  Lemma okl_inline_list : okl n (Forall wfk) (inline_list_kserds inl).
  Proof. unfold inline_list_kserds. eapply okl_context, okl_sep; eauto with okl. Qed.
  Lemma okl_concise_list : okl n (Forall wfk) (concise_list_kserds con).
  Proof.
    unfold concise_list_kserds. eapply okl_preceded; [apply okl_multi_ws|].
    eapply okl_cut, okl_terminated; [|apply okl_multi_ws]. eapply okl_sep; eauto with okl.
  Qed.
  Lemma okl_kvp_field b : okl n wff (kvp_field inl con b).
  Proof.
    unfold kvp_field. apply okl_context.
    refine (okl_separated_pair n _ any wfk _ _ _ (okl_field_name n) _ _); [eauto with okl|].
    destruct b; eauto with okl.
  Qed.
  Lemma okl_inline_cntr : okl n (Forall wff) (inline_cntr_kserds inl con).
  Proof. unfold inline_cntr_kserds. eapply okl_context, okl_sep; [eauto with okl|]. apply okl_ignore_ws, okl_kvp_field. Qed.
  Lemma okl_concise_cntr : okl n (Forall wff) (concise_cntr_kserds inl con).
  Proof.
    unfold concise_cntr_kserds. eapply okl_context, okl_preceded; [apply okl_multi_ws|].
    eapply okl_cut, okl_terminated; [|apply okl_multi_ws]. eapply okl_sep; [apply okl_multi_ws|apply okl_kvp_field].
  Qed.
  Lemma okl_kvp_kserd b : okl n wfe (kvp_kserd inl con b).
  Proof.
    unfold kvp_kserd. apply okl_context.
    refine (okl_separated_pair n wfk any wfk _ _ _ _ _ _); [now apply okl_alt2|eauto with okl|].
    destruct b; eauto with okl.
  Qed.
  Lemma okl_inline_map : okl n (Forall wfe) (inline_map_kserds inl con).
  Proof. unfold inline_map_kserds. eapply okl_context, okl_sep; [eauto with okl|]. apply okl_ignore_ws, okl_kvp_kserd. Qed.
  Lemma okl_concise_map : okl n (Forall wfe) (concise_map_kserds inl con).
  Proof.
    unfold concise_map_kserds. eapply okl_context, okl_preceded; [apply okl_multi_ws|].
    eapply okl_terminated; [|apply okl_multi_ws]. eapply okl_sep; [apply okl_multi_ws|apply okl_kvp_kserd].
  Qed.

  (** identity, opening bracket, body, constructor *)
  Lemma sp_bracketed {A} (P : A -> Prop) (mk : A -> value kserd) o (body : str -> parser A) i :
    (length i < S n)%nat ->
    (forall t, okl n P (body t)) -> (forall a, P a -> wfv (mk a)) ->
    sp wfk i
      (let? (i, id) := opt (ident false) i in
       let? (i, _) := ignore_ws (pchar o) i in
       let? (i, l) := body i i in
       kserd_ctor id (mk l) i).
  Proof.
    intros Hi Hb Hm. eapply sp_bind; [apply suffix_refl|apply (okl_opt (S n)); [apply okl_ident|exact Hi]|].
    intros i1 id _ _ L1 Hid. eapply sp_bind; [apply suffix_refl|apply (okl_ignore_ws (S n)); [apply okl_pchar|lia]|].
    intros i2 c E2 _ _ _. apply blank_pchar_lt in E2.
    eapply sp_bind; [apply suffix_refl|apply Hb; lia|].
    intros i3 l _ _ _ Hl. apply sp_ctor; [exact Hid|]. now apply Hm.
  Qed.

  Lemma okl_tuple b : okl (S n) wfk (tuple inl con b).
  Proof.
    intros i Hi. unfold tuple. cbv zeta.
    refine (sp_bracketed (Forall wfk) VTuple _ (fun i => context _ (cut (terminated _ _))) i Hi _ wfv_tuple).
    intros t. eapply okl_context, okl_cut, okl_terminated; [|eauto with okl].
    destruct (recognise_concise t && negb b); [apply okl_concise_list|apply okl_inline_list].
  Qed.
  Lemma okl_seq b : okl (S n) wfk (seq_delimited inl con b).
  Proof.
    intros i Hi. unfold seq_delimited. cbv zeta.
    refine (sp_bracketed (Forall wfk) VSeq _ (fun i => context _ (cut (terminated _ _))) i Hi _ wfv_seq).
    intros t. eapply okl_context, okl_cut, okl_terminated; [|eauto with okl].
    destruct (recognise_concise t && negb b); [apply okl_concise_list|apply okl_inline_list].
  Qed.
  Lemma okl_cntr b : okl (S n) wfk (cntr_delimited inl con b).
  Proof.
    intros i Hi. unfold cntr_delimited. cbv zeta.
    refine (sp_bracketed (Forall wff) (fun l => VCntr (fields_of l)) _ (fun i => context _ (terminated _ _)) i Hi _ wfv_fields).
    intros t. eapply okl_context, okl_terminated; [|eauto with okl].
    destruct (recognise_concise t && negb b); [apply okl_concise_cntr|apply okl_inline_cntr].
  Qed.
  Lemma okl_map b : okl (S n) wfk (map_delimited inl con b).
  Proof.
    intros i Hi. unfold map_delimited. cbv zeta.
    refine (sp_bracketed (Forall wfe) (fun l => VMap (map_of l)) _ (fun i => context _ (terminated _ _)) i Hi _ _).
    - intros t. eapply okl_context, okl_terminated; [|eauto with okl].
      destruct (recognise_concise t && negb b); [apply okl_concise_map|apply okl_inline_map].
    - intros l F. apply wfv_map; [|apply map_of_plain]. rewrite Forall_forall in *. intros e He. apply F. unfold map_of in He. eapply from_list_in; eassumption.
  Qed.
  Lemma okl_body b : okl (S n) wfk (delimited_body inl con b).
  Proof.
    intros i Hi. unfold delimited_body. pose proof (pattern_spec (S n) i Hi) as H.
    destruct (pattern_match_delimited i) as [r p|e|e| |]; cbn [pbind]; try assumption; subst.
    destruct p; [now apply okl_tuple|now apply okl_cntr|now apply okl_seq|now apply okl_map|now apply (okl_prim (S n))].
  Qed.
End Delim.

Lemma okl_delimited fuel b : okl fuel wfk (kserd_delimited fuel b).
Proof.
  revert b. induction fuel as [|fuel IH]; intros b; [intros i Hi; lia|].
  intros i Hi. cbn [kserd_delimited]. now apply (okl_body fuel).
Qed.

(** ** verbose containers *)
Lemma sp_skip_lines n fuel i : (length i < n)%nat -> (length i < fuel)%nat -> sp any i (skip_lines fuel i).
Proof.
  intros Hn. revert i Hn. induction fuel as [|fuel IH]; intros i Hn Hf; [lia|]. cbn [skip_lines].
  pose proof (okl_opt n _ _ (okl_ignore_ws n _ _ (okl_line_ending n)) i Hn) as H.
  destruct (opt (ignore_ws line_ending) i) as [r [x|]|e|e| |] eqn:E; cbn [sp pbind] in *; try contradiction; try assumption.
  - destruct H as [S _]. eapply sp_mono; [exact S|]. pose proof (suffix_len _ _ S).
    assert (L : (length r < length i)%nat).
    { unfold opt, ignore_ws, opt, inline_whitespace, ptake_while in E. pose proof (take_while_suffix is_blank i) as S'.
      destruct (take_while is_blank i) as [w r']. cbn [pbind snd] in *. apply suffix_len in S'.
      destruct r' as [|c r']; [cbn in E; discriminate E|]. unfold line_ending in E.
      assert (G : forall t, match r' with 10 :: r0 => POk r0 [13; 10] | _ => PErr [(t, ENom NkCrLf)] end = POk r x -> (length r < length r')%nat).
      { intros t. destruct r' as [|d r']; [discriminate|]. destruct d as [|p]; [discriminate|].
        do 4 (try (destruct p as [p|p|]; try discriminate)). intros F. injection F as <- _. cbn. lia. }
      specialize (G (c :: r')). cbn [length] in *.
      destruct c as [|p]; [discriminate E|].
      do 4 (try (destruct p as [p|p|]; try discriminate E)).
      + destruct r' as [|d r']; [discriminate E|]. destruct d as [|p]; [discriminate E|].
        do 4 (try (destruct p as [p|p|]; try discriminate E)). injection E as <- _. cbn in *. lia.
      + injection E as <- _. lia. }
    apply IH; lia.
  - now apply sp_ok.
Qed.
Lemma okl_expect_indents n k : okl n any (expect_indents k).
Proof.
  induction k as [|k IH]; intros i Hi; cbn [expect_indents]; [now apply sp_ok|].
  eapply sp_bind; [apply suffix_refl|apply (okl_alt2 n any); [apply okl_tag|apply okl_tag|exact Hi]|].
  intros. apply IH. lia.
Qed.
Definition wfh (x : str * option str) : Prop := forallb word_char (fst x) = true /\ idopt (snd x).
Lemma okl_header n : okl n wfh verbose_field_name_and_identity.
Proof.
  unfold verbose_field_name_and_identity. apply okl_context. intros i Hi.
  eapply sp_bind; [apply suffix_refl|apply (okl_ignore_ws n); [apply okl_field_name|exact Hi]|].
  intros i1 a _ _ L1 Ha. pose proof (okl_ignore_ws n _ _ (okl_pchar n (ch ":")) i1 ltac:(lia)) as H.
  destruct (ignore_ws (pchar (ch ":")) i1) as [i2 x|e|e| |] eqn:E; cbn [sp] in H; try contradiction;
    try (apply sp_ok; split; [assumption|exact I]).
  destruct H as [S _]. eapply sp_mono; [exact S|]. pose proof (suffix_len _ _ S).
  eapply sp_bind; [apply suffix_refl|apply (okl_ignore_ws n); [apply okl_ident|lia]|].
  intros i3 id _ _ _ Hid. apply sp_ok. now split.
Qed.
Lemma tag_lt t i i' a : t <> [] -> tag t i = POk i' a -> (length i' < length i)%nat.
Proof.
  intros Ht. unfold tag. destruct (starts_with t i) eqn:E; [|discriminate]. intros H. injection H as <- _.
  apply starts_with_spec in E as [r ->]. rewrite skipn_app, skipn_all, Nat.sub_diag, !app_length. cbn. destruct t; [easy|]. cbn. lia.
Qed.

Definition wfc (f : container_field) : Prop :=
  match f with
  | CfId id => idok id
  | CfDirect nm v | CfNested nm v => forallb word_char nm = true /\ wfk v
  | CfSeq id nm v => idopt id /\ forallb word_char nm = true /\ wfk v
  | CfMap id nm k v => idopt id /\ forallb word_char nm = true /\ wfk k /\ wfk v
  end.

Lemma wfk_reid k id : wfk k -> idopt id -> wfk (Kserd (match kid k with Some x => Some x | None => id end) (kval k)).
Proof.
  destruct k as [kid' v]. unfold wfk, k_parsed. rewrite !k_all_children. cbn [kid kval].
  intros [H1 H2] Hi. split; [|exact H2]. unfold parsed_node in *. cbn [kid kval] in *.
  destruct kid' as [x|]; [exact H1|]. destruct id as [y|]; [cbn in Hi; now rewrite Hi|exact H1].
Qed.

Section Verb.
  Variable n : nat.
  Variables inl con nested : parser kserd.
  Hypothesis Hinl : okl (S n) wfk inl.
  Hypothesis Hcon : okl (S n) wfk con.
  Hypothesis Hnested : okl n wfk nested.

  Lemma okl_verbose_field k : okl (S n) wfc (verbose_cntr_field inl con nested k).
  Proof.
    intros i Hi. unfold verbose_cntr_field.
    eapply sp_bind; [apply suffix_refl|apply (sp_skip_lines (S n)); lia|]. intros i1 _ _ _ L1 _.
    eapply sp_bind; [apply suffix_refl|apply (okl_expect_indents (S n)); lia|]. intros i2 _ _ _ L2 _.
    eapply sp_bind; [apply suffix_refl|apply (okl_inline_ws (S n)); lia|]. intros i3 _ _ _ L3 _.
    destruct (match i3 with [] => true | _ => false end || is_ok (ignore_ws line_ending i3)); [apply err_one|].
    destruct (starts_with (s ":") i3).
    { pose proof (suffix_tl i3) as S. pose proof (suffix_len _ _ S).
      eapply sp_bind; [exact S|apply (okl_ignore_ws (Datatypes.S n)); [apply okl_ident|lia]|].
      intros i4 id _ _ _ Hid. now apply sp_ok. }
    destruct (starts_with (s "[[") i3).
    { assert (HD : sp wfh i3 (context (s "field name. expecting 'field_name[:identity]'")
            (cut (preceded (tag (s "[[")) (terminated verbose_field_name_and_identity (ignore_ws (tag (s "]]")))))) i3)).
      { apply (okl_context (S n)); [|lia]. eapply okl_cut, okl_preceded; [apply okl_tag|].
        eapply okl_terminated; [apply okl_header|]. eauto with okl. }
      eapply sp_bind; [apply suffix_refl|exact HD|]. clear HD. intros i4 [fname id] E4 _ _ [Hf Hid]. cbn [fst snd] in *.
      assert (L4 : (length i4 < length i3)%nat).
      { unfold context, cut, preceded in E4. destruct (tag (s "[[") i3) as [j b|e|e| |] eqn:E; cbn [pbind] in E4; try discriminate E4.
        apply tag_lt in E; [|discriminate].
        assert (J : sp wfh j (terminated verbose_field_name_and_identity (ignore_ws (tag (s "]]"))) j)).
        { apply (okl_terminated (S n) wfh any); [apply okl_header|eauto with okl|lia]. }
        destruct (terminated verbose_field_name_and_identity (ignore_ws (tag (s "]]"))) j); try discriminate E4.
        injection E4 as -> _. destruct J as [S _]. apply suffix_len in S. lia. }
      eapply sp_bind; [apply suffix_refl|apply (okl_ignore_ws (S n)); [apply okl_line_ending|lia]|]. intros i5 _ _ _ L5 _.
      eapply sp_bind; [apply suffix_refl|apply (okl_opt (S n) wfk); [|lia]|].
      { eapply okl_terminated; [apply okl_ignore_ws, okl_uncut, Hinl|]. eauto with okl. }
      intros i6 key _ _ L6 Hkey. destruct key as [key|].
      - eapply sp_bind; [apply suffix_refl|apply (okl_context n wfk); [|lia]|].
        { apply okl_alt2; [apply okl_ignore_ws; eapply okl_mono; [|exact Hcon]; lia|].
          eapply okl_preceded; [|exact Hnested]. eauto with okl. }
        intros i7 v _ _ _ Hv. apply sp_ok. cbn. auto.
      - eapply sp_bind; [apply suffix_refl|apply (okl_context n wfk); [exact Hnested|lia]|].
        intros i7 v _ _ _ Hv. apply sp_ok. cbn. auto. }
    destruct (starts_with (s "[") i3).
    { assert (HD : sp wfh i3 (preceded (tag (s "[")) (terminated verbose_field_name_and_identity (ignore_ws (tag (s "]")))) i3)).
      { apply (okl_preceded (S n) any); [apply okl_tag| |lia].
        eapply okl_terminated; [apply okl_header|]. eauto with okl. }
      eapply sp_bind; [apply suffix_refl|exact HD|]. clear HD. intros i4 [fname id] E4 _ _ [Hf Hid]. cbn [fst snd] in *.
      assert (L4 : (length i4 < length i3)%nat).
      { unfold preceded in E4. destruct (tag (s "[") i3) as [j b|e|e| |] eqn:E; cbn [pbind] in E4; try discriminate E4.
        apply tag_lt in E; [|discriminate].
        assert (J : sp wfh j (terminated verbose_field_name_and_identity (ignore_ws (tag (s "]"))) j)).
        { apply (okl_terminated (S n) wfh any); [apply okl_header|eauto with okl|lia]. }
        rewrite E4 in J. destruct J as [S _]. apply suffix_len in S. lia. }
      eapply sp_bind; [apply suffix_refl|apply (okl_ignore_ws (S n)); [apply okl_line_ending|lia]|]. intros i5 _ _ _ L5 _.
      eapply sp_bind; [apply suffix_refl|apply (okl_context n wfk); [exact Hnested|lia]|].
      intros i7 v _ _ _ Hv. apply sp_ok. split; [assumption|]. now apply wfk_reid. }
    eapply sp_bind; [apply suffix_refl|apply (okl_cut (S n) wff); [now apply okl_kvp_field|lia]|].
    intros i4 [fname v] _ _ _ [H1 H2]. apply sp_ok. now split.
  Qed.
End Verb.

Lemma insert_sorted_str {V} (k : str) (v : V) m : strictly_sorted str_cmp m = true -> strictly_sorted str_cmp (bt_insert str_cmp k v m) = true.
Proof.
  rewrite !(strictly_sorted_spec (fun _ => True) str_cmp str_lawful) by apply keysP_true.
  apply (ascending_insert (fun _ => True) str_cmp str_lawful); [exact I|apply keysP_true].
Qed.
Lemma insert_forall {K V} cmp (P : K -> Prop) (Q : V -> Prop) k v (m : list (K * V)) :
  P k -> Q v -> Forall (fun e => P (fst e) /\ Q (snd e)) m -> Forall (fun e => P (fst e) /\ Q (snd e)) (bt_insert cmp k v m).
Proof.
  intros Hk Hv. induction 1 as [|[k' v'] m [H1 H2] F IH]; cbn [bt_insert]; [now repeat constructor|].
  destruct (cmp k k'); repeat constructor; auto.
Qed.
Lemma update_forall {V} (P : str -> Prop) (Q : V -> Prop) name new upd (m : list (str * V)) :
  P name -> Q new -> (forall x, Q x -> Q (upd x)) -> Forall (fun e => P (fst e) /\ Q (snd e)) m ->
  Forall (fun e => P (fst e) /\ Q (snd e)) (bt_update name new upd m).
Proof.
  intros Hk Hn Hu. induction 1 as [|[k' v'] m [H1 H2] F IH]; cbn [bt_update fst snd] in *; [repeat constructor; cbn [fst snd]; auto|].
  destruct (str_cmp name k'); repeat constructor; cbn [fst snd]; auto.
Qed.
Definition wname (t : str) : Prop := forallb word_char t = true.
Definition wseq (e : option str * list kserd) : Prop := idopt (fst e) /\ Forall wfk (snd e).
Definition wmap (e : option str * list (kserd * kserd)) : Prop := idopt (fst e) /\ Forall wfe (snd e) /\ sorted_plain (snd e).
Definition wst (st : vstate) : Prop :=
  Forall (fun e => wname (fst e) /\ wseq (snd e)) (vs_seqs st) /\
  Forall (fun e => wname (fst e) /\ wmap (snd e)) (vs_maps st) /\
  (strictly_sorted str_cmp (vs_fields st) = true /\ Forall (fun e => wname (fst e) /\ wfk (snd e)) (vs_fields st)) /\
  idopt (vs_id st).
Lemma idopt_or a b : idopt a -> idopt b -> idopt (or_else a b).
Proof. destruct a; auto. Qed.
Lemma wst_step st f : wst st -> wfc f -> wst (vs_step st f).
Proof.
  intros (H1 & H2 & (H3 & H4) & H5) Hf. unfold wst.
  destruct f as [id|nm v|nm v|id nm v|id nm k v]; cbn [vs_step vs_seqs vs_maps vs_fields vs_id wfc] in *.
  - repeat (split; [assumption|]). split; [now split|]. exact Hf.
  - destruct Hf. split; [assumption|]. split; [assumption|]. split; [|assumption].
    split; [now apply insert_sorted_str|now apply insert_forall].
  - destruct Hf. split; [assumption|]. split; [assumption|]. split; [|assumption].
    split; [now apply insert_sorted_str|now apply insert_forall].
  - destruct Hf as (Ha & Hb & Hc). split; [|split; [assumption|split; [now split|assumption]]].
    apply update_forall; [exact Hb|split; [exact I|constructor]| |exact H1].
    intros x [X1 X2]. split; [now apply idopt_or|]. apply Forall_app. auto.
  - destruct Hf as (Ha & Hb & Hc & Hd). split; [assumption|]. split; [|split; [now split|assumption]].
    apply update_forall; [exact Hb|split; [exact I|split; [constructor|intros _; reflexivity]]| |exact H2].
    intros x (X1 & X2 & X3). split; [now apply idopt_or|]. cbn [snd]. split; [now apply (insert_forall k_cmp wfk wfk)|now apply insert_sorted_plain].
Qed.
Lemma assemble_wf l : Forall wfc l -> wfk (assemble l).
Proof.
  intros F. unfold assemble.
  assert (G : wst (fold_left vs_step l (mkVs [] [] [] None))).
  { assert (G0 : wst (mkVs [] [] [] None)).
    { split; [constructor|]. split; [constructor|]. split; [|exact I]. split; [reflexivity|constructor]. }
    revert G0. generalize (mkVs [] [] [] None). induction F as [|f l Hf F IH]; intros st Hst; [exact Hst|].
    cbn [fold_left]. apply IH. now apply wst_step. }
  destruct (fold_left vs_step l (mkVs [] [] [] None)) as [sq mp fl vid]. destruct G as (H1 & H2 & H3 & H5).
  cbn [vs_seqs vs_maps vs_fields vs_id] in *.
  assert (X1 : forall m, strictly_sorted str_cmp m = true /\ Forall (fun e => wname (fst e) /\ wfk (snd e)) m ->
    let m' := fold_left (fun m e => bt_insert str_cmp (fst e) (Kserd (fst (snd e)) (VSeq (snd (snd e)))) m) sq m in
    strictly_sorted str_cmp m' = true /\ Forall (fun e => wname (fst e) /\ wfk (snd e)) m').
  { clear H3. induction H1 as [|e sq [E1 [E2 E3]] F1 IH]; intros m Hm; [exact Hm|]. cbn [fold_left]. apply IH.
    destruct Hm. split; [now apply insert_sorted_str|]. apply insert_forall; try assumption. apply wfk_intro; [assumption|now apply wfv_seq]. }
  assert (X2 : forall m, strictly_sorted str_cmp m = true /\ Forall (fun e => wname (fst e) /\ wfk (snd e)) m ->
    let m' := fold_left (fun m e => bt_insert str_cmp (fst e) (Kserd (fst (snd e)) (VMap (snd (snd e)))) m) mp m in
    strictly_sorted str_cmp m' = true /\ Forall (fun e => wname (fst e) /\ wfk (snd e)) m').
  { clear X1 H3. induction H2 as [|e mp [E1 (E2 & E3 & E4)] F1 IH]; intros m Hm; [exact Hm|]. cbn [fold_left]. apply IH.
    destruct Hm. split; [now apply insert_sorted_str|]. apply insert_forall; try assumption. apply wfk_intro; [assumption|now apply wfv_map]. }
  destruct (X2 _ (X1 _ H3)) as [Y1 Y2]. apply wfk_intro; [assumption|]. now apply wfv_cntr.
Qed.

Lemma okl_nested fuel dfuel : (fuel <= dfuel)%nat -> forall k, okl fuel wfk (kserd_nested fuel dfuel k).
Proof.
  induction fuel as [|fuel IH]; intros Hd k i Hi; [lia|]. cbn [kserd_nested].
  unfold pattern_match_verbose. pose proof (okl_multi_ws (S fuel) i Hi) as M.
  destruct (multiline_whitespace i) as [r w|e|e| |]; cbn [sp pbind] in *; try contradiction; try assumption.
  match goal with |- context [if ?b then _ else _] => destruct b end.
  - unfold cntr_verbose. eapply sp_bind; [apply suffix_refl|apply (okl_many0 (S fuel) wfc); [|lia]|].
    + apply okl_verbose_field; [eapply okl_mono; [|apply okl_delimited]; lia|eapply okl_mono; [|apply okl_delimited]; lia|].
      apply IH. lia.
    + intros. apply sp_ok. now apply assemble_wf.
  - apply (okl_ignore_ws (S fuel)); [|lia]. eapply okl_mono; [|apply okl_delimited]; lia.
Qed.

Lemma root_spec i : sp wfk i (kserd_root i).
Proof.
  unfold kserd_root. destruct i as [|c i]; [apply (okl_context 1); [|cbn; lia]; intros j Hj; apply err_one|].
  apply (okl_all_consuming (S (length (c :: i)))); [|lia].
  eapply okl_terminated; [|apply okl_multi_ws]. apply okl_nested. lia.
Qed.

(** ** literals *)
Lemma take_till_stop d t r : forallb (fun c => negb (d =? c)) t = true ->
  take_while (fun c => negb (d =? c)) (t ++ d :: r) = (t, d :: r).
Proof.
  intros H. induction t as [|c t IH]; cbn [app take_while].
  - now rewrite N.eqb_refl.
  - cbn [forallb] in H. apply andb_true_iff in H as [H1 H2]. rewrite H1, IH by assumption. reflexivity.
Qed.
Lemma barr_literal b rest : forallb (fun x => x <? 256) b = true ->
  barr (s "b91'" ++ b91_encode b ++ s "'" ++ rest) = POk rest b.
Proof.
  intros H. assert (F : Forall (fun x => x < 256) b).
  { rewrite forallb_forall in H. apply Forall_forall. intros x Hx. apply N.ltb_lt. auto. }
  unfold barr, context, preceded. unfold tag at 1. rewrite starts_with_app.
  rewrite skipn_app, skipn_all, Nat.sub_diag. cbn [app skipn pbind].
  unfold cut, terminated, pmap, ptake_till, ptake_while. change (s "'" ++ rest) with (39 :: rest).
  rewrite take_till_stop.
  - cbn [pbind pchar]. rewrite N.eqb_refl. cbn [pbind]. now rewrite b91_round_trip.
  - apply forallb_forall. intros c Hc. pose proof (b91_encode_alphabet b F) as A. rewrite Forall_forall in A. specialize (A c Hc).
    destruct (N.eqb_spec 39 c) as [<-|]; [|reflexivity]. exfalso. vm_compute in A. intuition discriminate.
Qed.
