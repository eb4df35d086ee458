(** How many characters the parser looks at: blanks, names, primitives and the heuristics go over the
    text a bounded number of times; the rest is in proportion to the values which are begun. *)
From Verif Require Import Base F64 Number BTree Value Base91 Nom Parse ParseErr ParseCost ParseWork WorkProps.
Open Scope nat_scope.

(** ** parsers which begin no value *)
Definition lo {A} (N c : nat) (i : str) (x : wpres A) : Prop :=
  chars (snd x) <= c * S N /\ forall j a, fst x = POk j a -> length j <= length i.
Definition loc {A} (c : nat) (w : wparser A) : Prop := forall N i, length i <= N -> lo N c i (w i).

Lemma lo_le {A} N c d i (x : wpres A) : c <= d -> lo N c i x -> lo N d i x.
Proof. intros L [H1 H2]. split; [|exact H2]. transitivity (c * S N); [exact H1|]. now apply Nat.mul_le_mono_r. Qed.
Lemma loc_le {A} c d (w : wparser A) : loc c w -> c <= d -> loc d w.
Proof. intros H L N i Hi. eapply lo_le; [exact L|now apply H]. Qed.
Lemma lo_free {A} N i (r : pres A) : (forall j a, r = POk j a -> length j <= length i) -> lo N 0 i (free r).
Proof. intros H. split; [cbn [free snd nothing chars]; lia|exact H]. Qed.
Lemma lo_looking {A} N n c d i (x : wpres A) : n <= d * S N -> lo N c i x -> lo N (d + c) i (looking n x).
Proof. intros L [H1 H2]. split; [|exact H2]. cbn [looking snd wadd chars]. nia. Qed.
Lemma lo_bind {A B} N c d i (x : wpres A) (f : str -> A -> wpres B) : lo N c i x -> (forall j a, fst x = POk j a -> length j <= length i -> lo N d j (f j a)) -> lo N (c + d) i (wbind x f).
Proof.
  intros [H1 H2] F. unfold wbind. destruct (fst x) as [j a|e|e| |] eqn:E; try (split; [cbn [snd]; nia|discriminate]).
  specialize (H2 j a eq_refl). destruct (F j a eq_refl H2) as [F1 F2]. split; [cbn [snd wadd chars]; nia|]. cbn [fst]. intros j' a' G. specialize (F2 j' a' G). lia.
Qed.
Lemma lo_or {A} N c d i (x : wpres A) y : lo N c i x -> lo N d i (y tt) -> lo N (c + d) i (w_or x y).
Proof.
  intros [H1 H2] [G1 G2]. unfold w_or. destruct (fst x) eqn:E; try (split; [nia|]; rewrite E; auto; discriminate).
  split; [cbn [snd wadd chars]; nia|exact G2].
Qed.
Lemma lo_through {A B} N c i (f : pres A -> pres B) (x : wpres A) : lo N c i x ->
  (forall j b, f (fst x) = POk j b -> j = i \/ exists a, fst x = POk j a) -> lo N c i (wthrough f x).
Proof. intros [H1 H2] F. split; [exact H1|]. cbn [wthrough fst]. intros j b E. destruct (F j b E) as [->|[a E']]; [lia|eauto]. Qed.
Lemma lo_alt_error {A} N c i (x : wpres A) : lo N c i x -> lo N c i (w_alt_error i x).
Proof. intros H. apply lo_through; [exact H|]. intros j b. destruct (fst x); try discriminate. intros [= -> ->]. eauto. Qed.

Lemma c_map {A B} c (w : wparser A) (f : A -> B) : loc c w -> loc (c + 0) (w_map w f).
Proof. intros H N i L. apply lo_bind; [now apply H|]. intros j a _ _. apply lo_free. intros ? ? [= -> _]. lia. Qed.
Lemma c_cut {A} c (w : wparser A) : loc c w -> loc c (w_cut w).
Proof. intros H N i L. apply lo_through; [now apply H|]. intros j b. destruct (fst (w i)); try discriminate. intros [= -> ->]. eauto. Qed.
Lemma c_context {A} t c (w : wparser A) : loc c w -> loc c (w_context t w).
Proof. intros H N i L. apply lo_through; [now apply H|]. intros j b. destruct (fst (w i)); try discriminate. intros [= -> ->]. eauto. Qed.
Lemma c_opt {A} c (w : wparser A) : loc c w -> loc c (w_opt w).
Proof. intros H N i L. apply lo_through; [now apply H|]. intros j b. destruct (fst (w i)); try discriminate; intros [= -> _]; eauto. Qed.
Lemma c_preceded {A B} c d (w : wparser A) (v : wparser B) : loc c w -> loc d v -> loc (c + d) (w_preceded w v).
Proof. intros H G N i L. apply lo_bind; [now apply H|]. intros j a _ Lj. apply G. lia. Qed.
Lemma c_terminated {A B} c d (w : wparser A) (v : wparser B) : loc c w -> loc d v -> loc (c + (d + 0)) (w_terminated w v).
Proof. intros H G N i L. apply lo_bind; [now apply H|]. intros j a _ Lj. apply lo_bind; [apply G; lia|]. intros k b _ Lk. apply lo_free. intros ? ? [= -> _]. lia. Qed.
Lemma c_pair {A B C} c d e (w : wparser A) (v : wparser B) (u : wparser C) : loc c w -> loc d v -> loc e u -> loc (c + (d + (e + 0))) (w_separated_pair w v u).
Proof.
  intros H G F N i L. apply lo_bind; [now apply H|]. intros j a _ Lj. apply lo_bind; [apply G; lia|]. intros k b _ Lk. apply lo_bind; [apply F; lia|]. intros l x _ Ll. apply lo_free. intros ? ? [= -> _]. lia.
Qed.
Lemma c_alt2 {A} c d (w v : wparser A) : loc c w -> loc d v -> loc (c + d) (w_alt2 w v).
Proof. intros H G N i L. apply lo_or; [now apply H|]. now apply lo_alt_error, G. Qed.
Lemma c_alt5 {A} a b c d e (w1 w2 w3 w4 w5 : wparser A) : loc a w1 -> loc b w2 -> loc c w3 -> loc d w4 -> loc e w5 -> loc (a + (b + (c + (d + e)))) (w_alt5 w1 w2 w3 w4 w5).
Proof. intros H1 H2 H3 H4 H5 N i L. unfold w_alt5. apply lo_or; [now apply H1|]. apply lo_or; [now apply H2|]. apply lo_or; [now apply H3|]. apply lo_or; [now apply H4|]. now apply lo_alt_error, H5. Qed.
Lemma c_char c : loc 1 (w_char c).
Proof.
  intros N i L. change 1 with (1 + 0). apply lo_looking; [lia|]. apply lo_free. intros j a. unfold pchar. destruct i as [|x r]; [discriminate|]. destruct (N.eqb x c); [|discriminate]. intros [= <- _]. cbn [length]. lia.
Qed.
Lemma c_tag t : loc (length t) (w_tag t).
Proof.
  intros N i L. rewrite <- (Nat.add_0_r (length t)) at 1. apply lo_looking; [nia|]. apply lo_free. intros j a. unfold tag. destruct (starts_with t i); [|discriminate]. intros [= <- _]. rewrite skipn_length. lia.
Qed.
Lemma take_while_split f i : length (fst (take_while f i)) + length (snd (take_while f i)) = length i.
Proof. induction i as [|c i IH]; [reflexivity|]. cbn [take_while]. destruct (f c); [|reflexivity]. destruct (take_while f i). cbn [fst snd length] in *. lia. Qed.
Lemma c_take_while f : loc 1 (w_take_while f).
Proof.
  intros N i L. pose proof (take_while_split f i) as S. change 1 with (1 + 0). apply lo_looking; [unfold taken; lia|]. apply lo_free. intros j a. unfold ptake_while. destruct (take_while f i). intros [= <- _]. cbn [fst snd] in S. lia.
Qed.
Lemma c_take_till f : loc 1 (w_take_till f).
Proof. apply c_take_while. Qed.
Lemma c_take_while1 f : loc 1 (w_take_while1 f).
Proof.
  intros N i L. pose proof (take_while_split f i) as S. change 1 with (1 + 0). apply lo_looking; [unfold taken; lia|]. apply lo_free. intros j a. unfold ptake_while1. destruct (take_while f i) as [[|x t] r]; [discriminate|]. intros [= <- _]. cbn [fst snd] in S. lia.
Qed.
Lemma c_alpha1 : loc 1 w_alpha1.
Proof.
  intros N i L. pose proof (take_while_split is_alpha i) as S. change 1 with (1 + 0). apply lo_looking; [unfold taken; lia|]. apply lo_free. intros j a. unfold alpha1. destruct (take_while is_alpha i) as [[|x t] r]; [discriminate|]. intros [= <- _]. cbn [fst snd] in S. lia.
Qed.
Lemma line_ending_shorter i j x : line_ending i = POk j x -> length j < length i.
Proof.
  intros H. assert (K : i <> [] /\ j = skipn (length x) i /\ x <> []) .
  { revert H. unfold line_ending. destruct i as [|c i]; [discriminate|].
    repeat (match goal with |- match ?y with _ => _ end = _ -> _ => destruct y end); intros H; try discriminate H; injection H as <- <-; (split; [discriminate|split; [reflexivity|discriminate]]). }
  destruct K as (K1 & -> & K2). rewrite skipn_length. destruct i; [now destruct K1|]. destruct x; [now destruct K2|]. cbn [length]. lia.
Qed.
Lemma c_line_ending : loc 2 w_line_ending.
Proof.
  intros N i L. change 2 with (2 + 0). apply lo_looking; [lia|]. apply lo_free. intros j a E. apply line_ending_shorter in E. lia.
Qed.
Lemma c_inline_ws : loc 1 w_inline_whitespace.
Proof. apply c_take_while. Qed.
Lemma c_multi_ws : loc 1 w_multiline_whitespace.
Proof. apply c_take_while. Qed.
Lemma c_ignore_ws {A} c (w : wparser A) : loc c w -> loc (1 + c) (w_ignore_ws w).
Proof. intros H N i L. apply lo_bind; [apply (c_opt 1); [apply c_inline_ws|exact L]|]. intros j a _ Lj. apply H. lia. Qed.
#[export] Hint Resolve c_map c_cut c_context c_opt c_preceded c_terminated c_pair c_alt2 c_alt5 c_char c_tag c_take_while c_take_till c_take_while1 c_alpha1 c_line_ending c_inline_ws c_multi_ws c_ignore_ws : work.
Ltac work := eapply loc_le; [eauto 20 with work|cbn; lia].
Lemma c_valid_name : loc 3 w_valid_name.
Proof.
  intros N i L. unfold w_valid_name. unfold wbind. destruct (c_alt2 1 1 w_alpha1 (w_tag (s "_")) c_alpha1 (c_tag (s "_")) N i L) as [H1 H2].
  destruct (fst (w_alt2 w_alpha1 (w_tag (s "_")) i)); try (split; [cbn [snd]; nia|discriminate]).
  destruct (c_context (s "valid name") 1 _ (c_cut 1 _ (c_take_while1 is_name_char)) N i L) as [G1 G2]. split; [cbn [snd wadd chars]; nia|exact G2].
Qed.
#[export] Hint Resolve c_valid_name : work.
Lemma c_ident b : loc 5 (w_ident b).
Proof. destruct b; unfold w_ident; work. Qed.
Lemma c_field_name : loc 1 w_field_name.
Proof. apply c_take_while. Qed.
#[export] Hint Resolve c_ident c_field_name : work.
Lemma c_unit_value : loc 3 w_unit_value.
Proof. unfold w_unit_value. work. Qed.
Lemma c_boolean : loc 9 w_boolean.
Proof. unfold w_boolean. work. Qed.
Lemma c_num : loc 4 w_num.
Proof.
  unfold w_num. apply c_context. intros N i L. pose proof (take_while_split is_num_char i) as S. unfold taken. destruct (take_while is_num_char i) as [t r]. cbn [fst snd] in *. change 4 with (4 + 0). apply lo_looking; [lia|].
  apply lo_free. intros j a. destruct (num_from_str t); [|discriminate]. intros [= <- _]. lia.
Qed.
Lemma c_parse_str d : loc 3 (w_parse_str d).
Proof. unfold w_parse_str. work. Qed.
Lemma c_string : loc 7 w_string.
Proof.
  intros N i L. unfold w_string. destruct (starts_with (s "str") i).
  - assert (Ls : length (skipn 3 i) <= length i) by (rewrite skipn_length; lia). destruct (c_context (s "string") 3 _ (c_parse_str (hd 34%N (skipn 3 i))) N (skipn 3 i) ltac:(lia)) as [H1 H2].
    split; [cbn [looking snd wadd chars]; nia|]. cbn [looking fst]. intros j a E. specialize (H2 j a E). lia.
  - change 7 with (4 + 3). apply lo_looking; [lia|]. apply c_context; [apply c_parse_str|exact L].
Qed.
Lemma c_barr : loc 7 w_barr.
Proof.
  unfold w_barr. apply c_context. eapply loc_le; [apply c_preceded; [apply c_tag|]; apply c_cut, c_terminated; [|apply c_char]|].
  - intros N i L. apply (lo_bind N 1 1); [now apply c_take_till|]. intros j t E Lj. change 1 with (1 + 0). apply lo_looking; [|apply lo_free; intros ? ? [= -> _]; lia].
    pose proof (take_while_split (fun c => negb (N.eqb 39 c)) i) as S. unfold w_take_till, w_take_while, looking, free, ptake_while in E. cbn [fst] in E. destruct (take_while (fun c => negb (N.eqb 39 c)) i). injection E as _ <-. cbn [fst snd] in S. lia.
  - cbn. lia.
Qed.
#[export] Hint Resolve c_unit_value c_boolean c_num c_string c_barr : work.
Lemma c_prim_value : loc 30 w_prim_value.
Proof. unfold w_prim_value. work. Qed.
#[export] Hint Resolve c_prim_value : work.
(** the id which was read is part of the text *)
Lemma valid_name_length i j a : valid_name i = POk j a -> length a <= length i.
Proof.
  unfold valid_name, pbind. destruct (alt2 alpha1 (tag (s "_")) i); try discriminate. unfold context, cut, ptake_while1. pose proof (take_while_split is_name_char i) as S.
  destruct (take_while is_name_char i) as [[|x t] r]; [discriminate|]. intros [= _ <-]. cbn [fst snd] in S. lia.
Qed.
Lemma ident_length b i j a : ident b i = POk j a -> length a <= length i.
Proof.
  destruct b; unfold ident, context.
  - unfold preceded, pchar, pbind. destruct i as [|c i]; [discriminate|]. destruct (N.eqb c (ch "<")); [|discriminate]. unfold cut, terminated, pbind. destruct (valid_name i) as [k x|e|e| |] eqn:E; try discriminate.
    unfold pchar. destruct k as [|y k]; [discriminate|]. destruct (N.eqb y (ch ">")); [|discriminate]. intros [= _ <-]. apply valid_name_length in E. cbn [length]. lia.
  - destruct (valid_name i) as [k x|e|e| |] eqn:E; try discriminate. intros [= _ <-]. now apply valid_name_length in E.
Qed.
Lemma w_ident_length b i j id : fst (w_opt (w_ident b) i) = POk j (Some id) -> length id <= length i.
Proof. destruct (k_opt0 _ _ (k_ident b) i) as [-> _]. unfold opt. destruct (ident b i) as [k x|e|e| |] eqn:E; try discriminate. intros [= _ <-]. now apply ident_length in E. Qed.
Lemma ctor_same id v i r k : kserd_ctor id v i = POk r k -> r = i.
Proof. unfold kserd_ctor. destruct id as [id|]; [destruct (with_id id v); [discriminate|]|]; now intros [= -> _]. Qed.
Lemma lo_ctor N id v i : match id with Some id => length id <= N | None => True end -> lo N 1 i (w_ctor id v i).
Proof.
  intros L. unfold w_ctor. change 1 with (1 + 0). apply lo_looking; [destruct id; lia|]. apply lo_free. intros j a E. apply ctor_same in E. subst. lia.
Qed.
Lemma c_prim : loc 37 w_prim.
Proof.
  intros N i L. unfold w_prim. change 37 with (36 + 1). apply lo_bind.
  - apply (loc_le (5 + (1 + (30 + 0)))); [|lia|exact L]. auto with work.
  - intros j [id v] E Lj. apply lo_ctor. unfold w_context, wthrough in E. cbn [fst] in E.
    destruct (fst (w_separated_pair (w_opt (w_ident true)) w_inline_whitespace w_prim_value i)) as [k x|e|e| |] eqn:F; try discriminate. injection E as -> ->. unfold w_separated_pair, wbind in F.
    destruct (fst (w_opt (w_ident true) i)) as [i1 o|e|e| |] eqn:F1; try discriminate. cbn [fst] in F. destruct (fst (w_inline_whitespace i1)) as [i2 y|e|e| |]; try discriminate. cbn [fst] in F.
    destruct (fst (w_prim_value i2)) as [i3 z|e|e| |]; try discriminate. injection F as _ -> _. destruct id as [id|]; [|exact I]. apply w_ident_length in F1. lia.
Qed.
Lemma c_assign : loc 2 w_recognise_field_assign.
Proof. unfold w_recognise_field_assign. work. Qed.
Lemma lo_shorter {A} N c i j (x : wpres A) : length j <= length i -> lo N c j x -> lo N c i x.
Proof. intros L [H1 H2]. split; [exact H1|]. intros k a E. specialize (H2 k a E). lia. Qed.
Lemma c_delimited_pattern : loc 27 w_pattern_match_delimited.
Proof.
  intros N orig L. unfold w_pattern_match_delimited. change 27 with (10 + 17). apply lo_looking; [lia|]. destruct (starts_with (s "true") orig || starts_with (s "false") orig).
  { apply (lo_le N 0); [lia|]. apply lo_free. intros ? ? [= -> _]. lia. }
  assert (G : forall (A : Type) c (x : wpres A) (f : str -> A -> wpres nonprim), (forall j a, fst x = POk j a -> length j <= length orig) -> chars (snd x) <= c * S N -> forall d,
     (forall j a, length j <= length orig -> chars (snd (f j a)) <= d * S N) -> chars (snd (wbind x f)) <= (c + d) * S N).
  { intros A c x f H1 H2 d F. unfold wbind. destruct (fst x) as [j a|e|e| |]; cbn [snd wadd chars]; try nia. specialize (F j a (H1 j a eq_refl)). nia. }
  split.
  - change 17 with (5 + 12). destruct (c_opt 5 _ (c_ident true) N orig L) as [A1 A2]. apply G; auto. intros i id Li.
    change 12 with (5 + 7).
    match goal with |- chars (snd (wbind ?x _)) <= _ => assert (B : lo N 5 orig x) end.
    { destruct id; [apply (lo_le N 0); [lia|]; apply lo_free; intros ? ? [= -> _]; lia|]. change 5 with (5 + 0). apply lo_bind; [apply c_opt; [apply c_ident|exact L]|].
      intros j [o|] E Lj; (split; [cbn [free snd nothing chars]; lia|]); cbn [free fst]; intros ? ? [= <- _]; [lia|]. revert E. destruct (k_opt0 _ _ (k_ident false) orig) as [-> _]. unfold opt.
      destruct (ident false orig); try discriminate; intros [= <-]; lia. }
    destruct B as [B1 B2]. apply G; auto. intros j k Lj. change 7 with (1 + 6). destruct (c_multi_ws N j ltac:(lia)) as [C1 C2]. apply G; [|exact C1|]. { intros ? ? E. specialize (C2 _ _ E). lia. }
    intros l x Ll. cbv zeta. change 6 with (6 + 0). apply G.
    + intros l' a'. destruct (N.eqb (hd 32%N l) (ch "[")); [intros [= <- _]; lia|]. destruct (N.eqb (hd 32%N l) (ch "{")); [intros [= <- _]; lia|]. destruct (N.eqb (hd 32%N l) (ch "(")); [|intros [= <- _]; lia].
      destruct (match k with IkNonprim => false | _ => is_ok (fst (w_unit_value l)) end); [intros [= <- _]; lia|]. unfold wbind. cbn [fst snd]. destruct (fst (w_multiline_whitespace (tl l))); cbn [fst]; try discriminate.
      match goal with |- context [is_ok ?z] => destruct (is_ok z) end; cbn [fst]; intros [= <- _]; lia.
    + assert (Z : forall r : nonprim, chars (snd (free (POk l r))) <= 6 * S N) by (intros; cbn [free snd nothing chars]; lia).
      destruct (N.eqb (hd 32%N l) (ch "[")); [apply Z|]. destruct (N.eqb (hd 32%N l) (ch "{")); [apply Z|]. destruct (N.eqb (hd 32%N l) (ch "(")); [|apply Z].
      destruct (c_unit_value N l ltac:(lia)) as [U1 _]. destruct (match k with IkNonprim => false | _ => is_ok (fst (w_unit_value l)) end); [cbn [snd]; lia|].
      change 6 with (3 + 3). apply G; [cbn [fst]; intros ? ? [= -> _]; lia|cbn [snd]; lia|]. intros j' _ Lj'. change 3 with (1 + 2). assert (Lt : length (tl l) <= length orig) by (destruct l; cbn [tl length] in *; lia).
      destruct (c_multi_ws N (tl l) ltac:(lia)) as [D1 D2]. apply G; [|exact D1|]. { intros ? ? E. specialize (D2 _ _ E). lia. }
      intros z y Lz. destruct (c_assign N z ltac:(lia)) as [E1 _]. destruct (is_ok (fst (w_recognise_field_assign z))); exact E1.
    + intros. cbn [free snd nothing chars]. lia.
  - (* the text is handed back *)
    assert (H : forall (A : Type) (x : wpres A) (f : str -> A -> wpres nonprim), (forall j a k b, fst (f j a) = POk k b -> k = orig) -> forall k b, fst (wbind x f) = POk k b -> k = orig).
    { intros A x f F k b. unfold wbind. destruct (fst x) as [j a|e|e| |]; cbn [fst]; try discriminate. apply F. }
    intros k b E. apply H in E; [rewrite E; lia|]. clear k b E. intros j a k b. apply H. clear k b. intros j2 a2 k b. apply H. clear k b. intros j3 a3 k b. cbv zeta. apply H. intros j4 a4 k4 b4 [= <- _]. reflexivity.
Qed.
Lemma c_encased b e : loc (length b + (1 + 3 + (1 + length e))) (w_encased b e).
Proof. unfold w_encased. work. Qed.
Lemma c_verbose_pattern : loc 13 w_pattern_match_verbose.
Proof.
  intros N orig L. unfold w_pattern_match_verbose. destruct (c_multi_ws N orig L) as [H1 H2]. unfold wbind. destruct (fst (w_multiline_whitespace orig)) as [i x|e|e| |] eqn:E; try (split; [cbn [snd]; nia|discriminate]).
  specialize (H2 i x eq_refl). destruct (c_assign N i ltac:(lia)) as [A1 _], (c_encased (s "[") (s "]") N i ltac:(lia)) as [E1 _]. change (length (s "[") + (1 + 3 + (1 + length (s "]")))) with 7 in E1. split; [cbn [looking snd wadd chars]; nia|].
  cbn [looking fst]. intros ? ? [= -> _]. lia.
Qed.
