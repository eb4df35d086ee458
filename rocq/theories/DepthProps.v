(** A limit on the recursion of the parser: either it is not reached and nothing changes, or the text is nested at least as deeply. *)
From Verif Require Import Base BaseProps F64 Number BTree Value ValueSpec Nom Parse ParseErr ParseSpec ParseProps ParseDepth DepthSpec.
Open Scope nat_scope.

Lemma opens_app a b : opens (a ++ b) = opens a + opens b.
Proof. unfold opens. now rewrite filter_app, app_length. Qed.
Lemma opens_suffix j i : suffix j i -> opens j <= opens i.
Proof. intros [p ->]. rewrite opens_app. lia. Qed.
Lemma opens_length i : opens i <= length i.
Proof. unfold opens. induction i as [|c i IH]; cbn [filter length]; [lia|]. destruct (_ || _)%bool; cbn [length]; lia. Qed.

(** the same outcome, or the limit is reached and [i] has at least [n] opening delimiters *)
Definition rel {A} (n : nat) (i : str) (x y : pres A) : Prop := x = y \/ (x = PFuel /\ n <= opens i).
Definition ag {A} (N n : nat) (p q : parser A) : Prop := forall i, length i < N -> rel n i (p i) (q i).

Lemma rel_refl {A} n i (x : pres A) : rel n i x x. Proof. now left. Qed.
Lemma rel_mono {A} n i j (x y : pres A) : opens j <= opens i -> rel n j x y -> rel n i x y.
Proof. intros L [->|[-> H]]; [now left|right; split; [reflexivity|lia]]. Qed.
Lemma rel_less {A} n m i (x y : pres A) : m <= n -> rel n i x y -> rel m i x y.
Proof. intros L [->|[-> H]]; [now left|right; split; [reflexivity|lia]]. Qed.
Lemma rel_bind {A B} n (Q : A -> Prop) i (x y : pres A) (f g : str -> A -> pres B) :
  rel n i x y -> sp Q i y -> (forall j a, y = POk j a -> length j <= length i -> rel n j (f j a) (g j a)) -> rel n i (pbind x f) (pbind y g).
Proof.
  intros [->|[-> H]] S K; [|right; now split]. destruct y as [j a|e|e| |]; cbn [pbind]; try now left.
  destruct S as [S _]. eapply rel_mono; [apply (opens_suffix _ _ S)|]. apply K; [reflexivity|now apply suffix_len].
Qed.
Lemma rel_same {A B} n (Q : A -> Prop) i (y : pres A) (f g : str -> A -> pres B) :
  sp Q i y -> (forall j a, y = POk j a -> length j <= length i -> rel n j (f j a) (g j a)) -> rel n i (pbind y f) (pbind y g).
Proof. apply rel_bind. now left. Qed.

Section Comb.
  Variables N n : nat.
  Lemma ag_refl {A} (p : parser A) : ag N n p p. Proof. intros i _. now left. Qed.
  Lemma ag_cut {A} (p q : parser A) : ag N n p q -> ag N n (cut p) (cut q).
  Proof. intros H i L. unfold cut. destruct (H i L) as [->|[-> ?]]; [now left|now right]. Qed.
  Lemma ag_uncut {A} (p q : parser A) : ag N n p q -> ag N n (uncut p) (uncut q).
  Proof. intros H i L. unfold uncut. destruct (H i L) as [->|[-> ?]]; [now left|now right]. Qed.
  Lemma ag_context {A} t (p q : parser A) : ag N n p q -> ag N n (context t p) (context t q).
  Proof. intros H i L. unfold context. destruct (H i L) as [->|[-> ?]]; [now left|now right]. Qed.
  Lemma ag_opt {A} (p q : parser A) : ag N n p q -> ag N n (opt p) (opt q).
  Proof. intros H i L. unfold opt. destruct (H i L) as [->|[-> ?]]; [now left|now right]. Qed.
  Lemma ag_alt2 {A} (p q p' q' : parser A) : ag N n p q -> ag N n p' q' -> ag N n (alt2 p p') (alt2 q q').
  Proof.
    intros H K i L. unfold alt2. destruct (H i L) as [->|[-> ?]]; [|now right]. destruct (q i); try now left.
    destruct (K i L) as [->|[-> ?]]; [now left|now right].
  Qed.
  Lemma ag_preceded {A B} (Q : A -> Prop) (h : parser A) (p q : parser B) : okl N Q h -> ag N n p q -> ag N n (preceded h p) (preceded h q).
  Proof. intros O H i L. unfold preceded. eapply rel_same; [now apply O|]. intros j a E Lj. apply H. lia. Qed.
  Lemma ag_terminated {A B} (Q : A -> Prop) (p q : parser A) (h : parser B) : okl N Q q -> ag N n p q -> ag N n (terminated p h) (terminated q h).
  Proof. intros O H i L. unfold terminated. eapply rel_bind; [now apply H|now apply O|]. intros. now left. Qed.
  Lemma ag_ignore_ws {A} (p q : parser A) : ag N n p q -> ag N n (ignore_ws p) (ignore_ws q).
  Proof. intros H. unfold ignore_ws. eapply ag_preceded; [|exact H]. eapply okl_opt, okl_inline_ws. Qed.
  Lemma ag_pair {A B C} (P : A -> Prop) (Q : B -> Prop) (p p' : parser A) (h : parser B) (q q' : parser C) :
    okl N P p' -> okl N Q h -> ag N n p p' -> ag N n q q' -> ag N n (separated_pair p h q) (separated_pair p' h q').
  Proof.
    intros O O' H K i L. unfold separated_pair. eapply rel_bind; [now apply H|now apply O|]. intros j a _ Lj.
    eapply rel_same; [apply O'; lia|]. intros l b _ Ll. destruct (K l ltac:(lia)) as [->|[-> ?]]; [now left|now right].
  Qed.
  Lemma ag_sep_loop {A B} (P : B -> Prop) (Q : A -> Prop) (h : parser B) (p q : parser A) : okl N P h -> okl N Q q -> ag N n p q ->
    forall fuel acc i, length i < N -> rel n i (sep_loop fuel h p acc i) (sep_loop fuel h q acc i).
  Proof.
    intros O O' H. induction fuel as [|fuel IH]; intros acc i L; cbn [sep_loop]; [now left|].
    pose proof (O i L) as S1. destruct (h i) as [j b|e|e| |]; try now left. destruct S1 as [S1 _]. pose proof (suffix_len _ _ S1) as L1.
    destruct (Nat.eqb _ _); [now left|]. pose proof (O' j ltac:(lia)) as S2. eapply rel_mono; [apply (opens_suffix _ _ S1)|].
    destruct (H j ltac:(lia)) as [->|[-> ?]]; [|now right]. destruct (q j) as [l a|e|e| |]; try now left. destruct S2 as [S2 _].
    pose proof (suffix_len _ _ S2). eapply rel_mono; [apply (opens_suffix _ _ S2)|]. apply IH. lia.
  Qed.
  Lemma ag_sep {A B} (P : B -> Prop) (Q : A -> Prop) (h : parser B) (p q : parser A) : okl N P h -> okl N Q q -> ag N n p q ->
    ag N n (separated_list0 h p) (separated_list0 h q).
  Proof.
    intros O O' H i L. unfold separated_list0. pose proof (O' i L) as S1. destruct (H i L) as [->|[-> ?]]; [|now right].
    destruct (q i) as [l a|e|e| |]; try now left. destruct S1 as [S1 _]. pose proof (suffix_len _ _ S1).
    eapply rel_mono; [apply (opens_suffix _ _ S1)|]. eapply ag_sep_loop; eauto. lia.
  Qed.
  Lemma ag_many0_loop {A} (Q : A -> Prop) (p q : parser A) : okl N Q q -> ag N n p q ->
    forall fuel acc i, length i < N -> rel n i (many0_loop fuel p acc i) (many0_loop fuel q acc i).
  Proof.
    intros O H. induction fuel as [|fuel IH]; intros acc i L; cbn [many0_loop]; [now left|].
    pose proof (O i L) as S1. destruct (H i L) as [->|[-> ?]]; [|now right]. destruct (q i) as [j b|e|e| |]; try now left. destruct S1 as [S1 _].
    pose proof (suffix_len _ _ S1) as L1. destruct (Nat.eqb _ _); [now left|]. eapply rel_mono; [apply (opens_suffix _ _ S1)|]. apply IH. lia.
  Qed.
  Lemma ag_many0 {A} (Q : A -> Prop) (p q : parser A) : okl N Q q -> ag N n p q -> ag N n (many0 p) (many0 q).
  Proof. intros O H i L. unfold many0. now apply (ag_many0_loop Q). Qed.
End Comb.

Section Delim.
  Variables N n : nat.
  Variables inl con inl' con' : parser kserd.
  Hypothesis Oi : okl N wfk inl'.
  Hypothesis Oc : okl N wfk con'.
  Hypothesis Ai : ag N n inl inl'.
  Hypothesis Ac : ag N n con con'.

  Lemma ag_inline_list : ag N n (inline_list_kserds inl) (inline_list_kserds inl').
  Proof. unfold inline_list_kserds. apply ag_context. eapply ag_sep; [eapply okl_ignore_ws, okl_pchar|apply okl_ignore_ws; exact Oi|now apply ag_ignore_ws]. Qed.
  Lemma ag_concise_list : ag N n (concise_list_kserds con) (concise_list_kserds con').
  Proof.
    unfold concise_list_kserds. eapply ag_preceded; [apply okl_multi_ws|]. apply ag_cut.
    eapply ag_terminated; [eapply okl_sep; [apply okl_multi_ws|exact Oc]|]. eapply ag_sep; [apply okl_multi_ws|exact Oc|exact Ac].
  Qed.
  Lemma ag_kvp_field b : ag N n (kvp_field inl con b) (kvp_field inl' con' b).
  Proof.
    unfold kvp_field. apply ag_context. eapply ag_pair; [apply okl_field_name|eapply okl_ignore_ws, okl_pchar|apply ag_refl|].
    apply ag_ignore_ws, ag_cut. now destruct b.
  Qed.
  Lemma ag_inline_cntr : ag N n (inline_cntr_kserds inl con) (inline_cntr_kserds inl' con').
  Proof.
    unfold inline_cntr_kserds. apply ag_context. eapply ag_sep; [eapply okl_ignore_ws, okl_pchar|apply okl_ignore_ws, okl_kvp_field; [exact Oi|exact Oc]|].
    apply ag_ignore_ws, ag_kvp_field.
  Qed.
  Lemma ag_concise_cntr : ag N n (concise_cntr_kserds inl con) (concise_cntr_kserds inl' con').
  Proof.
    unfold concise_cntr_kserds. apply ag_context. eapply ag_preceded; [apply okl_multi_ws|]. apply ag_cut.
    assert (O : okl N wff (kvp_field inl' con' false)) by (apply okl_kvp_field; [exact Oi|exact Oc]).
    eapply ag_terminated; [eapply okl_sep; [apply okl_multi_ws|exact O]|]. eapply ag_sep; [apply okl_multi_ws|exact O|apply ag_kvp_field].
  Qed.
  Lemma ag_kvp_kserd b : ag N n (kvp_kserd inl con b) (kvp_kserd inl' con' b).
  Proof.
    unfold kvp_kserd. apply ag_context. eapply ag_pair; [apply okl_alt2; [exact Oc|exact Oi]|eapply okl_ignore_ws, okl_pchar|now apply ag_alt2|].
    apply ag_ignore_ws. now destruct b.
  Qed.
  Lemma ag_inline_map : ag N n (inline_map_kserds inl con) (inline_map_kserds inl' con').
  Proof.
    unfold inline_map_kserds. apply ag_context. eapply ag_sep; [eapply okl_ignore_ws, okl_pchar|apply okl_ignore_ws, okl_kvp_kserd; [exact Oi|exact Oc]|].
    apply ag_ignore_ws, ag_kvp_kserd.
  Qed.
  Lemma ag_concise_map : ag N n (concise_map_kserds inl con) (concise_map_kserds inl' con').
  Proof.
    unfold concise_map_kserds. apply ag_context. eapply ag_preceded; [apply okl_multi_ws|].
    assert (O : okl N wfe (kvp_kserd inl' con' false)) by (apply okl_kvp_kserd; [exact Oi|exact Oc]).
    eapply ag_terminated; [eapply okl_sep; [apply okl_multi_ws|exact O]|]. eapply ag_sep; [apply okl_multi_ws|exact O|apply ag_kvp_kserd].
  Qed.

  Lemma pchar_opens o i j a : (o = ch "(" \/ o = ch "[" \/ o = ch "{")%N -> ignore_ws (pchar o) i = POk j a -> S (opens j) <= opens i.
  Proof.
    intros D E. unfold ignore_ws, preceded in E. pose proof (okl_opt (S (length i)) _ _ (okl_inline_ws _) i ltac:(lia)) as S1.
    destruct (opt inline_whitespace i) as [l w|e|e| |]; cbn [pbind] in E; try discriminate. destruct S1 as [S1 _]. apply opens_suffix in S1.
    unfold pchar in E. destruct l as [|x r]; [discriminate|]. destruct (N.eqb_spec x o) as [->|]; [|discriminate]. injection E as -> _.
    change (o :: j) with ([o] ++ j) in S1. rewrite opens_app in S1. destruct D as [->|[->| ->]]; exact S1.
  Qed.
  Lemma rel_bracketed {A} (P : A -> Prop) (mk : A -> value kserd) o (body body' : str -> parser A) i :
    (o = ch "(" \/ o = ch "[" \/ o = ch "{")%N -> length i < S N ->
    (forall t, okl N P (body' t)) -> (forall t, ag N n (body t) (body' t)) ->
    rel (S n) i
      (let? (i, id) := opt (ident false) i in
       let? (i, _) := ignore_ws (pchar o) i in
       let? (i, l) := body i i in
       kserd_ctor id (mk l) i)
      (let? (i, id) := opt (ident false) i in
       let? (i, _) := ignore_ws (pchar o) i in
       let? (i, l) := body' i i in
       kserd_ctor id (mk l) i).
  Proof.
    intros D L O H. eapply rel_same; [apply (okl_opt (S N)); [apply okl_ident|exact L]|]. intros i1 id _ L1.
    destruct (ignore_ws (pchar o) i1) as [i2 c|e|e| |] eqn:E2; cbn [pbind]; try now left.
    pose proof (pchar_opens _ _ _ _ D E2) as B. apply blank_pchar_lt in E2.
    assert (R : rel n i2 (let? (i, l) := body i2 i2 in kserd_ctor id (mk l) i) (let? (i, l) := body' i2 i2 in kserd_ctor id (mk l) i)).
    { eapply rel_bind; [apply H; lia|apply O; lia|]. intros. now left. }
    destruct R as [->|[-> R]]; [now left|right; split; [reflexivity|lia]].
  Qed.

  Lemma ag_body b : forall i, length i < S N -> rel (S n) i (delimited_body inl con b i) (delimited_body inl' con' b i).
  Proof.
    intros i L. unfold delimited_body. pose proof (pattern_spec (S N) i L) as P.
    destruct (pattern_match_delimited i) as [r p|e|e| |]; cbn [pbind]; try now left. subst r. destruct p; [| | | |now left].
    - unfold tuple. cbv zeta. apply (rel_bracketed (Forall wfk) VTuple _ (fun i => context _ (cut (terminated _ _))) (fun i => context _ (cut (terminated _ _)))); [now left|exact L| |].
      + intros t. eapply okl_context, okl_cut, okl_terminated; [|eauto with okl].
        destruct (recognise_concise t && negb b); [apply okl_concise_list|apply okl_inline_list]; assumption.
      + intros t. apply ag_context, ag_cut. eapply ag_terminated.
        * destruct (recognise_concise t && negb b); [apply okl_concise_list|apply okl_inline_list]; assumption.
        * destruct (recognise_concise t && negb b); [apply ag_concise_list|apply ag_inline_list].
    - unfold cntr_delimited. cbv zeta. apply (rel_bracketed (Forall wff) (fun l => VCntr (fields_of l)) _ (fun i => context _ (terminated _ _)) (fun i => context _ (terminated _ _))); [now left|exact L| |].
      + intros t. eapply okl_context, okl_terminated; [|eauto with okl].
        destruct (recognise_concise t && negb b); [apply okl_concise_cntr|apply okl_inline_cntr]; assumption.
      + intros t. apply ag_context. eapply ag_terminated.
        * destruct (recognise_concise t && negb b); [apply okl_concise_cntr|apply okl_inline_cntr]; assumption.
        * destruct (recognise_concise t && negb b); [apply ag_concise_cntr|apply ag_inline_cntr].
    - unfold seq_delimited. cbv zeta. apply (rel_bracketed (Forall wfk) VSeq _ (fun i => context _ (cut (terminated _ _))) (fun i => context _ (cut (terminated _ _)))); [right; now left|exact L| |].
      + intros t. eapply okl_context, okl_cut, okl_terminated; [|eauto with okl].
        destruct (recognise_concise t && negb b); [apply okl_concise_list|apply okl_inline_list]; assumption.
      + intros t. apply ag_context, ag_cut. eapply ag_terminated.
        * destruct (recognise_concise t && negb b); [apply okl_concise_list|apply okl_inline_list]; assumption.
        * destruct (recognise_concise t && negb b); [apply ag_concise_list|apply ag_inline_list].
    - unfold map_delimited. cbv zeta. apply (rel_bracketed (Forall wfe) (fun l => VMap (map_of l)) _ (fun i => context _ (terminated _ _)) (fun i => context _ (terminated _ _))); [right; now right|exact L| |].
      + intros t. eapply okl_context, okl_terminated; [|eauto with okl].
        destruct (recognise_concise t && negb b); [apply okl_concise_map|apply okl_inline_map]; assumption.
      + intros t. apply ag_context. eapply ag_terminated.
        * destruct (recognise_concise t && negb b); [apply okl_concise_map|apply okl_inline_map]; assumption.
        * destruct (recognise_concise t && negb b); [apply ag_concise_map|apply ag_inline_map].
  Qed.
End Delim.

Lemma ag_delimited n : forall F b, n <= F -> ag F n (kserd_delimited n b) (kserd_delimited F b).
Proof.
  induction n as [|n IH]; intros F b L i Li; [right; split; [reflexivity|lia]|]. destruct F as [|F]; [lia|]. cbn [kserd_delimited].
  apply (ag_body F n); try apply okl_delimited; try exact Li; apply IH; lia.
Qed.
(** the same when the text is what limits the recursion of the larger parser *)
Lemma ag_delimited' n F b : ag F n (kserd_delimited n b) (kserd_delimited F b).
Proof.
  destruct (Nat.le_gt_cases n F) as [L|L]; [now apply ag_delimited|]. intros i Li.
  destruct (ag_delimited F n b ltac:(lia) i ltac:(lia)) as [->|[E _]]; [now left|]. exfalso.
  pose proof (okl_delimited F b i Li) as X. now rewrite E in X.
Qed.
