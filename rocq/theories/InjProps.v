(** Proofs: the text determines the value. *)
From Verif Require Import Base F64 Number NumberSpec BTree Value BaseProps BTreeProps ValueSpec ValueProps ValueProps2 Nom Parse ParseErr Grammar Nav NavSpec Fmt Formatter FmtText FmtSpec FmtProps FmtProps2 FormatterProps FormatterProps2 FormatterProps3 FormatterProps4 RtSpec RtProps2 RtProps3 RtProps4 RtProps5 RtProps6 RtProps7 VSpec VRtProps4 VRtProps5 TextSpec Encode EncodeSpec EncodeProps9 VRtProps2 VRtProps3 InjSpec.
Open Scope N_scope.

Lemma same_one a k1 k2 : same a k1 -> same a k2 -> k_eqb k1 k2 = true.
Proof.
  intros (A & B & C) (_ & D & E). apply good_key_eqb; try assumption.
  assert (X : k_cmp k1 a = Eq) by (rewrite k_cmp_anti, C; reflexivity). now rewrite (law_eq _ _ good_key_lawful _ _ _ B A D X).
Qed.
Theorem text_one k1 fm1 k2 fm2 t : written k1 fm1 t -> written k2 fm2 t -> k_eqb k1 k2 = true.
Proof.
  intros (R1 & K1 & S1 & F1 & W1) (R2 & K2 & S2 & F2 & W2). destruct (any_parses k1 fm1 R1 K1 S1) as (t1 & E1 & P1). destruct (any_parses k2 fm2 R2 K2 S2) as (t2 & E2 & P2).
  rewrite each_all in F1, F2. assert (t1 = t) by congruence. assert (t2 = t) by congruence. subst t1 t2. rewrite P1 in P2. injection P2 as P2.
  pose proof (vnorm_same (shown k1 fm1) F1) as X1. pose proof (vnorm_same (shown k2 fm2) F2) as X2. rewrite shown_undeco in X1, X2.
  change (deco (fm_fmts fm2) 0 k2) with (shown k2 fm2) in P2. change (deco (fm_fmts fm1) 0 k1) with (shown k1 fm1) in P2. rewrite <- P2 in X2. exact (same_one _ _ _ (X1 K1) (X2 K2)).
Qed.
Theorem text_same k1 fm1 k2 fm2 t : written k1 fm1 t -> each vliteral_node (deco (fm_fmts fm1) 0 k1) = true -> written k2 fm2 t -> each vliteral_node (deco (fm_fmts fm2) 0 k2) = true -> k1 = k2.
Proof.
  intros (R1 & K1 & S1 & F1 & W1) V1 (R2 & K2 & S2 & F2 & W2) V2. destruct (any_literal k1 fm1 R1 K1 S1 F1 V1) as (t1 & E1 & P1). destruct (any_literal k2 fm2 R2 K2 S2 F2 V2) as (t2 & E2 & P2). congruence.
Qed.
Theorem as_str_one k1 cfg1 k2 cfg2 t : plain_enough k1 cfg1 -> plain_enough k2 cfg2 ->
  as_str_with_config k1 cfg1 = LRet t -> as_str_with_config k2 cfg2 = LRet t -> k_eqb k1 k2 = true.
Proof.
  intros (S1 & V1 & K1 & C1 & T1) (S2 & V2 & K2 & C2 & T2) W1 W2.
  destruct (as_str_any_same k1 cfg1 S1 V1 K1 C1 T1) as (t1 & a & E1 & P1 & X1). destruct (as_str_any_same k2 cfg2 S2 V2 K2 C2 T2) as (t2 & b & E2 & P2 & X2).
  assert (t1 = t) by congruence. assert (t2 = t) by congruence. subst t1 t2. rewrite P1 in P2. injection P2 as <-. exact (same_one _ _ _ X1 X2).
Qed.
Theorem data_one E t d1 d2 k1 k2 fm1 fm2 text : good_decls E ->
  has_type E t d1 = true -> f32s_kept d1 -> EncodeSpec.apart E t d1 -> enc E t d1 = inr k1 ->
  reachable k1 fm1 -> vsafe true 0 (deco (fm_fmts fm1) 0 k1) = true -> each kept_node (deco (fm_fmts fm1) 0 k1) = true -> fm_write fm1 [] = LRet text ->
  has_type E t d2 = true -> f32s_kept d2 -> EncodeSpec.apart E t d2 -> enc E t d2 = inr k2 ->
  reachable k2 fm2 -> vsafe true 0 (deco (fm_fmts fm2) 0 k2) = true -> each kept_node (deco (fm_fmts fm2) 0 k2) = true -> fm_write fm2 [] = LRet text ->
  d1 = d2.
Proof.
  intros W T1 F1 A1 E1 R1 S1 K1 W1 T2 F2 A2 E2 R2 S2 K2 W2.
  destruct (text_layouts E W t d1 k1 fm1 T1 F1 A1 E1 R1 S1 K1) as (t1 & a & X1 & P1 & D1). destruct (text_layouts E W t d2 k2 fm2 T2 F2 A2 E2 R2 S2 K2) as (t2 & b & X2 & P2 & D2). congruence.
Qed.
