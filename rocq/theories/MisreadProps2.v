(** What is written is not taken for another value: heads and primitives. *)
From Verif Require Import Base F64 Number BTree Value BaseProps NumberProps3 Base91 Base91Props Nom Parse ParseProps Grammar VGrammar GrammarProps Format FormatProps Syntax SyntaxProps SyntaxProps2 Nav Fmt FmtText FmtSpec FmtProps FmtProps2 RtProps RtSpec RtProps2 RtProps3 RtProps4 MisreadSpec MisreadProps.
Open Scope N_scope.

(** ** what stands behind an opening bracket *)
Definition close (c : char) : char := if c =? ch "(" then ch ")" else if c =? ch "[" then ch "]" else ch "}".
Inductive inside (m : bool) : char -> option str -> str -> str -> value kserd -> Prop :=
| In_unit t r : blanks t -> inside m (ch "(") None t r VUnit
| In_seq id t r l : inline_at (value_at true) t (ch "]" :: r) l -> inside m (ch "[") id t r (VSeq l)
| In_tuple id t r l : inline_at (value_at true) t (ch ")" :: r) l -> (id = None -> l <> []) -> assigns (trim t ++ s ")") = false -> inside m (ch "(") id t r (VTuple l)
| In_cntr id t r l : inline_at (field_at (value_at true)) t (ch ")" :: r) l -> assigns (trim t ++ s ")") = true -> inside m (ch "(") id t r (VCntr (fields_of l))
| In_map id t r l : inline_at (entry_at (value_at false) (value_at true)) t (ch "}" :: r) l -> inside m (ch "{") id t r (VMap (map_of l))
| In_seq_lines id t r l : m = false -> concise_at (value_at false) t (ch "]" :: r) l -> inside m (ch "[") id t r (VSeq l)
| In_tuple_lines id t r l : m = false -> concise_at (value_at false) t (ch ")" :: r) l -> assigns (trim t ++ s ")") = false -> inside m (ch "(") id t r (VTuple l)
| In_cntr_lines id t r l : m = false -> concise_at (field_at (value_at false)) t (ch ")" :: r) l -> assigns (trim t ++ s ")") = true -> inside m (ch "(") id t r (VCntr (fields_of l))
| In_map_lines id t r l : m = false -> concise_at (entry_at (value_at false) (value_at false)) t (ch "}" :: r) l -> inside m (ch "{") id t r (VMap (map_of l)).

Lemma plain_name i : is_id_plain i = true -> forallb name_char i = true /\ i <> [].
Proof. intros H. unfold is_id_plain in H. apply andb_true_iff in H as [H _]. apply andb_true_iff in H as [H _]. now apply id_name. Qed.
Lemma opener_stops c X : opener c = true -> stops space (c :: X).
Proof. intros H. now apply opener_space. Qed.
Lemma head_eq id w c X id' w' c' X' : head_ok id w -> head_ok id' w' -> opener c = true -> opener c' = true ->
  head id w ++ c :: X = head id' w' ++ c' :: X' -> id = id' /\ head id w = head id' w' /\ c = c' /\ X = X'.
Proof.
  intros [B H] [B' H'] O O' E. destruct id as [i|], id' as [i'|]; cbn [head app] in *.
  - apply plain_name in H as [H _]. apply plain_name in H' as [H' _]. rewrite <- !app_assoc in E.
    apply span_eq with (f := name_char) in E as [-> E]; auto using blanks_stop_name, opener_name.
    apply blank_eq in E as [-> E]; auto using opener_stops. injection E as -> ->. auto.
  - exfalso. apply plain_name in H as [H N]. destruct i as [|x i]; [congruence|]. injection E as -> _. cbn [forallb] in H. rewrite opener_name in H by assumption. discriminate.
  - exfalso. apply plain_name in H' as [H1 N]. destruct i' as [|x i]; [congruence|]. injection E as -> _. cbn [forallb] in H1. rewrite opener_name in H1 by assumption. discriminate.
  - injection E as -> ->. auto.
Qed.
Lemma head_angle id w c X Y : head_ok id w -> opener c = true -> ch "<" :: Y = head id w ++ c :: X -> False.
Proof.
  intros [_ H] O E. destruct id as [i|]; cbn [head app] in E.
  - apply plain_name in H as [H N]. destruct i as [|x i]; [congruence|]. injection E as <- _. discriminate.
  - injection E as <- _. discriminate.
Qed.
Lemma value_head m t' r' k id w c X : value_at m t' r' k -> head_ok id w -> opener c = true -> t' ++ r' = head id w ++ c :: X ->
  exists t v, t' = head id w ++ c :: t ++ [close c] /\ X = t ++ close c :: r' /\ k = Kserd id v /\ inside m c id t r' v.
Proof.
  intros H HO O E.
  assert (G : forall id0 w0 c0 t0 X0, head_ok id0 w0 -> opener c0 = true -> (head id0 w0 ++ c0 :: t0 ++ [close c0]) ++ r' = head id w ++ c :: X ->
    X0 = t0 ++ close c0 :: r' -> id0 = id /\ head id0 w0 = head id w /\ c0 = c /\ X = X0).
  { intros id0 w0 c0 t0 X0 H0 O0 E0 ->. rewrite <- app_assoc in E0. cbn [app] in E0. apply head_eq in E0 as (-> & E1 & -> & <-); auto. repeat split; auto. now rewrite <- app_assoc. }
  destruct H as [m i w0 t v r I B T ET|m t v r T ET D|m i w0 t l r H0 HL|m i w0 t l r H0 HL NU NA|m i w0 t l r H0 HL NE|m i w0 t l r H0 HL
                |i w0 t l r H0 HL|i w0 t l r H0 HL NA|i w0 t l r H0 HL NE|i w0 t l r H0 HL].
  - exfalso. eapply head_angle; [exact HO|exact O|exact E].
  - pose proof (pattern_token t v r T D) as P. rewrite E, pattern_head in P by assumption. injection P as P.
    assert (c = ch "(" /\ id = None) as [-> ->].
    { apply opener_cases in O as [->|[->| ->]]; try discriminate P. destruct id as [i|]; [|auto]. exfalso. change (ch "(" =? ch "[") with false in P. change (ch "(" =? ch "{") with false in P. cbn iota in P. destruct (assigns _); discriminate. }
    cbn [head app] in E |- *. destruct (token_open t v T) as [->|S]; [|exfalso; destruct (token_start t v T) as [TS _]; destruct t as [|x t]; [contradiction|]; injection E as -> _; discriminate].
    inversion T as [w1 W1| | | | | |]; subst. injection E as E. exists w1, VUnit. repeat split; [|now constructor]. rewrite <- E. now rewrite <- app_assoc.
  - destruct (G i w0 (ch "[") t _ H0 eq_refl E eq_refl) as (-> & E1 & <- & ->). exists t, (VSeq l). rewrite <- E1. repeat split. now constructor.
  - destruct (G i w0 (ch "(") t _ H0 eq_refl E eq_refl) as (-> & E1 & <- & ->). exists t, (VTuple l). rewrite <- E1. repeat split. now constructor.
  - destruct (G i w0 (ch "(") t _ H0 eq_refl E eq_refl) as (-> & E1 & <- & ->). exists t, (VCntr (fields_of l)). rewrite <- E1. repeat split. now constructor.
  - destruct (G i w0 (ch "{") t _ H0 eq_refl E eq_refl) as (-> & E1 & <- & ->). exists t, (VMap (map_of l)). rewrite <- E1. repeat split. now constructor.
  - destruct (G i w0 (ch "[") t _ H0 eq_refl E eq_refl) as (-> & E1 & <- & ->). exists t, (VSeq l). rewrite <- E1. repeat split. now constructor.
  - destruct (G i w0 (ch "(") t _ H0 eq_refl E eq_refl) as (-> & E1 & <- & ->). exists t, (VTuple l). rewrite <- E1. repeat split. now constructor.
  - destruct (G i w0 (ch "(") t _ H0 eq_refl E eq_refl) as (-> & E1 & <- & ->). exists t, (VCntr (fields_of l)). rewrite <- E1. repeat split. now constructor.
  - destruct (G i w0 (ch "{") t _ H0 eq_refl E eq_refl) as (-> & E1 & <- & ->). exists t, (VMap (map_of l)). rewrite <- E1. repeat split. now constructor.
Qed.

(** ** primitives *)
Lemma token_same t v r t' v' r' : token t v -> ends_token v r = true -> token t' v' -> ends_token v' r' = true -> t' ++ r' = t ++ r -> t' = t /\ v' = v.
Proof.
  intros T E T' E' X. pose proof (prim_value_token t v r T E) as P. pose proof (prim_value_token t' v' r' T' E') as P'. rewrite X, P in P'. injection P' as -> ->.
  split; [|reflexivity]. now apply app_inv_tail in X.
Qed.
(** a word before something which is no opening bracket is no head *)
Lemma head_word id w c X a b Y : head_ok id w -> opener c = true -> forallb name_char a = true -> name_char b = false -> blank b = false -> opener b = false ->
  head id w ++ c :: X = a ++ b :: Y -> False.
Proof.
  intros [B H] O A1 B1 B2 B3 E. destruct id as [i|]; cbn [head app] in E.
  - apply plain_name in H as [H _]. rewrite <- app_assoc in E. apply span_eq with (f := name_char) in E as [_ E]; auto using blanks_stop_name, opener_name.
    destruct w as [|x w]; injection E as -> _; [congruence|]. unfold blanks in B. cbn [forallb] in B. rewrite B2 in B. discriminate.
  - destruct a as [|x a]; injection E as -> _; [congruence|]. cbn [forallb] in A1. rewrite opener_name in A1 by assumption. discriminate.
Qed.
Lemma head_first id w c X x Y : head_ok id w -> opener c = true -> head id w ++ c :: X = x :: Y -> id_head x = true \/ opener x = true.
Proof.
  intros [B H] O E. destruct id as [[|y i]|]; cbn [head app] in E; [discriminate| |].
  - left. injection E as -> _. unfold is_id_plain in H. apply andb_true_iff in H as [H _]. apply andb_true_iff in H as [H _]. now apply id_start in H as [H _].
  - right. now injection E as <- _.
Qed.
Lemma follow_head r id w c X a : follow r -> head_ok id w -> opener c = true -> forallb name_char a = true -> a <> [] -> head id w ++ c :: X = a ++ r -> False.
Proof.
  intros (F1 & _ & F3) [B H] O A N E. destruct id as [i|]; cbn [head app] in E.
  - apply plain_name in H as [H _]. rewrite <- app_assoc in E. apply span_eq with (f := name_char) in E as [_ <-]; auto using blanks_stop_name, opener_name.
    assert (S : Grammar.skip_blanks (w ++ c :: X) = c :: X).
    { clear -B O. induction w as [|y w IH]; unfold blanks in *; cbn [app Grammar.skip_blanks].
      - rewrite space_blank by now apply opener_space. reflexivity.
      - cbn [forallb] in B. apply andb_true_iff in B as [-> B]. auto. }
    rewrite S in F3. cbn [stops] in F3. apply opener_cases in O as [->|[->| ->]]; discriminate.
  - destruct a as [|x a]; [congruence|]. injection E as -> _. cbn [forallb] in A. rewrite opener_name in A by assumption. discriminate.
Qed.

(** what a primitive's text needs *)
Record fit (sid : option str) (tok : str) (v : value kserd) : Prop := {
  fit_starts : starts tok; fit_angle : stops (N.eqb (ch "<")) tok;
  fit_token : forall t v' r' r, token t v' -> ends_token v' r' = true -> follow r -> t ++ r' = tok ++ r -> t = tok /\ v' = v;
  fit_head : sid = None -> forall r id w c X, follow r -> head_ok id w -> opener c = true -> head id w ++ c :: X = tok ++ r -> False }.
Lemma id_angle i : is_id i = true -> forallb (fun c => negb (c =? ch ">")) i = true.
Proof.
  intros H. apply id_name in H as [H _]. rewrite forallb_forall in *. intros c Hc. specialize (H c Hc). destruct (N.eqb_spec c (ch ">")) as [->|]; [discriminate|reflexivity].
Qed.
Lemma prim_at m f id tok v : opt_ok is_id (if f_id f then id else None) = true -> fit (if f_id f then id else None) tok v ->
  begins (prim_id f id ++ tok) /\ forall t r' k r, follow r -> value_at m t r' k -> t ++ r' = (prim_id f id ++ tok) ++ r ->
  t = prim_id f id ++ tok /\ k = Kserd (if f_id f then id else None) v /\ token tok v /\ ((if f_id f then id else None) = None -> no_head (tok ++ r) = true).
Proof.
  intros HI [FS FA FT FH]. assert (P : prim_id f id = match (if f_id f then id else None) with Some i => s "<" ++ i ++ s "> " | None => [] end) by (unfold prim_id; destruct (f_id f), id; reflexivity).
  rewrite P. clear P. set (sid := if f_id f then id else None) in *. clearbody sid. split.
  - apply starts_begins. destruct sid; [reflexivity|exact FS].
  - intros t' r' k r FO H E. destruct sid as [i|]; cbn [opt_ok] in HI.
    + assert (E1 : t' ++ r' = ch "<" :: i ++ ch ">" :: [32] ++ tok ++ r) by (rewrite E, <- !app_assoc; reflexivity). clear E. rename E1 into E.
      assert (NP : forall id0 w0 c0 X0, head_ok id0 w0 -> opener c0 = true -> head id0 w0 ++ c0 :: X0 = ch "<" :: i ++ ch ">" :: [32] ++ tok ++ r -> False) by (intros; eapply head_angle; [..|symmetry]; eauto).
      destruct H as [m j w t v0 r' I B T ET|m t v0 r' T ET D|m j w t l r' H0 HL|m j w t l r' H0 HL NU NA|m j w t l r' H0 HL NE|m j w t l r' H0 HL
                    |j w t l r' H0 HL|j w t l r' H0 HL NA|j w t l r' H0 HL NE|j w t l r' H0 HL].
      * assert (E1 : ch "<" :: j ++ ch ">" :: w ++ t ++ r' = ch "<" :: i ++ ch ">" :: [32] ++ tok ++ r) by (rewrite <- E, <- !app_assoc; reflexivity).
        injection E1 as E1. apply span_eq with (f := fun c => negb (c =? ch ">")) in E1 as [-> E1]; auto using id_angle; try reflexivity. injection E1 as E1.
        change (32 :: tok ++ r) with ([32] ++ tok ++ r) in E1.
        destruct (token_start _ _ T) as [TS _]. apply blank_eq in E1 as [-> E1]; try reflexivity; try exact B; try (now apply starts_space, starts_app). clear E. rename E1 into E.
        destruct (FT _ _ _ _ T ET FO E) as [-> ->]. split; [now rewrite <- !app_assoc|]. repeat split; [exact T|discriminate].
      * exfalso. destruct (token_start _ _ T) as [TS TA]. destruct t as [|x t]; [contradiction|]. injection E as -> _. discriminate.
      * exfalso. rewrite <- app_assoc in E. exact (NP _ _ (ch "[") _ H0 eq_refl E).
      * exfalso. rewrite <- app_assoc in E. exact (NP _ _ (ch "(") _ H0 eq_refl E).
      * exfalso. rewrite <- app_assoc in E. exact (NP _ _ (ch "(") _ H0 eq_refl E).
      * exfalso. rewrite <- app_assoc in E. exact (NP _ _ (ch "{") _ H0 eq_refl E).
      * exfalso. rewrite <- app_assoc in E. exact (NP _ _ (ch "[") _ H0 eq_refl E).
      * exfalso. rewrite <- app_assoc in E. exact (NP _ _ (ch "(") _ H0 eq_refl E).
      * exfalso. rewrite <- app_assoc in E. exact (NP _ _ (ch "(") _ H0 eq_refl E).
      * exfalso. rewrite <- app_assoc in E. exact (NP _ _ (ch "{") _ H0 eq_refl E).
    + cbn [app] in E |- *. specialize (FH eq_refl).
      destruct H as [m j w t v0 r' I B T ET|m t v0 r' T ET D|m j w t l r' H0 HL|m j w t l r' H0 HL NU NA|m j w t l r' H0 HL NE|m j w t l r' H0 HL
                    |j w t l r' H0 HL|j w t l r' H0 HL NA|j w t l r' H0 HL NE|j w t l r' H0 HL].
      * exfalso. destruct tok as [|x tok]; [contradiction|]. injection E as <- _. discriminate.
      * rewrite E in D. destruct (FT _ _ _ _ T ET FO E) as [-> ->]. auto.
      * exfalso. rewrite <- app_assoc in E. exact (FH r _ _ (ch "[") _ FO H0 eq_refl E).
      * exfalso. rewrite <- app_assoc in E. exact (FH r _ _ (ch "(") _ FO H0 eq_refl E).
      * exfalso. rewrite <- app_assoc in E. exact (FH r _ _ (ch "(") _ FO H0 eq_refl E).
      * exfalso. rewrite <- app_assoc in E. exact (FH r _ _ (ch "{") _ FO H0 eq_refl E).
      * exfalso. rewrite <- app_assoc in E. exact (FH r _ _ (ch "[") _ FO H0 eq_refl E).
      * exfalso. rewrite <- app_assoc in E. exact (FH r _ _ (ch "(") _ FO H0 eq_refl E).
      * exfalso. rewrite <- app_assoc in E. exact (FH r _ _ (ch "(") _ FO H0 eq_refl E).
      * exfalso. rewrite <- app_assoc in E. exact (FH r _ _ (ch "{") _ FO H0 eq_refl E).
Qed.
Lemma prim_only m f id tok v : opt_ok is_id (if f_id f then id else None) = true -> fit (if f_id f then id else None) tok v ->
  only (value_at m) (fun _ : unit => prim_id f id ++ tok) (fun _ => Kserd (if f_id f then id else None) v) tt.
Proof.
  intros HI F. destruct (prim_at m f id tok v HI F) as [B H]. split; [exact B|]. intros t r' k r FO HV E. destruct (H t r' k r FO HV E) as (H1 & H2 & _). auto.
Qed.

(** ** the primitives fit *)
Lemma fit_valid sid tok v : token tok v -> (sid = None -> forall r id w c X, follow r -> head_ok id w -> opener c = true -> head id w ++ c :: X = tok ++ r -> False) -> fit sid tok v.
Proof.
  intros T FH. destruct (token_start _ _ T) as [TS TA]. constructor; auto. intros t v' r' r T' E' FO E. apply (token_same tok v r t v' r'); auto.
  destruct v; try reflexivity. cbn [ends_token]. apply stop_stops. apply FO.
Qed.
Lemma bool_fit sid (b : bool) : fit sid (if b then s "true" else s "false") (VBool b).
Proof.
  apply fit_valid; [destruct b; constructor|]. intros _ r id w c X FO H O E. eapply follow_head; eauto; destruct b; (reflexivity || discriminate).
Qed.
Lemma display_nonempty n : num_display n <> [].
Proof.
  assert (D : forall x, dec_of_N x <> []) by (intros x; apply (dec_of_N_spec x)).
  destruct n as [x|x|x]; cbn [num_display].
  - unfold Z_display. destruct (_ <? _)%Z; [discriminate|apply D].
  - unfold Z_display. destruct (_ <? _)%Z; [discriminate|apply D].
  - destruct x as [sg p|[] |sg m e]; cbn [f_display]; try discriminate. intros H. apply app_eq_nil in H as [_ H].
    destruct (m =? 0)%Z; [discriminate|]. destruct (exact_dec m e) as [d t]. destruct (shortest _ d t _) as [d1 t1]. destruct (strip0 _ d1 t1) as [d2 t2]. unfold positional in H.
    destruct (0 <=? t2)%Z; [apply app_eq_nil in H as [H _]; now apply D in H|]. destruct (_ <? _)%Z; [|discriminate]. apply app_eq_nil in H as [_ H]. discriminate.
Qed.
Lemma num_fit sid n : fit sid (num_display n) (VNum (reread n)).
Proof.
  pose proof (display_num_chars n) as NC. pose proof (display_nonempty n) as NE.
  assert (FH : forall r id w c X, follow r -> head_ok id w -> opener c = true -> head id w ++ c :: X = num_display n ++ r -> False).
  { intros r id w c X FO H O E. destruct (match n with Float (FInf false | FNaN _ _) => true | _ => false end) eqn:W.
    - assert (N : forallb name_char (num_display n) = true) by (destruct n as [| |[|[]|]]; try discriminate; reflexivity). eapply follow_head; eauto.
    - apply display_head in W. destruct (num_display n) as [|x t] eqn:D; [congruence|]. cbn [app stops forallb] in *. apply head_first in E as [E|E]; auto; [congruence|].
      apply andb_true_iff in NC as [NC _]. apply num_char_opener in NC. congruence. }
  destruct (is_some (num_from_str (num_display n))) eqn:P; [apply fit_valid; [now apply num_token|auto]|].
  assert (S : exists x t, num_display n = x :: t /\ is_digit x || mem x (s "-.") = true).
  { destruct (num_display n) as [|x t] eqn:D; [congruence|]. exists x, t. split; [reflexivity|]. assert (Q : forallb dotted (num_display n) = true).
    { destruct n as [z|z|z]; cbn [num_display]; try apply Z_display_dotted. destruct z as [sg p|[]|sg m e].
      - clear -P D. cbn [num_display f_display] in D. rewrite <- D in P. vm_compute in P. discriminate.
      - clear -P D. cbn [num_display f_display] in D. rewrite <- D in P. vm_compute in P. discriminate.
      - clear -P D. cbn [num_display f_display] in D. rewrite <- D in P. vm_compute in P. discriminate.
      - cbn [f_display]. rewrite forallb_app. apply andb_true_iff. split; [destruct sg; reflexivity|].
        destruct (m =? 0)%Z; [reflexivity|]. destruct (exact_dec m e) as [d0 t0]. destruct (shortest _ d0 t0 _) as [d1 t1]. destruct (strip0 _ d1 t1) as [d2 t2]. apply positional_dotted. }
    rewrite D in Q. cbn [forallb] in Q. now apply andb_true_iff in Q as [Q _]. }
  destruct S as (x & t & D & S). rewrite D in *. assert (NX : Grammar.num_char x = true) by (cbn [forallb] in NC; now apply andb_true_iff in NC as [NC _]).
  constructor; auto.
  - now apply num_char_start.
  - now apply num_char_angle.
  - intros t0 v' r' r T ET FO E. exfalso. inversion T as [w W| | |u n' F' P'|u M|d u M|u M]; subst; try (injection E as E _; subst x; discriminate).
    cbn [ends_token] in ET. apply stop_stops in ET. destruct FO as (_ & FO & _).
    apply span_eq with (f := Grammar.num_char) in E as [-> _]; auto. rewrite P' in P. discriminate.
Qed.
Lemma clear_str_fit sid t : clear_string sid t = true -> fit sid (str_text t) (VStr t).
Proof.
  intros H. unfold clear_string in H. destruct (delimiter t) as [d|] eqn:D; [|discriminate]. apply fit_valid; [now apply (str_token t d)|]. intros -> r id w c X FO HO O E. cbn [is_some orb] in H.
  unfold clear_delim, plain_delim in H. apply andb_true_iff in H as [H _]. apply negb_true_iff, orb_false_iff in H as [H H3]. apply orb_false_iff in H as [H1 H2].
  unfold str_text in E. rewrite D in E. destruct (d =? 34) eqn:Q.
  - eapply (head_word id w c X [] d); [exact HO|exact O|reflexivity|exact H1|now apply space_blank|exact H3|exact E].
  - eapply (head_word id w c X (s "str") d); [exact HO|exact O|reflexivity|exact H1|now apply space_blank|exact H3|]. rewrite E, <- !app_assoc. reflexivity.
Qed.
Lemma bytes_fit sid b : forallb (fun x => x <? 256) b = true -> fit sid (s "b91'" ++ b91_encode b ++ s "'") (VBarr b).
Proof.
  intros H. apply fit_valid; [now apply bytes_token|]. intros _ r id w c X FO HO O E.
  eapply (head_word id w c X (s "b91") (ch "'")); [exact HO|exact O|reflexivity|reflexivity|reflexivity|reflexivity|]. rewrite E, <- !app_assoc. reflexivity.
Qed.

(** ** how the texts begin: a word, and then nothing or something which is neither
    '=' nor what ends a title *)
Definition shape (T r : str) : Prop :=
  exists a Z, T ++ r = a ++ Z /\ forallb name_char a = true /\ stops name_char Z /\
    (Z = r \/ exists w b Y, Z = w ++ b :: Y /\ blanks w /\ space b = false /\ mem b (s "=:]") = false).
Lemma shape_head id w c X r : head_ok id w -> opener c = true -> shape (head id w ++ c :: X) r.
Proof.
  intros [B H] O. assert (O' : mem c (s "=:]") = false) by (apply opener_cases in O as [->|[->| ->]]; reflexivity). unfold shape. rewrite <- app_assoc. cbn [app]. destruct id as [i|]; cbn [head].
  - exists i, (w ++ c :: X ++ r). rewrite <- app_assoc. repeat split; [now apply plain_name|now apply blanks_stop_name; [|apply opener_name]|]. right. exists w, c, (X ++ r). auto using opener_space.
  - exists [], (c :: X ++ r). repeat split; [now apply opener_name|]. right. exists [], c, (X ++ r). repeat split; auto using opener_space.
Qed.
Lemma shape_char a b Y T r : T = a ++ b :: Y -> forallb name_char a = true -> name_char b = false -> space b = false -> mem b (s "=:]") = false -> shape T r.
Proof.
  intros -> A1 B1 B2 B3. exists a, (b :: Y ++ r). rewrite <- app_assoc. repeat split; [exact A1|exact B1|]. right. exists [], b, (Y ++ r). repeat split; auto.
Qed.
Lemma shape_word a r : forallb name_char a = true -> follow r -> shape a r.
Proof. intros H (F & _). exists a, r. auto. Qed.
Lemma shape_num n r : follow r -> shape (num_display n) r.
Proof.
  intros F. pose proof (display_num_chars n) as NC. pose proof (take_while_app name_char (num_display n)) as A. pose proof (BaseProps.take_while_all name_char (num_display n)) as B. pose proof (take_while_rest name_char (num_display n)) as C.
  destruct (take_while name_char (num_display n)) as [a [|b Y]]; cbn [fst snd] in *.
  - rewrite app_nil_r in A. rewrite <- A. now apply shape_word.
  - rewrite <- A in *. rewrite forallb_app in NC. apply andb_true_iff in NC as [_ NC]. cbn [forallb] in NC. apply andb_true_iff in NC as [NC _].
    eapply shape_char; [reflexivity|exact B|exact C|now apply num_char_space|]. apply num_char_in in NC. each_char NC.
Qed.
Lemma shape_prim f id T r : (shape T r) -> shape (prim_id f id ++ T) r.
Proof.
  intros H. unfold prim_id. destruct (f_id f); [|exact H]. destruct id as [i|]; [|exact H]. eapply (shape_char [] (ch "<")); reflexivity.
Qed.
Lemma shape_str f id t r : clear_string (if f_id f then id else None) t = true -> shape (prim_id f id ++ str_text t) r.
Proof.
  intros H. unfold clear_string in H. destruct (delimiter t) as [d|] eqn:D; [|discriminate].
  assert (P : prim_id f id = match (if f_id f then id else None) with Some i => s "<" ++ i ++ s "> " | None => [] end) by (unfold prim_id; destruct (f_id f), id; reflexivity).
  rewrite P. destruct (if f_id f then id else None) as [i|]; [eapply (shape_char [] (ch "<")); reflexivity|]. cbn [is_some orb app] in *.
  unfold clear_delim, plain_delim in H. apply andb_true_iff in H as [H HC]. apply negb_true_iff, orb_false_iff in H as [H H3]. apply orb_false_iff in H as [H1 H2]. apply negb_true_iff in HC.
  assert (HB : mem d (s "=:]") = false).
  { apply mem_not_In. intros I. apply mem_not_In in HC. apply delimiter_spec in D as [D _]. cbn in I. destruct I as [I|[I|[I|[]]]]; [apply HC; cbn; tauto|apply HC; cbn; tauto|]. subst d. vm_compute in D. repeat destruct D as [D|D]; try discriminate; contradiction. }
  unfold str_text. rewrite D. destruct (d =? 34).
  - now eapply (shape_char [] d).
  - now eapply (shape_char (s "str") d).
Qed.
(** no name with '=' *)
Lemma shape_not_field T r name w1 u : shape T r -> follow r -> forallb name_char name = true -> blanks w1 ->
  name ++ w1 ++ ch "=" :: u = T ++ r -> False.
Proof.
  intros (a & Z & E1 & A & S & D) (F1 & F2 & F3) N W E. rewrite E1 in E. apply span_eq with (f := name_char) in E as [_ <-]; auto; [|now apply blanks_stop_name].
  destruct D as [<-|(w & b & Y & EZ & B1 & B2 & B3)].
  - assert (X : Grammar.skip_blanks (w1 ++ ch "=" :: u) = ch "=" :: u).
    { clear -W. induction w1 as [|y w IH]; unfold blanks in *; [reflexivity|]. cbn [forallb] in W. apply andb_true_iff in W as [W1 W2]. cbn [app Grammar.skip_blanks]. rewrite W1. auto. }
    rewrite X in F3. discriminate.
  - apply blank_eq in EZ as [_ EZ]; auto; [|reflexivity]. injection EZ as <- _. discriminate.
Qed.
(** nor a title *)
Lemma shape_not_title T r h name id Y : shape T r -> begins T -> titlef h name id -> h ++ ch "]" :: Y = T ++ r ->
  exists w, blanks w /\ (r = w ++ ch "]" :: Y \/ exists Q, r = w ++ ch ":" :: Q).
Proof.
  intros (a & Z & E1 & A & S & D) BT H E.
  assert (G : forall w1 w2 x Q, blanks w1 -> blanks w2 -> forallb name_char name = true -> (x = ch "]" \/ x = ch ":") -> w1 ++ name ++ w2 ++ x :: Q = T ++ r -> r = w2 ++ x :: Q).
  { intros w1 w2 x Q W1 W2 N HX E2. destruct w1 as [|y w1]; [|exfalso; destruct T as [|z T]; [contradiction|]; injection E2 as -> _; destruct BT as [BT _]; unfold blanks in W1; cbn [forallb] in W1; rewrite space_blank in W1 by exact BT; discriminate].
    cbn [app] in E2. rewrite E1 in E2. assert (name_char x = false) by (destruct HX; subst; reflexivity). apply span_eq with (f := name_char) in E2 as [_ <-]; auto using blanks_stop_name.
    destruct D as [<-|(w & b & Y' & EZ & B1 & B2 & B3)]; [reflexivity|]. exfalso. apply blank_eq in EZ as [_ EZ]; auto; [|destruct HX; subst; reflexivity]. injection EZ as <- _. destruct HX; subst; discriminate. }
  destruct H as [w1 name w2 W1 N W2|w1 name w2 w3 id w4 W1 N W2 W3 I W4]; rewrite <- !app_assoc in E.
  - exists w2. split; [exact W2|]. left. exact (G w1 w2 (ch "]") Y W1 W2 N (or_introl eq_refl) E).
  - exists w2. split; [exact W2|]. right. eexists. eapply (G w1 w2 (ch ":")); auto. exact E.
Qed.
