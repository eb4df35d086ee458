(** Proofs about decoding: it follows the rules of DecodeSpec. *)
From Verif Require Import Base BaseProps F64 F32 Number BTree Value ValueSpec Encode EncodeSpec EncodeProps EncodeProps2 EncodeProps3 EncodeProps4 EncodeProps6 EncodeProps7 DecodeSpec.
Open Scope N_scope.

(** ** UTF-8 *)
Lemma utf8_char_form c : scalar c = true -> utf8_form c (utf8_char c).
Proof.
  intros S. assert (S' : c < 1114112 /\ ~ (55296 <= c < 57344)) by (unfold scalar in S; lia). clear S. unfold utf8_char.
  destruct (N.ltb_spec c 128); [now constructor|]. destruct (N.ltb_spec c 2048); [|destruct (N.ltb_spec c 65536)].
  - assert (X : c = c / 64 * 64 + c mod 64) by lia. rewrite X at 1. constructor; lia.
  - assert (X : c = c / 4096 * 4096 + c / 64 mod 64 * 64 + c mod 64) by lia. rewrite X at 1. constructor; try lia.
  - assert (X : c = c / 262144 * 262144 + c / 4096 mod 64 * 4096 + c / 64 mod 64 * 64 + c mod 64) by lia. rewrite X at 1. constructor; try lia.
Qed.
Lemma utf8_form_char c b : utf8_form c b -> scalar c = true /\ utf8_char c = b.
Proof.
  intros H. unfold scalar, utf8_char. inversion H; subst; clear H; (split; [lia|]).
  - now replace (c <? 128) with true by lia.
  - replace (a * 64 + b0 <? 128) with false by lia. replace (a * 64 + b0 <? 2048) with true by lia. repeat f_equal; lia.
  - set (x := a * 4096 + b0 * 64 + c0) in *. replace (x <? 128) with false by lia. replace (x <? 2048) with false by lia. replace (x <? 65536) with true by lia. repeat f_equal; lia.
  - set (x := a * 262144 + b0 * 4096 + c0 * 64 + d) in *. replace (x <? 128) with false by lia. replace (x <? 2048) with false by lia. replace (x <? 65536) with false by lia. repeat f_equal; lia.
Qed.
Lemma utf8_text_iff t b : utf8_text t b <-> forallb scalar t = true /\ utf8 t = b.
Proof.
  split.
  - intros (l & F & ->). induction F as [|c x t l C F [IH1 IH2]]; [now split|]. apply utf8_form_char in C as [C1 C2]. cbn [forallb utf8 flat_map concat] in *. rewrite C1, C2. split; [exact IH1|]. unfold utf8 in IH2. now rewrite IH2.
  - intros [S <-]. exists (map utf8_char t). split; [|unfold utf8; now rewrite flat_map_concat_map]. induction t as [|c t IH]; cbn [map]; constructor; cbn [forallb] in S; apply andb_true_iff in S as [S1 S2]; [now apply utf8_char_form|auto].
Qed.
Lemma utf8_scan_app c b : scalar c = true -> utf8_scan (utf8_char c ++ b) = c :: utf8_scan b.
Proof.
  intros S. apply utf8_char_form in S. inversion S as [c' H1 H2|x y H1 H2 H3 H4|x y z H1 H2 H3 H4 H5 H6|x y z w H1 H2 H3 H4 H5 H6]; cbn [app utf8_scan].
  - now replace (c <? 128) with true by lia.
  - replace (192 + x <? 128) with false by lia. replace (192 + x <? 224) with true by lia. f_equal. lia.
  - replace (224 + x <? 128) with false by lia. replace (224 + x <? 224) with false by lia. replace (224 + x <? 240) with true by lia. f_equal. lia.
  - replace (240 + x <? 128) with false by lia. replace (240 + x <? 224) with false by lia. replace (240 + x <? 240) with false by lia. f_equal. lia.
Qed.
Lemma utf8_scan_text t : forallb scalar t = true -> utf8_scan (utf8 t) = t.
Proof.
  induction t as [|c t IH]; intros S; [reflexivity|]. cbn [forallb] in S. apply andb_true_iff in S as [S1 S2]. cbn [utf8 flat_map]. fold (utf8 t). rewrite utf8_scan_app by exact S1. now rewrite IH.
Qed.
Lemma bytes_eqb_eq a b : bytes_eqb a b = true <-> a = b.
Proof.
  unfold bytes_eqb. revert b. induction a as [|x a IH]; intros [|y b]; cbn [list_eqb]; try (split; [discriminate|discriminate]); [split; reflexivity|].
  rewrite andb_true_iff, N.eqb_eq, IH. split; [intros [-> ->]; reflexivity|intros [= -> ->]; auto].
Qed.
Lemma from_utf8_iff b t : from_utf8 b = Some t <-> utf8_text t b.
Proof.
  rewrite utf8_text_iff. unfold from_utf8. cbv zeta. split.
  - destruct (forallb scalar (utf8_scan b)) eqn:S; [|discriminate]. destruct (bytes_eqb (utf8 (utf8_scan b)) b) eqn:X; [|discriminate]. intros [= <-]. split; [exact S|]. now apply bytes_eqb_eq.
  - intros [S <-]. rewrite (utf8_scan_text t S), S. replace (bytes_eqb (utf8 t) (utf8 t)) with true; [reflexivity|]. symmetry. now apply bytes_eqb_eq.
Qed.

(** ** lists *)
Lemma Forall2_len {A B} (P : A -> B -> Prop) a b : Forall2 P a b -> length a = length b.
Proof. induction 1; cbn [length]; congruence. Qed.
Lemma opt_map_iff {A B} (f : A -> B) o b : option_map f o = Some b <-> exists a, o = Some a /\ b = f a.
Proof. destruct o; cbn [option_map]; split; [intros [= <-]; eauto|intros (x & [= <-] & ->); reflexivity|discriminate|intros (x & ? & _); discriminate]. Qed.
Lemma opt_bind_iff {A B} (f : A -> option B) o b : opt_bind o f = Some b <-> exists a, o = Some a /\ f a = Some b.
Proof. destruct o; cbn [opt_bind]; split; [eauto|intros (x & [= <-] & H); exact H|discriminate|intros (x & ? & _); discriminate]. Qed.
Lemma dec_all_iff {A} (f : kserd -> option A) : forall ks l, dec_all f ks = Some l <-> Forall2 (fun k d => f k = Some d) ks l.
Proof.
  induction ks as [|k ks IH]; intros l.
  - split; [intros [= <-]; constructor|]. intros H. now inversion H.
  - cbn [dec_all]. fold (dec_all f). rewrite opt_bind_iff. split.
    + intros (d & F & H). apply opt_map_iff in H as (l' & H & ->). constructor; [exact F|]. now apply IH.
    + intros H. inversion H as [|? d ? l' F G]; subst. exists d. split; [exact F|]. apply opt_map_iff. exists l'. split; [|reflexivity]. now apply IH.
Qed.
Lemma dec_entries_iff (f g : kserd -> option data) : forall m acc l, dec_entries f g m acc = Some l <->
  exists es, Forall2 (fun e d => f (fst e) = Some (fst d) /\ g (snd e) = Some (snd d)) m es /\ l = fold_left (fun acc e => bt_insert d_cmp (fst e) (snd e) acc) es acc.
Proof.
  induction m as [|[k v] m IH]; intros acc l.
  - split; [intros [= <-]; exists []; split; [constructor|reflexivity]|]. intros (es & H & ->). now inversion H.
  - cbn [dec_entries]. fold (dec_entries f g). rewrite opt_bind_iff. split.
    + intros (d & F & H). apply opt_bind_iff in H as (e & G & H). apply IH in H as (es & H & ->). exists ((d, e) :: es). split; [now constructor|reflexivity].
    + intros (es & H & ->). inversion H as [|? [d e] ? es' [F G] H']; subst. exists d. split; [exact F|]. apply opt_bind_iff. exists e. split; [exact G|]. apply IH. exists es'. split; [exact H'|reflexivity].
Qed.
Lemma dec_named_iff (f : str -> option data) (g : kserd -> option data) : forall m acc l, dec_named f g m acc = Some l <->
  exists es, Forall2 (fun e d => f (fst e) = Some (fst d) /\ g (snd e) = Some (snd d)) m es /\ l = fold_left (fun acc e => bt_insert d_cmp (fst e) (snd e) acc) es acc.
Proof.
  induction m as [|[k v] m IH]; intros acc l.
  - split; [intros [= <-]; exists []; split; [constructor|reflexivity]|]. intros (es & H & ->). now inversion H.
  - cbn [dec_named]. fold (dec_named f g). rewrite opt_bind_iff. split.
    + intros (d & F & H). apply opt_bind_iff in H as (e & G & H). apply IH in H as (es & H & ->). exists ((d, e) :: es). split; [now constructor|reflexivity].
    + intros (es & H & ->). inversion H as [|? [d e] ? es' [F G] H']; subst. exists d. split; [exact F|]. apply opt_bind_iff. exists e. split; [exact G|]. apply IH. exists es'. split; [exact H'|reflexivity].
Qed.

(** ** names *)
Lemma position_iff {A} (fs : list (str * A)) n : forall i a, position n fs = Some (i, a) <-> nth_error fs i = Some (n, a) /\ forall j b, (j < i)%nat -> nth_error fs j <> Some (n, b).
Proof.
  induction fs as [|[m b] fs IH]; intros i a; cbn [position].
  - split; [discriminate|]. intros [H _]. now destruct i.
  - destruct (str_eqb n m) eqn:X.
    + apply str_eqb_eq in X. subst m. split.
      * intros [= <- <-]. split; [reflexivity|]. intros j c H. lia.
      * intros [H1 H2]. destruct i as [|i]; [now injection H1 as <-|]. exfalso. apply (H2 0%nat b ltac:(lia)). reflexivity.
    + assert (NE : n <> m) by (intros ->; rewrite (proj2 (str_eqb_eq m m) eq_refl) in X; discriminate). rewrite opt_map_iff. split.
      * intros ([j c] & H & [= -> ->]). apply IH in H as [H1 H2]. split; [exact H1|]. intros [|j'] b' L; cbn [nth_error]; [congruence|]. apply H2. cbn [fst] in L. lia.
      * intros [H1 H2]. destruct i as [|i]; [cbn [nth_error] in H1; congruence|]. exists (i, a). split; [|reflexivity]. apply IH. split; [exact H1|]. intros j c L. apply (H2 (S j) c). lia.
Qed.
Lemma position_none {A} (fs : list (str * A)) n : position n fs = None <-> forall a, ~ In (n, a) fs.
Proof.
  induction fs as [|[m b] fs IH]; cbn [position]; [split; [intros _ a []|reflexivity]|]. destruct (str_eqb n m) eqn:X.
  - apply str_eqb_eq in X. subst m. split; [discriminate|]. intros H. exfalso. apply (H b). now left.
  - destruct (position n fs) as [p|]; cbn [option_map].
    + split; [discriminate|]. intros H. assert (None = Some p); [|discriminate]. symmetry. destruct IH as [_ IH]. symmetry. exfalso. discriminate IH. intros a I. apply (H a). now right.
    + split; [|reflexivity]. intros _ a [[= -> ->]|I]; [rewrite (proj2 (str_eqb_eq n n) eq_refl) in X; discriminate|]. now apply (proj1 IH eq_refl a).
Qed.
Lemma named_iff {A} (fs : list (str * A)) n o : named fs n o <-> option_map fst (position n fs) = o.
Proof.
  destruct o as [j|]; cbn [named].
  - rewrite opt_map_iff. split.
    + intros [[a H1] H2]. exists (j, a). split; [|reflexivity]. now apply position_iff.
    + intros ([i a] & H & ->). apply position_iff in H as [H1 H2]. split; [now exists a|exact H2].
  - rewrite <- position_none. destruct (position n fs); cbn [option_map]; split; congruence.
Qed.

(** ** fields *)
Definition olist {A} (o : option A) : list A := match o with Some a => [a] | None => [] end.
Section Entries.
  Context {K : Type} (ident : K -> option (option (nat * ty))) (key : K -> option nat -> Prop) (fs : list (str * ty)) (f : ty -> kserd -> option data).
  Hypothesis ident_key : forall n o, key n o <-> exists p, ident n = Some p /\ option_map fst p = o.
  Hypothesis ident_ty : forall n i t, ident n = Some (Some (i, t)) -> exists m, nth_error fs i = Some (m, t).

  Lemma dec_struct_sound : forall m il, dec_struct ident f m = Some il -> exists js, Forall2 (fun e o => key (fst e) o) m js /\
    map fst il = flat_map olist js /\
    forall p e j n t, nth_error m p = Some e -> nth_error js p = Some (Some j) -> nth_error fs j = Some (n, t) -> exists d, f t (snd e) = Some d /\ In (j, d) il.
  Proof.
    induction m as [|[n k] m IH]; intros il H.
    - injection H as <-. exists []. repeat split; [constructor|]. intros [|p]; discriminate.
    - cbn [dec_struct] in H. fold (dec_struct ident f) in H. apply opt_bind_iff in H as (o & I & H).
      assert (KO : key n (option_map fst o)) by (apply ident_key; eauto). destruct o as [[i t]|].
      + apply opt_bind_iff in H as (d & D & H). apply opt_map_iff in H as (il' & H & ->). destruct (IH il' H) as (js & F & M & G). exists (Some i :: js). split; [now constructor|]. split; [cbn [map fst flat_map olist app]; now rewrite M|].
        intros [|p] e j n' t' E1 E2 E3; cbn [nth_error] in E1, E2.
        * injection E1 as <-. injection E2 as <-. destruct (ident_ty n i t I) as [m' M']. rewrite E3 in M'. injection M' as <- <-. exists d. split; [exact D|now left].
        * destruct (G p e j n' t' E1 E2 E3) as (d' & D' & I'). exists d'. split; [exact D'|now right].
      + destruct (IH il H) as (js & F & M & G). exists (None :: js). split; [now constructor|]. split; [exact M|]. intros [|p] e j n' t' E1 E2 E3; cbn [nth_error] in E1, E2; [discriminate|]. now apply (G p e j n').
  Qed.
  Lemma dec_struct_ok : forall m js, Forall2 (fun e o => key (fst e) o) m js ->
    (forall p e j n t, nth_error m p = Some e -> nth_error js p = Some (Some j) -> nth_error fs j = Some (n, t) -> exists d, f t (snd e) = Some d) -> exists il, dec_struct ident f m = Some il.
  Proof.
    intros m js F. induction F as [|[n k] o m js KO F IH]; intros G; [now exists []|]. cbn [dec_struct]. fold (dec_struct ident f).
    destruct IH as [il IH]. { intros p. exact (G (S p)). }
    cbn [fst] in KO. apply ident_key in KO as (p & I & <-). rewrite I, IH. cbn [opt_bind]. destruct p as [[i t]|]; [|now exists il].
    destruct (ident_ty n i t I) as [m' M']. destruct (G 0%nat (n, k) i m' t eq_refl eq_refl M') as [d D]. cbn [snd] in D. rewrite D. cbn [opt_bind option_map]. now eexists.
  Qed.
  Lemma keys_fun : forall (m : list (K * kserd)) js js', Forall2 (fun e o => key (fst e) o) m js -> Forall2 (fun e o => key (fst e) o) m js' -> js = js'.
  Proof.
    intros m js js' F. revert js'. induction F as [|e o m js KO F IH]; intros js' F'; inversion F' as [|? o' ? js'' KO' F'']; subst; [reflexivity|].
    f_equal; [|now apply IH]. apply ident_key in KO as (p & I & <-), KO' as (p' & I' & <-). congruence.
  Qed.
End Entries.
Lemma olist_in {A} (a : A) js : In a (flat_map olist js) <-> In (Some a) js.
Proof. rewrite in_flat_map. split; [intros ([b|] & I & J); [destruct J as [->|[]]; exact I|destruct J]|intros I; exists (Some a); split; [exact I|now left]]. Qed.
Lemma olist_NoDup {A} (js : list (option A)) : NoDup (flat_map olist js) <-> forall p q j, nth_error js p = Some (Some j) -> nth_error js q = Some (Some j) -> p = q.
Proof.
  induction js as [|o js IH]; cbn [flat_map]; [split; [intros _ [|p]; discriminate|constructor]|]. destruct o as [a|]; cbn [olist app].
  - split.
    + intros N. inversion N as [|? ? N1 N2]; subst. rewrite olist_in in N1. intros [|p] [|q] j E1 E2; cbn [nth_error] in E1, E2; try reflexivity.
      * injection E1 as <-. exfalso. apply N1. now apply nth_error_In in E2.
      * injection E2 as <-. exfalso. apply N1. now apply nth_error_In in E1.
      * f_equal. apply (proj1 IH N2 p q j E1 E2).
    + intros H. constructor.
      * rewrite olist_in. intros I. apply In_nth_error in I as [p I]. now specialize (H 0%nat (S p) a eq_refl I).
      * apply IH. intros p q j E1 E2. now injection (H (S p) (S q) j E1 E2).
  - rewrite IH. split; intros H; [|intros p q j E1 E2; now injection (H (S p) (S q) j E1 E2)].
    intros [|p] [|q] j E1 E2; cbn [nth_error] in E1, E2; try discriminate. f_equal. now apply (H p q j).
Qed.
Lemma twice_iff (il : list (nat * data)) : twice il = false <-> NoDup (map fst il).
Proof.
  induction il as [|[i d] il IH]; cbn [twice map fst]; [split; [constructor|reflexivity]|]. rewrite orb_false_iff, IH. split.
  - intros [H N]. constructor; [|exact N]. intros I. apply in_map_iff in I as ([j e] & J & I). cbn [fst] in J. subst j.
    assert (X : existsb (fun e => Nat.eqb i (fst e)) il = true) by (apply existsb_exists; exists (i, e); split; [exact I|apply Nat.eqb_refl]). congruence.
  - intros N. inversion N as [|? ? N1 N2]; subst. split; [|exact N2]. destruct (existsb _ il) eqn:X; [|reflexivity]. exfalso. apply existsb_exists in X as ([j e] & I & J). apply Nat.eqb_eq in J. cbn [fst] in J. subst j. apply N1. now apply (in_map fst) in I.
Qed.
Lemma absent_iff t d : absent t = Some d <-> d = DNone /\ exists u, t = TyOption u.
Proof. unfold absent. split; [destruct t; try discriminate; intros [= <-]; split; eauto|intros [-> [u ->]]; reflexivity]. Qed.

Lemma from_entries_iff {K} (ident : K -> option (option (nat * ty))) key fs f m d :
  (forall n o, key n o <-> exists p, ident n = Some p /\ option_map fst p = o) ->
  (forall n i t, ident n = Some (Some (i, t)) -> exists m, nth_error fs i = Some (m, t)) ->
  (opt_bind (dec_struct ident f m) (dec_record fs) = Some d <-> exists l, d = DRecord l /\ from_entries (fun t k d => f t k = Some d) key fs m l).
Proof.
  intros IK IT. rewrite opt_bind_iff. split.
  - intros (il & D & R). destruct (dec_struct_sound ident key fs f IK IT m il D) as (js & F & M & G). unfold dec_record in R. destruct (twice il) eqn:T; [discriminate|]. apply twice_iff in T.
    apply opt_map_iff in R as (l & R & ->). apply take_iff in R as [L R]. exists l. split; [reflexivity|]. exists js. split; [exact F|]. split; [exact L|]. rewrite <- olist_NoDup, <- M. split; [exact T|]. split.
    + intros p e j n t d E1 E2 E3 E4. destruct (G p e j n t E1 E2 E3) as (d' & D' & I). destruct (R j n t E3) as (d'' & D'' & X). rewrite E4 in D''. injection D'' as <-. cbn [Nat.add] in X.
      destruct (find _ il) as [[a b]|] eqn:FD; [|apply (find_none _ _ FD) in I; cbn [fst] in I; now rewrite Nat.eqb_refl in I].
      apply find_some_eq in FD. subst b. now rewrite (NoDup_fst_eq il j d d' T FD I).
    + intros j n t d E3 E4 NI. destruct (R j n t E3) as (d'' & D'' & X). rewrite E4 in D''. injection D'' as <-. cbn [Nat.add] in X.
      destruct (find _ il) as [[a b]|] eqn:FD; [|now apply absent_iff]. apply find_some_eq in FD. apply (in_map fst) in FD. rewrite M, olist_in in FD. contradiction.
  - intros (l & -> & js & F & L & N & G & A).
    assert (LT : forall j n t, nth_error fs j = Some (n, t) -> exists d, nth_error l j = Some d).
    { intros j n t H. destruct (nth_error l j) as [d|] eqn:X; [eauto|]. apply nth_error_None in X. rewrite L in X. apply nth_error_None in X. congruence. }
    destruct (dec_struct_ok ident key fs f IK IT m js F) as [il D].
    { intros p e j n t E1 E2 E3. destruct (LT j n t E3) as [d X]. exists d. now apply (G p e j n). }
    exists il. split; [exact D|]. destruct (dec_struct_sound ident key fs f IK IT m il D) as (js' & F' & M & G'). rewrite <- (keys_fun ident key IK m js js' F F') in M, G'.
    apply olist_NoDup in N. rewrite <- M in N. unfold dec_record. rewrite (proj2 (twice_iff il) N). apply opt_map_iff. exists l. split; [|reflexivity]. apply take_iff. split; [exact L|].
    intros j n t E3. destruct (LT j n t E3) as [d X]. exists d. split; [exact X|]. cbn [Nat.add]. destruct (find _ il) as [[a b]|] eqn:FD.
    + apply find_some_eq in FD. pose proof (in_map fst _ _ FD) as I. rewrite M, olist_in in I. cbn [fst] in I. apply In_nth_error in I as [p I].
      assert (E1 : exists e, nth_error m p = Some e).
      { destruct (nth_error m p) as [e|] eqn:Y; [eauto|]. apply nth_error_None in Y. rewrite (Forall2_len _ _ _ F) in Y. apply nth_error_None in Y. congruence. }
      destruct E1 as [e E1]. destruct (G' p e j n t E1 I E3) as (d' & D' & I'). rewrite (NoDup_fst_eq il j b d' N FD I'). pose proof (G p e j n t d E1 I E3 X). congruence.
    + apply absent_iff. apply (A j n t d E3 X). intros I. rewrite <- olist_in, <- M in I. apply in_map_iff in I as ([j' d'] & J & I). cbn [fst] in J. subst j'. apply (find_none _ _ FD) in I. cbn [fst] in I. now rewrite Nat.eqb_refl in I.
Qed.

Lemma named_ident (fs : list (str * ty)) n o : named fs n o <-> exists p, field_name fs n = Some p /\ option_map fst p = o.
Proof. rewrite named_iff. unfold field_name. split; [intros H; eexists; split; [reflexivity|exact H]|intros (p & [= <-] & H); exact H]. Qed.
Lemma named_ty (fs : list (str * ty)) n i t : field_name fs n = Some (Some (i, t)) -> exists m, nth_error fs i = Some (m, t).
Proof. unfold field_name. intros [= H]. apply position_sound in H. now exists n. Qed.
Lemma keyed_ident (fs : list (str * ty)) k o : keyed fs k o <-> exists p, deserialize_any (field_visitor fs) k = Some p /\ option_map fst p = o.
Proof.
  assert (NO : forall X : Prop, (X <-> False) -> (False <-> X)) by tauto.
  destruct k as [id v]. unfold keyed. cbn [kval]. destruct v as [|b|[n|n|x]|t|b|l|m|l|m]; cbn [deserialize_any field_visitor visit_unit visit_bool visit_num visit_str visit_bytes visit_none visit_some visit_newtype visit_seq visit_map visit_fields];
    try (apply NO; split; [intros (p & H & _); discriminate H|intros []]).
  - unfold fits64. assert (R : in_ntype Tu64 n = true <-> (0 <= n < 2 ^ 64)%Z) by (rewrite in_range; reflexivity).
    destruct (in_ntype Tu64 n) eqn:X.
    + assert (R' := proj1 R eq_refl). destruct (Z.ltb_spec n (Z.of_nat (length fs))) as [L|L].
      * destruct (nth_error fs (Z.to_nat n)) as [g|] eqn:G; [|apply nth_error_None in G; lia]. split.
        -- intros [_ [[_ ->]|[H _]]]; [|lia]. eexists. split; reflexivity.
        -- intros (p & [= <-] & <-). split; [exact R'|]. left. split; [exact L|reflexivity].
      * split; [intros [_ [[H _]|[_ ->]]]; [lia|]; eexists; split; reflexivity|]. intros (p & [= <-] & <-). split; [exact R'|]. right. split; [exact L|reflexivity].
    + split; [intros [H _]; apply R in H; discriminate|]. intros (p & H & _). discriminate H.
  - unfold fits64. apply NO. split; [intros (p & H & _); destruct (in_ntype Ti64 n); discriminate H|intros []].
  - apply named_ident.
  - rewrite named_iff. split; [intros H; eexists; split; [reflexivity|exact H]|intros (p & [= <-] & H); exact H].
  - apply NO. split; [intros (p & H & _)|intros []]. destruct l as [|x [|y l]]; [destruct id as [i|]; [destruct (str_eqb i _)|]|destruct id as [i|]; [destruct (str_eqb i _)|]|]; discriminate H.
Qed.
Lemma keyed_ty (fs : list (str * ty)) k i t : deserialize_any (field_visitor fs) k = Some (Some (i, t)) -> exists m, nth_error fs i = Some (m, t).
Proof.
  destruct k as [id v]. destruct v as [|b|[n|n|x]|u|b|l|m|l|m]; cbn [deserialize_any field_visitor visit_unit visit_bool visit_num visit_str visit_bytes visit_none visit_some visit_newtype visit_seq visit_map visit_fields]; try discriminate.
  - destruct (fits64 false n); [|discriminate]. destruct (_ <? _)%Z; [|discriminate]. destruct (nth_error fs (Z.to_nat n)) as [[m u]|] eqn:G; [|discriminate]. cbn [option_map snd]. intros [= <- <-]. now exists m.
  - destruct (fits64 true n); discriminate.
  - apply named_ty.
  - intros [= H]. apply position_sound in H. rewrite nth_error_map in H. destruct (nth_error fs i) as [[m u]|]; [|discriminate]. injection H as _ <-. now exists m.
  - destruct l as [|x [|y l]]; [destruct id as [j|]; [destruct (str_eqb j _)|]|destruct id as [j|]; [destruct (str_eqb j _)|]|]; discriminate.
Qed.

(** ** sequences *)
Lemma str_eqb_false a b : str_eqb a b = false <-> a <> b.
Proof. rewrite <- (str_eqb_eq a b). destruct (str_eqb a b); split; congruence. Qed.
(** a visitor which takes sequences only *)
Lemma any_seq {R} (g : list kserd -> option R) k r :
  deserialize_any (mkVisitor None no no no no None no no g no no) k = Some r <-> exists l, sequence k l /\ g l = Some r.
Proof.
  assert (NO : forall l, kval k <> VSeq l -> kval k <> VTuple l -> ~ sequence k l) by (intros l A B [H|[H _]]; contradiction).
  destruct k as [id v]. unfold sequence in *. cbn [kval kid] in *.
  destruct v as [|b|[n|n|x]|t|b|l|m|l|m]; cbn [deserialize_any visit_unit visit_bool visit_num visit_str visit_bytes visit_none visit_some visit_newtype visit_seq visit_map visit_fields];
    try (split; [discriminate|intros (l' & S & _); exfalso; revert S; apply NO; discriminate]).
  - split; [intros H; exists l; split; [|]|intros (l' & [H|[[= <-] [N1 N2]]] & G); [discriminate H|]].
    + right. split; [reflexivity|]. destruct l as [|x [|y l]].
      * split; [intros [_ ->]; cbn in H; discriminate H|intros [X _]; discriminate X].
      * split; [intros [X _]; discriminate X|]. intros [_ X]. destruct id as [i|]; [|contradiction]. destruct (str_eqb i _); discriminate H.
      * split; [intros [X _]; discriminate X|intros [X _]; discriminate X].
    + destruct l as [|x [|y l]]; [destruct id as [i|]; [destruct (str_eqb i _)|]|destruct id as [i|]; [destruct (str_eqb i _)|]|]; assumption || discriminate H.
    + destruct l as [|x [|y l]]; [destruct id as [i|]; [destruct (str_eqb i _) eqn:X|]|destruct id as [i|]|]; try exact G.
      * exfalso. apply str_eqb_eq in X. subst i. apply N1. now split.
      * exfalso. apply N2. split; [reflexivity|discriminate].
  - split; [intros H; exists l; split; [now left|exact H]|]. intros (l' & [[= <-]|[H _]] & G); [exact G|discriminate H].
Qed.
