(** The statements of C53. *)
From Verif Require Import Base BaseProps F64 F32 F32Spec Number BTree Value ValueSpec ValueProps ValueProps2 Parse ParseErr Encode EncodeSpec EncodeProps3 EncodeProps5 Own OwnSpec OwnProps OwnProps2.
Open Scope N_scope.

Lemma into_owned_same k : k_sorted (content k) = true -> content (o_into_owned k) = content k /\ all_owned (o_into_owned k) = true.
Proof. intros S. split; [rewrite into_owned_content; now apply into_owned_id|apply into_owned_owned]. Qed.
Lemma mk_brw_same k : k_sorted (content k) = true -> content (o_mk_brw k) = content k /\ all_brwed (o_mk_brw k) = true.
Proof. intros S. split; [rewrite mk_brw_content; now apply mk_brw_id|apply mk_brw_brwed]. Qed.
Lemma owned_types E t k k' : no_refs E t -> content k = content k' -> odec E t k = odec E t k' /\ odec E t k = dec (own_decls E) (own_ty t) (content k).
Proof. intros N C. rewrite !odec_owned by assumption. now rewrite C. Qed.
Lemma mk_brw_decodes E t k : text_refs E t -> k_sorted (content k) = true -> odec E t (o_mk_brw k) = dec (own_decls E) (own_ty t) (content k).
Proof. intros T S. destruct (mk_brw_same k S) as [A B]. rewrite odec_borrowed; [now rewrite A|exact T|now apply all_data_brwed]. Qed.
Lemma parsed_decodes E t txt k : parse_owned txt = Some k -> no_bytes (content k) = true -> text_refs E t -> odec E t k = dec (own_decls E) (own_ty t) (content k).
Proof.
  unfold parse_owned. destruct (parse txt) as [k0|e| |]; try discriminate. intros [= <-]. rewrite read_owned_content. intros N T.
  rewrite odec_borrowed; [now rewrite read_owned_content|exact T|now apply read_owned_brwed].
Qed.
Lemma borrowed_round_trip E t d : text_refs E t -> good_decls (own_decls E) -> has_type (own_decls E) (own_ty t) d = true -> f32s_kept d ->
  EncodeSpec.apart (own_decls E) (own_ty t) d -> exists k, enc_kserd (own_decls E) (own_ty t) d = Some k /\ odec E t (o_mk_brw k) = Some d.
Proof.
  intros T G H F A. destruct (round_trip _ _ _ G H F A) as (k & K & D). exists (enc_owned k). unfold enc_kserd. rewrite K. split; [reflexivity|].
  destruct (enc_total _ _ _ (good_ids _ G) H) as (k' & K' & S & _). rewrite K in K'. injection K' as <-.
  rewrite mk_brw_decodes; rewrite ?enc_owned_content; assumption.
Qed.
Lemma str_exact E k d : odec E OtStr k = Some d <->
  (exists t, okval k = OStr (Borrowed t) /\ d = DString t) \/ (exists b t, okval k = OBarr (Borrowed b) /\ from_utf8 b = Some t /\ d = DString t).
Proof.
  destruct k as [i v]. cbn [odec o_any okval]. split.
  - intros H. destruct v as [|b|n|t|b|l|m|l|m]; try discriminate H.
    + destruct n; discriminate H.
    + destruct t as [t|t]; [|discriminate H]. injection H as <-. left. now exists t.
    + destruct b as [b|b]; [|discriminate H]. cbn [ov_borrowed_bytes] in H. destruct (from_utf8 b) as [t|] eqn:U; [|discriminate H]. injection H as <-. right. now exists b, t.
    + destruct l as [|x [|y l]]; try discriminate H; destruct i; cbn [option_map] in H; try discriminate H; destruct (str_eqb _ _); discriminate H.
  - intros [(t & -> & ->)|(b & t & -> & U & ->)]; [reflexivity|]. cbn [ov_borrowed_bytes]. now rewrite U.
Qed.
Lemma slice_exact E k d : odec E OtSlice k = Some d <->
  (exists t, okval k = OStr (Borrowed t) /\ d = DBytes (utf8 t)) \/ (exists b, okval k = OBarr (Borrowed b) /\ d = DBytes b).
Proof.
  destruct k as [i v]. cbn [odec o_any okval]. split.
  - intros H. destruct v as [|b|n|t|b|l|m|l|m]; try discriminate H.
    + destruct n; discriminate H.
    + destruct t as [t|t]; [|discriminate H]. injection H as <-. left. now exists t.
    + destruct b as [b|b]; [|discriminate H]. injection H as <-. right. now exists b.
    + destruct l as [|x [|y l]]; try discriminate H; destruct i; cbn [option_map] in H; try discriminate H; destruct (str_eqb _ _); discriminate H.
  - intros [(t & -> & ->)|(b & -> & ->)]; reflexivity.
Qed.
Lemma owned_text E t : exists k, enc_kserd (own_decls E) TyString (DString t) = Some k /\ odec E OtString k = Some (DString t) /\ odec E OtStr k = None.
Proof. eexists. split; [reflexivity|]. split; reflexivity. Qed.
Lemma names_lost E k m vt : kval (content k) = VCntr m -> m <> [] -> odec E (OtMap OtStr vt) (o_mk_brw k) = None.
Proof.
  intros V M. destruct k as [i v]. destruct v as [| | | | |l|f|l|f]; try discriminate V. cbn [content kval] in V. injection V as <-.
  cbn [o_mk_brw odec o_any ov_fields]. destruct (bt_inserts _ _) as [|[n x] r] eqn:B; [|reflexivity]. exfalso.
  destruct f as [|e f]; [now apply M|]. cbn [map] in B. unfold bt_inserts in B. cbn [fold_left bt_insert] in B.
  assert (G : forall l acc, acc <> [] -> fold_left (fun m (e : cow str * okserd) => bt_insert ostr_cmp (fst e) (snd e) m) l acc <> []).
  { induction l as [|a l IH]; intros acc N; [exact N|]. cbn [fold_left]. apply IH. destruct acc as [|[k0 v0] acc]; [easy|]. cbn [bt_insert]. now destruct (ostr_cmp _ _). }
  revert B. apply G. discriminate.
Qed.

(** ** who owns what *)
Lemma forallb_mapA {A B} (p : B -> bool) (f : A -> B) l : Forall (fun x => p (f x) = true) l -> forallb p (map f l) = true.
Proof. induction 1 as [|x l E F IH]; [reflexivity|]. cbn [map forallb]. now rewrite E, IH. Qed.
Lemma enc_owned_parts k : parts_are is_brwed is_owned is_owned (enc_owned k) = true.
Proof.
  induction k as [id v IH] using kserd_ind'. cbn [enc_owned parts_are].
  destruct v as [| | | | |l|m|l|m]; cbn [vchildren] in IH; try reflexivity; apply forallb_mapA.
  - exact IH.
  - apply Forall_map_snd in IH. eapply Forall_impl; [|exact IH]. intros [n x] E. exact E.
  - exact IH.
  - apply Forall_entries in IH. eapply Forall_impl; [|exact IH]. intros [n x] [E F]. cbn [fst snd] in *. now rewrite E, F.
Qed.
Lemma read_owned_parts k : parts_are is_brwed is_brwed is_owned (read_owned k) = true.
Proof.
  induction k as [id v IH] using kserd_ind'. cbn [read_owned parts_are].
  destruct v as [| | | | |l|m|l|m]; cbn [vchildren] in IH; try reflexivity; apply forallb_mapA.
  - exact IH.
  - apply Forall_map_snd in IH. eapply Forall_impl; [|exact IH]. intros [n x] E. exact E.
  - exact IH.
  - apply Forall_entries in IH. eapply Forall_impl; [|exact IH]. intros [n x] [E F]. cbn [fst snd] in *. now rewrite E, F.
Qed.
Lemma encoded_parts E t d k : enc_kserd E t d = Some k -> enc E t d = inr (content k) /\ parts_are is_brwed is_owned is_owned k = true.
Proof. unfold enc_kserd. destruct (enc E t d) as [e|k']; [discriminate|]. intros H. injection H as <-. rewrite enc_owned_content. split; [reflexivity|apply enc_owned_parts]. Qed.
Lemma read_parts txt k : parse_owned txt = Some k -> parse txt = ParseOk (content k) /\ parts_are is_brwed is_brwed is_owned k = true.
Proof. unfold parse_owned. destruct (parse txt); try discriminate. intros H. injection H as <-. rewrite read_owned_content. split; [reflexivity|apply read_owned_parts]. Qed.
Lemma to_mut_spec {A} (f : A -> A) (c : cow A) : cow_get (cow_to_mut f c) = f (cow_get c) /\ is_owned (cow_to_mut f c) = true /\
  cow_get (cow_into_owned c) = cow_get c /\ is_owned (cow_into_owned c) = true.
Proof. auto. Qed.
