(** The provided and derived implementations give what Own.v says; visitors are
    called with values of the type of their argument only. *)
From Verif Require Import Base BaseProps F64 F32 F32Spec F32Props Number NumberSpec NumberProps NumberProps3 BTree Value ValueProps Encode Own OwnProps Deser DeserSpec.
Open Scope N_scope.

Lemma run_eq {Q U Er} (E : errors Er) (J : impl Q U Er) q k :
  run E J q k = match start J q with Return r => r | Call m v post => post (decode E J (run E J) m v k) end.
Proof. now destruct k. Qed.

Section Std.
Context {Er : Type} (E : errors Er) (D : odecls).
Notation go := (run E (std E D)).
Notation ans := (@answer Er).

Lemma answer_or o : ans (or_err E o) = o. Proof. now destruct o. Qed.
Lemma answer_on f r : ans (on_data f r) = option_map f (ans r). Proof. now destruct r as [|[]]. Qed.

(** ** IgnoredAny *)
Lemma ignore_seq f l : (forall x, In x l -> f QIgnore x = inr PIgnored) -> run_seq (std E D) f QIgnore l = inr PIgnored.
Proof. induction l as [|x l IH]; intros H; [reflexivity|]. cbn [run_seq seq_step std]. rewrite H by (left; reflexivity). apply IH. intros y Y. apply H. now right. Qed.
Lemma ignore_map {K} (g : std_q Er -> K -> dres produced Er) f l : (forall e, In e l -> g QIgnore (fst e) = inr PIgnored /\ f QIgnore (snd e) = inr PIgnored) ->
  run_map (std E D) g f QIgnore l = inr PIgnored.
Proof.
  induction l as [|[k x] l IH]; intros H; [reflexivity|]. cbn [run_map map_step value_step std]. destruct (H (k, x) (or_introl eq_refl)) as [E1 E2]. cbn [fst snd] in *.
  rewrite E1. cbn [value_step std]. rewrite E2. apply IH. intros y Y. apply H. now right.
Qed.
Lemma ignore_any k : go QIgnore k = inr PIgnored.
Proof.
  induction k as [id v IH] using okserd_ind'. rewrite Forall_forall in IH. cbn [run decode start std].
  destruct v as [|b|[]|[]|[]|l|m|l|m]; try reflexivity; cbn [ochildren] in IH; cbn [on_value on_some on_newtype on_seq on_map std].
  - assert (G : run_seq (std E D) go QIgnore l = inr PIgnored) by (apply ignore_seq; exact IH).
    destruct l as [|x [|y l]]; destruct (option_map cow_get id); try destruct (str_eqb _ _); try reflexivity; try exact G; apply IH; left; reflexivity.
  - apply ignore_map. intros e He. split; [reflexivity|]. apply IH, in_map, He.
  - now apply ignore_seq.
  - apply ignore_map. intros [a x] He. split; apply IH; (apply in_flat_map; exists (a, x); split; [exact He|cbn; auto]).
Qed.

(** ** programs on an access *)
Lemma done_seq f r l : run_seq (std E D) f (QDone r) l = r. Proof. now destruct l. Qed.
Lemma done_map {K} (g : std_q Er -> K -> dres produced Er) f r l : run_map (std E D) g f (QDone r) l = r. Proof. now destruct l. Qed.
Lemma each_run f : forall ts w acc l, ans (run_seq (std E D) f (QEach ts w acc) l) =
  option_map (fun x => w (rev acc ++ x)) (odec_each (fun t k => ans (f (QTy t) k)) ts l).
Proof.
  intros ts w acc l. revert ts acc. induction l as [|x l IH]; intros [|t ts] acc; cbn [run_seq seq_step std odec_each option_map answer]; rewrite ?app_nil_r; try reflexivity.
  destruct (f (QTy t) x) as [e|[d| | |]]; cbn [then_data answer opt_bind]; rewrite ?done_seq; try reflexivity.
  rewrite IH. destruct (odec_each _ ts l); cbn [option_map]; [|reflexivity]. cbn [rev]. now rewrite <- app_assoc.
Qed.
Lemma all_run f t : forall l acc, ans (run_seq (std E D) f (QAll t acc) l) = option_map (fun x => DList (rev acc ++ x)) (odec_all (fun k => ans (f (QTy t) k)) l).
Proof.
  induction l as [|x l IH]; intros acc; cbn [run_seq seq_step std odec_all option_map answer]; rewrite ?app_nil_r; try reflexivity.
  destruct (f (QTy t) x) as [e|[d| | |]]; cbn [then_data answer opt_bind]; rewrite ?done_seq; try reflexivity.
  rewrite IH. destruct (odec_all _ l); cbn [option_map]; [|reflexivity]. cbn [rev]. now rewrite <- app_assoc.
Qed.
Lemma bytes_run f : forall l acc, (forall x, ans (f (QTy (OtInt Tu8)) x) = option_map DInt (o_int Tu8 x)) -> ans (run_seq (std E D) f (QBytes acc) l) =
  option_map (fun x => DBytes (rev acc ++ map Z.to_N x)) (odec_all (o_int Tu8) l).
Proof.
  induction l as [|x l IH]; intros acc H; cbn [run_seq seq_step std odec_all option_map answer map]; rewrite ?app_nil_r; try reflexivity.
  specialize (H x) as HX. destruct (f (QTy (OtInt Tu8)) x) as [e|[d| | |]]; cbn [then_data answer] in *; destruct (o_int Tu8 x); try discriminate; cbn [opt_bind]; rewrite ?done_seq; try reflexivity.
  injection HX as ->. rewrite IH by exact H. destruct (odec_all _ l); cbn [option_map]; [|reflexivity]. cbn [rev map]. now rewrite <- app_assoc.
Qed.
Lemma entries_run {K} (g : std_q Er -> K -> dres produced Er) f kt vt : forall l acc, ans (run_map (std E D) g f (QEntries kt vt acc) l) =
  option_map DMap (odec_entries (fun k => ans (g (QTy kt) k)) (fun k => ans (f (QTy vt) k)) l acc).
Proof.
  induction l as [|[k x] l IH]; intros acc; cbn [run_map map_step std odec_entries option_map answer]; try reflexivity.
  destruct (g (QTy kt) k) as [e|[d| | |]]; cbn [then_data answer opt_bind value_step std]; rewrite ?done_map; try reflexivity.
  destruct (f (QTy vt) x) as [e|[d'| | |]]; cbn [then_data answer opt_bind]; rewrite ?done_map; try reflexivity. apply IH.
Qed.
Lemma fields_run {K} (g : std_q Er -> K -> dres produced Er) f fs (ident : K -> option (option (nat * oty))) :
  (forall k, match ident k with Some o => g (QFieldId fs) k = inr (PField o) | None => exists e, g (QFieldId fs) k = inl e end) ->
  (forall x, f QIgnore x = inr PIgnored) -> forall l acc,
  ans (run_map (std E D) g f (QFields fs acc) l) =
  opt_bind (odec_struct ident (fun t k => ans (f (QTy t) k)) l) (fun x => odec_record fs (rev acc ++ x)).
Proof.
  intros HI HG. induction l as [|[k x] l IH]; intros acc; cbn [run_map map_step std odec_struct opt_bind]; [now rewrite app_nil_r, answer_or|].
  specialize (HI k). destruct (ident k) as [[[i t]|]|]; [| |destruct HI as [e HI]]; rewrite HI; cbn [opt_bind value_step std].
  - destruct (f (QTy t) x) as [e|[d| | |]]; cbn [then_data answer opt_bind]; rewrite ?done_map; try reflexivity.
    rewrite IH. destruct (odec_struct _ _ l); cbn [opt_bind option_map]; [|reflexivity]. cbn [rev]. now rewrite <- app_assoc.
  - rewrite HG. apply IH.
  - now rewrite done_map.
Qed.

Lemma odec_each_ext f g : forall l ts, (forall x t, In x l -> f t x = g t x) -> odec_each f ts l = odec_each g ts l.
Proof.
  induction l as [|x l IH]; intros [|t ts] H; cbn [odec_each]; try reflexivity. rewrite H by (left; reflexivity).
  destruct (g t x); cbn [opt_bind]; [|reflexivity]. f_equal. apply IH. intros; apply H. now right.
Qed.
Lemma odec_all_ext {A} (f g : okserd -> option A) : forall l, (forall x, In x l -> f x = g x) -> odec_all f l = odec_all g l.
Proof.
  induction l as [|x l IH]; intros H; cbn [odec_all]; try reflexivity. rewrite H by (left; reflexivity).
  destruct (g x); cbn [opt_bind]; [|reflexivity]. f_equal. apply IH. intros; apply H. now right.
Qed.
Lemma odec_entries_ext {K} (f f' : K -> option data) g g' : forall l acc, (forall e, In e l -> f (fst e) = f' (fst e) /\ g (snd e) = g' (snd e)) ->
  odec_entries f g l acc = odec_entries f' g' l acc.
Proof.
  induction l as [|[k x] l IH]; intros acc H; cbn [odec_entries]; try reflexivity. destruct (H (k, x) (or_introl eq_refl)) as [E1 E2]. cbn [fst snd] in *. rewrite E1, E2.
  destruct (f' k); cbn [opt_bind]; [|reflexivity]. destruct (g' x); cbn [opt_bind]; [|reflexivity]. apply IH. intros; apply H. now right.
Qed.
Lemma odec_struct_ext {K} (i : K -> option (option (nat * oty))) f g : forall l, (forall t e, In e l -> f t (snd e) = g t (snd e)) -> odec_struct i f l = odec_struct i g l.
Proof.
  induction l as [|[k x] l IH]; intros H; cbn [odec_struct]; try reflexivity. rewrite IH by (intros; apply H; now right).
  destruct (i k) as [[[j t]|]|]; cbn [opt_bind]; try reflexivity. pose proof (H t (k, x) (or_introl eq_refl)) as HX. cbn [snd] in HX. now rewrite HX.
Qed.

Lemma int_run t k : ans (go (QTy (OtInt t)) k) = option_map DInt (o_int t k).
Proof.
  destruct k as [id v]. cbn [run decode start std std_method]. unfold o_int. cbn [okval]. destruct v; try reflexivity.
  replace (ntype_signed (serde_int t)) with (ntype_signed t) by now destruct t.
  destruct (if ntype_signed t then _ else _) as [z|]; cbn [opt_bind]; [|reflexivity].
  replace (in_ntype (serde_int t) z) with (in_ntype t z) by now destruct t. destruct (in_ntype t z); reflexivity.
Qed.

Lemma field_run fs k : match o_any (ofield_visitor fs) k with
  | Some o => go (QFieldId fs) k = inr (PField o)
  | None => exists e, go (QFieldId fs) k = inl e
  end.
Proof.
  destruct k as [id v]. cbn [run decode start std o_any].
  destruct v as [|b|[]|[]|[]|l|m|l|m]; cbn [ov_unit ov_bool ov_num ov_borrowed_str ov_string ov_borrowed_bytes ov_byte_buf ov_none ov_some ov_newtype ov_seq ov_map ov_fields
    ofield_visitor ofield_name no on_value std std_field on_some on_newtype on_seq on_map]; try (eexists; reflexivity); try reflexivity.
  - destruct (fits64 false n); [reflexivity|eexists; reflexivity].
  - destruct (fits64 true n); eexists; reflexivity.
  - destruct l as [|x [|y l]]; destruct (option_map cow_get id); try destruct (str_eqb _ _); cbn [run_seq seq_step std]; try (eexists; reflexivity).
    all: destruct x; eexists; reflexivity.
  - destruct m; eexists; reflexivity.
  - destruct l; eexists; reflexivity.
  - destruct m; eexists; reflexivity.
Qed.
Lemma some_run t k : ans (go (QSome t) k) = option_map DSome (ans (go (QTy t) k)).
Proof. rewrite !run_eq. change (start (std E D) (QTy t)) with (@Call (std_q Er) produced Er (std_method D t) (QTy t) (fun r => r)). apply answer_on. Qed.
Lemma newtype_run t k : ans (go (QNewtype t) k) = option_map DNewtype (ans (go (QTy t) k)).
Proof. rewrite !run_eq. change (start (std E D) (QTy t)) with (@Call (std_q Er) produced Er (std_method D t) (QTy t) (fun r => r)). apply answer_on. Qed.

Theorem std_run : forall k t, ans (go (QTy t) k) = odec D t k.
Proof.
  induction k as [id v IH] using okserd_ind'. rewrite Forall_forall in IH.
  assert (EACH : forall l ts w, (forall x, In x l -> In x (ochildren v)) -> ans (run_seq (std E D) go (QEach ts w []) l) = option_map w (odec_each (odec D) ts l)).
  { intros l ts w H. rewrite each_run. cbn [rev app]. f_equal. apply odec_each_ext. intros x t X. apply IH, H, X. }
  assert (FIELDS : forall m fs, (forall x, In x (map snd m) -> In x (ochildren v)) ->
    ans (run_map (std E D) (on_field_name (std E D)) go (QFields fs []) m) = opt_bind (odec_struct (fun n => ofield_name fs (cow_get n)) (odec D) m) (odec_record fs)).
  { intros m fs H. rewrite (fields_run _ _ fs (fun n => ofield_name fs (cow_get n))); [|reflexivity|exact ignore_any]. cbn [rev app]. erewrite odec_struct_ext; [reflexivity|].
    intros t e He. apply IH, H, in_map, He. }
  assert (KEYS : forall m, v = OMap m -> forall e, In e m -> In (fst e) (ochildren v) /\ In (snd e) (ochildren v)).
  { intros m -> e He. split; (apply in_flat_map; exists e; split; [exact He|cbn; auto]). }
  intros t. destruct t as [| |it| | | | | | | |t|ts|t|kt vt|n].
  3: apply int_run.
  3, 4, 5: cbn [run decode start std std_method odec]; unfold o_f64, o_f32, o_char; cbn [okval]; destruct v as [|b|n|c|b|l|m|l|m]; try reflexivity; cbn [o_char]; destruct (cow_get c) as [|? [|? ?]]; reflexivity.
  all: try (cbn [run decode start std std_method odec o_any]; destruct v as [|b|[]|[]|[]|l|m|l|m]; try reflexivity;
    cbn [ov_borrowed_bytes ov_byte_buf on_value std std_value]; try (destruct (from_utf8 _); reflexivity); try (destruct m; reflexivity);
    try (destruct l as [|x [|y l]]; destruct (option_map cow_get id); try destruct (str_eqb _ _); try reflexivity; destruct x; reflexivity);
    try (destruct l; reflexivity); fail).
  - (* bytes *)
    cbn [run decode start std std_method odec o_any]. destruct v as [|b|[]|[]|[]|l|m|l|m]; try reflexivity; try (destruct m; reflexivity); cbn [on_seq std ov_seq].
    + assert (G : ans (run_seq (std E D) go (QBytes []) l) = option_map (fun b => DBytes (map Z.to_N b)) (odec_all (o_int Tu8) l)) by (apply (bytes_run go l []); intros; apply int_run).
      destruct l as [|x [|y l]]; destruct (option_map cow_get id); try destruct (str_eqb _ _); try reflexivity; try exact G; destruct x; reflexivity.
    + apply (bytes_run go l []). intros; apply int_run.
  - (* option *)
    cbn [run decode start std std_method odec o_any]. destruct v as [|b|[]|[]|[]|l|m|l|m]; try reflexivity; try (destruct m; reflexivity); try (destruct l; reflexivity); cbn [on_some on_newtype std ov_some].
    destruct l as [|x [|y l]]; destruct (option_map cow_get id); try destruct (str_eqb _ _); try reflexivity; try (destruct x; reflexivity).
    rewrite some_run, IH by (left; reflexivity). reflexivity.
  - (* tuple *)
    cbn [run decode start std std_method odec o_any]. destruct v as [|b|[]|[]|[]|l|m|l|m]; try reflexivity; try (destruct m; reflexivity); cbn [on_seq std ov_seq].
    + specialize (EACH l ts DList (fun x X => X)).
      destruct l as [|x [|y l]]; destruct (option_map cow_get id); try destruct (str_eqb _ _); try reflexivity; try exact EACH; destruct x; reflexivity.
    + now apply EACH.
  - (* vec *)
    assert (ALL : forall l, (forall x, In x l -> In x (ochildren v)) -> ans (run_seq (std E D) go (QAll t []) l) = option_map DList (odec_all (odec D t) l)).
    { intros l H. rewrite all_run. cbn [rev app]. f_equal. apply odec_all_ext. intros x X. apply IH, H, X. }
    cbn [run decode start std std_method odec o_any]. destruct v as [|b|[]|[]|[]|l|m|l|m]; try reflexivity; try (destruct m; reflexivity); cbn [on_seq std ov_seq].
    + specialize (ALL l (fun x X => X)).
      destruct l as [|x [|y l]]; destruct (option_map cow_get id); try destruct (str_eqb _ _); try reflexivity; try exact ALL; destruct x; reflexivity.
    + now apply ALL.
  - (* map *)
    cbn [run decode start std std_method odec o_any]. destruct v as [|b|[]|[]|[]|l|m|l|m]; try reflexivity; cbn [on_map std ov_map ov_fields].
    + destruct l as [|x [|y l]]; destruct (option_map cow_get id); try destruct (str_eqb _ _); try reflexivity; destruct x; reflexivity.
    + rewrite entries_run. f_equal. apply odec_entries_ext. intros e He. split; [apply answer_or|apply IH; cbn [ochildren]; apply in_map, He].
    + destruct l; reflexivity.
    + rewrite entries_run. f_equal. apply odec_entries_ext. intros e He. split; apply IH; apply (KEYS m eq_refl e He).
  - (* named *)
    cbn [odec]. assert (ST : start (std E D) (QTy (OtNamed n)) = Call (std_method D (OtNamed n)) (QTy (OtNamed n)) (fun r => r)) by reflexivity.
    cbn [run decode]. rewrite ST. cbn [std_method]. destruct (D n) as [nm|nm t|nm ts|nm fs|vs] eqn:DN; cbv beta.
    + unfold o_unit_struct. cbn [okval]. destruct v as [| | | | |[|x l]| | |]; try reflexivity. cbn [on_value std std_value]. rewrite DN. reflexivity.
    + destruct v as [|b|[]|[]|[]|l|m|l|m]; cbn [o_any on_value on_some on_newtype on_seq on_map std std_value]; rewrite ?DN; try reflexivity; try (destruct m; reflexivity); cbn [ov_seq ov_newtype].
      * assert (ONE : ans (run_seq (std E D) go (QFirst t) l) = match l with x :: _ => option_map DNewtype (odec D t x) | [] => None end).
        { destruct l as [|x l]; [reflexivity|]. cbn [run_seq seq_step std]. rewrite done_seq, newtype_run, IH by (left; reflexivity). reflexivity. }
        destruct l as [|x [|y l]]; destruct (option_map cow_get id); try destruct (str_eqb _ _); try reflexivity; try exact ONE; try (destruct x; reflexivity).
      * destruct l as [|x l]; [reflexivity|]. cbn [run_seq seq_step std]. now rewrite done_seq, newtype_run, IH by (left; reflexivity).
    + destruct v as [|b|[]|[]|[]|l|m|l|m]; cbn [o_any on_value on_some on_newtype on_seq on_map std std_value]; rewrite ?DN; try reflexivity; try (destruct m; reflexivity); cbn [ov_seq ov_newtype].
      * specialize (EACH l ts DList (fun x X => X)).
        destruct l as [|x [|y l]]; destruct (option_map cow_get id); try destruct (str_eqb _ _); try reflexivity; try exact EACH; destruct x; reflexivity.
      * now apply EACH.
    + destruct v as [|b|[]|[]|[]|l|m|l|m]; cbn [o_any on_value on_some on_newtype on_seq on_map std std_value]; rewrite ?DN; try reflexivity; cbn [ov_seq ov_newtype ov_map ov_fields].
      * specialize (EACH l (map snd fs) DRecord (fun x X => X)).
        destruct l as [|x [|y l]]; destruct (option_map cow_get id); try destruct (str_eqb _ _); try reflexivity; try exact EACH; destruct x; reflexivity.
      * now apply FIELDS.
      * now apply EACH.
      * rewrite (fields_run _ _ fs (fun k => o_any (ofield_visitor fs) k)); [|apply field_run|exact ignore_any]. cbn [rev app]. erewrite odec_struct_ext; [reflexivity|].
        intros t e He. apply IH. apply (KEYS m eq_refl e He).
    + cbn [on_enum std]. rewrite DN. unfold o_variant_id. cbn [okid]. destruct (option_map cow_get id) as [i|]; cbn [opt_bind on_variant_name std]; [|reflexivity].
      destruct (position i vs) as [[j h]|]; cbn [opt_bind]; [|reflexivity]. cbn [std_variant fst snd]. destruct h as [|t|ts|fs].
      * unfold o_unit_variant. cbn [okval]. destruct v as [| | | | |[|x l]| | |]; reflexivity.
      * rewrite answer_on. f_equal. destruct v as [| | | | |[|x [|y l]]| | |]; try reflexivity. apply IH. left; reflexivity.
      * rewrite answer_on. f_equal. destruct v as [| | | | |l| | |]; try reflexivity. destruct (Nat.eqb _ _); [|reflexivity]. now apply EACH.
      * rewrite answer_on. f_equal. destruct v as [| | | | |l|m| |]; try reflexivity. now apply FIELDS.
Qed.
End Std.

(** ** what visitors are called with *)
Lemma f64_to_f32_wf x : f64_wf x = true -> f32_wf (f64_to_f32 x) = true.
Proof.
  destruct x as [sg p|sg|sg m e]; cbn [f64_to_f32]; intros W; [| reflexivity |].
  - cbn [f64_wf f32_wf] in *. assert (B : (p / 2 ^ 29 < 2 ^ 23)%N) by (apply N.div_lt_upper_bound; [easy|]; change (2 ^ 29 * 2 ^ 23)%N with (2 ^ 52)%N; lia).
    assert (P : (2 ^ 22 <= N.lor (2 ^ 22) (p / 2 ^ 29))%N).
    { destruct (N.le_gt_cases (2 ^ 22) (N.lor (2 ^ 22) (p / 2 ^ 29))) as [C|C]; [exact C|exfalso].
      assert (T : N.testbit (N.lor (2 ^ 22) (p / 2 ^ 29)) 22 = true) by (rewrite N.lor_spec, N.pow2_bits_true; reflexivity).
      destruct (N.eq_dec (N.lor (2 ^ 22) (p / 2 ^ 29)) 0) as [Z|Z]; [rewrite Z in T; discriminate|].
      rewrite N.bits_above_log2 in T; [discriminate|]. apply N.log2_lt_pow2; [lia|exact C]. }
    assert (L : (N.lor (2 ^ 22) (p / 2 ^ 29) < 2 ^ 23)%N).
    { destruct (N.eq_dec (N.lor (2 ^ 22) (p / 2 ^ 29)) 0) as [Z|Z]; [rewrite Z; reflexivity|]. apply N.log2_lt_pow2; [lia|]. rewrite N.log2_lor.
      apply N.max_lub_lt; [reflexivity|]. destruct (N.eq_dec (p / 2 ^ 29) 0) as [Z'|Z']; [rewrite Z'; reflexivity|]. apply N.log2_lt_pow2; [lia|exact B]. }
    change (2 ^ 22)%N with 4194304%N in *. lia.
  - unfold rne32. destruct (Z.eqb_spec (m * 2 ^ (e + 1074)) 0) as [Z|Z]; [reflexivity|].
    assert (P0 : (0 < m * 2 ^ (e + 1074))%Z) by (cbn [f64_wf] in W; assert (0 <= 2 ^ (e + 1074))%Z by (apply Z.pow_nonneg; lia); nia).
    assert (S0 : (0 < scale)%Z) by (unfold scale; apply Z.pow_pos_nonneg; lia).
    rewrite rne32_rnd by assumption. pose proof (rnd_normal 24 (-149) ltac:(lia) ltac:(lia) _ _ P0 S0) as N.
    destruct (rnd 24 (-149) _ _) as [m' e']. unfold g_make. cbn [fst snd]. destruct (Z.ltb_spec 104 e'); [reflexivity|]. now apply normal_f32.
Qed.
Lemma o_nums_parts id v : o_nums (OKserd id v) = true -> forall x, In x (ochildren v) -> o_nums x = true.
Proof.
  destruct v; cbn [o_nums ochildren]; intros H x X; try contradiction; rewrite forallb_forall in H.
  - now apply H.
  - apply in_map_iff in X. destruct X as (e & <- & X). now apply (H e).
  - now apply H.
  - apply in_flat_map in X. destruct X as (e & He & X). apply H in He. apply andb_true_iff in He. destruct X as [<-|[<-|[]]]; apply He.
Qed.

Section Range.
Context {Q U Er : Type} (E : errors Er) (J : impl Q U Er) (f : Q -> visit -> dres U Er).
Hypothesis same : forall q v, visit_ok v = true -> f q v = on_value J q v.
Notation J' := (with_values J f).
Lemma range_seq (g : Q -> okserd -> dres U Er) g' : forall l c, (forall q x, In x l -> g' q x = g q x) -> run_seq J' g' c l = run_seq J g c l.
Proof.
  induction l as [|x l IH]; intros c H; cbn [run_seq with_values seq_step]; destruct (seq_step J c); try reflexivity.
  rewrite H by (left; reflexivity). apply IH. intros; apply H. now right.
Qed.
Lemma range_map {K} (h h' : Q -> K -> dres U Er) (g g' : Q -> okserd -> dres U Er) : forall l c, (forall q e, In e l -> h' q (fst e) = h q (fst e) /\ g' q (snd e) = g q (snd e)) ->
  run_map J' h' g' c l = run_map J h g c l.
Proof.
  induction l as [|[k x] l IH]; intros c H; cbn [run_map with_values map_step]; destruct (map_step J c) as [r|d next]; try reflexivity.
  destruct (H d (k, x) (or_introl eq_refl)) as [E1 _]. cbn [fst snd] in E1. rewrite E1. change (value_step J') with (value_step J). destruct (value_step J _) as [c'|d' next'].
  - apply IH. intros; apply H. now right.
  - destruct (H d' (k, x) (or_introl eq_refl)) as [_ E2]. cbn [fst snd] in E2. rewrite E2. apply IH. intros; apply H. now right.
Qed.
Lemma visits_in_range : forall k q, o_nums k = true -> run E J' q k = run E J q k.
Proof.
  induction k as [id v IH] using okserd_ind'. rewrite Forall_forall in IH. intros q W. pose proof (o_nums_parts id v W) as WP.
  assert (IH' : forall q x, In x (ochildren v) -> run E J' q x = run E J q x) by (intros; apply IH; auto). clear IH WP.
  rewrite !run_eq. change (start J' q) with (start J q). destruct (start J q) as [r|m w post]; [reflexivity|]. f_equal.
  assert (ANY : forall w, decode E J' (run E J') MAny w (OKserd id v) = decode E J (run E J) MAny w (OKserd id v)).
  { clear m w post. intros w. cbn [decode]. destruct v as [|b|[n|n|x]|[]|[]|l|m|l|m]; cbn [ochildren o_nums num_wf] in *;
      try (apply same; reflexivity); try (apply same; exact W).
    - change (on_value J') with f. apply same. cbn [visit_ok]. unfold fits64. destruct (in_ntype Tu64 n) eqn:F; [exact F|]. exact W.
    - change (on_value J') with f. apply same. cbn [visit_ok]. unfold fits64. destruct (in_ntype Ti64 n) eqn:F; [exact F|]. exact W.
    - assert (G : forall c, run_seq J' (run E J') c l = run_seq J (run E J) c l) by (intros; now apply range_seq).
      destruct l as [|x [|y l]]; destruct (option_map cow_get id); try destruct (str_eqb _ _); try apply G; try (apply same; reflexivity); try (apply IH'; left; reflexivity).
    - apply range_map. intros q' e He. split; [reflexivity|]. apply IH', in_map, He.
    - now apply range_seq.
    - apply range_map. intros q' e He. split; apply IH'; (apply in_flat_map; exists e; split; [exact He|cbn; auto]). }
  destruct m; try exact (ANY w); clear ANY; cbn [decode].
  - (* integers *) destruct v; try reflexivity. destruct (if ntype_signed t then _ else _); [|reflexivity]. destruct (in_ntype t z) eqn:R; [|reflexivity]. now apply same.
  - destruct v; try reflexivity. apply same. cbn [visit_ok o_nums] in *. now apply f64_to_f32_wf, as_f64_wf.
  - destruct v; try reflexivity. apply same. cbn [visit_ok o_nums] in *. now apply as_f64_wf.
  - destruct v; try reflexivity. destruct (cow_get t) as [|a [|b l]]; try reflexivity. now apply same.
  - destruct v as [| | | | |[|x l]| | |]; try reflexivity. now apply same.
  - change (on_enum J') with (on_enum J). destruct (on_enum J w) as [r|d err next]; [reflexivity|]. destruct (option_map cow_get id) as [i|]; [|reflexivity].
    change (on_variant_name J') with (on_variant_name J). destruct (on_variant_name J d i) as [e|u]; [reflexivity|]. destruct (next u) as [r|post'|d' post'|len w' post'|w' post']; f_equal.
    + destruct v as [| | | | |[|x l]| | |]; reflexivity.
    + destruct v as [| | | | |[|x [|y l]]| | |]; try reflexivity. apply IH'. left; reflexivity.
    + destruct v as [| | | | |l| | |]; try reflexivity. destruct (Nat.eqb _ _); [|reflexivity]. now apply range_seq.
    + destruct v as [| | | | |l|m| |]; try reflexivity. apply range_map. intros q' e He. split; [reflexivity|]. apply IH', in_map, He.
Qed.
End Range.
