(** Proofs about values, continued: constructors, conversions, accessors. *)
From Verif Require Import Base BaseProps F64 Number NumberSpec NumberProps NumberProps3 BTree BTreeProps Value ValueSpec ValueProps.
Open Scope N_scope.

(** ** specification vocabulary vs the proofs' own *)
Lemma last_value_spec {K V} cmp (k : K) (l : list (K * V)) : last_value cmp k l = last_binding cmp k l.
Proof.
  unfold last_value. induction l as [|e l IH] using rev_ind; [reflexivity|].
  rewrite last_binding_app, rev_app_distr. cbn [rev app find last_binding].
  destruct (cmp k (fst e)); cbn [option_map]; auto.
Qed.

Lemma strictly_sorted_spec {K V} P cmp (L : lawful P cmp) (m : list (K * V)) : keysP P m ->
  strictly_sorted cmp m = ascending cmp m.
Proof.
  induction m as [|e m IH]; intros HP; [reflexivity|].
  apply eq_true_iff_eq. rewrite (ascending_cons P cmp L e m HP). cbn [strictly_sorted].
  inversion HP; subst. rewrite <- IH by assumption. rewrite andb_true_iff, forallb_forall.
  unfold below. rewrite Forall_forall. split; intros [H3 H4]; split; auto; intros x Hx; specialize (H3 x Hx);
    destruct (cmp (fst e) (fst x)); congruence.
Qed.

Lemma strictly_sorted_inserts {K V} cmp (m : list (K * V)) :
  (forall a b, cmp b a = CompOpp (cmp a b)) ->
  strictly_sorted cmp m = true -> bt_inserts cmp m = m.
Proof.
  intros A. induction m as [|e m IH] using rev_ind; [reflexivity|]. intros S.
  assert (H : strictly_sorted cmp m = true /\ Forall (fun x => cmp (fst e) (fst x) = Gt) m).
  { clear IH. induction m as [|x m IHm]; [split; [reflexivity|constructor]|].
    cbn [app strictly_sorted] in *. apply andb_true_iff in S as [S1 S2].
    destruct (IHm S2) as [S3 S4]. rewrite forallb_app in S1. apply andb_true_iff in S1 as [S1 S5].
    cbn [forallb] in S5. rewrite andb_true_r in S5. split; [now rewrite S1|]. constructor; [|assumption].
    rewrite (A (fst x) (fst e)). destruct (cmp (fst x) (fst e)); try discriminate. reflexivity. }
  destruct H as [H1 H2]. rewrite bt_inserts_snoc, IH by assumption.
  rewrite insert_snoc by exact H2. now destruct e.
Qed.

(** ** constructors *)
Definition good_key (k : kserd) : Prop := k_exact k = true /\ no_empty_cntr k = true.
Lemma good_key_lawful : lawful good_key k_cmp.
Proof.
  pose proof k_lawful as L. constructor.
  - apply (law_refl _ _ L).
  - apply (law_anti _ _ L).
  - intros a b c [A _] [B _] [C _]. apply (law_trans _ _ L); now apply k_exact_ordinary.
  - intros a b c [A _] [B _] [C _]. apply (law_eq _ _ L); now apply k_exact_ordinary.
Qed.
Lemma good_key_eqb a b : good_key a -> good_key b -> k_eqb a b = true <-> k_cmp a b = Eq.
Proof.
  intros [A A'] [B B']. rewrite k_eqb_cmp by assumption. rewrite !unify_empty_id by assumption.
  destruct (k_cmp a b); cbn; split; congruence.
Qed.

Lemma map_of_spec (l : list (kserd * kserd)) : Forall (fun e => good_key (fst e)) l ->
  exists m, new_map l = VMap m /\ strictly_sorted k_cmp m = true /\
    (forall e, In e m -> In e l) /\
    (forall k, good_key k -> bt_get k_cmp k m = last_value k_cmp k l).
Proof.
  intros H. exists (map_of l). split; [reflexivity|]. unfold map_of.
  destruct (bt_from_list_spec good_key k_cmp k_eqb good_key_lawful good_key_eqb l H) as (H1 & H2 & H3).
  repeat split.
  - rewrite (strictly_sorted_spec good_key k_cmp good_key_lawful); assumption.
  - intros e He. now apply bt_from_list_in in He.
  - intros k Hk. rewrite last_value_spec. now apply H3.
Qed.

Lemma str_eqb_cmp' (a b : str) : True -> True -> str_eqb a b = true <-> str_cmp a b = Eq.
Proof. intros _ _. apply str_eqb_cmp. Qed.

Lemma fields_of_spec {V} (l : list (str * V)) :
  strictly_sorted str_cmp (fields_of l) = true /\
  (forall e, In e (fields_of l) -> In e l) /\
  (forall k, bt_get str_cmp k (fields_of l) = last_value str_cmp k l).
Proof.
  unfold fields_of.
  destruct (bt_from_list_spec (fun _ => True) str_cmp str_eqb str_lawful str_eqb_cmp' l (keysP_true l)) as (H1 & H2 & H3).
  repeat split.
  - rewrite (strictly_sorted_spec (fun _ => True) str_cmp str_lawful); assumption.
  - intros e He. now apply bt_from_list_in in He.
  - intros k. rewrite last_value_spec. now apply H3.
Qed.

Lemma last_value_some {K V} cmp (k : K) (v : V) l : cmp k k = Eq -> In (k, v) l -> last_value cmp k l <> None.
Proof.
  intros R H. unfold last_value. destruct (find _ (rev l)) eqn:E; [discriminate|].
  exfalso. pose proof (find_none _ _ E (k, v) (proj1 (in_rev _ _) H)) as F. cbn in F. now rewrite R in F.
Qed.

Lemma mem_In c l : mem c l = true <-> In c l.
Proof.
  unfold mem. rewrite existsb_exists. split.
  - intros (x & Hx & E). apply N.eqb_eq in E. now subst.
  - intros H. exists c. split; [assumption|apply N.eqb_refl].
Qed.

Lemma validate_name_spec t : validate_name t = None <-> good_name t = true.
Proof.
  unfold validate_name, good_name. destruct t as [|c t]; [cbn; split; discriminate|].
  destruct (is_digit c) eqn:D; [cbn [negb]; split; discriminate|]. cbn [negb]. rewrite andb_true_l.
  change name_invalid_chars with [32; 47; 92; 34; 9; 39].
  generalize (c :: t). intros l.
  destruct (find _ l) as [x|] eqn:E; cbn [option_map].
  - apply find_some in E as [Hx Mx]. split; [discriminate|]. rewrite forallb_forall.
    intros H. specialize (H x Hx). now rewrite Mx in H.
  - split; [intros _|reflexivity]. apply forallb_forall. intros x Hx.
    pose proof (find_none _ _ E x Hx) as F. cbn beta in F. now rewrite F.
Qed.

Lemma validate_all_spec {A} (m : list (str * A)) : validate_all m = None <-> forallb (fun e => good_name (fst e)) m = true.
Proof.
  induction m as [|[k v] m IH]; cbn [validate_all forallb fst]; [tauto|].
  rewrite andb_true_iff, <- IH, <- validate_name_spec. destruct (validate_name k); intuition congruence.
Qed.

Lemma fields_of_names {V} (l : list (str * V)) p :
  forallb (fun e => p (fst e)) (fields_of l) = forallb (fun e => p (fst e)) l.
Proof.
  apply eq_true_iff_eq. rewrite !forallb_forall. destruct (fields_of_spec l) as (S & I & G). split; intros H e He.
  - destruct e as [k v]. cbn [fst]. destruct (bt_get str_cmp k (fields_of l)) as [v'|] eqn:E.
    + apply get_some in E as (k' & Hin & C). apply str_cmp_eq in C. subst k'. exact (H _ Hin).
    + rewrite G in E. exfalso. apply (last_value_some str_cmp k v l (str_cmp_refl k) He E).
  - apply H. now apply I.
Qed.

Lemma new_cntr_ok l : forallb (fun e => good_name (fst e)) l = true ->
  exists m, new_cntr l = inr (VCntr m) /\ strictly_sorted str_cmp m = true /\
    (forall e, In e m -> In e l) /\
    (forall k, bt_get str_cmp k m = last_value str_cmp k l).
Proof.
  intros H. exists (fields_of l). destruct (fields_of_spec l) as (S & I & G). split; [|auto].
  unfold new_cntr. rewrite (proj2 (validate_all_spec (fields_of l))); [reflexivity|].
  now rewrite (fields_of_names l good_name).
Qed.
Lemma new_cntr_err l : forallb (fun e => good_name (fst e)) l = false -> exists e, new_cntr l = inl e.
Proof.
  intros H. unfold new_cntr. destruct (validate_all (fields_of l)) as [e|] eqn:E; [now exists e|].
  apply validate_all_spec in E. rewrite (fields_of_names l good_name) in E. congruence.
Qed.

Lemma with_id_spec id v :
  with_id id v = if forallb (fun c => negb (mem c reserved)) id then inr (Kserd (Some id) v) else inl id.
Proof.
  unfold with_id. change id_invalid_chars with reserved.
  induction id as [|c id IH]; [reflexivity|]. cbn [existsb forallb].
  destruct (mem c reserved); [reflexivity|]. cbn [orb negb andb].
  destruct (existsb _ id), (forallb _ id); try discriminate IH; congruence.
Qed.

(** ** conversions *)
Lemma map_id_Forall {A} (f : A -> A) l : Forall (fun x => f x = x) l -> map f l = l.
Proof. induction 1 as [|x l H HF IH]; [reflexivity|]. cbn [map]. now rewrite H, IH. Qed.
Lemma map_snd_id {A B} (f : B -> B) (m : list (A * B)) : Forall (fun x => f x = x) (map snd m) ->
  map (fun e => (fst e, f (snd e))) m = m.
Proof.
  rewrite Forall_map_snd. intros H. apply map_id_Forall. eapply Forall_impl; [|exact H]. cbn beta.
  intros [a b]. cbn [fst snd]. now intros ->.
Qed.
Lemma map_entry_id {A} (f : A -> A) (m : list (A * A)) : Forall (fun x => f x = x) (entry_list m) ->
  map (fun e => (f (fst e), f (snd e))) m = m.
Proof.
  rewrite Forall_entries. intros H. apply map_id_Forall. eapply Forall_impl; [|exact H]. cbn beta.
  intros [a b]. cbn [fst snd]. now intros [-> ->].
Qed.

Lemma k_clone_id k : k_clone k = k.
Proof.
  induction k as [id v IH] using kserd_ind'. cbn [k_clone]. f_equal.
  destruct v as [| | | | |l|m|l|m]; cbn [vchildren] in IH; try reflexivity; f_equal.
  - now apply map_id_Forall.
  - now apply map_snd_id.
  - now apply map_id_Forall.
  - now apply map_entry_id.
Qed.

Lemma into_owned_id k : k_sorted k = true -> into_owned k = k.
Proof.
  unfold k_sorted. induction k as [id v IH] using kserd_ind'. intros H.
  apply k_all_children in H as [N C].
  assert (M : Forall (fun x => into_owned x = x) (vchildren v)) by (rewrite Forall_forall in *; auto).
  cbn [into_owned]. f_equal.
  destruct v as [| | | | |l|m|l|m]; cbn [vchildren sorted_node kval] in *; try reflexivity; f_equal.
  - now apply map_id_Forall.
  - rewrite map_snd_id by assumption. apply strictly_sorted_inserts; [apply str_cmp_antisym|assumption].
  - now apply map_id_Forall.
  - rewrite map_entry_id by assumption. apply strictly_sorted_inserts; [intros; apply k_cmp_anti|assumption].
Qed.

Lemma mk_brw_id k : k_sorted k = true -> mk_brw k = k.
Proof.
  unfold k_sorted. induction k as [id v IH] using kserd_ind'. intros H.
  apply k_all_children in H as [N C].
  assert (M : Forall (fun x => mk_brw x = x) (vchildren v)) by (rewrite Forall_forall in *; auto).
  cbn [mk_brw]. f_equal.
  destruct v as [| | | | |l|m|l|m]; cbn [vchildren sorted_node kval] in *; try reflexivity; f_equal.
  - now apply map_id_Forall.
  - rewrite map_snd_id by assumption. apply strictly_sorted_inserts; [apply str_cmp_antisym|assumption].
  - now apply map_id_Forall.
  - rewrite map_entry_id by assumption. apply strictly_sorted_inserts; [intros; apply k_cmp_anti|assumption].
Qed.

(** ** accessors *)
Lemma get_field (m : list (str * kserd)) name k : strictly_sorted str_cmp m = true ->
  bt_get str_cmp name m = Some k <-> In (name, k) m.
Proof.
  intros S. rewrite (strictly_sorted_spec (fun _ => True) str_cmp str_lawful) in S by apply keysP_true. split; intros H.
  - apply get_some in H as (k' & Hin & E). apply str_cmp_eq in E. now subst.
  - apply (get_in (fun _ => True) str_cmp str_lawful); auto. apply keysP_true.
Qed.
Lemma get_with_spec {A} (f : value kserd -> option A) m name a : strictly_sorted str_cmp m = true ->
  get_with f m name = Some a <-> exists k, In (name, k) m /\ f (kval k) = Some a.
Proof.
  intros S. unfold get_with, opt_bind. split.
  - destruct (bt_get str_cmp name m) as [k|] eqn:E; [|discriminate]. intros H. exists k. split; [now apply get_field|assumption].
  - intros (k & Hin & H). apply get_field in Hin; [|assumption]. now rewrite Hin.
Qed.

(** ** equality on exact data is an equivalence *)
Lemma unify_empty_ordinary k : k_ordinary k = true -> k_ordinary (unify_empty k) = true.
Proof.
  unfold k_ordinary. induction k as [id v IH] using kserd_ind'. intros H.
  apply k_all_children in H as [N C].
  assert (M : Forall (fun x => k_all (num_node ordinary) (unify_empty x) = true) (vchildren v)) by (rewrite Forall_forall in *; auto).
  cbn [unify_empty]. apply k_all_children.
  destruct v as [| | | | |l|m|l|m]; cbn [vchildren] in *; try (split; [exact N|now constructor]).
  - split; [reflexivity|]. now apply Forall_map.
  - destruct m as [|e m]; [split; [reflexivity|constructor]|].
    set (m0 := e :: m) in *. split; [reflexivity|]. cbn [vchildren].
    apply Forall_map_snd. apply Forall_map. apply Forall_map_snd in M. exact M.
  - split; [reflexivity|]. now apply Forall_map.
  - split; [reflexivity|]. apply Forall_entries. apply Forall_map. apply Forall_entries in M. exact M.
Qed.

Lemma k_eqb_sym a b : k_exact a = true -> k_exact b = true -> k_eqb a b = k_eqb b a.
Proof.
  intros A B. rewrite !k_eqb_cmp by assumption. rewrite (k_cmp_anti (unify_empty a)).
  now destruct (k_cmp (unify_empty a) (unify_empty b)).
Qed.
Lemma k_eqb_trans a b c : k_exact a = true -> k_exact b = true -> k_exact c = true ->
  k_eqb a b = true -> k_eqb b c = true -> k_eqb a c = true.
Proof.
  intros A B C. rewrite !k_eqb_cmp by assumption.
  pose proof (unify_empty_ordinary _ (k_exact_ordinary _ A)) as A'.
  pose proof (unify_empty_ordinary _ (k_exact_ordinary _ B)) as B'.
  pose proof (unify_empty_ordinary _ (k_exact_ordinary _ C)) as C'.
  destruct (k_cmp (unify_empty a) (unify_empty b)) eqn:E; try discriminate. intros _.
  now rewrite (law_eq _ _ k_lawful _ _ (unify_empty c) A' B' C' E).
Qed.
Lemma k_eqb_cmp_eq a b : k_exact a = true -> k_exact b = true ->
  no_empty_cntr a = true -> no_empty_cntr b = true -> k_eqb a b = true <-> k_cmp a b = Eq.
Proof. intros. apply good_key_eqb; now split. Qed.
Lemma k_eqb_unify a b : k_exact a = true -> k_exact b = true ->
  k_eqb a b = true <-> k_cmp (unify_empty a) (unify_empty b) = Eq.
Proof.
  intros. rewrite k_eqb_cmp by assumption. destruct (k_cmp (unify_empty a) (unify_empty b)); cbn; split; congruence.
Qed.

Lemma erase_erase k : erase (erase k) = erase k.
Proof.
  induction k as [id v IH] using kserd_ind'. cbn [erase]. f_equal.
  destruct v as [| | | | |l|m|l|m]; cbn [vchildren] in IH; try reflexivity; f_equal; rewrite map_map.
  - apply map_ext_in. now apply Forall_forall.
  - apply map_ext_in. cbn [fst snd]. apply Forall_map_snd in IH. rewrite Forall_forall in IH. intros e He. now rewrite IH.
  - apply map_ext_in. now apply Forall_forall.
  - apply map_ext_in. cbn [fst snd]. apply Forall_entries in IH. rewrite Forall_forall in IH. intros e He.
    destruct (IH e He) as [-> ->]. reflexivity.
Qed.

Lemma accessors_by_kind : forall v : value kserd,
  (v_unit v = true <-> v = VUnit) /\
  (forall x, v_bool v = Some x <-> v = VBool x) /\
  (forall x, v_ch v = Some x <-> v = VStr [x]) /\
  (forall x, v_uint v = Some x <-> exists n, v = VNum n /\ as_u128 n = Some x) /\
  (forall x, v_int v = Some x <-> exists n, v = VNum n /\ as_i128 n = Some x) /\
  (forall x, v_float v = Some x <-> exists n, v = VNum n /\ as_f64 n = x) /\
  (forall x, v_num v = Some x <-> v = VNum x) /\
  (forall x, v_str v = Some x <-> v = VStr x) /\
  (forall x, v_barr v = Some x <-> v = VBarr x) /\
  (forall x, v_tuple v = Some x <-> v = VTuple x) /\
  (forall x, v_cntr v = Some x <-> v = VCntr x) /\
  (forall x, v_seq v = Some x <-> v = VSeq x) /\
  (forall x, v_tuple_or_seq v = Some x <-> v = VTuple x \/ v = VSeq x) /\
  (forall x, v_map v = Some x <-> v = VMap x).
Proof.
  intros v; repeat split; intros;
    repeat match goal with
    | H : exists _, _ |- _ => destruct H as (? & ? & ?)
    | H : _ \/ _ |- _ => destruct H
    end; subst; cbn in *; try reflexivity; try assumption;
    destruct v as [| | |t| | | | |]; cbn in *; try discriminate; try congruence;
    try match goal with H : Some _ = Some _ |- _ => injection H as H; subst end;
    try solve [eexists; split; [reflexivity|first [reflexivity|assumption]] | now left | now right].
  destruct t as [|c [|d t]]; cbn in *; congruence.
Qed.

Lemma ex_In_iff {A} (P Q : A -> Prop) (I : A -> Prop) : (forall k, P k <-> Q k) ->
  (exists k, I k /\ P k) <-> (exists k, I k /\ Q k).
Proof. intros H. split; intros (k & Hi & Hk); exists k; split; auto; now apply H. Qed.

Lemma field_lookup : forall (m : list (str * kserd)) (name : str),
  strictly_sorted str_cmp m = true ->
  (get_unit m name = Some tt <-> exists k, In (name, k) m /\ kval k = VUnit) /\
  (forall x, get_bool m name = Some x <-> exists k, In (name, k) m /\ kval k = VBool x) /\
  (forall x, get_num m name = Some x <-> exists k, In (name, k) m /\ kval k = VNum x) /\
  (forall x, get_str m name = Some x <-> exists k, In (name, k) m /\ kval k = VStr x) /\
  (forall x, get_barr m name = Some x <-> exists k, In (name, k) m /\ kval k = VBarr x) /\
  (forall x, get_tuple m name = Some x <-> exists k, In (name, k) m /\ kval k = VTuple x) /\
  (forall x, get_seq m name = Some x <-> exists k, In (name, k) m /\ kval k = VSeq x) /\
  (forall x, get_tuple_or_seq m name = Some x <-> exists k, In (name, k) m /\ (kval k = VTuple x \/ kval k = VSeq x)) /\
  (forall x, get_cntr m name = Some x <-> exists k, In (name, k) m /\ kval k = VCntr x) /\
  (forall x, get_map m name = Some x <-> exists k, In (name, k) m /\ kval k = VMap x).
Proof.
  intros m name S.
  unfold get_unit, get_bool, get_num, get_str, get_barr, get_tuple, get_seq, get_tuple_or_seq, get_cntr, get_map.
  refine (conj _ (conj _ (conj _ (conj _ (conj _ (conj _ (conj _ (conj _ (conj _ _)))))))));
    try intros x; rewrite get_with_spec by assumption; apply ex_In_iff; intros k;
    destruct (accessors_by_kind (kval k)) as (A1 & A2 & A3 & A4 & A5 & A6 & A7 & A8 & A9 & A10 & A11 & A12 & A13 & A14); auto.
  rewrite <- A1. destruct (v_unit (kval k)); split; congruence.
Qed.

Lemma constructor_ids :
  (forall t n, new_int t n = Kserd (Some (int_type_name t)) (VNum (int_value t n))) /\
  (forall x, new_f64 x = Kserd (Some (s "f64")) (VNum (Float x))) /\
  (forall b, new_bool b = Kserd (Some (s "bool")) (VBool b)) /\
  (forall t, new_str t = Kserd (Some (s "str")) (VStr t) /\ new_string t = Kserd (Some (s "String")) (VStr t)) /\
  (forall b, new_barr b = Kserd (Some (s "barr")) (VBarr b) /\ new_barrv b = Kserd (Some (s "ByteVec")) (VBarr b)) /\
  new_unit = Kserd None VUnit.
Proof. repeat split; try reflexivity. intros [] n; reflexivity. Qed.
Lemma constructor_ids_valid t : forall v,
  Forall (fun i => with_id i v = inr (Kserd (Some i) v)) [int_type_name t; s "f64"; s "f32"; s "bool"; s "str"; s "String"; s "barr"; s "ByteVec"].
Proof. intros v. destruct t; repeat constructor. Qed.
Lemma int_names_apart t u : int_type_name t = int_type_name u -> t = u.
Proof. destruct t, u; (reflexivity || discriminate). Qed.
