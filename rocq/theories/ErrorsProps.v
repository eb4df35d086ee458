From Verif Require Import Base BaseProps F64 Number BTree Value ValueSpec ValueProps ValueProps2 Nav NavSpec Fmt Formatter FmtSpec Ser Errors FormatterProps3.
Open Scope list_scope.
Open Scope N_scope.

Lemma id_error_inj a b : id_error_text a = id_error_text b -> a = b.
Proof. unfold id_error_text. intros H. apply app_inv_head in H. now apply app_inv_tail in H. Qed.

Lemma ser_err_inj e e' : ser_err_text e = ser_err_text e' -> e = e'.
Proof.
  destruct e as [|a|a], e' as [|b|b]; cbn [ser_err_text]; intros H; try reflexivity; try discriminate H.
  - f_equal. now apply id_error_inj.
  - f_equal. now apply app_inv_head in H.
Qed.

Lemma to_kserd_err_inj e e' : to_kserd_err_text e = to_kserd_err_text e' -> e = e'.
Proof.
  destruct e as [a|a], e' as [b|b]; cbn [to_kserd_err_text]; intros H; try discriminate H.
  - f_equal. now apply id_error_inj.
  - f_equal. now apply app_inv_head in H.
Qed.

Lemma fmt_error_inj e e' : fmt_error_text e = fmt_error_text e' -> e = e'.
Proof.
  destruct e as [| | |[] []|], e' as [| | |[] []|]; intros H; try reflexivity; vm_compute in H; discriminate H.
Qed.

Lemma mem_In c l : mem c l = true <-> In c l.
Proof.
  unfold mem. rewrite existsb_exists. split.
  - intros (x & I & E). apply N.eqb_eq in E. now subst.
  - intros I. exists c. split; [exact I|apply N.eqb_refl].
Qed.

Lemma id_error_lists id v k : with_id id v = inl k -> exists bad,
  id_error_text k = (s "identity '" ++ id ++ s "' contains invalid characters. Invalid characters: '" ++ bad ++ s "'")%list /\
  (exists c, In c id /\ In c bad) /\ (forall c w, In c bad <-> exists e, with_id [c] w = inl e).
Proof.
  unfold with_id. intros H. destruct (existsb _ id) eqn:E; [|discriminate]. injection H as <-.
  exists id_invalid_chars. split; [reflexivity|]. split.
  - apply existsb_exists in E as (c & I & M). apply mem_In in M. eauto.
  - intros c w. cbn [existsb]. rewrite orb_false_r. split.
    + intros I. apply mem_In in I. rewrite I. eauto.
    + destruct (mem c id_invalid_chars) eqn:M; [intros _; now apply mem_In|intros (e & [=])].
Qed.

Lemma fields_of_in {V} (l : list (str * V)) name : In name (map fst l) -> In name (map fst (fields_of l)).
Proof.
  intros I. destruct (in_dec (list_eq_dec N.eq_dec) name (map fst (fields_of l))) as [Y|N0]; [exact Y|exfalso].
  pose proof (fields_of_names l (fun n => negb (str_eqb n name))) as F.
  assert (T : forallb (fun e => negb (str_eqb (fst e) name)) (fields_of l) = true).
  { apply forallb_forall. intros e He. apply negb_true_iff. destruct (str_eqb (fst e) name) eqn:Q; [|reflexivity].
    exfalso. apply N0. apply str_eqb_eq in Q. rewrite <- Q. now apply in_map. }
  rewrite F in T. rewrite forallb_forall in T. apply in_map_iff in I as (e & <- & He). specialize (T e He).
  rewrite str_eqb_refl in T. discriminate.
Qed.

Lemma find_split {A} (p : A -> bool) l c : find p l = Some c -> exists a b, l = a ++ c :: b /\ p c = true /\ forallb (fun x => negb (p x)) a = true.
Proof.
  induction l as [|x l IH]; cbn [find]; [discriminate|]. destruct (p x) eqn:P.
  - intros [= <-]. exists [], l. auto.
  - intros H. destruct (IH H) as (a & b & -> & Q & R). exists (x :: a), b. cbn [app forallb]. rewrite P. auto.
Qed.

Lemma name_bad c : mem c name_invalid_chars = mem c [32; 47; 92; 34; 9; 39].
Proof. reflexivity. Qed.

Lemma validate_first {A} (m : list (str * A)) text : strictly_sorted str_cmp m = true -> validate_all_text m = Some text ->
  exists name e, In name (map fst m) /\ validate_name name = Some e /\ text = name_error_text name e /\
   (forall name', In name' (map fst m) -> str_cmp name' name = Lt -> validate_name name' = None).
Proof.
  induction m as [|[k v] m IH]; cbn [validate_all_text map fst]; [discriminate|]. intros S H.
  cbn [strictly_sorted] in S. apply andb_true_iff in S as [S1 S2]. rewrite forallb_forall in S1.
  destruct (validate_name k) as [e|] eqn:E.
  - injection H as <-. exists k, e. repeat split; [now left|exact E|]. intros n' [<-|I] L.
    + rewrite str_cmp_refl in L. discriminate.
    + exfalso. apply in_map_iff in I as (x & <- & I). specialize (S1 x I). cbn [fst] in S1.
      destruct (str_cmp k (fst x)) eqn:C; try discriminate. rewrite str_cmp_antisym, C in L. discriminate.
  - destruct (IH S2 H) as (n & e & I & V & T & F). exists n, e. repeat split; auto; [now right|].
    intros n' [<-|I'] L; [exact E|auto].
Qed.

Lemma new_cntr_error_iff l : new_cntr_error l = None <-> exists v, new_cntr l = inr v.
Proof.
  unfold new_cntr_error, new_cntr. set (m := fields_of l).
  assert (V : validate_all_text m = None <-> validate_all m = None).
  { clearbody m. induction m as [|[k v] m IH]; cbn [validate_all_text validate_all]; [tauto|].
    destruct (validate_name k); [split; discriminate|exact IH]. }
  destruct (validate_all_text m) as [x|], (validate_all m) as [y|]; cbn [option_map]; split; intros H; try discriminate; eauto.
  - destruct H as (? & [=]).
  - destruct V as [_ V]. discriminate (V eq_refl).
  - destruct V as [V _]. discriminate (V eq_refl).
Qed.

Lemma field_error l text : new_cntr_error l = Some text -> exists name,
  In name (map fst l) /\ (forall name', In name' (map fst l) -> str_cmp name' name = Lt -> good_name name' = true) /\
  ((name = [] /\ text = s "invalid field name: name is empty") \/
   (exists d r, name = d :: r /\ is_digit d = true /\ text = s "invalid field name: name can not begin with digit") \/
   (exists c a b, name = a ++ c :: b /\ In c [32; 47; 92; 34; 9; 39] /\ (forall x, In x a -> ~ In x [32; 47; 92; 34; 9; 39]) /\
     text = (s "invalid field name: invalid character '" ++ [c] ++ s "' exists in name '" ++ name ++ s "'")%list)).
Proof.
  unfold new_cntr_error. destruct (validate_all_text (fields_of l)) as [t|] eqn:E; [|discriminate]. intros [= <-].
  destruct (fields_of_spec l) as (S & I & _). destruct (validate_first _ _ S E) as (n & e & In_ & V & -> & F).
  exists n. split; [|split].
  - apply in_map_iff in In_ as (x & <- & Hx). apply in_map. now apply I.
  - intros n' H L. apply validate_name_spec. apply F; [now apply fields_of_in|exact L].
  - destruct n as [|c r]; cbn [validate_name] in V.
    + injection V as <-. left. auto.
    + right. destruct (is_digit c) eqn:D.
      * injection V as <-. left. exists c, r. auto.
      * right. destruct (find _ (c :: r)) as [x|] eqn:Q; [|discriminate]. injection V as <-.
        apply find_split in Q as (a & b & E' & P & R). exists x, a, b. rewrite E'. split; [reflexivity|].
        rewrite name_bad in P. split; [now apply mem_In|]. split; [|reflexivity].
        intros y Y H. rewrite forallb_forall in R. specialize (R y Y). rewrite name_bad in R. apply mem_In in H. rewrite H in R. discriminate.
Qed.

Lemma too_high_text k fm r i fm' max req : reachable k fm -> fm_request r fm i = LRet (fm', Some (RequestTooHigh max req)) ->
  exists n, nav_get (fm_nav fm) i = Some n /\
  fmt_error_text (RequestTooHigh max req) =
    (s "requested format '" ++ layout_name r ++ s "' is higher than the value maximally allows '" ++ layout_name (kind_max (n_kserd n)) ++ s "'")%list.
Proof.
  intros R E. destruct (request_spec k fm r i R) as (fm0 & res & E0 & _ & _ & _ & M). rewrite E0 in E. injection E as <- ->.
  destruct M as (_ & n & N & -> & -> & _). exists n. split; [exact N|]. destruct r, (kind_max (n_kserd n)); reflexivity.
Qed.
