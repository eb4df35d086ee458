(** Proofs about the Encoder under any [Serialize] implementation. *)
From Verif Require Import Base BaseProps F64 F32 F32Spec F32Props Number NumberSpec NumberProps BTree BTreeProps Value ValueSpec ValueProps ValueProps2 RtProps6 Encode EncodeSpec EncodeProps EncodeProps2 EncodeProps5 Ser SerSpec.
Open Scope N_scope.

Scheme ser_mut := Induction for ser Sort Prop
  with elems_mut := Induction for elems Sort Prop
  with entries_mut := Induction for entries Sort Prop
  with fields_mut := Induction for fields Sort Prop.
Combined Scheme ser_all from ser_mut, elems_mut, entries_mut, fields_mut.

(** ** the calls and the state *)
Definition finish (r : option ser_err) (k : kserd) : sres kserd := match r with None => SOk k | Some e => SErr e end.
Lemma gave_seq c ks r : gave c ks r -> forall id l, run_elems seq_push (Kserd id (VSeq l)) c = finish r (Kserd id (VSeq (l ++ ks))).
Proof.
  induction 1 as [|e|p next k ks r E G IH|p next e ks r E G IH]; intros id l; cbn [run_elems]; [now rewrite app_nil_r|reflexivity| |]; rewrite E; cbn [sbind seq_push].
  - rewrite IH, <- app_assoc. reflexivity.
  - apply IH.
Qed.
Lemma gave_tuple c ks r : gave c ks r -> forall id l, run_elems tuple_push (Kserd id (VTuple l)) c = finish r (Kserd id (VTuple (l ++ ks))).
Proof.
  induction 1 as [|e|p next k ks r E G IH|p next e ks r E G IH]; intros id l; cbn [run_elems]; [now rewrite app_nil_r|reflexivity| |]; rewrite E; cbn [sbind tuple_push].
  - rewrite IH, <- app_assoc. reflexivity.
  - apply IH.
Qed.
Definition inserts {K V} (cmp : K -> K -> comparison) (es m : list (K * V)) : list (K * V) := fold_left (fun a e => bt_insert cmp (fst e) (snd e) a) es m.
Lemma gave_entries w c es r : gave_map w c es r -> forall id m, run_entries w (Kserd id (VMap m)) c = finish r (Kserd id (VMap (inserts k_cmp es m))).
Proof.
  induction 1; intros id m; cbn [run_entries]; try reflexivity;
    repeat match goal with H : run ?p = _ |- _ => rewrite H; clear H end; cbn [sbind map_insert]; rewrite IHgave_map; reflexivity.
Qed.
Lemma gave_struct c fs r : gave_fields c fs r -> forall id m, run_fields (Kserd id (VCntr m)) c = finish r (Kserd id (VCntr (inserts str_cmp fs m))).
Proof.
  induction 1; intros id m; cbn [run_fields]; try reflexivity;
    repeat match goal with H : run ?p = _ |- _ => rewrite H; clear H end; cbn [sbind field_insert]; rewrite IHgave_fields; reflexivity.
Qed.

(** without a panic the calls come to something *)
Lemma push_seq_ok st x : (exists st', seq_push st x = SOk st') \/ seq_push st x = SPanic.
Proof. unfold seq_push. destruct st as [id []]; eauto. Qed.
Lemma push_tuple_ok st x : (exists st', tuple_push st x = SOk st') \/ tuple_push st x = SPanic.
Proof. unfold tuple_push. destruct st as [id []]; eauto. Qed.
Lemma some_gave push c : (forall st x, (exists st', push st x = SOk st') \/ push st x = SPanic) -> forall st, run_elems push st c <> SPanic -> exists ks r, gave c ks r.
Proof.
  intros Q. induction c as [|e|p next IH]; intros st H; [now exists [], None; constructor|now exists [], (Some e); constructor|].
  cbn [run_elems] in H. destruct (run p) as [k|e|] eqn:E; cbn [sbind] in H; [| |congruence].
  - destruct (Q st k) as [[st' F]|F]; rewrite F in H; [|congruence]. destruct (IH _ _ H) as (ks & r & G). exists (k :: ks), r. now constructor.
  - destruct (IH _ _ H) as (ks & r & G). exists ks, r. now apply gave_error with e.
Qed.
Lemma some_gave_map c : forall w id m, run_entries w (Kserd id (VMap m)) c <> SPanic -> exists es r, gave_map w c es r.
Proof.
  induction c as [|e|p next IH|p next IH|p q next IH]; intros w id m H; [now exists [], None; constructor|now exists [], (Some e); constructor| | |]; cbn [run_entries] in H.
  - destruct (run p) as [k|e|] eqn:E; [| |congruence]; destruct (IH _ _ _ _ H) as (es & r & G); exists es, r; [now apply gm_key with k|now apply gm_key_error with e].
  - destruct w as [k|].
    + destruct (run p) as [v|e|] eqn:E; cbn [sbind map_insert] in H; [| |congruence]; destruct (IH _ _ _ _ H) as (es & r & G).
      * exists ((k, v) :: es), r. now constructor.
      * exists es, r. now apply gm_value_error with e.
    + destruct (IH _ _ _ _ H) as (es & r & G). exists es, r. now constructor.
  - destruct (run p) as [k|e|] eqn:E; cbn [sbind] in H; [| |congruence].
    + destruct (run q) as [v|e|] eqn:F; cbn [sbind map_insert] in H; [| |congruence]; destruct (IH _ _ _ _ H) as (es & r & G).
      * exists ((k, v) :: es), r. now constructor.
      * exists es, r. now apply gm_entry_value with k e.
    + destruct (IH _ _ _ _ H) as (es & r & G). exists es, r. now apply gm_entry_key with e.
Qed.
Lemma some_gave_fields c : forall id m, run_fields (Kserd id (VCntr m)) c <> SPanic -> exists fs r, gave_fields c fs r.
Proof.
  induction c as [|e|n p next IH|n next IH]; intros id m H; [now exists [], None; constructor|now exists [], (Some e); constructor| |]; cbn [run_fields] in H.
  - destruct (run p) as [v|e|] eqn:E; cbn [sbind field_insert] in H; [| |congruence]; destruct (IH _ _ _ H) as (fs & r & G).
    + exists ((n, v) :: fs), r. now constructor.
    + exists fs, r. now apply gf_error with e.
  - destruct (IH _ _ H) as (fs & r & G). exists fs, r. now constructor.
Qed.

(** ** what each kind of collection becomes *)
Lemma seq_ok c k : run (SSeq c) = SOk k <-> exists ks, gave c ks None /\ k = Kserd None (VSeq ks).
Proof.
  cbn [run]. unfold knew. split.
  - intros H. destruct (some_gave seq_push c push_seq_ok (Kserd None (VSeq []))) as (ks & r & G); [now rewrite H|].
    rewrite (gave_seq _ _ _ G) in H. destruct r; [discriminate|]. injection H as <-. now exists ks.
  - intros (ks & G & ->). now rewrite (gave_seq _ _ _ G).
Qed.
Lemma seq_err c e : run (SSeq c) = SErr e <-> exists ks, gave c ks (Some e).
Proof.
  cbn [run]. unfold knew. split.
  - intros H. destruct (some_gave seq_push c push_seq_ok (Kserd None (VSeq []))) as (ks & r & G); [now rewrite H|].
    rewrite (gave_seq _ _ _ G) in H. destruct r; [|discriminate]. injection H as <-. now exists ks.
  - intros (ks & G). now rewrite (gave_seq _ _ _ G).
Qed.
Lemma tuple_ok' id c k : run_elems tuple_push (Kserd id (VTuple [])) c = SOk k <-> exists ks, gave c ks None /\ k = Kserd id (VTuple ks).
Proof.
  split.
  - intros H. destruct (some_gave tuple_push c push_tuple_ok (Kserd id (VTuple []))) as (ks & r & G); [now rewrite H|].
    rewrite (gave_tuple _ _ _ G) in H. destruct r; [discriminate|]. injection H as <-. now exists ks.
  - intros (ks & G & ->). now rewrite (gave_tuple _ _ _ G).
Qed.
Lemma tuple_err' id c e : run_elems tuple_push (Kserd id (VTuple [])) c = SErr e <-> exists ks, gave c ks (Some e).
Proof.
  split.
  - intros H. destruct (some_gave tuple_push c push_tuple_ok (Kserd id (VTuple []))) as (ks & r & G); [now rewrite H|].
    rewrite (gave_tuple _ _ _ G) in H. destruct r; [|discriminate]. injection H as <-. now exists ks.
  - intros (ks & G). now rewrite (gave_tuple _ _ _ G).
Qed.
Lemma s_with_id_spec n v : s_with_id n v = if id_name n then SOk (Kserd (Some n) v) else SErr (InvalidId n).
Proof. unfold s_with_id. rewrite with_id_spec. unfold id_name. now destruct (forallb _ n). Qed.
Lemma named_ok {A} n v (f : kserd -> sres A) x : sbind (s_with_id n v) f = SOk x <-> id_name n = true /\ f (Kserd (Some n) v) = SOk x.
Proof. rewrite s_with_id_spec. destruct (id_name n); cbn [sbind]; intuition congruence. Qed.
Lemma named_err {A} n v (f : kserd -> sres A) e : sbind (s_with_id n v) f = SErr e <-> (id_name n = false /\ e = InvalidId n) \/ (id_name n = true /\ f (Kserd (Some n) v) = SErr e).
Proof. rewrite s_with_id_spec. destruct (id_name n); cbn [sbind]; intuition congruence. Qed.

Lemma tuple_ok c k : run (STuple c) = SOk k <-> exists ks, gave c ks None /\ k = Kserd None (VTuple ks).
Proof. apply tuple_ok'. Qed.
Lemma tuple_err c e : run (STuple c) = SErr e <-> exists ks, gave c ks (Some e).
Proof. apply tuple_err'. Qed.
Lemma named_tuple_ok p n c k : p = STupleStruct n c \/ p = STupleVariant n c ->
  run p = SOk k <-> id_name n = true /\ exists ks, gave c ks None /\ k = Kserd (Some n) (VTuple ks).
Proof. intros [->| ->]; cbn [run]; now rewrite named_ok, tuple_ok'. Qed.
Lemma named_tuple_err p n c e : p = STupleStruct n c \/ p = STupleVariant n c ->
  run p = SErr e <-> (id_name n = false /\ e = InvalidId n) \/ (id_name n = true /\ exists ks, gave c ks (Some e)).
Proof. intros [->| ->]; cbn [run]; now rewrite named_err, tuple_err'. Qed.

(** ** sorted maps *)
Section Sorted.
  Context {K V : Type} (P : K -> Prop) (cmp : K -> K -> comparison) (L : lawful P cmp).
  Lemma inserts_snoc (l : list (K * V)) e m : inserts cmp (l ++ [e]) m = bt_insert cmp (fst e) (snd e) (inserts cmp l m).
  Proof. unfold inserts. now rewrite fold_left_app. Qed.
  Lemma in_insert k k' v v' (m : list (K * V)) : In (k', v') (bt_insert cmp k v m) ->
    (k' = k /\ v' = v /\ bt_get cmp k m = None) \/ (cmp k k' = Eq /\ v' = v /\ exists v0, In (k', v0) m) \/ In (k', v') m.
  Proof.
    induction m as [|[k2 v2] m IH]; cbn [bt_insert bt_get].
    - intros [[= <- <-]|[]]. auto.
    - destruct (cmp k k2) eqn:E.
      + intros [[= <- <-]|H]; [right; left; split; [exact E|]; split; [reflexivity|]; exists v2; now left|right; right; now right].
      + intros [[= <- <-]|H]; [now left|right; right; exact H].
      + intros [[= <- <-]|H]; [right; right; now left|]. destruct (IH H) as [A|[(A & B & v0 & C)|A]]; [now left| |right; right; now right].
        right; left. split; [exact A|]. split; [exact B|]. exists v0. now right.
  Qed.
  Lemma first_snoc k (l : list (K * V)) e : first_key cmp k (l ++ [e]) =
    match first_key cmp k l with Some x => Some x | None => match cmp k (fst e) with Eq => Some (fst e) | _ => None end end.
  Proof.
    unfold first_key. induction l as [|x l IH]; cbn [app find]; [now destruct (cmp k (fst e))|]. destruct (cmp k (fst x)); [reflexivity|exact IH..].
  Qed.
  Lemma last_first k (l : list (K * V)) : last_binding cmp k l = None -> first_key cmp k l = None.
  Proof.
    unfold first_key. induction l as [|x l IH]; cbn [last_binding find]; [reflexivity|]. destruct (last_binding cmp k l); [discriminate|].
    destruct (cmp k (fst x)); [discriminate|auto..].
  Qed.
  Lemma inserts_hold (l : list (K * V)) : keysP P l -> holds cmp (inserts cmp l []) l.
  Proof.
    intros HP. destruct (bt_inserts_spec P cmp L l HP) as (A & B & C). change (bt_inserts cmp l) with (inserts cmp l []) in *.
    split; [now rewrite (strictly_sorted_spec P cmp L) by exact A|]. split.
    - intros k v Hin. assert (Pk : P k) by (unfold keysP in A; rewrite Forall_forall in A; exact (A _ Hin)). split.
      + clear C B. revert k v Hin Pk. induction l as [|e l IH] using rev_ind; intros k v Hin Pk; [destruct Hin|].
        rewrite inserts_snoc in Hin, A. apply Forall_app in HP as [HP He]. inversion He as [|? ? He' _]; subst.
        destruct (bt_inserts_spec P cmp L l HP) as (A' & B' & C'). change (bt_inserts cmp l) with (inserts cmp l []) in *. rewrite first_snoc.
        apply in_insert in Hin as [(-> & _ & N)|[(_ & _ & v0 & Hin)|Hin]].
        * rewrite C' in N by exact He'. rewrite (last_first _ _ N). now rewrite (law_refl _ _ L).
        * now rewrite (IH HP A' _ _ Hin Pk).
        * now rewrite (IH HP A' _ _ Hin Pk).
      + rewrite last_value_spec, <- C by exact Pk. now apply (get_in P cmp L).
    - intros k v Hin. assert (Pk : P k) by (unfold keysP in HP; rewrite Forall_forall in HP; exact (HP _ Hin)).
      pose proof (last_value_some cmp k v l (law_refl _ _ L k) Hin) as N. rewrite last_value_spec, <- C in N by exact Pk.
      destruct (bt_get cmp k (inserts cmp l [])) as [v'|] eqn:E; [|congruence]. apply get_some in E as (k' & H & Q). now exists k', v'.
  Qed.
  (** sorted as long as the keys in the map are lawful, whatever was inserted *)
  Lemma insert_keys k v (m : list (K * V)) : map fst (bt_insert cmp k v m) = map fst m \/ In k (map fst (bt_insert cmp k v m)).
  Proof. induction m as [|[k2 v2] m IH]; cbn [bt_insert]; [right; now left|]. destruct (cmp k k2); cbn [map fst]; [now left|right; now left|]. destruct IH as [->|IH]; [now left|right; now right]. Qed.
  Lemma insert_incl k v (m : list (K * V)) : keysP P (bt_insert cmp k v m) -> keysP P m.
  Proof.
    unfold keysP. induction m as [|[k2 v2] m IH]; cbn [bt_insert]; [constructor|]. destruct (cmp k k2); intros H; inversion H; subst; auto.
  Qed.
  Lemma ascending_keys (m m' : list (K * V)) : map fst m = map fst m' -> ascending cmp m = ascending cmp m'.
  Proof.
    revert m'. induction m as [|[k v] m IH]; intros [|[k' v'] m'] H; try discriminate; [reflexivity|]. injection H as <- H. specialize (IH _ H).
    destruct m as [|[]], m' as [|[]]; try discriminate; [reflexivity|]. injection H as <- H. cbn [ascending fst] in *. now rewrite IH.
  Qed.
  Lemma inserts_sorted (l : list (K * V)) : keysP P (inserts cmp l []) -> ascending cmp (inserts cmp l []) = true.
  Proof.
    induction l as [|e l IH] using rev_ind; [reflexivity|]. rewrite inserts_snoc. intros H. pose proof (insert_incl _ _ _ H) as H'. specialize (IH H').
    destruct (insert_keys (fst e) (snd e) (inserts cmp l [])) as [Q|Q]; [now rewrite (ascending_keys _ _ Q)|].
    apply (ascending_insert P cmp L); auto. apply in_map_iff in Q as (x & Q & Hx). unfold keysP in H. rewrite Forall_forall in H. rewrite <- Q. exact (H x Hx).
  Qed.
  (** [holds] says what the map is *)
  Lemma sorted_In (m m' : list (K * V)) : strictly_sorted cmp m = true -> strictly_sorted cmp m' = true -> (forall e, In e m <-> In e m') -> m = m'.
  Proof.
    revert m'. induction m as [|e m IH]; intros [|e' m'] S S' H.
    - reflexivity.
    - destruct (proj2 (H e') (or_introl eq_refl)).
    - destruct (proj1 (H e) (or_introl eq_refl)).
    - cbn [strictly_sorted] in S, S'. apply andb_true_iff in S as [S1 S2], S' as [S1' S2']. rewrite forallb_forall in S1, S1'.
      assert (N : forall x y : K, cmp x y = Lt -> cmp y x = Lt -> False) by (intros x y A B; rewrite (law_anti _ _ L x y), A in B; discriminate).
      assert (Q : e = e').
      { destruct (proj1 (H e) (or_introl eq_refl)) as [Q|Q]; [now symmetry|]. destruct (proj2 (H e') (or_introl eq_refl)) as [Q'|Q']; [assumption|].
        specialize (S1 _ Q'). specialize (S1' _ Q). destruct (cmp (fst e) (fst e')) eqn:A; try discriminate. destruct (cmp (fst e') (fst e)) eqn:B; try discriminate. destruct (N _ _ A B). }
      subst e'. f_equal. apply IH; auto. intros x.
      assert (R : forall l : list (K * V), (forall y, In y l -> match cmp (fst e) (fst y) with Lt => true | _ => false end = true) -> ~ In e l).
      { intros l F G. specialize (F e G). now rewrite (law_refl _ _ L) in F. }
      specialize (H x). cbn [In] in H. split; intros G.
      + destruct (proj1 H (or_intror G)) as [<-|G']; [destruct (R _ S1 G)|exact G'].
      + destruct (proj2 H (or_intror G)) as [<-|G']; [destruct (R _ S1' G)|exact G'].
  Qed.
  Lemma first_eq k k' (l : list (K * V)) : P k -> P k' -> keysP P l -> cmp k k' = Eq -> first_key cmp k l = first_key cmp k' l.
  Proof.
    intros Hk Hk' HP E. unfold first_key. induction HP as [|e l He HP IH]; [reflexivity|]. cbn [find]. rewrite (law_eq _ _ L k k' (fst e)) by assumption. now destruct (cmp k' (fst e)).
  Qed.
  Lemma holds_half (m m' l : list (K * V)) : keysP P l -> holds cmp m l -> holds cmp m' l -> forall e, In e m -> In e m'.
  Proof.
    intros HP (_ & A & _) (_ & A' & B') [k v] H. destruct (A _ _ H) as [F G].
    assert (X : forall k0 : K, first_key cmp k0 l = Some k0 -> exists v0, In (k0, v0) l).
    { intros k0 Y. unfold first_key in Y. destruct (find _ l) as [[k1 v1]|] eqn:Z; [|discriminate]. injection Y as Y. cbn [fst] in Y. subst k1. apply find_some in Z as [Z _]. now exists v1. }
    destruct (X k F) as [v0 Hin]. destruct (B' _ _ Hin) as (k' & v' & H' & Q). destruct (A' _ _ H') as [F' G']. destruct (X k' F') as [v1 Hin'].
    unfold keysP in HP. pose proof HP as HP'. rewrite Forall_forall in HP'. pose proof (HP' _ Hin) as P1. pose proof (HP' _ Hin') as P2. cbn [fst] in P1, P2.
    rewrite (first_eq k k' l P1 P2 HP Q) in F. rewrite F' in F. injection F as ->. rewrite G in G'. injection G' as ->. exact H'.
  Qed.
  Lemma holds_unique (m m' l : list (K * V)) : keysP P l -> holds cmp m l -> holds cmp m' l -> m = m'.
  Proof. intros HP H H'. apply sorted_In; [apply H|apply H'|]. intros e. split; now apply holds_half with l. Qed.
End Sorted.

Lemma map_ok c k : run (SMap c) = SOk k <-> exists es, gave_map None c es None /\ k = Kserd None (VMap (inserts k_cmp es [])).
Proof.
  cbn [run]. unfold knew. split.
  - intros H. destruct (some_gave_map c None None []) as (es & r & G); [now rewrite H|].
    rewrite (gave_entries _ _ _ _ G) in H. destruct r; [discriminate|]. injection H as <-. now exists es.
  - intros (es & G & ->). now rewrite (gave_entries _ _ _ _ G).
Qed.
Lemma map_err c e : run (SMap c) = SErr e <-> exists es, gave_map None c es (Some e).
Proof.
  cbn [run]. unfold knew. split.
  - intros H. destruct (some_gave_map c None None []) as (es & r & G); [now rewrite H|].
    rewrite (gave_entries _ _ _ _ G) in H. destruct r; [|discriminate]. injection H as <-. now exists es.
  - intros (es & G). now rewrite (gave_entries _ _ _ _ G).
Qed.
Lemma fields_ok' id c k : run_fields (Kserd id (VCntr [])) c = SOk k <-> exists fs, gave_fields c fs None /\ k = Kserd id (VCntr (inserts str_cmp fs [])).
Proof.
  split.
  - intros H. destruct (some_gave_fields c id []) as (fs & r & G); [now rewrite H|].
    rewrite (gave_struct _ _ _ G) in H. destruct r; [discriminate|]. injection H as <-. now exists fs.
  - intros (fs & G & ->). now rewrite (gave_struct _ _ _ G).
Qed.
Lemma fields_err' id c e : run_fields (Kserd id (VCntr [])) c = SErr e <-> exists fs, gave_fields c fs (Some e).
Proof.
  split.
  - intros H. destruct (some_gave_fields c id []) as (fs & r & G); [now rewrite H|].
    rewrite (gave_struct _ _ _ G) in H. destruct r; [|discriminate]. injection H as <-. now exists fs.
  - intros (fs & G). now rewrite (gave_struct _ _ _ G).
Qed.
Lemma map_iff c k : (forall es, gave_map None c es None -> Forall (fun e => k_ordinary (fst e) = true) es) ->
  run (SMap c) = SOk k <-> exists es m, gave_map None c es None /\ k = Kserd None (VMap m) /\ holds k_cmp m es.
Proof.
  intros O. rewrite map_ok. split.
  - intros (es & G & ->). exists es, (inserts k_cmp es []). split; [exact G|]. split; [reflexivity|]. apply (inserts_hold _ _ k_lawful), (O _ G).
  - intros (es & m & G & -> & H). exists es. split; [exact G|]. do 2 f_equal.
    apply (holds_unique _ _ k_lawful _ _ es (O _ G) H), (inserts_hold _ _ k_lawful), (O _ G).
Qed.
Lemma struct_iff' p n c k : p = SStruct n c \/ p = SStructVariant n c ->
  run p = SOk k <-> id_name n = true /\ exists fs m, gave_fields c fs None /\ k = Kserd (Some n) (VCntr m) /\ holds str_cmp m fs.
Proof.
  assert (X : run_fields (Kserd (Some n) (VCntr [])) c = SOk k <-> exists fs m, gave_fields c fs None /\ k = Kserd (Some n) (VCntr m) /\ holds str_cmp m fs).
  { rewrite fields_ok'. split.
    - intros (fs & G & ->). exists fs, (inserts str_cmp fs []). split; [exact G|]. split; [reflexivity|]. apply (inserts_hold _ _ str_lawful), keysP_true.
    - intros (fs & m & G & -> & H). exists fs. split; [exact G|]. do 2 f_equal.
      apply (holds_unique _ _ str_lawful _ _ fs (keysP_true _) H), (inserts_hold _ _ str_lawful), keysP_true. }
  intros [->| ->]; cbn [run]; now rewrite named_ok, X.
Qed.
Lemma struct_err p n c e : p = SStruct n c \/ p = SStructVariant n c ->
  run p = SErr e <-> (id_name n = false /\ e = InvalidId n) \/ (id_name n = true /\ exists fs, gave_fields c fs (Some e)).
Proof. intros [->| ->]; cbn [run]; now rewrite named_err, fields_err'. Qed.

(** ** every result is a valid Kserd, and nothing panics *)
Definition valid (k : kserd) : Prop := k_all id_node k = true /\ k_all typed_node k = true /\ k_all cntr_node k = true /\ k_all map_node k = true.
Lemma valid_node id v : id_node (Kserd id v) = true -> typed_node (Kserd id v) = true -> cntr_node (Kserd id v) = true -> map_node (Kserd id v) = true ->
  Forall valid (vchildren v) -> valid (Kserd id v).
Proof.
  intros A B C D F. unfold valid. repeat split; apply k_all_children; (split; [assumption|]); (eapply Forall_impl; [|exact F]); cbn beta; intros a (? & ? & ? & ?); assumption.
Qed.
Lemma valid_inserts {K} (Q : K -> Prop) (cmp : K -> K -> comparison) es : Forall (fun e => Q (fst e) /\ valid (snd e)) es -> Forall (fun e => Q (fst e) /\ valid (snd e)) (inserts cmp es []).
Proof. intros H. now apply keys_fold. Qed.

Definition fine (r : sres kserd) : Prop := match r with SOk k => valid k | SErr _ => True | SPanic => False end.
Lemma fine_finish r k : valid k -> fine (finish r k).
Proof. now destruct r. Qed.
Lemma fine_with_id n v : (id_name n = true -> valid (Kserd (Some n) v)) -> fine (s_with_id n v).
Proof. intros H. rewrite s_with_id_spec. destruct (id_name n); cbn [fine]; auto. Qed.
Lemma valid_tuple id ks : id_node (Kserd id (VTuple [])) = true -> Forall valid ks -> valid (Kserd id (VTuple ks)).
Proof. intros H F. now apply valid_node. Qed.
Lemma valid_cntr id fs : id_node (Kserd id (VCntr [])) = true -> Forall (fun e => valid (snd e)) fs -> valid (Kserd id (VCntr (inserts str_cmp fs []))).
Proof.
  intros H F. apply valid_node; auto.
  - unfold cntr_node. cbn [kval]. rewrite (strictly_sorted_spec _ _ str_lawful) by apply keysP_true. apply (inserts_sorted _ _ str_lawful), keysP_true.
  - cbn [vchildren]. apply Forall_map_snd. eapply Forall_impl; [|apply (valid_inserts (fun _ => True))]; [|eapply Forall_impl; [|exact F]; now auto]. intros a A. apply A.
Qed.
Lemma valid_map es : Forall (fun e => valid (fst e) /\ valid (snd e)) es -> valid (Kserd None (VMap (inserts k_cmp es []))).
Proof.
  intros F. apply valid_node; auto.
  - unfold map_node. cbn [kval]. destruct (forallb _ _) eqn:E; [|reflexivity]. assert (H : keysP (fun k => k_ordinary k = true) (inserts k_cmp es [])).
    { unfold keysP. rewrite forallb_forall in E. now apply Forall_forall. }
    rewrite (strictly_sorted_spec _ _ k_lawful) by exact H. now apply (inserts_sorted _ _ k_lawful).
  - cbn [vchildren]. apply Forall_entries. now apply valid_inserts.
Qed.
Lemma all_fine :
  (forall p, typed p -> fine (run p)) /\
  (forall c, typed_elems c -> exists ks r, gave c ks r /\ Forall valid ks) /\
  (forall c, typed_entries c -> forall w, match w with Some k => valid k | None => True end -> exists es r, gave_map w c es r /\ Forall (fun e => valid (fst e) /\ valid (snd e)) es) /\
  (forall c, typed_fields c -> exists fs r, gave_fields c fs r /\ Forall (fun e => valid (snd e)) fs).
Proof.
  apply ser_all; cbn [typed typed_elems typed_entries typed_fields run].
  - intros b _. cbn [fine]. apply valid_node; try reflexivity; constructor.
  - intros t n [T1 T2]. cbn [fine]. apply in_ntype_wf in T2. rewrite T1 in T2. apply valid_node; try reflexivity; [|exact T2|constructor]. unfold new_int. now destruct t.
  - intros x T. destruct (f32_number x T) as (y & A & B). rewrite A. cbn [fine]. apply valid_node; try reflexivity; [exact B|constructor].
  - intros x T. cbn [fine]. apply valid_node; try reflexivity; [exact T|constructor].
  - intros c _. cbn [fine]. apply valid_node; try reflexivity; constructor.
  - intros t _. cbn [fine]. apply valid_node; try reflexivity; constructor.
  - intros b T. cbn [fine]. apply valid_node; try reflexivity; [exact T|constructor].
  - intros t _. cbn [fine]. apply valid_node; try reflexivity; constructor.
  - intros _. cbn [fine]. apply valid_node; try reflexivity; constructor.
  - intros p IH T. specialize (IH T). destruct (run p); cbn [fine sbind] in *; auto. apply valid_tuple; auto.
  - intros _. cbn [fine]. apply valid_node; try reflexivity; constructor.
  - intros n _. apply fine_with_id. intros H. now apply valid_tuple.
  - intros n _. apply fine_with_id. intros H. now apply valid_tuple.
  - intros n p IH T. specialize (IH T). destruct (run p); cbn [fine sbind] in *; auto. apply fine_with_id. intros H. apply valid_tuple; auto.
  - intros n p IH T. specialize (IH T). destruct (run p); cbn [fine sbind] in *; auto. apply fine_with_id. intros H. apply valid_tuple; auto.
  - intros c IH T. destruct (IH T) as (ks & r & G & F). unfold knew. rewrite (gave_seq _ _ _ G). apply fine_finish. now apply valid_node.
  - intros c IH T. destruct (IH T) as (ks & r & G & F). unfold knew. rewrite (gave_tuple _ _ _ G). apply fine_finish. now apply valid_tuple.
  - intros n c IH T. destruct (IH T) as (ks & r & G & F). rewrite s_with_id_spec. destruct (id_name n) eqn:E; cbn [sbind fine]; [|exact Logic.I]. rewrite (gave_tuple _ _ _ G). apply fine_finish. now apply valid_tuple.
  - intros n c IH T. destruct (IH T) as (ks & r & G & F). rewrite s_with_id_spec. destruct (id_name n) eqn:E; cbn [sbind fine]; [|exact Logic.I]. rewrite (gave_tuple _ _ _ G). apply fine_finish. now apply valid_tuple.
  - intros c IH T. destruct (IH T None Logic.I) as (es & r & G & F). unfold knew. rewrite (gave_entries _ _ _ _ G). apply fine_finish. now apply valid_map.
  - intros n c IH T. destruct (IH T) as (fs & r & G & F). rewrite s_with_id_spec. destruct (id_name n) eqn:E; cbn [sbind fine]; [|exact Logic.I]. rewrite (gave_struct _ _ _ G). apply fine_finish. now apply valid_cntr.
  - intros n c IH T. destruct (IH T) as (fs & r & G & F). rewrite s_with_id_spec. destruct (id_name n) eqn:E; cbn [sbind fine]; [|exact Logic.I]. rewrite (gave_struct _ _ _ G). apply fine_finish. now apply valid_cntr.
  - intros msg _. exact Logic.I.
  - intros p IH f T. specialize (IH T). destruct (run p) as [k|e|]; cbn [fine] in *; [destruct (f None)|destruct (f (Some e))|]; cbn [fine]; auto.
  - intros _. exists [], None. split; constructor.
  - intros e _. exists [], (Some e). split; constructor.
  - intros p IH next IHn [T1 T2]. specialize (IH T1). destruct (run p) as [k|e|] eqn:E; [| |destruct IH].
    + destruct (IHn None (T2 None)) as (ks & r & G & F). exists (k :: ks), r. split; constructor; assumption.
    + destruct (IHn (Some e) (T2 (Some e))) as (ks & r & G & F). exists ks, r. split; [now apply gave_error with e|exact F].
  - intros _ w _. exists [], None. split; constructor.
  - intros e _ w _. exists [], (Some e). split; constructor.
  - intros p IH next IHn [T1 T2] w W. specialize (IH T1). destruct (run p) as [k|e|] eqn:E; [| |destruct IH].
    + destruct (IHn None (T2 None) (Some k) IH) as (es & r & G & F). exists es, r. split; [now apply gm_key with k|exact F].
    + destruct (IHn (Some e) (T2 (Some e)) w W) as (es & r & G & F). exists es, r. split; [now apply gm_key_error with e|exact F].
  - intros p IH next IHn [T1 T2] w W. specialize (IH T1). destruct w as [k|].
    + destruct (run p) as [v|e|] eqn:E; [| |destruct IH].
      * destruct (IHn None (T2 None) None Logic.I) as (es & r & G & F). exists ((k, v) :: es), r. split; [now apply gm_value|]. constructor; [now split|exact F].
      * destruct (IHn (Some e) (T2 (Some e)) None Logic.I) as (es & r & G & F). exists es, r. split; [now apply gm_value_error with e|exact F].
    + destruct (IHn (Some NoKeyAvailable) (T2 _) None Logic.I) as (es & r & G & F). exists es, r. split; [now apply gm_no_key|exact F].
  - intros p IHp q IHq next IHn (T1 & T2 & T3) w W. specialize (IHp T1). specialize (IHq T2). destruct (run p) as [k|e|] eqn:E; [| |destruct IHp].
    + destruct (run q) as [v|e|] eqn:E'; [| |destruct IHq].
      * destruct (IHn None (T3 None) w W) as (es & r & G & F). exists ((k, v) :: es), r. split; [now apply gm_entry|]. constructor; [now split|exact F].
      * destruct (IHn (Some e) (T3 (Some e)) w W) as (es & r & G & F). exists es, r. split; [now apply gm_entry_value with k e|exact F].
    + destruct (IHn (Some e) (T3 (Some e)) w W) as (es & r & G & F). exists es, r. split; [now apply gm_entry_key with e|exact F].
  - intros _. exists [], None. split; constructor.
  - intros e _. exists [], (Some e). split; constructor.
  - intros n p IH next IHn [T1 T2]. specialize (IH T1). destruct (run p) as [k|e|] eqn:E; [| |destruct IH].
    + destruct (IHn None (T2 None)) as (ks & r & G & F). exists ((n, k) :: ks), r. split; constructor; assumption.
    + destruct (IHn (Some e) (T2 (Some e))) as (ks & r & G & F). exists ks, r. split; [now apply gf_error with e|exact F].
  - intros n next IH T. destruct (IH T) as (fs & r & G & F). exists fs, r. split; [now constructor|exact F].
Qed.
Lemma run_valid p k : typed p -> run p = SOk k -> k_all id_node k = true /\ k_all typed_node k = true /\ k_all cntr_node k = true /\ k_all map_node k = true.
Proof. intros T E. pose proof (proj1 all_fine p T) as H. now rewrite E in H. Qed.
Lemma run_no_panic p : typed p -> run p <> SPanic.
Proof. intros T E. pose proof (proj1 all_fine p T) as H. now rewrite E in H. Qed.

(** ** derived implementations *)
Section Derived.
  Context (E : decls).
  Definition agrees (d : data) : Prop := forall t, has_type E t d = true -> run (derive E t d) = as_sres (enc E t d).
  (** the result of a run over a list *)
  Definition with_res {A} (r : eres A) (f : A -> kserd) : sres kserd := as_sres (ebind r (fun a => inr (f a))).
  Lemma each_agrees (push : kserd -> kserd -> sres kserd) (mk : option str -> list kserd -> kserd) :
    (forall id l x, push (mk id l) x = SOk (mk id (l ++ [x]))) ->
    forall l, Forall agrees l -> forall ts id acc, each_of (has_type E) ts l = true ->
    run_elems push (mk id acc) (all_elems (der_each (derive E) ts l)) = with_res (enc_each (enc E) ts l) (fun ks => mk id (acc ++ ks)).
  Proof.
    intros M. induction 1 as [|d l A F IH]; intros [|t ts] id acc T; try discriminate; cbn [der_each all_elems run_elems enc_each].
    - unfold with_res. cbn [ebind as_sres]. now rewrite app_nil_r.
    - cbn [each_of] in T. apply andb_true_iff in T as [T1 T2]. rewrite (A t T1). unfold with_res. destruct (enc E t d) as [[n| |]|k]; cbn [as_sres sbind ebind run_elems]; try reflexivity.
      rewrite M, IH by exact T2. unfold with_res. destruct (enc_each (enc E) ts l) as [e|ks]; cbn [ebind as_sres]; [reflexivity|]. now rewrite <- app_assoc.
  Qed.
  Lemma vec_agrees t l : Forall agrees l -> forall id acc, forallb (has_type E t) l = true ->
    run_elems seq_push (Kserd id (VSeq acc)) (all_elems (map (derive E t) l)) = with_res (enc_all (enc E t) l) (fun ks => Kserd id (VSeq (acc ++ ks))).
  Proof.
    induction 1 as [|d l A F IH]; intros id acc T; cbn [map all_elems run_elems enc_all].
    - unfold with_res. cbn [ebind as_sres]. now rewrite app_nil_r.
    - cbn [forallb] in T. apply andb_true_iff in T as [T1 T2]. rewrite (A t T1). unfold with_res. destruct (enc E t d) as [[n| |]|k]; cbn [as_sres sbind ebind run_elems seq_push]; try reflexivity.
      rewrite IH by exact T2. unfold with_res. destruct (enc_all (enc E t) l) as [e|ks]; cbn [ebind as_sres]; [reflexivity|]. now rewrite <- app_assoc.
  Qed.
  Lemma map_agrees kt vt m : Forall (fun e => agrees (fst e) /\ agrees (snd e)) m -> forall acc,
    forallb (fun e => has_type E kt (fst e) && has_ord (fst e) && has_type E vt (snd e)) m = true ->
    run_entries None (knew (VMap acc)) (all_entries (map (fun e => Entry (derive E kt (fst e)) (derive E vt (snd e))) m)) =
    with_res (enc_entries (enc E kt) (enc E vt) m acc) (fun es => knew (VMap es)).
  Proof.
    induction 1 as [|[d v] m [A B] F IH]; intros acc T; cbn [map all_entries run_entries enc_entries fst snd]; [reflexivity|].
    cbn [forallb fst snd] in *. apply andb_true_iff in T as [T T2]. apply andb_true_iff in T as [T T1]. apply andb_true_iff in T as [T0 _].
    rewrite (A kt T0), (B vt T1). unfold with_res. destruct (enc E kt d) as [[n| |]|k]; cbn [as_sres sbind ebind run_entries]; try reflexivity.
    destruct (enc E vt v) as [[n| |]|w]; cbn [as_sres sbind ebind run_entries map_insert knew]; try reflexivity. now apply IH.
  Qed.
  Lemma struct_agrees fs l : Forall agrees l -> forall id acc, each_of (has_type E) (map snd fs) l = true ->
    run_fields (Kserd id (VCntr acc)) (all_fields (der_fields (derive E) fs l)) = with_res (enc_fields (enc E) fs l acc) (fun m => Kserd id (VCntr m)).
  Proof.
    intros H. revert fs. induction H as [|d l A F IH]; intros [|[n t] fs] id acc T; try discriminate; cbn [der_fields all_fields run_fields enc_fields]; [reflexivity|].
    cbn [map snd each_of] in T. apply andb_true_iff in T as [T1 T2]. rewrite (A t T1). unfold with_res. destruct (enc E t d) as [[x| |]|k]; cbn [as_sres sbind ebind run_fields field_insert]; try reflexivity. now apply IH.
  Qed.
  Lemma with_id_agrees n v : s_with_id n v = as_sres (e_with_id n v).
  Proof. unfold s_with_id, e_with_id. now destruct (with_id n v). Qed.
  Lemma named_agrees {A} n v (r : eres A) (g : kserd -> sres kserd) f : (g (Kserd (Some n) v) = with_res r f) ->
    sbind (s_with_id n v) g = as_sres (ebind (e_with_id n v) (fun _ => ebind r (fun a => inr (f a)))).
  Proof. intros H. unfold s_with_id, e_with_id. rewrite with_id_spec. destruct (forallb _ n); cbn [sbind ebind as_sres]; [exact H|reflexivity]. Qed.
  Lemma newtype_agrees n d t : agrees d -> has_type E t d = true ->
    sbind (run (derive E t d)) (fun k => s_with_id n (VTuple [k])) = as_sres (ebind (enc E t d) (fun k => e_with_id n (VTuple [k]))).
  Proof. intros A T. rewrite (A t T). destruct (enc E t d) as [[x| |]|k]; cbn [as_sres sbind ebind]; try reflexivity. apply with_id_agrees. Qed.
  Definition items_agree (d : data) : Prop := match d with DList l | DRecord l => Forall agrees l | _ => True end.
  Definition seq_mk id l := Kserd id (VTuple l).
  Lemma tuple_agrees l ts id : Forall agrees l -> each_of (has_type E) ts l = true ->
    run_elems tuple_push (Kserd id (VTuple [])) (all_elems (der_each (derive E) ts l)) = with_res (enc_each (enc E) ts l) (fun ks => Kserd id (VTuple ks)).
  Proof. intros H T. exact (each_agrees tuple_push seq_mk (fun _ _ _ => eq_refl) l H ts id [] T). Qed.
  Lemma derived' d : agrees d /\ items_agree d.
  Proof.
    assert (FM : forall m : list (data * data), Forall (fun e => (agrees (fst e) /\ items_agree (fst e)) /\ (agrees (snd e) /\ items_agree (snd e))) m -> Forall (fun e => agrees (fst e) /\ agrees (snd e)) m) by (intros m; apply Forall_impl; now intros a [[X _] [Y _]]).
    assert (FF : forall l, Forall (fun d => agrees d /\ items_agree d) l -> Forall agrees l) by (intros l; apply Forall_impl; now intros a [X _]).
    induction d using data_ind'; (split; [|try exact Logic.I; cbn [items_agree]; now apply FF]); try (apply FF in H); try (apply FM in H); try (destruct IHd as [IHd IHi]); intros t T.
    all: destruct t as [| |nt| | | | | |t|ts|t|kt vt|q]; try discriminate T; cbn [has_type] in T; cbn [derive enc]; try reflexivity.
    all: try (destruct (E q) as [nm|nm t|nm ts|nm fs|vs] eqn:Q; try discriminate T; cbn [run]).
    - apply with_id_agrees.
    - cbn [run]. now destruct (f32_to_f64 x).
    - cbn [run]. rewrite (IHd t T). now destruct (enc E t d) as [[x| |]|k].
    - cbn [run]. unfold knew. now apply tuple_agrees.
    - cbn [run]. unfold knew. now apply (vec_agrees t l H None []).
    - now apply named_agrees, tuple_agrees.
    - cbn [run]. apply andb_true_iff in T as [T _]. now apply map_agrees.
    - now apply newtype_agrees.
    - now apply named_agrees, struct_agrees.
    - destruct (nth_error vs i) as [[n h]|] eqn:NT; [|discriminate]. destruct h as [|t|ts|fs]; cbn [run].
      + destruct d; try discriminate. apply with_id_agrees.
      + now apply newtype_agrees.
      + destruct d as [| | | | | | | | | |l| | | |]; try discriminate. cbn [run]. now apply named_agrees, tuple_agrees.
      + destruct d as [| | | | | | | | | | | | |l|]; try discriminate. cbn [run]. now apply named_agrees, struct_agrees.
  Qed.
  Lemma derived t d : has_type E t d = true -> run (derive E t d) = as_sres (enc E t d).
  Proof. exact (proj1 (derived' d) t). Qed.
End Derived.

(** ** keys and values *)
Lemma paired_spec l : Forall succeeds (flat_map map_call_args l) -> forall w m,
  if paired (match w with Some _ => true | None => false end) l then exists m', run_entries w (Kserd None (VMap m)) (all_entries l) = SOk (Kserd None (VMap m'))
  else run_entries w (Kserd None (VMap m)) (all_entries l) = SErr NoKeyAvailable.
Proof.
  induction l as [|[p|p|p q] l IH]; intros F w m; cbn [paired all_entries run_entries].
  - now eexists.
  - cbn [flat_map map_call_args app] in F. inversion F as [|? ? [k A] F']; subst. rewrite A. exact (IH F' (Some k) m).
  - cbn [flat_map map_call_args app] in F. inversion F as [|? ? [v A] F']; subst. destruct w as [k|]; cbn [andb]; [|reflexivity].
    rewrite A. cbn [sbind map_insert]. exact (IH F' None _).
  - cbn [flat_map map_call_args app] in F. inversion F as [|? ? [k A] F1]; subst. inversion F1 as [|? ? [v B] F']; subst. rewrite A, B. cbn [sbind map_insert]. exact (IH F' w _).
Qed.
Lemma paired_ok l : Forall succeeds (flat_map map_call_args l) -> paired false l = true -> succeeds (SMap (all_entries l)).
Proof. intros F P. pose proof (paired_spec l F None []) as H. cbn beta iota in H. rewrite P in H. destruct H as [m H]. eexists. exact H. Qed.
Lemma paired_err l : Forall succeeds (flat_map map_call_args l) -> paired false l = false -> run (SMap (all_entries l)) = SErr NoKeyAvailable.
Proof. intros F P. pose proof (paired_spec l F None []) as H. cbn beta iota in H. now rewrite P in H. Qed.

(** ** the rest of the methods *)
Lemma newtype_ok p n q k : p = SNewtypeStruct n q \/ p = SNewtypeVariant n q ->
  run p = SOk k <-> id_name n = true /\ exists x, run q = SOk x /\ k = Kserd (Some n) (VTuple [x]).
Proof.
  intros [->| ->]; cbn [run]; (destruct (run q) as [x|e|]; cbn [sbind]; [rewrite s_with_id_spec; destruct (id_name n)| |]);
    (split; [intros H; try discriminate H; injection H as <-; eauto|intros (A & y & B & C); congruence]).
Qed.
Lemma newtype_err p n q e : p = SNewtypeStruct n q \/ p = SNewtypeVariant n q ->
  run p = SErr e <-> run q = SErr e \/ (succeeds q /\ id_name n = false /\ e = InvalidId n).
Proof.
  unfold succeeds. intros [->| ->]; cbn [run]; (destruct (run q) as [x|e'|]; cbn [sbind]; [rewrite s_with_id_spec; destruct (id_name n)| |]);
    (split; [intros H; try discriminate H; injection H as <-; eauto 6|intros [A|((y & A) & B & C)]; congruence]).
Qed.

(** ** calls which give one value *)
Lemma single_calls :
  (forall b, run (SBool b) = SOk (Kserd (Some (s "bool")) (VBool b))) /\
  (forall t n, run (SInt t n) = SOk (Kserd (Some (int_type_name t)) (VNum (int_value t n)))) /\
  (forall x, run (SF64 x) = SOk (Kserd (Some (s "f64")) (VNum (Float x)))) /\
  (forall c, run (SChar c) = SOk (Kserd (Some (s "char")) (VStr [c]))) /\
  (forall t, run (SStr t) = SOk (Kserd (Some (s "str")) (VStr t)) /\ run (SCollectStr t) = run (SStr t)) /\
  (forall b, run (SBytes b) = SOk (Kserd (Some (s "barr")) (VBarr b))) /\
  run SUnit = SOk (Kserd None VUnit) /\ run SNone = SOk (Kserd (Some (s "None")) (VTuple [])) /\
  (forall p k, run (SSome p) = SOk k <-> exists x, run p = SOk x /\ k = Kserd (Some (s "Some")) (VTuple [x])) /\
  (forall p e, run (SSome p) = SErr e <-> run p = SErr e).
Proof.
  destruct constructor_ids as (CI & CF & CB & CS & CBa & CU).
  repeat match goal with |- _ /\ _ => split end; intros.
  - exact (f_equal SOk (CB b)).
  - exact (f_equal SOk (CI t n)).
  - exact (f_equal SOk (CF x)).
  - reflexivity.
  - cbn [run]. rewrite (proj1 (CS t)). split; reflexivity.
  - cbn [run]. rewrite (proj1 (CBa b)). reflexivity.
  - exact (f_equal SOk CU).
  - reflexivity.
  - cbn [run]. split.
    + destruct (run p); cbn [sbind]; intros X; inversion X. eexists; split; reflexivity.
    + intros (x & -> & ->). reflexivity.
  - cbn [run]. destruct (run p); cbn [sbind]; split; intros X; inversion X; reflexivity.
Qed.
Lemma unit_calls : forall p n, p = SUnitStruct n \/ p = SUnitVariant n ->
  run p = if id_name n then SOk (Kserd (Some n) (VTuple [])) else SErr (InvalidId n).
Proof.
  intros p n [-> | ->]; cbn [run].
  all: apply s_with_id_spec.
Qed.
