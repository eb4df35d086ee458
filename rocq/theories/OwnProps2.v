(** Decoding with ownership against decoding without. *)
From Verif Require Import Base BaseProps F64 F32 Number BTree Value ValueSpec ValueProps Encode Own OwnSpec OwnProps.
Open Scope N_scope.

(** [rl true]: the same result.  [rl false]: the first, where it is a value. *)
Definition rl (strict : bool) {A} (a b : option A) : Prop := if strict then a = b else forall d, a = Some d -> b = Some d.
Lemma rl_refl b {A} (a : option A) : rl b a a.
Proof. destruct b; cbn; auto. Qed.
Lemma rl_bind b {A B} (x y : option A) (f g : A -> option B) : rl b x y -> (forall a, rl b (f a) (g a)) -> rl b (opt_bind x f) (opt_bind y g).
Proof.
  destruct b; cbn [rl]; intros H F; [subst y; destruct x as [a|]; [exact (F a)|reflexivity]|].
  intros d E. destruct x as [a|]; [|discriminate]. rewrite (H a eq_refl). now apply (F a).
Qed.
Lemma rl_map b {A B} (x y : option A) (f : A -> B) : rl b x y -> rl b (option_map f x) (option_map f y).
Proof. destruct b; cbn [rl]; intros H; [now subst|]. intros d E. destruct x as [a|]; [|discriminate]. now rewrite (H a eq_refl). Qed.
Lemma rl_none b {A} (y : option A) : (b = true -> y = None) -> rl b None y.
Proof. destruct b; cbn [rl]; intros H; [now rewrite H|discriminate]. Qed.

Lemma position_map {A B} (f : A -> B) n l : position n (map (fun v => (fst v, f (snd v))) l) = option_map (fun p => (fst p, f (snd p))) (position n l).
Proof. induction l as [|[m a] l IH]; [reflexivity|]. cbn [map position fst snd]. destruct (str_eqb n m); [reflexivity|]. rewrite IH. now destruct (position n l) as [[i x]|]. Qed.
Lemma position_in {A} n (l : list (str * A)) i a : position n l = Some (i, a) -> exists m, In (m, a) l.
Proof.
  revert i. induction l as [|[m b] l IH]; intros i; [discriminate|]. cbn [position]. destruct (str_eqb n m); [intros [= <- <-]; exists m; now left|].
  destruct (position n l) as [[j c]|]; [|discriminate]. cbn [option_map fst snd]. intros [= <- <-]. destruct (IH j eq_refl) as [m' M]. exists m'. now right.
Qed.

Section Dec.
  Context (E : odecls) (strict refs : bool).
  Hypothesis ED : strict = true -> forall n, def_ok refs (E n) = true.
  Notation F := (own_decls E).

  Definition same (k : okserd) : Prop := forall t,
    (strict = true -> refs_ok refs t = true /\ (refs = true -> data_brwed k = true)) -> rl strict (odec E t k) (dec F (own_ty t) (content k)).
  Definition brw (k : okserd) : Prop := strict = true -> refs = true -> data_brwed k = true.

  Lemma same_each l : Forall same l -> Forall brw l -> forall ts, (strict = true -> forallb (refs_ok refs) ts = true) ->
    rl strict (odec_each (odec E) ts l) (dec_each (dec F) (map own_ty ts) (map content l)).
  Proof.
    induction 1 as [|k l H HF IH]; intros B ts T; destruct ts as [|t ts]; try apply rl_refl.
    inversion B as [|? ? B1 B2]; subst. cbn [odec_each dec_each map]. apply rl_bind.
    - apply H. intros S. specialize (T S). cbn [forallb] in T. apply andb_true_iff in T as [T _]. split; [exact T|now apply B1].
    - intros a. apply rl_map. apply IH; [exact B2|]. intros S. specialize (T S). cbn [forallb] in T. now apply andb_true_iff in T as [_ T].
  Qed.
  Lemma same_all l : Forall same l -> Forall brw l -> forall t, (strict = true -> refs_ok refs t = true) ->
    rl strict (odec_all (odec E t) l) (dec_all (dec F (own_ty t)) (map content l)).
  Proof.
    induction 1 as [|k l H HF IH]; intros B t T; [apply rl_refl|].
    inversion B as [|? ? B1 B2]; subst. cbn [odec_all dec_all map]. apply rl_bind.
    - apply H. intros S. split; [now apply T|now apply B1].
    - intros a. apply rl_map. now apply IH.
  Qed.
  Lemma same_entries m : Forall (fun e => same (fst e) /\ same (snd e)) m -> Forall (fun e => brw (fst e) /\ brw (snd e)) m -> forall kt vt acc,
    (strict = true -> refs_ok refs kt = true /\ refs_ok refs vt = true) ->
    rl strict (odec_entries (odec E kt) (odec E vt) m acc) (dec_entries (dec F (own_ty kt)) (dec F (own_ty vt)) (map (fun e => (content (fst e), content (snd e))) m) acc).
  Proof.
    intros H. induction H as [|[k v] m [H1 H2] HF IH]; intros B kt vt acc T; [apply rl_refl|].
    inversion B as [|? ? [B1 B2] B3]; subst. cbn [fst snd] in *. cbn [odec_entries dec_entries map fst snd]. apply rl_bind.
    - apply H1. intros S. split; [now apply T|now apply B1].
    - intros d. apply rl_bind.
      + apply H2. intros S. split; [now apply T|now apply B2].
      + intros e. now apply IH.
  Qed.
  Lemma same_name kt n : (strict = true -> kt <> OtStr /\ kt <> OtSlice) -> rl strict (odec_name E kt n) (dec_name F (own_ty kt) (cow_get n)).
  Proof.
    intros T. destruct kt; cbn [odec_name own_ty dec_name]; try apply rl_refl; try (apply rl_none; intros S; destruct (T S); congruence).
    unfold own_decls. destruct (E n0); cbn [own_def]; try apply rl_refl. rewrite position_map. destruct (position (cow_get n) vs) as [[i h]|]; [|apply rl_refl].
    cbn [option_map fst snd]. destruct h; apply rl_refl.
  Qed.
  Lemma same_named m : Forall (fun e => same (snd e)) m -> Forall (fun e => brw (snd e)) m -> forall kt vt acc,
    (strict = true -> kt <> OtStr /\ kt <> OtSlice /\ refs_ok refs vt = true) ->
    rl strict (odec_entries (odec_name E kt) (odec E vt) m acc) (dec_named (dec_name F (own_ty kt)) (dec F (own_ty vt)) (map (fun e => (cow_get (fst e), content (snd e))) m) acc).
  Proof.
    intros H. induction H as [|[k v] m H2 HF IH]; intros B kt vt acc T; [apply rl_refl|].
    inversion B as [|? ? B2 B3]; subst. cbn [fst snd] in *. cbn [odec_entries dec_named map fst snd]. apply rl_bind.
    - apply same_name. intros S. destruct (T S) as (T1 & T2 & _). now split.
    - intros d. apply rl_bind.
      + apply H2. intros S. destruct (T S) as (_ & _ & T3). split; [exact T3|now apply B2].
      + intros e. now apply IH.
  Qed.

  Definition own_ref (o : option (nat * oty)) : option (nat * ty) := option_map (fun p => (fst p, own_ty (snd p))) o.
  Lemma same_struct {K K'} (g : K -> K') (id : K -> option (option (nat * oty))) (id' : K' -> option (option (nat * ty))) (m : list (K * okserd)) (fs : list (str * oty)) :
    (forall n, id' (g n) = option_map own_ref (id n)) -> (forall n i t, id n = Some (Some (i, t)) -> exists f, In (f, t) fs) ->
    (strict = true -> forallb (fun f => refs_ok refs (snd f)) fs = true) ->
    Forall (fun e => same (snd e)) m -> Forall (fun e => brw (snd e)) m ->
    rl strict (odec_struct id (odec E) m) (dec_struct id' (dec F) (map (fun e => (g (fst e), content (snd e))) m)).
  Proof.
    intros G IN T H. induction H as [|[n k] m H2 HF IH]; intros B; [apply rl_refl|].
    inversion B as [|? ? B2 B3]; subst. cbn [fst snd] in *. cbn [odec_struct dec_struct map fst snd]. rewrite G.
    destruct (id n) as [[[i t]|]|] eqn:I; cbn [option_map opt_bind own_ref fst snd]; [|now apply IH|apply rl_refl].
    apply rl_bind.
    - apply H2. intros S. destruct (IN n i t I) as [f M]. specialize (T S). rewrite forallb_forall in T. split; [exact (T _ M)|now apply B2].
    - intros d. apply rl_map. now apply IH.
  Qed.
  Lemma take_own fs l : forall i, take_fields i (own_fields fs) l = otake_fields i fs l.
  Proof.
    induction fs as [|[n t] fs IH]; intros i; [reflexivity|]. cbn [own_fields map take_fields otake_fields fst snd]. fold (own_fields fs). rewrite IH.
    destruct (find _ l) as [[j d]|]; [reflexivity|]. now destruct t.
  Qed.
  Lemma record_own fs l : dec_record (own_fields fs) l = odec_record fs l.
  Proof. unfold dec_record, odec_record. now rewrite take_own. Qed.
  Lemma snd_own fs : map snd (own_fields fs) = map own_ty (map snd fs).
  Proof. unfold own_fields. now rewrite !map_map. Qed.

  (** field identifiers *)
  Lemma ident_own fs n : field_name (own_fields fs) n = option_map own_ref (ofield_name fs n).
  Proof. unfold field_name, ofield_name, own_fields. rewrite position_map. reflexivity. Qed.
  Lemma field_any fs k : deserialize_any (field_visitor (own_fields fs)) (content k) = option_map own_ref (o_any (ofield_visitor fs) k).
  Proof.
    destruct k as [id v]. cbn [content deserialize_any o_any]. destruct v as [|b|n|t|b|l|m|l|m]; try reflexivity.
    - destruct n as [n|n|x]; cbn [field_visitor ofield_visitor visit_num ov_num]; try reflexivity; destruct (fits64 _ n); try reflexivity;
        unfold own_fields; rewrite map_length; cbn [option_map]; f_equal; destruct (n <? _)%Z; try reflexivity;
        rewrite nth_error_map; now destruct (nth_error fs _).
    - destruct t as [t|t]; exact (ident_own fs t).
    - assert (X : forall b, Some (position b (map (fun f => (utf8 (fst f), snd f)) (own_fields fs))) = option_map own_ref (Some (position b (map (fun f => (utf8 (fst f), snd f)) fs)))).
      { intros c. cbn [option_map]. f_equal. unfold own_ref. rewrite <- position_map. f_equal. unfold own_fields. now rewrite !map_map. }
      destruct b as [b|b]; exact (X b).
    - cbn [visit_none visit_seq visit_some visit_newtype field_visitor ov_none ov_seq ov_some ov_newtype ofield_visitor].
      destruct l as [|x [|y l]]; cbn [map]; try reflexivity; destruct id; cbn [option_map]; try reflexivity; now destruct (str_eqb _ _).
  Qed.
  Lemma name_in fs n i t : ofield_name fs n = Some (Some (i, t)) -> exists f, In (f, t) fs.
  Proof. unfold ofield_name. intros [= H]. exact (position_in n fs i t H). Qed.
  Lemma any_in fs k i t : o_any (ofield_visitor fs) k = Some (Some (i, t)) -> exists f, In (f, t) fs.
  Proof.
    destruct k as [id v]. cbn [o_any]. destruct v as [|b|n|u|b|l|m|l|m]; try discriminate.
    - destruct n as [n|n|x]; cbn [ofield_visitor ov_num]; try discriminate; destruct (fits64 _ n); try discriminate.
      destruct (n <? _)%Z; [|discriminate]. destruct (nth_error fs _) as [[f u]|] eqn:X; [|discriminate]. cbn [option_map snd]. intros [= <- <-]. exists f. now apply nth_error_In in X.
    - destruct u as [u|u]; exact (name_in fs u i t).
    - assert (X : forall b, Some (position b (map (fun f => (utf8 (fst f), snd f)) fs)) = Some (Some (i, t)) -> exists f, In (f, t) fs).
      { intros c [= P]. apply position_in in P as [m M]. apply in_map_iff in M as ((f & u) & [= <- <-] & M). now exists f. }
      destruct b as [b|b]; exact (X b).
    - cbn [ov_none ov_seq ov_some ov_newtype ofield_visitor].
      destruct l as [|x [|y l]]; try discriminate; destruct id; cbn [option_map]; try discriminate; destruct (str_eqb _ _); discriminate.
  Qed.

  (** the visitor methods of a tuple *)
  Lemma any_rl {R} (V : ovisitor R) (W : visitor R) k :
    rl strict (ov_unit V) (visit_unit W) -> (forall b, rl strict (ov_bool V b) (visit_bool W b)) -> (forall n, rl strict (ov_num V n) (visit_num W n)) ->
    (forall t, okval k = OStr (Borrowed t) -> rl strict (ov_borrowed_str V t) (visit_str W t)) -> (forall t, okval k = OStr (Owned t) -> rl strict (ov_string V t) (visit_str W t)) ->
    (forall t, okval k = OBarr (Borrowed t) -> rl strict (ov_borrowed_bytes V t) (visit_bytes W t)) -> (forall t, okval k = OBarr (Owned t) -> rl strict (ov_byte_buf V t) (visit_bytes W t)) ->
    rl strict (ov_none V) (visit_none W) -> (forall x, okval k = OTuple [x] -> rl strict (ov_some V x) (visit_some W (content x))) ->
    (forall x, okval k = OTuple [x] -> rl strict (ov_newtype V x) (visit_newtype W (content x))) ->
    (forall l, okval k = OTuple l \/ okval k = OSeq l -> rl strict (ov_seq V l) (visit_seq W (map content l))) ->
    (forall m, okval k = OMap m -> rl strict (ov_map V m) (visit_map W (map (fun e => (content (fst e), content (snd e))) m))) ->
    (forall m, okval k = OCntr m -> rl strict (ov_fields V m) (visit_fields W (map (fun e => (cow_get (fst e), content (snd e))) m))) ->
    rl strict (o_any V k) (deserialize_any W (content k)).
  Proof.
    intros Hu Hb Hn Hbs Hs Hbb Hbf Hno Hso Hnt Hsq Hm Hf. destruct k as [id v]. cbn [okval] in *. cbn [content deserialize_any o_any].
    destruct v as [|b|n|t|b|l|m|l|m]; auto.
    - destruct n; auto.
    - destruct t; cbn [cow_get]; auto.
    - destruct b; cbn [cow_get]; auto.
    - specialize (Hsq l (or_introl eq_refl)). destruct l as [|x [|y l]]; cbn [map] in *; auto; destruct (option_map cow_get id); auto; destruct (str_eqb _ _); auto.
  Qed.

  Lemma brw_children id v : brw (OKserd id v) -> Forall brw (ochildren v).
  Proof.
    intros B. unfold brw in *. rewrite Forall_forall. intros x I S R. specialize (B S R). cbn [data_brwed] in B.
    destruct v as [| | | | |l|m|l|m]; cbn [ochildren] in I; try contradiction; rewrite forallb_forall in B.
    - auto.
    - apply in_map_iff in I as ((n & y) & <- & I). exact (B _ I).
    - auto.
    - unfold entry_list in I. apply in_flat_map in I as ((a & b) & I & J). specialize (B _ I). cbn [fst snd] in *. apply andb_true_iff in B as [B1 B2].
      destruct J as [<-|[<-|[]]]; assumption.
  Qed.
  Lemma int_own t k : deserialize_int t (content k) = o_int t k.
  Proof. destruct k as [id v]. now destruct v. Qed.
  Lemma all_own t l : dec_all (deserialize_int t) (map content l) = odec_all (o_int t) l.
  Proof. induction l as [|k l IH]; [reflexivity|]. cbn [map dec_all odec_all]. rewrite int_own. destruct (o_int t k); [|reflexivity]. cbn [opt_bind]. fold (dec_all (deserialize_int t)). now rewrite IH. Qed.

  Lemma all_same k : same k.
  Proof.
    induction k as [id v IH] using okserd_ind'. intros t C.
    assert (B : brw (OKserd id v)) by (intros S R; now apply C).
    assert (T : strict = true -> refs_ok refs t = true) by (intros S; now apply C).
    assert (D : strict = true -> refs = true -> data_brwed (OKserd id v) = true) by (intros S; now apply C). clear C.
    pose proof (brw_children id v B) as BC.
    assert (Lsame : forall l, v = OTuple l \/ v = OSeq l -> Forall same l /\ Forall brw l) by (intros l [->| ->]; now split).
    assert (Msame : forall m, v = OMap m -> Forall (fun e => same (fst e) /\ same (snd e)) m /\ Forall (fun e => brw (fst e) /\ brw (snd e)) m)
      by (intros m ->; cbn [ochildren] in *; split; now apply Forall_entries).
    assert (Nsame : forall m : list (cow str * okserd), v = OCntr m -> Forall (fun e => same (snd e)) m /\ Forall (fun e => brw (snd e)) m)
      by (intros m ->; cbn [ochildren] in *; split; now apply Forall_map_snd).
    assert (Xsame : forall x, v = OTuple [x] -> same x /\ brw x).
    { intros x ->. cbn [ochildren] in *. inversion IH; inversion BC; now subst. }
    assert (CH : forall x u, v = OTuple [x] -> (strict = true -> refs_ok refs u = true) -> rl strict (odec E u x) (dec F (own_ty u) (content x))).
    { intros x u V U. destruct (Xsame x V) as [X1 X2]. apply X1. intros S. split; [now apply U|now apply X2]. }
    assert (none : forall {A R} (x : A), rl strict (@no A R x) (@no A R x)) by (intros; apply rl_refl).
    assert (TR : strict = true -> t = OtStr -> refs = true) by (intros S ->; exact (T S)).
    destruct t as [| |t| | | | | | | |t|ts|t|kt vt|n].
    - (* () *) apply any_rl; intros; apply rl_refl.
    - (* bool *) apply any_rl; intros; apply rl_refl.
    - (* integers *) cbn [odec own_ty]. change (dec F (TyInt t) (content (OKserd id v))) with (option_map DInt (deserialize_int t (content (OKserd id v)))).
      rewrite int_own. apply rl_refl.
    - (* f64 *) destruct v; apply rl_refl.
    - (* f32 *) destruct v; apply rl_refl.
    - (* char *) destruct v; apply rl_refl.
    - (* String *) apply any_rl; intros; apply rl_refl.
    - (* bytes *) apply any_rl; try (intros; apply rl_refl). intros l _. cbn [ov_seq visit_seq]. rewrite all_own. apply rl_refl.
    - (* &str *) apply any_rl; cbn [okval]; try (intros; apply rl_refl).
      + intros t ->. apply rl_none. intros S. specialize (D S (TR S eq_refl)). discriminate D.
      + intros t ->. apply rl_none. intros S. specialize (D S (TR S eq_refl)). discriminate D.
    - (* &[u8] *) apply any_rl; cbn [okval]; try (intros; apply rl_refl); intros; apply rl_none; intros S; discriminate (T S).
    - (* Option *) apply any_rl; cbn [okval]; try (intros; apply rl_refl). intros x V. apply rl_map. now apply CH.
    - (* tuples *) apply any_rl; cbn [okval]; try (intros; apply rl_refl). intros l V. destruct (Lsame l V). apply rl_map. now apply same_each.
    - (* Vec *) apply any_rl; cbn [okval]; try (intros; apply rl_refl). intros l V. destruct (Lsame l V). apply rl_map. now apply same_all.
    - (* maps *) apply any_rl; cbn [okval]; try (intros; apply rl_refl).
      + intros m V. destruct (Msame m V). apply rl_map. apply same_entries; [assumption|assumption|]. intros S. specialize (T S). cbn [refs_ok] in T. rewrite !andb_true_iff in T. tauto.
      + intros m V. destruct (Nsame m V). apply rl_map. apply same_named; [assumption|assumption|]. intros S. specialize (T S). cbn [refs_ok] in T. rewrite !andb_true_iff in T.
        destruct T as [[T1 T2] T3]. split; [now intros ->|]. split; [now intros ->|exact T3].
    - (* declared types *)
      cbn [own_ty].
      assert (EO : F n = own_def (E n)) by reflexivity. pose proof (fun S => ED S n) as EN.
      destruct (E n) as [nm|nm t|nm ts|nm fs|vs] eqn:EE; cbn [own_def] in EO; cbn [def_ok] in EN.
      + assert (X : odec E (OtNamed n) (OKserd id v) = dec F (TyNamed n) (content (OKserd id v))).
        { cbn [odec content dec]. rewrite EE, EO. destruct v as [| | | | |[|? ?]| | |]; reflexivity. }
        rewrite X. apply rl_refl.
      + replace (odec E (OtNamed n) (OKserd id v)) with (o_any (mkOVisitor None no no no no no no None no (fun x => option_map DNewtype (odec E t x))
            (fun l => match l with x :: _ => option_map DNewtype (odec E t x) | [] => None end) no no) (OKserd id v)) by (cbn [odec]; now rewrite EE).
        replace (dec F (TyNamed n) (content (OKserd id v))) with (deserialize_any (mkVisitor None no no no no None no (fun x => option_map DNewtype (dec F (own_ty t) x))
            (fun l => match l with x :: _ => option_map DNewtype (dec F (own_ty t) x) | [] => None end) no no) (content (OKserd id v))) by (cbn [dec content]; now rewrite EO).
        apply any_rl; cbn [okval]; try (intros; apply rl_refl).
        * intros x V. apply rl_map. now apply CH.
        * intros l V. destruct (Lsame l V) as [L1 L2]. destruct l as [|x l]; [apply rl_refl|]. cbn [map ov_seq visit_seq]. apply rl_map.
          inversion L1; inversion L2; subst. match goal with X : same x |- _ => apply X end. intros S. split; [now apply EN|now match goal with Y : brw x |- _ => apply Y end].
      + replace (odec E (OtNamed n) (OKserd id v)) with (o_any (mkOVisitor None no no no no no no None no no (fun l => option_map DList (odec_each (odec E) ts l)) no no) (OKserd id v)) by (cbn [odec]; now rewrite EE).
        replace (dec F (TyNamed n) (content (OKserd id v))) with (deserialize_any (mkVisitor None no no no no None no no (fun l => option_map DList (dec_each (dec F) (map own_ty ts) l)) no no) (content (OKserd id v))) by (cbn [dec content]; now rewrite EO).
        apply any_rl; cbn [okval]; try (intros; apply rl_refl). intros l V. destruct (Lsame l V). apply rl_map. now apply same_each.
      + replace (odec E (OtNamed n) (OKserd id v)) with (o_any (mkOVisitor None no no no no no no None no no
            (fun l => option_map DRecord (odec_each (odec E) (map snd fs) l))
            (fun m => opt_bind (odec_struct (fun n => o_any (ofield_visitor fs) n) (odec E) m) (odec_record fs))
            (fun m => opt_bind (odec_struct (fun n => ofield_name fs (cow_get n)) (odec E) m) (odec_record fs))) (OKserd id v)) by (cbn [odec]; now rewrite EE).
        replace (dec F (TyNamed n) (content (OKserd id v))) with (deserialize_any (mkVisitor None no no no no None no no
            (fun l => option_map DRecord (dec_each (dec F) (map snd (own_fields fs)) l))
            (fun m => opt_bind (dec_struct (fun n => deserialize_any (field_visitor (own_fields fs)) n) (dec F) m) (dec_record (own_fields fs)))
            (fun m => opt_bind (dec_struct (field_name (own_fields fs)) (dec F) m) (dec_record (own_fields fs)))) (content (OKserd id v))) by (cbn [dec content]; now rewrite EO).
        apply any_rl; cbn [okval]; try (intros; apply rl_refl).
        * intros l V. destruct (Lsame l V). cbn [ov_seq visit_seq]. apply rl_map. rewrite snd_own. apply same_each; [assumption|assumption|]. intros S. specialize (EN S). rewrite forallb_forall in *.
          intros t I. apply in_map_iff in I as ((f & u) & <- & I). exact (EN _ I).
        * intros m V. destruct (Msame m V) as [M1 M2]. cbn [ov_map visit_map]. apply rl_bind.
          { apply (same_struct content _ _ m fs); [exact (field_any fs)|exact (any_in fs)|exact EN|exact (Forall_impl _ (fun e => @proj2 _ _) M1)|exact (Forall_impl _ (fun e => @proj2 _ _) M2)]. }
          { intros a. rewrite record_own. apply rl_refl. }
        * intros m V. destruct (Nsame m V) as [M1 M2]. cbn [ov_fields visit_fields]. apply rl_bind.
          { apply (same_struct cow_get _ _ m fs); [intros c; apply ident_own|intros c; apply name_in|exact EN|assumption|assumption]. }
          { intros a. rewrite record_own. apply rl_refl. }
      + cbn [odec content dec]. rewrite EE, EO. unfold variant_id, o_variant_id. cbn [kid okid]. destruct (option_map cow_get id) as [i|]; [|apply rl_refl].
        cbn [opt_bind]. rewrite position_map. destruct (position i vs) as [[j h]|] eqn:PO; [|apply rl_refl]. cbn [opt_bind option_map fst snd]. apply rl_map.
        apply position_in in PO as [m0 PO].
        assert (HO : strict = true -> shape_ok refs h = true) by (intros S; specialize (EN S); rewrite forallb_forall in EN; exact (EN _ PO)).
        destruct h as [|t|ts|fs]; cbn [own_shape shape_ok] in *.
        * replace (unit_variant _) with (o_unit_variant (OKserd id v)) by (destruct v as [| | | | |[|? ?]| | |]; reflexivity). apply rl_refl.
        * destruct v as [| | | | |l|m|l|m]; try apply rl_refl. destruct l as [|x [|y l]]; try apply rl_refl. now apply CH.
        * destruct v as [| | | | |l|m|l|m]; try apply rl_refl. rewrite !map_length. destruct (Nat.eqb _ _); [|apply rl_refl]. apply rl_map.
          destruct (Lsame l (or_introl eq_refl)). now apply same_each.
        * destruct v as [| | | | |l|m|l|m]; try apply rl_refl. destruct (Nsame m eq_refl) as [M1 M2]. apply rl_bind.
          { apply (same_struct cow_get _ _ m fs); [intros c; apply ident_own|intros c; apply name_in|exact HO|assumption|assumption]. }
          { intros a. rewrite record_own. apply rl_refl. }
  Qed.
End Dec.

Lemma odec_owned E t k : no_refs E t -> odec E t k = dec (own_decls E) (own_ty t) (content k).
Proof. intros [T D]. apply (all_same E true false (fun _ => D) k t). intros _. split; [exact T|discriminate]. Qed.
Lemma odec_borrowed E t k : text_refs E t -> data_brwed k = true -> odec E t k = dec (own_decls E) (own_ty t) (content k).
Proof. intros [T D] B. apply (all_same E true true (fun _ => D) k t). intros _. split; [exact T|intros _; exact B]. Qed.
Lemma odec_sound E t k d : odec E t k = Some d -> dec (own_decls E) (own_ty t) (content k) = Some d.
Proof. refine (all_same E false false _ k t _ d); discriminate. Qed.
