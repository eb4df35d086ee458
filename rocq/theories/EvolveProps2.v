(** Proofs for C75: texts written by the old program; a value of unchanged types;
    fields and variants which are not there. *)
From Verif Require Import Base BaseProps F64 F32 F32Spec F32Props Number NumberSpec BTree BTreeProps Value ValueSpec ValueProps ValueProps2 Nav NavSpec Nom Parse ParseErr Fmt Formatter FmtText FmtSpec RtSpec VSpec TextSpec Encode EncodeSpec EncodeProps EncodeProps2 EncodeProps3 EncodeProps9 StuckSpec EvolveSpec EvolveProps.
From Coq Require Import Permutation.
Open Scope N_scope.

Section Text.
  Context (E F : decls) (WE : good_decls E) (WF : good_decls F).
  Lemma evolves_layouts t u d e k fm : has_type E t d = true -> EncodeSpec.apart E t d -> becomes E F t u d e -> enc E t d = inr k ->
    reachable k fm -> vsafe true 0 (deco (fm_fmts fm) 0 k) = true -> each kept_node (deco (fm_fmts fm) 0 k) = true ->
    exists text k', fm_write fm [] = LRet text /\ parse text = ParseOk k' /\ dec F u k' = Some e.
  Proof. intros T A B H R V K. destruct (codes_layouts E WE t d k fm T A H R V K) as (text & k' & W' & P & C). exists text, k'. repeat (split; [assumption|]). now apply (codes_grow E F WE WF d t u). Qed.
  Lemma evolves_as_str t u d e k cfg : has_type E t d = true -> EncodeSpec.apart E t d -> becomes E F t u d e -> enc E t d = inr k ->
    readable_tree k = true -> k_all no_neg_zero k = true -> (vsimple true k = true /\ ~ stuck cfg k) \/ is_cntr k = false \/ width_limit cfg = None ->
    id_on_tuples cfg = true -> id_on_containers cfg = true ->
    exists text k', as_str_with_config k cfg = LRet text /\ parse text = ParseOk k' /\ dec F u k' = Some e.
  Proof. intros T A B H RT Z V HT HC. destruct (codes_as_str E WE t d k cfg T A H RT Z V HT HC) as (text & k' & W' & P & C). exists text, k'. repeat (split; [assumption|]). now apply (codes_grow E F WE WF d t u). Qed.
End Text.

(** ** unchanged types *)
Section Same.
  Context (E : decls).
  Definition stays (d : data) : Prop := forall t, has_type E t d = true -> becomes E E t t d d.
  Definition items_stay (d : data) : Prop := match d with DList l | DRecord l => Forall stays l | _ => True end.
  Lemma slots_same l : Forall stays l -> forall ts, each_of (has_type E) ts l = true -> slots (becomes E E) ts ts l l.
  Proof. induction 1 as [|d l H _ IH]; intros [|t ts] T; try discriminate; constructor; cbn [each_of] in T; apply andb_true_iff in T as [T1 T2]; auto. Qed.
  Lemma fields_same fs l : Forall stays l -> each_of (has_type E) (map snd fs) l = true -> Forall2 (field_from (becomes E E) fs l) fs l.
  Proof.
    intros H T.
    assert (G : forall gs l' i, (forall j, nth_error gs j = nth_error fs (i + j)) -> (forall j, nth_error l' j = nth_error l (i + j)) -> Forall stays l' -> each_of (has_type E) (map snd gs) l' = true ->
      Forall2 (field_from (becomes E E) fs l) gs l').
    { induction gs as [|[n t] gs IH]; intros [|d l'] i A B ST X; try discriminate; constructor; cbn [map snd each_of] in X; apply andb_true_iff in X as [X1 X2]; inversion ST; subst.
      - apply Ff_old with (i := i) (t := t) (d := d); [specialize (A O)|specialize (B O)|auto]; rewrite Nat.add_0_r in *; auto.
      - apply (IH l' (S i)); auto; intros j; [specialize (A (S j))|specialize (B (S j))]; cbn [nth_error] in *; rewrite Nat.add_succ_r in *; assumption. }
    apply (G fs l O); auto.
  Qed.
  Lemma becomes_same' d : f32s_kept d -> stays d /\ items_stay d.
  Proof.
    assert (FM : forall m : list (data * data), Forall f32_kept (flat_map (fun e => f32s (fst e) ++ f32s (snd e)) m) ->
      Forall (fun e => (f32s_kept (fst e) -> stays (fst e) /\ items_stay (fst e)) /\ (f32s_kept (snd e) -> stays (snd e) /\ items_stay (snd e))) m -> Forall (fun e => stays (fst e) /\ stays (snd e)) m).
    { intros m K. induction 1 as [|e m [H1 H2] _ IH]; constructor; cbn [flat_map] in K; apply Forall_app in K as [K1 K2]; [apply Forall_app in K1 as [K1 K3]|]; [split; [now apply H1|now apply H2]|now apply IH]. }
    assert (FF : forall l, Forall f32_kept (flat_map f32s l) -> Forall (fun d => f32s_kept d -> stays d /\ items_stay d) l -> Forall stays l).
    { intros l K. induction 1 as [|x l H _ IH]; constructor; cbn [flat_map] in K; apply Forall_app in K as [K1 K2]; [now apply H|now apply IH]. }
    induction d using data_ind'; intros K; unfold f32s_kept in K; cbn [f32s] in K; (split; [|try exact Logic.I; cbn [items_stay]; now apply FF]); try (apply (FF _ K) in H); try (apply (FM _ K) in H); try (destruct (IHd K) as [IHd' IHi]; clear IHd; rename IHd' into IHd); intros r T.
    all: destruct r as [| |nt| | | | | |t|ts|t|kt vt|q]; try discriminate T; cbn [has_type] in T.
    all: try (destruct (E q) as [nm|nm t|nm ts|nm fs|vs] eqn:Q; try discriminate T).
    - constructor.
    - now apply Be_unit_struct with (a := nm) (b := nm).
    - constructor.
    - now constructor.
    - constructor.
    - constructor. now inversion K.
    - constructor.
    - constructor.
    - constructor.
    - constructor.
    - constructor. now apply IHd.
    - constructor. now apply slots_same.
    - constructor. revert T. clear -H. induction H as [|d l H _ IH]; intros T; constructor; cbn [forallb] in T; apply andb_true_iff in T as [T1 T2]; auto.
    - apply Be_tuple_struct with (a := nm) (b := nm) (ts := ts) (us := ts); auto. now apply slots_same.
    - apply andb_true_iff in T as [T S]. apply Be_map with (m' := m); [|reflexivity|exact S].
      revert T. clear -H. induction H as [|e m [H1 H2] _ IH]; intros T; constructor; cbn [forallb] in T; apply andb_true_iff in T as [T T3]; auto. apply andb_true_iff in T as [T T2]. apply andb_true_iff in T as [T T1]. auto.
    - apply Be_newtype with (a := nm) (b := nm) (t := t) (u := t); auto.
    - apply Be_struct with (a := nm) (b := nm) (fs := fs) (gs := fs); auto. now apply fields_same.
    - destruct (nth_error vs i) as [[n h]|] eqn:NT; [|discriminate]. destruct h as [|t|ts|fs].
      + destruct d; try discriminate. now apply Be_variant_unit with (vs := vs) (ws := vs) (name := n).
      + apply Be_variant_newtype with (vs := vs) (ws := vs) (name := n) (t := t) (u := t); auto.
      + destruct d as [| | | | | | | | | |l| | | |]; try discriminate. apply Be_variant_tuple with (vs := vs) (ws := vs) (name := n) (ts := ts) (us := ts); auto. now apply slots_same.
      + destruct d as [| | | | | | | | | | | | |l|]; try discriminate. apply Be_variant_struct with (vs := vs) (ws := vs) (name := n) (fs := fs) (gs := fs); auto. now apply fields_same.
  Qed.
  Lemma becomes_same d t : f32s_kept d -> has_type E t d = true -> becomes E E t t d d.
  Proof. intros K. exact (proj1 (becomes_same' d K) t). Qed.
End Same.

(** ** what is not there *)
Lemma dec_struct_places gs f : forall m il, dec_struct (field_name gs) f m = Some il -> forall i d, In (i, d) il -> exists n u, In n (map fst m) /\ nth_error gs i = Some (n, u).
Proof.
  induction m as [|[n k] m IH]; intros il H i d I; cbn [dec_struct] in H; [injection H as <-; destruct I|]. unfold field_name at 1 in H. cbn [opt_bind] in H. fold (dec_struct (field_name gs) f) in H.
  destruct (position n gs) as [[j u]|] eqn:P.
  - destruct (f u k) as [x|]; [|discriminate]. cbn [opt_bind] in H. destruct (dec_struct (field_name gs) f m) as [il'|]; [|discriminate]. injection H as <-. destruct I as [[= <- <-]|I].
    + apply position_some in P. exists n, u. split; [now left|exact P].
    + destruct (IH il' eq_refl i d I) as (n' & u' & A & B). exists n', u'. split; [now right|exact B].
  - destruct (IH il H i d I) as (n' & u' & A & B). exists n', u'. split; [now right|exact B].
Qed.
Lemma take_none il : forall fs i j n u, nth_error fs j = Some (n, u) -> absent u = None -> (forall d, ~ In ((i + j)%nat, d) il) -> take_fields i fs il = None.
Proof.
  induction fs as [|[m t] fs IH]; intros i [|j] n u N A H; try discriminate; cbn [take_fields nth_error] in *.
  - injection N as -> ->. rewrite Nat.add_0_r in H. rewrite find_none by exact H. now rewrite A.
  - rewrite (IH (S i) j n u N A); [|intros d; specialize (H d); now replace (S i + j)%nat with (i + S j)%nat by lia]. destruct (find _ il) as [[? ?]|]; [reflexivity|]. now destruct (absent t).
Qed.
Lemma fields_missing F (fs : list (str * ty)) gs m n u : distinct (map fst gs) = true -> Permutation (map fst m) (map fst fs) -> In (n, u) gs -> ~ In n (map fst fs) -> (forall t, u <> TyOption t) ->
  opt_bind (dec_struct (field_name gs) (dec F) m) (dec_record gs) = None.
Proof.
  intros D PM I NI O. destruct (dec_struct (field_name gs) (dec F) m) as [il|] eqn:DS; [|reflexivity]. cbn [opt_bind]. unfold dec_record. destruct (twice il); [reflexivity|].
  apply In_nth_error in I as [j J]. rewrite (take_none il gs 0%nat j n u J); [reflexivity|destruct u; try reflexivity; now destruct (O u)|].
  intros d X. destruct (dec_struct_places gs _ m il DS _ _ X) as (n' & u' & A & B). cbn [Nat.add] in B. rewrite J in B. injection B as <- <-. apply NI. eapply Permutation_in; [exact PM|exact A].
Qed.
Lemma struct_missing E F n n' a b fs gs l k name u : good_decls E -> good_decls F -> E n = DefStruct a fs -> F n' = DefStruct b gs ->
  has_type E (TyNamed n) (DRecord l) = true -> EncodeSpec.apart E (TyNamed n) (DRecord l) -> enc E (TyNamed n) (DRecord l) = inr k ->
  In (name, u) gs -> ~ In name (map fst fs) -> (forall t, u <> TyOption t) -> dec F (TyNamed n') k = None.
Proof.
  intros WE WF Q Q' T A H I NI O. destruct (enc_codes E WE (DRecord l) (TyNamed n) T A) as (k' & H' & C & _). rewrite H in H'. injection H' as <-.
  cbn [codes] in C. rewrite Q in C. destruct C as (m & C & ks & CE & P), k as [i v]. cbn [kval] in C. subst v. cbn [dec]. rewrite Q'. cbn [deserialize_any visit_fields].
  pose proof (WF n') as G. rewrite Q' in G. cbn [good_def] in G. apply andb_true_iff in G as [_ D].
  apply (fields_missing F fs gs m name u); auto. destruct (each3_length _ _ _ _ CE) as [L1 L2]. rewrite map_length in L1. rewrite <- (combine_fst (map fst fs) ks) by (rewrite map_length; lia). now apply Permutation_map.
Qed.
Lemma variant_missing E F n n' vs ws i name h d k : good_decls E -> E n = DefEnum vs -> F n' = DefEnum ws -> nth_error vs i = Some (name, h) ->
  has_type E (TyNamed n) (DVariant i d) = true -> EncodeSpec.apart E (TyNamed n) (DVariant i d) -> enc E (TyNamed n) (DVariant i d) = inr k ->
  ~ In name (map fst ws) -> dec F (TyNamed n') k = None.
Proof.
  intros WE Q Q' N T A H NI. destruct (enc_codes E WE (DVariant i d) (TyNamed n) T A) as (k' & H' & C & _). rewrite H in H'. injection H' as <-.
  cbn [codes] in C. rewrite Q, N in C.
  assert (K : kid k = Some name).
  { destruct h; [destruct C as [_ ->]; reflexivity|destruct C as (x & -> & _); reflexivity|destruct d; try contradiction|destruct d; try contradiction]; destruct C as (x & -> & _); reflexivity. }
  destruct k as [id v]. cbn [kid] in K. subst id. cbn [dec]. rewrite Q'. cbn [variant_id kid opt_bind].
  destruct (position name ws) as [[j h']|] eqn:P; [|reflexivity]. exfalso. apply NI. apply position_some, nth_error_In in P. now apply (in_map fst) in P.
Qed.
