(** What is read back equals what was written. *)
From Verif Require Import Base F64 Number NumberSpec BTree Value BaseProps NumberProps NumberProps3 BTreeProps ValueSpec ValueProps ValueProps2 Nav Fmt FmtText FmtProps Grammar RtSpec RtProps2 RtProps5.
Open Scope N_scope.

Lemma sorted_map {A K V W} (cmp : K -> K -> comparison) (f g : A -> K) (h : A -> V) (h' : A -> W) (l : list A) :
  (forall a b, In a l -> In b l -> cmp (f a) (f b) = cmp (g a) (g b)) ->
  strictly_sorted cmp (map (fun a => (f a, h a)) l) = strictly_sorted cmp (map (fun a => (g a, h' a)) l).
Proof.
  induction l as [|x l IH]; intros H; [reflexivity|]. cbn [map strictly_sorted fst]. rewrite IH by (intros; apply H; now right). f_equal.
  assert (E : forall m, (forall b, In b m -> In b l) -> forallb (fun e' : K * V => match cmp (f x) (fst e') with Lt => true | _ => false end) (map (fun a => (f a, h a)) m)
    = forallb (fun e' : K * W => match cmp (g x) (fst e') with Lt => true | _ => false end) (map (fun a => (g a, h' a)) m)).
  { induction m as [|y m IHm]; intros Hm; [reflexivity|]. cbn [map forallb fst]. rewrite IHm by (intros; apply Hm; now right). rewrite H by (try (now left); right; apply Hm; now left). reflexivity. }
  apply E. auto.
Qed.
Lemma fields_sorted {V} (m : list (str * V)) : strictly_sorted str_cmp m = true -> fields_of m = m.
Proof.
  intros H. unfold fields_of. rewrite (strictly_sorted_spec _ _ str_lawful) in H by apply keysP_true.
  apply (bt_from_list_sorted (fun _ => True) str_cmp str_eqb str_lawful str_eqb_cmp'); [apply keysP_true|exact H].
Qed.
Lemma map_sorted {V} (m : list (kserd * V)) : Forall (fun e => good_key (fst e)) m -> strictly_sorted k_cmp m = true -> map_of m = m.
Proof.
  intros G H. unfold map_of. rewrite (strictly_sorted_spec _ _ good_key_lawful) in H by exact G.
  apply (bt_from_list_sorted good_key k_cmp k_eqb good_key_lawful good_key_eqb); assumption.
Qed.
Lemma good_node id v : match v with VNum n => exact n | VCntr [] => false | _ => true end = true -> Forall good_key (vchildren v) -> good_key (Kserd id v).
Proof.
  intros N C. split; apply k_all_children; split.
  - unfold num_node. cbn [kval]. destruct v; auto.
  - eapply Forall_impl; [|exact C]. now intros a [H _].
  - unfold not_empty_cntr. cbn [kval]. destruct v as [| | | | | |[|]| |]; auto.
  - eapply Forall_impl; [|exact C]. now intros a [_ H].
Qed.
Definition same (a b : kserd) : Prop := good_key a /\ good_key b /\ k_cmp a b = Eq.
Lemma same_cmps a a' b b' : same a a' -> same b b' -> k_cmp a b = k_cmp a' b'.
Proof.
  intros (A & A' & EA) (B & B' & EB). rewrite (law_eq _ _ good_key_lawful a a' b A A' B EA). rewrite (k_cmp_anti b a'), (k_cmp_anti b' a').
  now rewrite (law_eq _ _ good_key_lawful b b' a' B B' A' EB).
Qed.
Lemma list_same {A} (f : A -> A -> comparison) {B} (g h : B -> A) l : Forall (fun x => f (g x) (h x) = Eq) l -> list_cmp f (map g l) (map h l) = Eq.
Proof. induction 1 as [|x l H _ IH]; [reflexivity|]. cbn [map list_cmp]. rewrite H. exact IH. Qed.
Lemma k_cmp_same i j v w : vtag v = vtag w -> k_cmp (Kserd i v) (Kserd j w) = same_cmp v w.
Proof. intros E. rewrite k_cmp_unfold, E, N.compare_refl. reflexivity. Qed.

Lemma norm_same d : d_all faithful_node d = true -> k_sorted (undeco d) = true -> same (norm d) (undeco d).
Proof.
  induction d as [f id v IH] using dk_ind'. intros S K. apply d_all_children in S as [S SC]. cbn [undeco] in *. unfold k_sorted in K. apply k_all_children in K as [K KC].
  assert (G : Forall (fun c => same (norm c) (undeco c)) (d_children v)).
  { assert (KC' : Forall (fun c => k_all sorted_node (undeco c) = true) (d_children v)).
    { destruct v; cbn [vchildren d_children] in *; try constructor.
      - now rewrite Forall_map in KC.
      - rewrite !Forall_map in KC. now rewrite Forall_map.
      - now rewrite Forall_map in KC.
      - apply Forall_entries in KC. rewrite Forall_map in KC. now apply Forall_entries. }
    rewrite Forall_forall in *. intros c Hc. apply IH; auto. }
  clear IH SC KC. unfold faithful_node in S. cbn [d_val d_id] in S. unfold sorted_node in K. cbn [kval] in K.
  destruct v as [|b|n|t|b|l|m|l|m]; cbn [norm d_children] in *.
  - destruct id; [discriminate|]. repeat split; reflexivity.
  - repeat split; try reflexivity. rewrite k_cmp_same by reflexivity. apply bool_cmp_refl.
  - destruct (reread_exact n S) as (_ & E & V). split; [apply good_node; [exact E|constructor]|]. split; [apply good_node; [exact S|constructor]|].
    rewrite k_cmp_same by reflexivity. cbn [same_cmp]. now apply (proj2 (num_eqb_iff _ _ E S)), (proj1 (num_eqb_iff _ _ E S)).
  - repeat split; try reflexivity. rewrite k_cmp_same by reflexivity. apply str_cmp_refl.
  - repeat split; try reflexivity. rewrite k_cmp_same by reflexivity. apply bytes_cmp_refl.
  - destruct l as [|x l].
    + unfold shown_id in S. cbn [d_fmt d_id] in S. destruct (if f_id f then id else None); [|discriminate]. repeat split; reflexivity.
    + set (q := x :: l) in *. change (match q with [] => _ | _ => _ end) with (Kserd (if f_id f then id else None) (VTuple (map norm q))).
      split; [|split].
      * apply good_node; [reflexivity|]. cbn [vchildren]. rewrite Forall_map. eapply Forall_impl; [|exact G]. now intros a (H & _).
      * apply good_node; [reflexivity|]. cbn [vchildren]. rewrite Forall_map. eapply Forall_impl; [|exact G]. now intros a (_ & H & _).
      * rewrite k_cmp_same by reflexivity. apply list_same. eapply Forall_impl; [|exact G]. now intros a (_ & _ & H).
  - destruct m as [|x m]; [discriminate|]. set (q := x :: m) in *. change (match q with [] => _ | _ => _ end) with (Kserd (if f_id f then id else None) (VCntr (fields_of (map (fun e => (fst e, norm (snd e))) q)))).
    rewrite fields_sorted by (rewrite <- K; now apply (sorted_map str_cmp fst fst)). rewrite Forall_map in G. split; [|split].
    + apply good_node; [reflexivity|]. cbn [vchildren]. rewrite !Forall_map. eapply Forall_impl; [|exact G]. now intros a (H & _).
    + apply good_node; [reflexivity|]. cbn [vchildren]. rewrite !Forall_map. eapply Forall_impl; [|exact G]. now intros a (_ & H & _).
    + rewrite k_cmp_same by reflexivity. apply (list_same _ (fun e => (fst e, norm (snd e)))). eapply Forall_impl; [|exact G]. intros a (_ & _ & H). cbn [fst snd]. now rewrite str_cmp_refl.
  - split; [|split].
    + apply good_node; [reflexivity|]. cbn [vchildren]. rewrite Forall_map. eapply Forall_impl; [|exact G]. now intros a (H & _).
    + apply good_node; [reflexivity|]. cbn [vchildren]. rewrite Forall_map. eapply Forall_impl; [|exact G]. now intros a (_ & H & _).
    + rewrite k_cmp_same by reflexivity. apply list_same. eapply Forall_impl; [|exact G]. now intros a (_ & _ & H).
  - apply Forall_entries in G. rewrite map_sorted.
    2:{ rewrite Forall_map. eapply Forall_impl; [|exact G]. now intros a [(H & _) _]. }
    2:{ rewrite <- K. apply sorted_map. intros a b Ha Hb. rewrite Forall_forall in G. apply same_cmps; now apply G. }
    split; [|split].
    + apply good_node; [reflexivity|]. cbn [vchildren]. apply Forall_entries. rewrite Forall_map. eapply Forall_impl; [|exact G]. now intros a [(H & _) (H' & _)].
    + apply good_node; [reflexivity|]. cbn [vchildren]. apply Forall_entries. rewrite Forall_map. eapply Forall_impl; [|exact G]. now intros a [(_ & H & _) (_ & H' & _)].
    + rewrite k_cmp_same by reflexivity. apply (list_same _ (fun e => (norm (fst e), norm (snd e)))). eapply Forall_impl; [|exact G]. intros a [(_ & _ & H) (_ & _ & H')]. cbn [fst snd]. now rewrite H.
Qed.
Lemma norm_equal d : d_all faithful_node d = true -> k_sorted (undeco d) = true -> k_eqb (norm d) (undeco d) = true.
Proof. intros S K. destruct (norm_same d S K) as (A & B & E). now apply good_key_eqb. Qed.

(** ** the very same *)
Lemma reread_literal n f id : exact n = true -> literal_node (DK f id (VNum n)) = true -> reread n = n.
Proof.
  intros E L. unfold literal_node in L. cbn [d_val] in L. apply andb_true_iff in L as [_ L].
  pose proof (ordinary_wf _ (exact_ordinary _ E)) as W. pose proof (text_round_trip n W) as T. unfold reread. destruct n as [k|k|[sg p|sg|sg m e]].
  - now rewrite T.
  - now rewrite T, L.
  - discriminate.
  - now rewrite T.
  - destruct T as [T _]. apply negb_true_iff, Z.eqb_neq in L. now rewrite (T L).
Qed.
Lemma norm_literal d : d_all faithful_node d = true -> d_all literal_node d = true -> k_sorted (undeco d) = true -> norm d = undeco d.
Proof.
  induction d as [f id v IH] using dk_ind'. intros S L K. assert (GK : good_key (undeco (DK f id v))) by now apply norm_same.
  apply d_all_children in S as [S SC]. apply d_all_children in L as [L LC]. cbn [undeco] in *. unfold k_sorted in K. apply k_all_children in K as [K KC].
  assert (G : Forall (fun c => norm c = undeco c) (d_children v)).
  { assert (KC' : Forall (fun c => k_all sorted_node (undeco c) = true) (d_children v)).
    { destruct v; cbn [vchildren d_children] in *; try constructor.
      - now rewrite Forall_map in KC.
      - rewrite !Forall_map in KC. now rewrite Forall_map.
      - now rewrite Forall_map in KC.
      - apply Forall_entries in KC. rewrite Forall_map in KC. now apply Forall_entries. }
    rewrite Forall_forall in *. intros c Hc. apply IH; auto. }
  clear IH SC LC KC. assert (ID : (if f_id f then id else None) = id).
  { unfold literal_node in L. apply andb_true_iff in L as [L _]. cbn [d_fmt d_id] in L. destruct (f_id f); [reflexivity|]. destruct id; [discriminate|reflexivity]. }
  pose proof L as L0. unfold faithful_node, shown_id in S. cbn [d_val d_id d_fmt] in S. unfold sorted_node in K. cbn [kval] in K.
  destruct v as [|b|n|t|b|l|m|l|m]; cbn [norm d_children] in *; rewrite ?ID in *; try reflexivity.
  - destruct id; [discriminate|reflexivity].
  - now rewrite (reread_literal n f id).
  - destruct l as [|x l]; [destruct id; [reflexivity|discriminate]|]. do 2 f_equal. apply map_ext_Forall. exact G.
  - destruct m as [|x m]; [discriminate|]. rewrite Forall_map in G. set (q := x :: m) in *.
    change (match q with [] => _ | _ => _ end) with (Kserd id (VCntr (fields_of (map (fun e => (fst e, norm (snd e))) q)))).
    rewrite (@map_ext_Forall _ _ (fun e => (fst e, norm (snd e))) (fun e => (fst e, undeco (snd e))) q) by (eapply Forall_impl; [|exact G]; intros a H; cbv beta in *; now rewrite H).
    now rewrite fields_sorted.
  - do 2 f_equal. now apply map_ext_Forall.
  - apply Forall_entries in G.
    rewrite (@map_ext_Forall _ _ (fun e => (norm (fst e), norm (snd e))) (fun e => (undeco (fst e), undeco (snd e))) m) by (eapply Forall_impl; [|exact G]; intros a [H H']; cbv beta in *; now rewrite H, H').
    rewrite map_sorted; [reflexivity| |exact K]. destruct GK as [G1 G2]. apply k_all_children in G1 as [_ G1]. apply k_all_children in G2 as [_ G2]. cbn [vchildren] in *.
    apply Forall_entries in G1, G2. rewrite Forall_forall in *. intros e He. split; [now apply G1|now apply G2].
Qed.

(** ** simple values *)
Lemma undeco_children f id v : vchildren (kval (undeco (DK f id v))) = map undeco (d_children v).
Proof.
  cbn [undeco kval]. destruct v as [| | | | |l|m|l|m]; cbn [vchildren d_children]; try reflexivity.
  - now rewrite !map_map.
  - unfold entry_list. induction m as [|e m IH]; [reflexivity|]. cbn [map flat_map app fst snd]. now rewrite IH.
Qed.
Lemma id_plain_id i : is_id_plain i = true -> is_id i = true.
Proof. unfold is_id_plain. intros H. apply andb_true_iff in H as [H _]. now apply andb_true_iff in H as [H _]. Qed.
Lemma simple_not_bare d : readable_node (undeco d) = true -> bare_number d = false.
Proof.
  destruct d as [f id v]. unfold readable_node, bare_number. cbn [undeco kval d_val]. intros H. apply andb_true_iff in H as [_ H]. destruct v; try reflexivity.
  apply andb_true_iff in H as [_ H]. destruct n as [| |[|[] |]]; (discriminate || reflexivity).
Qed.
Lemma forallb_mapped {A B} (f : B -> bool) (g : A -> B) l : forallb f (map g l) = forallb (fun x => f (g x)) l.
Proof. induction l as [|x l IH]; [reflexivity|]. cbn [map forallb]. now rewrite IH. Qed.
Lemma chain_all {A} (r : A -> A -> bool) l : Forall (fun x => forall y, r x y = true) l -> chain r l = true.
Proof. induction 1 as [|x [|y l] H _ IH]; [reflexivity..|]. change (r x y && chain r (y :: l) = true). now rewrite H, IH. Qed.
Lemma simple_safe d : k_all readable_node (undeco d) = true -> d_all (fun x => negb (drops x)) d = true ->
  d_all safe_node d = true /\ (k_exact (undeco d) = true -> d_all faithful_node d = true).
Proof.
  induction d as [f id v IH] using dk_ind'. intros S T. apply d_all_children in T as [T TC].
  change (undeco (DK f id v)) with (Kserd id (kval (undeco (DK f id v)))) in S. apply k_all_children in S as [S SC]. rewrite undeco_children, Forall_map in SC.
  assert (NB : Forall (fun c => bare_number c = false) (d_children v)).
  { eapply Forall_impl; [|exact SC]. intros [f' id' v'] H. apply simple_not_bare. change (undeco (DK f' id' v')) with (Kserd id' (kval (undeco (DK f' id' v')))) in *. now apply k_all_children in H as [H _]. }
  assert (C : Forall (fun c => d_all safe_node c = true /\ (k_exact (undeco c) = true -> d_all faithful_node c = true)) (d_children v)) by (rewrite Forall_forall in *; auto).
  rewrite !d_all_children. assert (C1 := C). apply Forall_and_inv in C as [CA CB].
  assert (ND : Forall (fun c => drops c = false) (d_children v)).
  { eapply Forall_impl; [|exact TC]. intros [f' id' v'] H. apply d_all_children in H as [H _]. now apply negb_true_iff in H. }
  clear IH SC TC C1.
  unfold readable_node in S. cbn [kid kval undeco] in S. apply andb_true_iff in S as [I S].
  assert (IP : opt_ok is_id_plain (if f_id f then id else None) = true) by (destruct (f_id f); [exact I|reflexivity]).
  assert (IQ : opt_ok is_id (if f_id f then id else None) = true) by (destruct (if f_id f then id else None); [now apply id_plain_id|reflexivity]).
  split; [split; [|assumption]|intros X; change (undeco (DK f id v)) with (Kserd id (kval (undeco (DK f id v)))) in X; apply k_all_children in X as [X XC]; rewrite undeco_children, Forall_map in XC;
    split; [|rewrite Forall_forall in *; auto]]; unfold safe_node, faithful_node, shown_id, d_line; cbn [d_val d_id d_fmt].
  - destruct v as [|b|n|t|b|l|m|l|m]; rewrite ?IP, ?IQ; cbn [andb]; try reflexivity.
    + destruct id; [discriminate|reflexivity].
    + now apply andb_true_iff in S as [S _].
    + unfold safe_string in *. destruct (delimiter t); [|discriminate]. cbn [is_some orb] in S. rewrite S. apply orb_true_r.
    + exact S.
    + destruct (f_line f); [|apply chain_all; eapply Forall_impl; [|exact NB]; intros x H y; unfold apart; now rewrite H..].
      destruct l; [reflexivity|]. cbn [d_children first_shown] in *. inversion_clear ND as [|? ? H _]. now rewrite H.
    + destruct m as [|x m]; [discriminate|]. cbn [map] in S. change (forallb (fun e : str * kserd => match fst e with [] => false | n => forallb name_char n end) (map (fun e => (fst e, undeco (snd e))) (x :: m)) = true) in S.
      now rewrite forallb_mapped in S.
    + destruct (f_line f); [|apply chain_all; eapply Forall_impl; [|exact NB]; intros x H y; unfold apart; now rewrite H..].
      destruct l; [reflexivity|]. cbn [d_children first_shown] in *. inversion_clear ND as [|? ? H _]. now rewrite H.
    + cbn [d_children] in NB. apply Forall_entries in NB. destruct (f_line f); [reflexivity|apply chain_all; eapply Forall_impl; [|exact NB]; intros x [_ H] y; unfold apart; now rewrite H..].
  - destruct v as [|b|n|t|b|l|m|l|m]; try reflexivity.
    + exact S.
    + exact X.
    + destruct l; [|reflexivity]. unfold drops in T. destruct id; [|discriminate]. now destruct (f_id f).
    + destruct m; [discriminate|reflexivity].
Qed.
Lemma readable_text_safe d : readable_tree (undeco d) = true -> tuple_ids_shown d = true -> text_safe d = true /\ (k_exact (undeco d) = true -> d_all faithful_node d = true).
Proof.
  intros S T. unfold readable_tree in S. apply andb_true_iff in S as [S R]. unfold tuple_ids_shown in T. rewrite each_all in T.
  destruct (simple_safe d S T) as [A B]. split; [|exact B]. unfold text_safe. rewrite each_all, A. cbn [andb].
  destruct d as [f id v]. unfold safe_root, simple_root in *. cbn [undeco kval d_val] in *. destruct v as [| | | | | | |[|x l]|]; try reflexivity.
  destruct (d_line _); try reflexivity. destruct (shown_id _); [reflexivity|]. cbn [map] in R.
  assert (NB : bare_number x = false).
  { apply simple_not_bare. cbn [undeco map] in S. apply k_all_children in S as [_ S]. cbn [vchildren] in S. inversion_clear S as [|? ? H _]. destruct x as [f' id' v'].
    change (undeco (DK f' id' v')) with (Kserd id' (kval (undeco (DK f' id' v')))) in *. now apply k_all_children in H as [H _]. }
  destruct x as [f' id' v']. unfold word_only. rewrite NB. cbn [undeco kval d_val] in *.
  destruct v'; try (rewrite ?andb_false_r; reflexivity); [destruct l; [discriminate R|]; rewrite !andb_false_r; reflexivity|discriminate].
Qed.
Lemma simple_text_safe d : simple_tree (undeco d) = true -> tuple_ids_shown d = true -> text_safe d = true /\ d_all faithful_node d = true.
Proof. intros S T. unfold simple_tree in S. apply andb_true_iff in S as [S X]. destruct (readable_text_safe d S T). auto. Qed.
