(** Rewriting documents. *)
From Verif Require Import Base BaseProps F64 Number NumberSpec NumberProps3 BTree Value ValueSpec ValueProps ValueProps2 Nav NavSpec Nom Parse ParseErr ParseSpec ParseProps ParseErrProps Grammar Fmt Formatter FmtSpec FmtText RtSpec RtProps5 RtProps7 VSpec VRtProps5 TextSpec LooksSpec LooksProps2 LooksProps3 DocSpec StuckSpec.
Open Scope N_scope.

Lemma k_all_impl (p q r : kserd -> bool) : (forall k, p k = true -> q k = true -> r k = true) ->
  forall k, k_all p k = true -> k_all q k = true -> k_all r k = true.
Proof.
  intros H. induction k as [i v IH] using kserd_ind'. rewrite !k_all_children. intros [P PC] [Q QC]. split; [auto|].
  rewrite Forall_forall in *. intros c Hc. apply IH; auto.
Qed.
Lemma k_all_under (p q : kserd -> bool) : (forall k, k_all p k = true -> q k = true) -> forall k, k_all p k = true -> k_all q k = true.
Proof.
  intros H. induction k as [i v IH] using kserd_ind'. intros P. apply k_all_children. split; [auto|].
  apply k_all_children in P as [_ PC]. rewrite Forall_forall in *. intros c Hc. apply IH; auto.
Qed.

Lemma word_name c : word_char c = name_char c.
Proof.
  unfold word_char, name_char, is_alnum, is_alpha, is_digit, mem. cbn [s map existsb String.list_ascii_of_string].
  change (N_of_ascii "-") with 45. change (N_of_ascii "_") with 95. rewrite orb_false_r, !orb_assoc. reflexivity.
Qed.
Lemma parsed_plain i : parsed_id i = true -> negb (starts_with (s "true") i) && negb (starts_with (s "false") i) = true -> is_id_plain i = true.
Proof.
  unfold parsed_id, is_id_plain, is_id. intros H T. rewrite <- andb_assoc, T, andb_true_r. destruct i as [|c i]; [discriminate|].
  apply andb_true_iff in H as [H1 H2]. apply andb_true_iff. split.
  - cbn [forallb] in H2. apply andb_true_iff in H2 as [H2 _]. unfold word_char, is_alpha in *. change (ch "_") with 95. lia.
  - rewrite forallb_forall in *. intros x Hx. rewrite <- word_name. auto.
Qed.

Lemma document_readable k : parsed_node k = true -> document_node k = true -> readable_node k = true.
Proof.
  destruct k as [i v]. unfold parsed_node, document_node, readable_node. cbn [kid kval]. intros P D.
  apply andb_true_iff in P as [P1 P2]. apply andb_true_iff in D as [D1 D2]. apply andb_true_iff. split.
  { destruct i as [i|]; [|reflexivity]. cbn [opt_ok]. now apply parsed_plain. }
  destruct v as [|b|n|t|b|l|m|l|m]; try reflexivity; try assumption.
  - now destruct i.
  - apply andb_true_iff in D2 as [E F]. destruct (reread_exact n E) as [-> _]. exact F.
  - apply andb_true_iff in D2 as [N E]. destruct m as [|e m]; [discriminate|]. apply andb_true_iff in P2 as [_ W].
    rewrite forallb_forall in *. intros x Hx. specialize (W x Hx). specialize (E x Hx). cbn beta in *.
    unfold str in *. destruct x as [[|c n] x0]; cbn [fst] in *; [discriminate E|]. rewrite forallb_forall in *. intros y Hy. rewrite <- word_name. auto.
Qed.
Lemma document_sorted k : parsed_node k = true -> document_node k = true -> sorted_node k = true.
Proof.
  destruct k as [i v]. unfold parsed_node, document_node, sorted_node. cbn [kid kval]. intros P D.
  apply andb_true_iff in P as [_ P]. apply andb_true_iff in D as [_ D].
  destruct v as [|b|n|t|b|l|m|l|m]; try reflexivity.
  - now apply andb_true_iff in P as [P _].
  - apply orb_true_iff in D as [D|D]; [|exact D]. now rewrite D in P.
Qed.
Lemma parsed_typed k : k_parsed k = true -> k_typed k = true.
Proof.
  unfold k_typed. intros P. apply (k_all_impl parsed_node parsed_node); try assumption. clear. intros [i v] P _.
  unfold parsed_node, typed_node in *. cbn [kval] in *. apply andb_true_iff in P as [_ P]. destruct v; try reflexivity; exact P.
Qed.
Lemma document_exact k : document_node k = true -> num_node exact k = true /\ no_neg_zero k = true.
Proof.
  destruct k as [i v]. unfold document_node, num_node, no_neg_zero. cbn [kid kval]. intros D. apply andb_true_iff in D as [_ D].
  destruct v; try (split; reflexivity). apply andb_true_iff in D as [E _]. split; [exact E|].
  apply exact_ordinary in E. unfold ordinary in E. apply andb_true_iff in E as [_ E]. destruct n as [n|n|[sg p|sg|sg m e]]; try reflexivity.
  destruct sg; [|reflexivity]. destruct (m =? 0)%Z eqn:Z; [|reflexivity]. apply Z.eqb_eq in Z. subst m. exfalso.
  rewrite !andb_true_iff in E. destruct E as [[E _] _]. discriminate E.
Qed.

Lemma document_stable k : k_parsed k = true -> document k -> stable_value k /\ simple_tree k = true.
Proof.
  intros P [D R].
  assert (RD : readable_tree k = true).
  { unfold readable_tree. rewrite R, andb_true_r. revert P D. apply k_all_impl, document_readable. }
  assert (X : k_exact k = true) by (apply (k_all_impl document_node document_node); try assumption; intros; now apply document_exact).
  split; [|unfold simple_tree; now rewrite RD].
  split; [exact RD|]. split; [revert P D; apply k_all_impl, document_sorted|]. split; [now apply parsed_typed|].
  split; [apply (k_all_impl document_node document_node); try assumption; intros; now apply document_exact|].
  unfold key_numbers. unfold k_exact in X. revert X. apply k_all_under. clear. intros [i v] X. unfold keys_exact. cbn [kval]. destruct v; try reflexivity.
  apply k_all_children in X as [_ X]. cbn [vchildren] in X. apply Forall_entries in X. rewrite Forall_forall in X. apply forallb_forall.
  intros e He. now apply X.
Qed.

Theorem rewrite_simple src k cfg : parse src = ParseOk k -> document k -> tuple_ids_seen cfg k ->
  is_cntr k = false \/ width_limit cfg = None ->
  exists t k', as_str_with_config k cfg = LRet t /\ parse t = ParseOk k' /\ k_eqb k' k = true /\
    forall w, as_str_with_config k' (with_width cfg w) = as_str_with_config k (with_width cfg w).
Proof.
  intros P D T C. apply parse_wf in P. destruct (document_stable k P D) as [S M].
  destruct (as_str_simple k cfg C M ltac:(apply S) T) as (t & k' & A & B & E).
  destruct (as_str_twice_wide k cfg C S T) as (t2 & k2 & A2 & B2 & W).
  assert (t2 = t) by congruence. subst t2. assert (k2 = k') by congruence. subst k2. exists t, k'. auto.
Qed.
Theorem rewrite_any src k cfg : parse src = ParseOk k -> document k -> tuple_ids_seen cfg k ->
  vsimple (id_on_containers cfg) k = true -> ~ stuck cfg k -> (forall x, In x (preorder k) -> no_title_ids cfg x) ->
  exists t k', as_str_with_config k cfg = LRet t /\ parse t = ParseOk k' /\ k_eqb k' k = true /\
    forall w, as_str_with_config k' (with_width cfg w) = as_str_with_config k (with_width cfg w).
Proof.
  intros P D T V C Q. apply parse_wf in P. destruct (document_stable k P D) as [S M].
  destruct (as_str_any k cfg M V ltac:(apply S) C T) as (t & k' & A & B & E).
  destruct (as_str_any_twice_wide k cfg V C S T Q) as (t2 & k2 & A2 & B2 & W).
  assert (t2 = t) by congruence. subst t2. assert (k2 = k') by congruence. subst k2. exists t, k'. auto.
Qed.
