(** Rewriting documents which may be refused afterwards. *)
From Verif Require Import ParseSpec PropertiesParse Base BaseProps F64 Number NumberSpec NumberProps3 BTree Value ValueSpec ValueProps ValueProps2 Nav NavSpec Nom Parse ParseErr ParseProps ParseErrProps Grammar Fmt Formatter FmtSpec FmtText FmtProps2 RtSpec RtProps5 VSpec TextSpec LooksSpec MisreadSpec MisreadSpec2 MisreadProps10 LooksProps4 DocSpec DocSpec2 DocProps StuckSpec StuckProps2.
Open Scope N_scope.

Lemma kept_clear k : parsed_node k = true -> lasting_node k = true -> clear_value k = true.
Proof.
  destruct k as [i v]. unfold parsed_node, lasting_node, clear_value. cbn [kid kval]. intros P D.
  apply andb_true_iff in P as [P1 P2]. apply andb_true_iff in D as [D1 D2]. apply andb_true_iff. split.
  { destruct i as [i|]; [|reflexivity]. cbn [opt_ok]. now apply parsed_plain. }
  destruct v as [|b|n|t|b|l|m|l|m]; try reflexivity; try assumption.
  - apply andb_true_iff in D2 as [N E]. apply andb_true_iff in P2 as [_ W].
    rewrite forallb_forall in *. intros x Hx. specialize (W x Hx). specialize (E x Hx). cbn beta in *.
    unfold str in *. destruct x as [[|c n] x0]; cbn [fst] in *; [discriminate E|]. rewrite forallb_forall in *. intros y Hy. rewrite <- word_name. auto.
Qed.
Lemma kept_whole k : lasting_node k = true -> whole_value k = true.
Proof.
  destruct k as [i v]. unfold lasting_node, whole_value. cbn [kid kval]. intros D. apply andb_true_iff in D as [_ D].
  destruct v as [|b|n|t|b|[|x l]|[|e m]|l|m]; try reflexivity; try assumption; now destruct i.
Qed.
Lemma kept_sorted k : parsed_node k = true -> lasting_node k = true -> sorted_node k = true.
Proof.
  destruct k as [i v]. unfold parsed_node, lasting_node, sorted_node. cbn [kid kval]. intros P D.
  apply andb_true_iff in P as [_ P]. apply andb_true_iff in D as [_ D].
  destruct v as [|b|n|t|b|l|m|l|m]; try reflexivity.
  - now apply andb_true_iff in P as [P _].
  - apply orb_true_iff in D as [D|D]; [|exact D]. now rewrite D in P.
Qed.
Lemma kept_zero k : lasting_node k = true -> no_neg_zero k = true.
Proof.
  destruct k as [i v]. unfold lasting_node, no_neg_zero. cbn [kid kval]. intros D. apply andb_true_iff in D as [_ E].
  destruct v; try reflexivity. apply exact_ordinary in E. unfold ordinary in E. apply andb_true_iff in E as [_ E]. destruct n as [n|n|[sg p|sg|sg m e]]; try reflexivity.
  destruct sg; [|reflexivity]. destruct (m =? 0)%Z eqn:Z; [|reflexivity]. apply Z.eqb_eq in Z. subst m. exfalso.
  rewrite !andb_true_iff in E. destruct E as [[E _] _]. discriminate E.
Qed.
Lemma kept_strings k : lasting_node k = true -> str_ok k = true.
Proof.
  destruct k as [i v]. unfold lasting_node, str_ok. cbn [kid kval]. intros D. apply andb_true_iff in D as [_ D].
  destruct v; try reflexivity. unfold delimiter in D. destruct (find _ delimiters) eqn:F; [|discriminate]. apply find_some in F as [HI HN]. apply existsb_exists. eauto.
Qed.

Theorem rewrite_accepted src k cfg : parse src = ParseOk k -> k_all lasting_node k = true -> told_apart (id_on_containers cfg) k = true -> tuple_ids_seen cfg k ->
  ~ stuck cfg k -> (forall x, In x (preorder k) -> no_title_ids cfg x) ->
  exists t, as_str_with_config k cfg = LRet t /\
    ((exists e, parse t = ParseErr e) \/
     exists k', parse t = ParseOk k' /\ k_eqb k' k = true /\ forall w, as_str_with_config k' (with_width cfg w) = as_str_with_config k (with_width cfg w)).
Proof.
  intros P D A T C Q. apply parse_wf in P.
  assert (CL : k_all clear_value k = true) by (revert P D; apply k_all_impl, kept_clear).
  assert (SO : k_sorted k = true) by (revert P D; apply k_all_impl, kept_sorted).
  assert (WH : k_all whole_value k = true) by (apply (k_all_impl lasting_node lasting_node); try assumption; intros; now apply kept_whole).
  assert (NZ : k_all no_neg_zero k = true) by (apply (k_all_impl lasting_node lasting_node); try assumption; intros; now apply kept_zero).
  assert (ST : strings_ok k) by (unfold strings_ok; rewrite <- k_all_preorder; apply (k_all_impl lasting_node lasting_node); try assumption; intros; now apply kept_strings).
  destruct (as_str_free k cfg ST C) as (t & E). exists t. split; [exact E|].
  destruct (C17_parse_total t) as [[k' R]|[e R]]; [right|left; now exists e]. exists k'. split; [exact R|].
  split; [exact (as_str_never_misread_any k cfg t k' A CL T SO WH E R)|].
  apply (accepted_twice k cfg t k' A CL WH SO (parsed_typed k P) NZ T Q E R).
Qed.
