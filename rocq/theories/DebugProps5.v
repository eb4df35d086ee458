(** Proofs about debug texts: all that the text of a node tells. *)
From Verif Require Import Base BaseProps F64 Number NumberSpec BTree Value ValueSpec ValueProps Nav NavSpec NavProps NavProps2 NavProps3 Debug DebugSpec DebugProps DebugProps2 DebugProps3 DebugProps4.
Open Scope N_scope.

Section Style.
Variable plain : char -> bool.
Variable f_debug : f64 -> str.
Hypothesis FD : float_debug f_debug.
Variable alt : bool.
Notation debug_prim v := (debug_value plain f_debug alt (debug plain f_debug alt) v).

Lemma prim_same (v1 v2 : value kserd) r r' : primitive v1 = true -> primitive v2 = true ->
  match v1 with VNum n => num_wf n | _ => true end = true -> match v2 with VNum n => num_wf n | _ => true end = true ->
  debug_prim v1 ++ r = debug_prim v2 ++ r' -> outline v1 = outline v2 /\ r = r'.
Proof.
  intros Q1 Q2 W1 W2 E. destruct v1 as [|b1|n1|t1|s1|l1|m1|l1|m1]; try discriminate; destruct v2 as [|b2|n2|t2|s2|l2|m2|l2|m2]; try discriminate;
    cbn [debug_value] in E; lits; rewrite <- ?app_assoc in E; try discriminate E; apply app_inv_head in E; cbn [outline].
  - auto.
  - apply bool_prefix in E as [-> E]. apply app_inv_head in E. auto.
  - apply num_prefix in E as [-> E]; [|assumption..]. apply app_inv_head in E. auto.
  - apply str_prefix in E as [-> E]. apply app_inv_head in E. auto.
  - apply bytes_prefix in E as [-> E]. apply app_inv_head in E. auto.
Qed.
Lemma prim_nan (v : value kserd) : primitive v = true -> match v with VNum n => num_wf n | _ => true end = true -> debug_prim (outline v) = debug_prim v.
Proof.
  intros Q W. destruct v as [|b|[x|x|[sg p|sg|sg m e]]|t|b|l|m|l|m]; try discriminate; try reflexivity. cbn [outline one_nan debug_value debug_num].
  do 4 f_equal. destruct FD as [F _]. apply F; [reflexivity|exact W|]. right. auto.
Qed.
Lemma outline_kind v : node_kind (outline v) = node_kind v /\ primitive (outline v) = primitive v.
Proof. destruct v; split; reflexivity. Qed.

(** all of the text *)
Definition node_facts (nv : nav) (n : node) : str :=
  s "index: " ++ debug_usize (n_idx n) ++ more alt ++ s "parent: " ++ opt_flat alt (option_map (fun p => debug_usize (n_idx p)) (node_parent nv n)) ++ more alt ++
  s "is_key: " ++ debug_bool (is_key n) ++ more alt ++ s "idx_in_parent: " ++ debug_usize (idx_in_parent n) ++ end_struct alt.
Definition node_all (nv : nav) (n : node) : str :=
  node_open alt ++ opt_flat alt (option_map (debug_str plain) (kid (n_kserd n))) ++ more alt ++ s "value-type: " ++ debug_str plain (node_kind (kval (n_kserd n))) ++ more alt ++
  (if primitive (kval (n_kserd n)) then s "value: " ++ debug_prim (kval (n_kserd n)) ++ more alt else []) ++ node_facts nv n.
Lemma node_whole nv n : calm alt (debug_node plain f_debug alt nv n) = node_all nv n.
Proof.
  rewrite (node_flat plain f_debug FD alt). unfold node_fields. rewrite kind_primitive. unfold node_all, node_facts, node_open, flat_struct.
  assert (O : calm alt (debug_option alt (option_map (debug_str plain) (kid (n_kserd n)))) = opt_flat alt (option_map (debug_str plain) (kid (n_kserd n)))).
  { apply calm_option. destruct (kid (n_kserd n)); cbn; [|exact Logic.I]. split; [apply str_line|lia]. }
  assert (OP : calm alt (debug_option alt (option_map (fun p => debug_usize (n_idx p)) (node_parent nv n))) = opt_flat alt (option_map (fun p => debug_usize (n_idx p)) (node_parent nv n))).
  { apply calm_option. destruct (node_parent nv n); cbn [option_map]; [|exact Logic.I]. split; [apply (dec_line plain)|apply (usize_begins plain)]. }
  assert (B : calm alt (debug_bool (is_key n)) = debug_bool (is_key n)) by (apply calm_line; now destruct (is_key n)).
  destruct (primitive (kval (n_kserd n))) eqn:Q; cbn [app map fst snd]; rewrite O, OP, B, ?(calm_line alt (debug_str plain _)) by apply str_line;
    rewrite ?(calm_line alt (debug_usize (n_idx n))), ?(calm_line alt (debug_usize (idx_in_parent n))) by apply (dec_line plain); rewrite ?(calm_line alt (debug_prim _)) by (now apply prim_line); cbn [body].
  - rewrite <- !app_assoc. reflexivity.
  - rewrite <- !app_assoc. reflexivity.
Qed.
Lemma usize_until a b c r r' : is_digit c = false -> debug_usize a ++ c :: r = debug_usize b ++ c :: r' -> a = b /\ r = r'.
Proof. intros D H. unfold debug_usize in H. apply dec_until in H as [H H']; [|exact D]. split; [now apply Nnat.Nat2N.inj|exact H']. Qed.
Lemma more_cons x : more alt ++ x = 44 :: skipn 1 (more alt) ++ x.
Proof. unfold more. now destruct alt. Qed.
Lemma cons_eq {A} (x : A) l l' : x :: l = x :: l' -> l = l'.
Proof. now intros [= H]. Qed.
Lemma opt_usize i j r r' : opt_flat alt (option_map debug_usize i) ++ r = opt_flat alt (option_map debug_usize j) ++ r' -> i = j /\ r = r'.
Proof.
  unfold opt_flat. destruct i as [t|], j as [u|]; cbn [option_map]; intros E; lits.
  - rewrite <- !app_assoc in E. apply app_inv_head, app_inv_head in E. unfold fin in E.
    destruct alt; cbn [app] in E; (apply usize_until in E as [-> E]; [|reflexivity]); [injection E as E|]; auto.
  - discriminate E.
  - discriminate E.
  - apply app_inv_head in E. auto.
Qed.
Lemma facts_same nv1 nv2 n1 n2 : node_facts nv1 n1 = node_facts nv2 n2 ->
  n_idx n1 = n_idx n2 /\ option_map n_idx (node_parent nv1 n1) = option_map n_idx (node_parent nv2 n2) /\ is_key n1 = is_key n2 /\ idx_in_parent n1 = idx_in_parent n2.
Proof.
  intros E. unfold node_facts in E. apply app_inv_head in E. rewrite !more_cons in E. apply usize_until in E as [-> E]; [|reflexivity]. apply app_inv_head, app_inv_head in E.
  assert (X : forall nv n, option_map (fun p => debug_usize (n_idx p)) (node_parent nv n) = option_map debug_usize (option_map n_idx (node_parent nv n))) by (intros nv n; now destruct (node_parent nv n)).
  rewrite !X in E. apply opt_usize in E as [-> E]. apply cons_eq in E. apply app_inv_head, app_inv_head, bool_prefix in E as [-> E]. apply cons_eq in E. apply app_inv_head, app_inv_head in E.
  split; [reflexivity|]. split; [reflexivity|]. split; [reflexivity|].
  assert (F : exists c r, end_struct alt = c :: r /\ is_digit c = false) by (unfold end_struct, fin; destruct alt; do 2 eexists; split; reflexivity).
  destruct F as (c & r & EE & D). rewrite EE in E. now apply usize_until in E as [-> _].
Qed.
Theorem node_texts k1 k2 nv1 nv2 n1 n2 : k_typed k1 = true -> k_typed k2 = true -> nav_new k1 = LRet nv1 -> nav_new k2 = LRet nv2 -> In n1 nv1 -> In n2 nv2 ->
  (debug_node plain f_debug alt nv1 n1 = debug_node plain f_debug alt nv2 n2 <->
   kid (n_kserd n1) = kid (n_kserd n2) /\ outline (kval (n_kserd n1)) = outline (kval (n_kserd n2)) /\
   n_idx n1 = n_idx n2 /\ option_map n_idx (node_parent nv1 n1) = option_map n_idx (node_parent nv2 n2) /\ is_key n1 = is_key n2 /\ idx_in_parent n1 = idx_in_parent n2).
Proof.
  intros T1 T2 E1 E2 I1 I2. pose proof (node_typed k1 nv1 n1 T1 E1 I1) as TN1. pose proof (node_typed k2 nv2 n2 T2 E2 I2) as TN2.
  assert (W1 : match kval (n_kserd n1) with VNum n => num_wf n | _ => true end = true) by (unfold typed_node in TN1; destruct (kval (n_kserd n1)); try reflexivity; exact TN1).
  assert (W2 : match kval (n_kserd n2) with VNum n => num_wf n | _ => true end = true) by (unfold typed_node in TN2; destruct (kval (n_kserd n2)); try reflexivity; exact TN2).
  split.
  - intros D. assert (E : node_all nv1 n1 = node_all nv2 n2) by (rewrite <- !node_whole; now rewrite D). unfold node_all in E.
    apply app_inv_head, opt_prefix in E as [EI E]. split; [exact EI|]. apply app_inv_head, app_inv_head, str_prefix in E as [EK E]. apply app_inv_head in E.
    assert (Q : primitive (kval (n_kserd n1)) = primitive (kval (n_kserd n2))) by (rewrite <- !kind_primitive; now rewrite EK).
    rewrite Q in E. destruct (primitive (kval (n_kserd n2))) eqn:Q2.
    + rewrite <- !app_assoc in E. apply app_inv_head, prim_same in E as [EO E]; try assumption. split; [exact EO|]. apply app_inv_head in E. now apply facts_same.
    + split; [|now apply facts_same]. clear - Q Q2 EK. destruct (kval (n_kserd n1)), (kval (n_kserd n2)); try discriminate; reflexivity.
  - intros (EI & EO & EX & EP & EK & EJ).
    assert (P : option_map (fun p => debug_usize (n_idx p)) (node_parent nv1 n1) = option_map (fun p => debug_usize (n_idx p)) (node_parent nv2 n2)).
    { destruct (node_parent nv1 n1), (node_parent nv2 n2); try discriminate EP; [|reflexivity]. injection EP as EP. cbn [option_map]. now rewrite EP. }
    unfold debug_node. rewrite EI, EX, P, EK, EJ.
    destruct (outline_kind (kval (n_kserd n1))) as [K1 P1]. destruct (outline_kind (kval (n_kserd n2))) as [K2 P2]. rewrite EO in K1, P1.
    assert (KK : node_kind (kval (n_kserd n1)) = node_kind (kval (n_kserd n2))) by congruence. rewrite KK.
    rewrite !(kind_primitive (kval (n_kserd n2))). destruct (primitive (kval (n_kserd n2))) eqn:Q2; [|reflexivity].
    rewrite <- (prim_nan (kval (n_kserd n1))), <- (prim_nan (kval (n_kserd n2))) by (congruence || assumption). now rewrite EO.
Qed.
End Style.
