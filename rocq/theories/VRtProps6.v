(** Repeated keys in a verbose text. *)
From Verif Require Import Base F64 Number NumberSpec BTree Value BaseProps BTreeProps ValueSpec ValueProps ValueProps2 Grammar VGrammar VAssemble.
Open Scope N_scope.

Lemma last_some_fold {A} (l : list (option A)) acc : fold_left (fun acc o => match o with Some _ => o | None => acc end) l acc = match last_some l with Some v => Some v | None => acc end.
Proof.
  unfold last_some. revert acc. induction l as [|o l IH]; intros acc; [reflexivity|]. cbn [fold_left]. rewrite IH, (IH (match o with Some _ => o | None => None end)). destruct (fold_left _ l None); [reflexivity|]. now destruct o.
Qed.
Lemma last_some_cons {A} (o : option A) l : last_some (o :: l) = match last_some l with Some v => Some v | None => o end.
Proof. unfold last_some at 1. cbn [fold_left]. rewrite last_some_fold. now destruct o. Qed.
Lemma find_last {V} k (m : list (kserd * V)) : good_key k -> Forall (fun e => good_key (fst e)) m -> ascending k_cmp m = true ->
  option_map snd (find (fun e => k_eqb k (fst e)) m) = last_binding k_cmp k m.
Proof.
  intros Hk F A. rewrite <- (get_last good_key k_cmp good_key_lawful k m Hk F A). induction m as [|[k' v] m IH]; [reflexivity|].
  inversion F as [|? ? Hk' F']; subst. cbn [fst] in Hk'. pose proof A as A0. apply (ascending_cons good_key k_cmp good_key_lawful) in A as [B A]; [|exact F]. cbn [find fst bt_get].
  destruct (k_eqb k k') eqn:E.
  - apply (good_key_eqb k k' Hk Hk') in E. rewrite E. reflexivity.
  - destruct (k_cmp k k') eqn:C.
    + apply (good_key_eqb k k' Hk Hk') in C. congruence.
    + rewrite (get_last good_key k_cmp good_key_lawful) in IH by assumption. rewrite IH by assumption. apply (last_binding_below k_cmp). unfold below in *. cbn [fst] in B. rewrite Forall_forall in *. intros x Hx.
      apply (law_trans _ _ good_key_lawful k k' (fst x)); auto.
    + now apply IH.
Qed.
Lemma last_binding_some {V} k (l : list (kserd * V)) : good_key k -> Forall (fun e => good_key (fst e)) l ->
  last_binding k_cmp k l = last_some (map (fun e => if k_eqb k (fst e) then Some (snd e) else None) l).
Proof.
  intros Hk F. induction F as [|e l He F IH]; [reflexivity|]. cbn [last_binding map]. rewrite last_some_cons, <- IH. destruct (last_binding k_cmp k l); [reflexivity|].
  destruct (k_eqb k (fst e)) eqn:E.
  - apply (good_key_eqb _ _ Hk He) in E. now rewrite E.
  - destruct (k_cmp k (fst e)) eqn:C; try reflexivity. apply (good_key_eqb _ _ Hk He) in C. congruence.
Qed.
Theorem last_entry name l : entries_of name l <> [] -> Forall (fun e => good_key (fst (snd e))) (entries_of name l) ->
  exists id m, value_of name l = Kserd id (VMap m) /\ strictly_sorted k_cmp m = true /\
  forall k, good_key k -> option_map snd (find (fun e => k_eqb k (fst e)) m) = last_some (map (fun e => if k_eqb k (fst (snd e)) then Some (snd (snd e)) else None) (entries_of name l)).
Proof.
  intros NE F. unfold value_of. destruct (entries_of name l) as [|e es] eqn:E; [congruence|]. rewrite <- E in *.
  exists (last_some (map fst (entries_of name l))), (bt_inserts k_cmp (map snd (entries_of name l))). split; [rewrite E; destruct (elems_of name l); reflexivity|].
  assert (F' : Forall (fun e => good_key (fst e)) (map snd (entries_of name l))) by now rewrite Forall_map.
  destruct (bt_inserts_spec good_key k_cmp good_key_lawful (map snd (entries_of name l)) F') as (K & A & G). split; [rewrite (strictly_sorted_spec _ _ good_key_lawful); assumption|].
  intros k Hk. rewrite find_last by assumption. rewrite <- (get_last good_key k_cmp good_key_lawful) by assumption. rewrite G by exact Hk. rewrite last_binding_some by assumption. now rewrite map_map.
Qed.
