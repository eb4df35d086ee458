(** A list, container or map closed by the wrong bracket is refused there. *)
From Verif Require Import Base F64 Number BTree Value BaseProps Base91 Nom Parse Grammar GrammarProps BracketSpec.
Open Scope N_scope.

(** refused with these traces *)
Definition refused {A} (r : pres A) (e : perr) : Prop := match r with PErr e' | PFail e' => e' = e | _ => False end.
Lemma refused_cases {A} (r : pres A) e : refused r e -> r = PErr e \/ r = PFail e.
Proof. destruct r; cbn; intros H; try contradiction; subst; auto. Qed.

Section Wrong.
  Variables (c : char) (rest : str).
  Hypothesis CL : closer c = true.
  Lemma wrong_close cl w : blanks w -> c <> cl -> ignore_ws (pchar cl) (w ++ c :: rest) = PErr [(c :: rest, EChar cl)].
  Proof. intros B NE. rewrite skip_blanks by (auto; cbn; now apply space_blank, closer_space). now apply char_err. Qed.
  Lemma wrong_close0 cl : c <> cl -> ignore_ws (pchar cl) (c :: rest) = PErr [(c :: rest, EChar cl)].
  Proof. exact (wrong_close cl [] eq_refl). Qed.
  Lemma wrong_unit {A} (R : str -> A -> bool -> Prop) t l : all_start R -> inline_list R t l -> c <> ch ")" -> is_ok (unit_value (ch "(" :: t ++ c :: rest)) = false.
  Proof.
    intros ST HL NE. destruct l as [|a l]; [|now apply (list_not_unit R) with (l := a :: l)]. inversion HL; subst. apply unit_not_ok; [cbn; now apply space_blank, closer_space|assumption|exact NE].
  Qed.
  Ltac front t HO := rewrite pattern_head by (auto; reflexivity); cbn [pbind].
  Ltac inl R t l := rewrite new_line_eq, (inline_line R) with (l := l) by (auto using reads_start, field_start, entry_start); cbn [andb].
  Ltac con := rewrite new_line_eq, new_line_app by assumption; cbn [andb negb].
  Ltac shut := cbn [pbind]; first [rewrite wrong_close by assumption|rewrite wrong_close0 by assumption]; cbn [pbind]; reflexivity.
  Lemma wrong_ok n id w o cl what t : head_ok id w -> begun (c :: rest) o cl what t -> c <> cl -> (length t < n)%nat ->
    let e := [(c :: rest, EChar cl); (t ++ c :: rest, EContext what)] in
    refused (kserd_delimited (S n) false (head id w ++ o :: t ++ c :: rest)) e.
  Proof.
    intros HO H NE L e. assert (N0 : n <> 0%nat) by lia.
    assert (IH : forall m, accepts (kserd_delimited n m) (reads m) n) by (intros m; apply reads_ok).
    assert (REJ : forall m, rejects (kserd_delimited n m)). { destruct n as [|n']; [congruence|]. intros m'. apply delimited_rejects. }
    cbn [kserd_delimited]. unfold delimited_body. subst e.
    destruct H as [t l HL|t l HL NA|t l HL NN|t l HL|t l [NL HL]|t l [NL HL] NA|t l [NL HL] NN|t l [NL HL]].
    - front t HO. unfold seq_delimited. rewrite head_open by (auto; reflexivity). inl (reads true) t l.
      destruct (inline_ok (reads true) _ n (IH true) (REJ true) (reads_start true) c rest CL t l HL L) as (w' & B' & G).
      unfold inline_list_kserds, context, cut, terminated. rewrite G. shut.
    - front t HO. change (ch "(" =? ch "[") with false. change (ch "(" =? ch "{") with false. rewrite NA.
      replace (match id with Some _ => false | None => is_ok _ end) with false by (symmetry; destruct id; [reflexivity|]; apply (wrong_unit (reads true)) with (l := l); auto using reads_start).
      unfold tuple. rewrite head_open by (auto; reflexivity). inl (reads true) t l.
      destruct (inline_ok (reads true) _ n (IH true) (REJ true) (reads_start true) c rest CL t l HL L) as (w' & B' & G).
      unfold inline_list_kserds, context, cut, terminated. rewrite G. shut.
    - front t HO. change (ch "(" =? ch "[") with false. change (ch "(" =? ch "{") with false. rewrite (fields_assign (reads true) t l) by assumption.
      replace (match id with Some _ => false | None => is_ok _ end) with false by (symmetry; destruct id; [reflexivity|]; apply (list_not_unit (field_of (reads true))) with (l := l); auto using field_start).
      unfold cntr_delimited. rewrite head_open by (auto; reflexivity). inl (field_of (reads true)) t l.
      destruct (inline_ok (field_of (reads true)) _ n (field_accepts (kserd_delimited n true) (kserd_delimited n false) true (reads true) n (IH true) (reads_start true)) (field_rejects _ _ _) (field_start (reads true)) c rest CL t l HL L) as (w' & B' & G).
      unfold inline_cntr_kserds, context, cut, terminated. rewrite G. shut.
    - front t HO. unfold map_delimited. rewrite head_open by (auto; reflexivity). inl (entry_of (reads false) (reads true)) t l.
      destruct (inline_ok (entry_of (reads false) (reads true)) _ n (entry_accepts (kserd_delimited n true) (kserd_delimited n false) true (reads false) (reads true) n (IH false) (IH true) (reads_start true)) (entry_rejects _ _ _ (REJ true) (REJ false)) (entry_start (reads false) (reads true) (reads_start false)) c rest CL t l HL L) as (w' & B' & G).
      unfold inline_map_kserds, context, cut, terminated. rewrite G. shut.
    - front t HO. unfold seq_delimited. rewrite head_open by (auto; reflexivity). con.
      pose proof (concise_ok_cut (reads false) _ n (IH false) (REJ false) (reads_start false) c rest CL t l HL L) as G.
      unfold concise_list_kserds, context, cut at 1, terminated at 1. rewrite G. shut.
    - front t HO. change (ch "(" =? ch "[") with false. change (ch "(" =? ch "{") with false. rewrite NA.
      replace (match id with Some _ => false | None => is_ok _ end) with false by (symmetry; destruct id; [reflexivity|]; now apply line_not_unit).
      unfold tuple. rewrite head_open by (auto; reflexivity). con.
      pose proof (concise_ok_cut (reads false) _ n (IH false) (REJ false) (reads_start false) c rest CL t l HL L) as G.
      unfold concise_list_kserds, context, cut at 1, terminated at 1. rewrite G. shut.
    - front t HO. change (ch "(" =? ch "[") with false. change (ch "(" =? ch "{") with false. rewrite (cfields_assign (reads false) t l) by assumption.
      replace (match id with Some _ => false | None => is_ok _ end) with false by (symmetry; destruct id; [reflexivity|]; now apply line_not_unit).
      unfold cntr_delimited. rewrite head_open by (auto; reflexivity). con.
      pose proof (concise_ok_cut (field_of (reads false)) _ n (field_accepts (kserd_delimited n true) (kserd_delimited n false) false (reads false) n (IH false) (reads_start false)) (field_rejects _ _ _) (field_start (reads false)) c rest CL t l HL L) as G.
      unfold concise_cntr_kserds, context, terminated at 1. rewrite G. shut.
    - front t HO. unfold map_delimited. rewrite head_open by (auto; reflexivity). con.
      pose proof (concise_ok (entry_of (reads false) (reads false)) _ n (entry_accepts (kserd_delimited n true) (kserd_delimited n false) false (reads false) (reads false) n (IH false) (IH false) (reads_start false)) (entry_rejects _ _ _ (REJ true) (REJ false)) (entry_start (reads false) (reads false) (reads_start false)) c rest CL t l HL L) as G.
      unfold concise_map_kserds, context, terminated at 1. rewrite G. shut.
  Qed.
  Lemma wrong_root id w o cl what t : head_ok id w -> begun (c :: rest) o cl what t -> c <> cl -> verbose_start (head id w ++ o :: t ++ c :: rest) = false ->
    let e := [(c :: rest, EChar cl); (t ++ c :: rest, EContext what)] in
    kserd_root (head id w ++ o :: t ++ c :: rest) = PErr e \/ kserd_root (head id w ++ o :: t ++ c :: rest) = PFail e.
  Proof.
    intros HO H NE V e. assert (O : opener o = true) by (destruct H; reflexivity). pose proof (head_starts id w o (t ++ c :: rest) HO O) as ST.
    set (u := head id w ++ o :: t ++ c :: rest) in *.
    assert (K : kserd_root u = all_consuming (terminated (kserd_nested (S (length u)) (S (length u)) 0) multiline_whitespace) u) by (destruct u; [contradiction|reflexivity]).
    rewrite K. unfold all_consuming, terminated. cbn [kserd_nested]. unfold pattern_match_verbose.
    assert (MW : multiline_whitespace u = POk u []) by (apply (take_spaces [] u); [reflexivity|now apply starts_space]). rewrite MW. cbn [pbind].
    rewrite starts_not_colon by assumption. rewrite assign_eq, encased_eq. unfold verbose_start in V. apply orb_false_iff in V as [V V3]. apply orb_false_iff in V as [V1 V2].
    rewrite V1, V2, V3. cbn [orb]. unfold kserd_concise. assert (IW : forall p : parser kserd, ignore_ws p u = p u) by (intros p; apply (skip_blanks p [] u); [reflexivity|now apply starts_blank]). rewrite IW.
    destruct (refused_cases _ _ (wrong_ok (length u) id w o cl what t HO H NE ltac:(unfold u; rewrite !app_length; cbn [length]; rewrite app_length; lia))) as [E|E];
      fold u in E; rewrite E; cbn [pbind]; auto.
  Qed.
End Wrong.
