(** A list, container or map which is not closed before the end of the document. *)
From Verif Require Import Base F64 Number BTree Value BaseProps Base91 Nom Parse Grammar GrammarProps BracketSpec BracketProps.
Open Scope N_scope.

Lemma skip_all {A} (p : parser A) w : blanks w -> ignore_ws p w = p [].
Proof. intros B. rewrite <- (app_nil_r w) at 1. now apply skip_blanks. Qed.
Lemma spaces_all w : spaces w -> multiline_whitespace w = POk [] w.
Proof. intros B. rewrite <- (app_nil_r w) at 1. now apply take_spaces. Qed.
Lemma opens_blank w : blanks w -> opens w = false.
Proof. intros B. rewrite <- (app_nil_r w). rewrite spaces_opens by now apply blanks_spaces. reflexivity. Qed.
Lemma new_line_blank w : blanks w -> new_line w = false.
Proof. induction w as [|c w IH]; [reflexivity|]. unfold blanks. cbn [forallb new_line]. intros B. apply andb_true_iff in B as [B1 B2]. rewrite (IH B2), andb_false_r, orb_false_r. apply N.eqb_neq. intros ->. discriminate. Qed.
Definition ends_off {A} (p : parser A) : Prop := exists e, p [] = PErr e.

Section ListsEnd.
  Context {A : Type} (R : str -> A -> bool -> Prop) (p : parser A) (n : nat).
  Hypothesis ACC : accepts p R n.
  Hypothesis OFF : ends_off p.
  Hypothesis ST : all_start R.
  Lemma end_follow r l : inline_more R r l -> ends r = true /\ opens r = false.
  Proof.
    intros [w B|w1 w2 t a b r' l' B1 B2 _ _].
    - split; [|now apply opens_blank]. rewrite <- (app_nil_r w). now apply blanks_ends.
    - split; [now apply blanks_ends|]. rewrite spaces_opens by now apply blanks_spaces. reflexivity.
  Qed.
  Lemma end_loop r l : inline_more R r l -> (length r < n)%nat -> forall acc fuel, (length r < fuel)%nat ->
    exists w, blanks w /\ sep_loop fuel (ignore_ws (pchar (ch ","))) (ignore_ws p) acc r = POk w (acc ++ l).
  Proof.
    induction 1 as [w B|w1 w2 t a b r l B1 B2 HR HM IH]; intros LN acc fuel LF; (destruct fuel as [|fuel]; [lia|]); cbn [sep_loop].
    - exists w. split; [exact B|]. rewrite skip_all by exact B. cbn [pchar]. now rewrite app_nil_r.
    - change (w1 ++ s "," ++ w2 ++ t ++ r) with (w1 ++ ch "," :: w2 ++ t ++ r).
      rewrite !app_length in LN, LF. cbn [length s map list_ascii_of_string] in LN, LF.
      rewrite blank_char by (auto; reflexivity). replace (Nat.eqb _ _) with false by (symmetry; apply Nat.eqb_neq; repeat progress (rewrite ?app_length; cbn [length]); lia).
      rewrite skip_blanks by (auto; apply starts_blank, starts_app, (ST t a b HR)).
      destruct (end_follow r l HM) as [F1 F2]. rewrite (ACC t a b r) by (auto; lia).
      destruct (IH ltac:(lia) (acc ++ [a]) fuel ltac:(lia)) as (w & BW & ->). exists w. split; [exact BW|]. now rewrite <- app_assoc.
  Qed.
  Lemma end_ok t l : inline_list R t l -> (length t < n)%nat ->
    exists w, blanks w /\ separated_list0 (ignore_ws (pchar (ch ","))) (ignore_ws p) t = POk w l.
  Proof.
    intros [w B|w t' a b r l' B HR HM] LN; unfold separated_list0.
    - exists w. split; [exact B|]. rewrite skip_all by exact B. destruct OFF as [e ->]. reflexivity.
    - rewrite !app_length in LN. rewrite skip_blanks by (auto; apply starts_blank, starts_app, (ST t' a b HR)).
      destruct (end_follow r l' HM) as [F1 F2]. rewrite (ACC t' a b r) by (auto; lia).
      destruct (end_loop r l' HM ltac:(lia) [a] (S (length r))) as (w' & BW & ->); [lia|]. exists w'. split; [exact BW|reflexivity].
  Qed.
  Lemma end_line t l : inline_list R t l -> new_line t = false.
  Proof.
    intros [w B|w t' a b r l' B HR HM]; [now apply new_line_blank|]. pose proof (ST t' a b HR) as X. destruct t' as [|d t']; [contradiction|]. cbn [app].
    apply new_line_blanks; [exact B|]. exact (starts_space (d :: t') X).
  Qed.
  Lemma end_unit t l : inline_list R t l -> is_ok (unit_value (ch "(" :: t)) = false.
  Proof.
    intros [w B|w t' a b r l' B HR HM].
    - unfold unit_value, context, pmap, preceded. rewrite char_ok. cbn [pbind]. unfold cut, terminated. rewrite <- (app_nil_r w). rewrite take_blanks by (auto; exact I). reflexivity.
    - pose proof (ST t' a b HR) as X. destruct t' as [|d t']; [contradiction|]. cbn [app]. apply unit_not_ok; [exact (starts_blank (d :: t') X)|exact B|]. intros ->. discriminate X.
  Qed.
  Lemma cend_follow r l : concise_more R r l -> ends r = true.
  Proof.
    assert (G : forall w x, spaces w -> w <> [] -> ends (w ++ x) = true).
    { intros [|d w] x B NE; [congruence|]. unfold spaces in B. cbn [forallb] in B. apply andb_true_iff in B as [B _]. cbn [app ends]. now rewrite B. }
    intros [w B NE|w t a b r' l' B NE _ _]; [rewrite <- (app_nil_r w)|]; now apply G.
  Qed.
  Lemma cend_loop r l : concise_more R r l -> (length r < n)%nat -> forall acc fuel, (length r < fuel)%nat ->
    exists w, spaces w /\ sep_loop fuel multiline_whitespace p acc r = POk w (acc ++ l).
  Proof.
    induction 1 as [w B NE|w t a b r l B NE HR HM IH HO]; intros LN acc fuel LF; (destruct fuel as [|fuel]; [lia|]); cbn [sep_loop].
    - exists w. split; [exact B|]. rewrite spaces_all by exact B. replace (Nat.eqb _ _) with false.
      + destruct OFF as [e ->]. now rewrite app_nil_r.
      + symmetry. apply Nat.eqb_neq. destruct w; [congruence|]. cbn [length]. lia.
    - rewrite !app_length in LN, LF. rewrite take_spaces by (auto; apply starts_space, starts_app, (ST t a b HR)).
      assert (W1 : (0 < length w)%nat) by (destruct w; [congruence|cbn; lia]).
      replace (Nat.eqb _ _) with false by (symmetry; apply Nat.eqb_neq; rewrite (app_length w); lia).
      rewrite (ACC t a b r); [|exact HR|lia|now apply (cend_follow r l)|exact HO].
      destruct (IH ltac:(lia) (acc ++ [a]) fuel ltac:(lia)) as (w' & BW & ->). exists w'. split; [exact BW|]. now rewrite <- app_assoc.
  Qed.
  Lemma cend_ok t l : concise_more R t l -> (length t < n)%nat ->
    preceded multiline_whitespace (terminated (separated_list0 multiline_whitespace p) multiline_whitespace) t = POk [] l.
  Proof.
    intros HM LN. unfold preceded, terminated, separated_list0. destruct HM as [w B NE|w t' a b r l' B NE HR HM HO].
    - rewrite spaces_all by exact B. cbn [pbind]. destruct OFF as [e ->]. reflexivity.
    - rewrite !app_length in LN. rewrite take_spaces by (auto; apply starts_space, starts_app, (ST t' a b HR)). cbn [pbind].
      rewrite (ACC t' a b r); [|exact HR|lia|now apply (cend_follow r l')|exact HO].
      destruct (cend_loop r l' HM ltac:(lia) [a] (S (length r))) as (w' & BW & ->); [lia|].
      cbn [pbind]. rewrite spaces_all by exact BW. reflexivity.
  Qed.
  Lemma cend_ok_cut t l : concise_more R t l -> (length t < n)%nat ->
    preceded multiline_whitespace (cut (terminated (separated_list0 multiline_whitespace p) multiline_whitespace)) t = POk [] l.
  Proof.
    intros HM LN. pose proof (cend_ok t l HM LN) as H. unfold preceded in *. destruct (multiline_whitespace _) as [i a|?|?| |]; cbn [pbind] in *; try discriminate.
    unfold cut. now rewrite H.
  Qed.
End ListsEnd.

Lemma delimited_off fuel m : ends_off (kserd_delimited (S fuel) m).
Proof. eexists. reflexivity. Qed.
Lemma field_off inl con fi : ends_off (kvp_field inl con fi).
Proof. eexists. reflexivity. Qed.
Lemma entry_off inl con fi : ends_off inl -> ends_off con -> ends_off (kvp_kserd inl con fi).
Proof. intros [e H] [e' H']. unfold ends_off, kvp_kserd, context, separated_pair, alt2. rewrite H', H. cbn [pbind]. eauto. Qed.

Ltac ends_list := cbn [pbind]; first [rewrite skip_all by assumption|idtac]; cbn [pbind]; reflexivity.
Lemma open_ok n id w o cl what t : head_ok id w -> begun [] o cl what t -> (length t < n)%nat ->
  refused (kserd_delimited (S n) false (head id w ++ o :: t)) [([], EChar cl); (t, EContext what)].
Proof.
  intros HO H L. assert (N0 : n <> 0%nat) by lia.
  assert (IH : forall m, accepts (kserd_delimited n m) (reads m) n) by (intros m; apply reads_ok).
  assert (OFF : forall m, ends_off (kserd_delimited n m)). { destruct n as [|n']; [congruence|]. intros m'. apply delimited_off. }
  cbn [kserd_delimited]. unfold delimited_body.
  destruct H as [t l HL|t l HL NA|t l HL NN|t l HL|t l [NL HL]|t l [NL HL] NA|t l [NL HL] NN|t l [NL HL]]; rewrite pattern_head by (auto; reflexivity); cbn [pbind].
  - unfold seq_delimited. rewrite head_open by (auto; reflexivity). rewrite new_line_eq, (end_line (reads true)) with (l := l) by (auto using reads_start). cbn [andb].
    destruct (end_ok (reads true) _ n (IH true) (OFF true) (reads_start true) t l HL L) as (w' & B' & G).
    unfold inline_list_kserds, context, cut, terminated. rewrite G. ends_list.
  - change (ch "(" =? ch "[") with false. change (ch "(" =? ch "{") with false. rewrite app_nil_r in NA. rewrite NA.
    replace (match id with Some _ => false | None => is_ok _ end) with false by (symmetry; destruct id; [reflexivity|]; apply (end_unit (reads true)) with (l := l); auto using reads_start).
    unfold tuple. rewrite head_open by (auto; reflexivity). rewrite new_line_eq, (end_line (reads true)) with (l := l) by (auto using reads_start). cbn [andb].
    destruct (end_ok (reads true) _ n (IH true) (OFF true) (reads_start true) t l HL L) as (w' & B' & G).
    unfold inline_list_kserds, context, cut, terminated. rewrite G. ends_list.
  - change (ch "(" =? ch "[") with false. change (ch "(" =? ch "{") with false.
    assert (AS : assigns (trim t) = true) by (rewrite <- (app_nil_r t); now apply (fields_assign (reads true) t l)). rewrite AS.
    replace (match id with Some _ => false | None => is_ok _ end) with false by (symmetry; destruct id; [reflexivity|]; apply (end_unit (field_of (reads true))) with (l := l); auto using field_start).
    unfold cntr_delimited. rewrite head_open by (auto; reflexivity). rewrite new_line_eq, (end_line (field_of (reads true))) with (l := l) by (auto using field_start). cbn [andb].
    destruct (end_ok (field_of (reads true)) _ n (field_accepts (kserd_delimited n true) (kserd_delimited n false) true (reads true) n (IH true) (reads_start true)) (field_off _ _ _) (field_start (reads true)) t l HL L) as (w' & B' & G).
    unfold inline_cntr_kserds, context, terminated. rewrite G. ends_list.
  - unfold map_delimited. rewrite head_open by (auto; reflexivity). rewrite new_line_eq, (end_line (entry_of (reads false) (reads true))) with (l := l) by (auto using entry_start, reads_start). cbn [andb].
    destruct (end_ok (entry_of (reads false) (reads true)) _ n (entry_accepts (kserd_delimited n true) (kserd_delimited n false) true (reads false) (reads true) n (IH false) (IH true) (reads_start true)) (entry_off _ _ _ (OFF true) (OFF false)) (entry_start (reads false) (reads true) (reads_start false)) t l HL L) as (w' & B' & G).
    unfold inline_map_kserds, context, terminated. rewrite G. ends_list.
  - unfold seq_delimited. rewrite head_open by (auto; reflexivity). rewrite new_line_eq, NL. cbn [andb negb].
    pose proof (cend_ok_cut (reads false) _ n (IH false) (OFF false) (reads_start false) t l HL L) as G.
    unfold concise_list_kserds, context, cut at 1, terminated at 1. rewrite G. ends_list.
  - change (ch "(" =? ch "[") with false. change (ch "(" =? ch "{") with false. rewrite app_nil_r in NA. rewrite NA.
    replace (match id with Some _ => false | None => is_ok _ end) with false by (symmetry; destruct id; [reflexivity|]; rewrite <- (app_nil_r t); now apply line_not_unit).
    unfold tuple. rewrite head_open by (auto; reflexivity). rewrite new_line_eq, NL. cbn [andb negb].
    pose proof (cend_ok_cut (reads false) _ n (IH false) (OFF false) (reads_start false) t l HL L) as G.
    unfold concise_list_kserds, context, cut at 1, terminated at 1. rewrite G. ends_list.
  - change (ch "(" =? ch "[") with false. change (ch "(" =? ch "{") with false.
    assert (AS : assigns (trim t) = true) by (rewrite <- (app_nil_r t); now apply (cfields_assign (reads false) t l)). rewrite AS.
    replace (match id with Some _ => false | None => is_ok _ end) with false by (symmetry; destruct id; [reflexivity|]; rewrite <- (app_nil_r t); now apply line_not_unit).
    unfold cntr_delimited. rewrite head_open by (auto; reflexivity). rewrite new_line_eq, NL. cbn [andb negb].
    pose proof (cend_ok_cut (field_of (reads false)) _ n (field_accepts (kserd_delimited n true) (kserd_delimited n false) false (reads false) n (IH false) (reads_start false)) (field_off _ _ _) (field_start (reads false)) t l HL L) as G.
    unfold concise_cntr_kserds, context, terminated at 1. rewrite G. ends_list.
  - unfold map_delimited. rewrite head_open by (auto; reflexivity). rewrite new_line_eq, NL. cbn [andb negb].
    pose proof (cend_ok (entry_of (reads false) (reads false)) _ n (entry_accepts (kserd_delimited n true) (kserd_delimited n false) false (reads false) (reads false) n (IH false) (IH false) (reads_start false)) (entry_off _ _ _ (OFF true) (OFF false)) (entry_start (reads false) (reads false) (reads_start false)) t l HL L) as G.
    unfold concise_map_kserds, context, terminated at 1. rewrite G. ends_list.
Qed.
Lemma open_list_root id w o cl what t : head_ok id w -> begun [] o cl what t -> verbose_start (head id w ++ o :: t) = false ->
  refused (kserd_root (head id w ++ o :: t)) [([], EChar cl); (t, EContext what)].
Proof.
  intros HO H V. assert (O : opener o = true) by (destruct H; reflexivity). pose proof (head_starts id w o t HO O) as ST.
  set (u := head id w ++ o :: t) in *.
  assert (K : kserd_root u = all_consuming (terminated (kserd_nested (S (length u)) (S (length u)) 0) multiline_whitespace) u) by (destruct u; [contradiction|reflexivity]).
  rewrite K. unfold all_consuming, terminated. cbn [kserd_nested]. unfold pattern_match_verbose.
  assert (MW : multiline_whitespace u = POk u []) by (apply (take_spaces [] u); [reflexivity|now apply starts_space]). rewrite MW. cbn [pbind].
  rewrite starts_not_colon by assumption. rewrite assign_eq, encased_eq. unfold verbose_start in V. apply orb_false_iff in V as [V V3]. apply orb_false_iff in V as [V1 V2].
  rewrite V1, V2, V3. cbn [orb]. unfold kserd_concise. assert (IW : forall p : parser kserd, ignore_ws p u = p u) by (intros p; apply (skip_blanks p [] u); [reflexivity|now apply starts_blank]). rewrite IW.
  destruct (refused_cases _ _ (open_ok (length u) id w o cl what t HO H ltac:(unfold u; rewrite app_length; cbn [length]; lia))) as [E|E];
    fold u in E; rewrite E; reflexivity.
Qed.
