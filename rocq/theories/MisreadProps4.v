(** What is written is not taken for another value: documents. *)
From Verif Require Import Base F64 Number BTree Value BaseProps NumberProps3 Base91 Base91Props Nom Parse ParseProps Grammar VGrammar GrammarProps Format FormatProps Syntax SyntaxProps SyntaxProps2 SyntaxProps3 SyntaxProps4 Nav Fmt FmtText FmtSpec FmtProps FmtProps2 RtProps RtSpec RtProps2 RtProps3 RtProps4 MisreadSpec MisreadProps MisreadProps2 MisreadProps3.
Open Scope N_scope.

(** ** fields and entries *)
Definition read_field (e : str * dk) : str * kserd := (fst e, norm (snd e)).
Definition read_entry (e : dk * dk) : kserd * kserd := (norm (fst e), norm (snd e)).
Lemma gap_blanks x : blanks (RtProps2.gap x).
Proof. unfold RtProps2.gap. destruct (drops x); reflexivity. Qed.
Lemma field_only R col (e : str * dk) : all_begin R -> match fst e with [] => false | n => forallb name_char n end = true ->
  only R (fun x => text true x (col e)) norm (snd e) -> only (field_at R) (field_text col) read_field e.
Proof.
  destruct e as [n x]. cbn [fst snd]. intros RB N [BX HX].
  assert (NN : forallb name_char n = true) by (destruct n; [discriminate|exact N]). split.
  - destruct n as [|c n]; [discriminate|]. unfold field_text. cbn [fst app]. apply starts_begins. cbn [starts]. cbn [forallb] in NN. apply andb_true_iff in NN as [NN _]. now apply name_start.
  - intros t r' k r FO H E. destruct H as [name w1 w2 u r' k N1 _ W1 W2 HR]. unfold field_text, read_field in *. cbn [fst snd] in *.
    assert (E1 : name ++ w1 ++ ch "=" :: w2 ++ u ++ r' = n ++ [32] ++ ch "=" :: RtProps2.gap x ++ text true x (col (n, x)) ++ r).
    { transitivity ((name ++ w1 ++ s "=" ++ w2 ++ u) ++ r'); [now rewrite <- !app_assoc|]. rewrite E, <- !app_assoc. reflexivity. }
    apply span_eq with (f := name_char) in E1 as [-> E1]; auto; [|now apply blanks_stop_name|reflexivity].
    apply blank_eq in E1 as [-> E1]; try reflexivity; auto. injection E1 as E1.
    apply blank_eq in E1 as [-> E1]; auto using gap_blanks; [|apply begins_space, begins_app, (RB _ _ _ HR)|now apply begins_space, begins_app].
    destruct (HX _ _ _ _ FO HR E1) as [-> ->]. auto.
Qed.
Lemma entry_only K R c col (e : dk * dk) : all_begin R -> only K (fun x => text true x c) norm (fst e) -> only R (fun x => text true x (col e)) norm (snd e) ->
  only (entry_at K R) (entry_text c col) read_entry e.
Proof.
  destruct e as [x y]. cbn [fst snd]. intros RB [BX HX] [BY HY]. split; [now apply begins_app|].
  intros t r' k r FO H E. destruct H as [tk w1 w2 u r' kk kv W1 W2 HK HR]. unfold entry_text, read_entry in *. cbn [fst snd] in *.
  assert (E1 : tk ++ w1 ++ ch ":" :: w2 ++ u ++ r' = text true x c ++ ch ":" :: RtProps2.gap y ++ text true y (col (x, y)) ++ r).
  { transitivity ((tk ++ w1 ++ s ":" ++ w2 ++ u) ++ r'); [now rewrite <- !app_assoc|]. rewrite E, <- !app_assoc. reflexivity. }
  assert (FK : follow (ch ":" :: RtProps2.gap y ++ text true y (col (x, y)) ++ r)) by now apply follow_char.
  destruct (HX _ _ _ _ FK HK E1) as [-> ->]. apply app_inv_head in E1.
  apply (blank_eq w1 _ [] (ch ":" :: _)) in E1 as [-> E1]; try reflexivity; auto. injection E1 as E1.
  apply blank_eq in E1 as [-> E1]; auto using gap_blanks; [|apply begins_space, begins_app, (RB _ _ _ HR)|now apply begins_space, begins_app].
  destruct (HY _ _ _ _ FO HR E1) as [-> ->]. auto.
Qed.

(** ** containers *)
Lemma cntr_inside_inline col m id e l t r' r v' : Forall (only (field_at (value_at true)) (field_text col) read_field) (e :: l) -> forallb name_char (fst e) = true ->
  inside m (ch "(") id t r' v' -> t ++ ch ")" :: r' = first_text never (field_text col) [] (e :: l) ++ ch ")" :: r ->
  t = first_text never (field_text col) [] (e :: l) /\ v' = VCntr (fields_of (map read_field (e :: l))).
Proof.
  intros F NE H E. set (I := field_text col) in *.
  assert (E0 : t ++ ch ")" :: r' = I e ++ more_text never I l ++ ch ")" :: r) by (rewrite E; cbn [first_text never app]; now rewrite <- app_assoc).
  assert (BX : begins (I e)) by (inversion_clear F as [|? ? [BX _] _]; exact BX).
  assert (AS : assigns (trim (t ++ ch ")" :: r')) = true).
  { rewrite E0, trim_id by now apply begins_space, begins_app. unfold I, field_text. rewrite <- app_assoc. now apply names_assign. }
  apply inside_round in H as [(-> & -> & B)|[(lk & -> & N & X & H)|[(lk & -> & M & X & H)|[(lk & -> & X & H)|(lk & -> & M & X & H)]]]]; try congruence.
  - exfalso. apply (blank_eq t (ch ")" :: r') [] (I e ++ _)) in E0 as [_ E0]; try reflexivity; auto; [|now apply begins_space, begins_app]. symmetry in E0. now apply begins_closer in E0.
  - destruct (inline_kind never I read_field (ch ")") (field_at (value_at true)) (field_at (value_at false)) eq_refl (field_at_begins _) [] [] (e :: l) m t r' r lk) as [E1 ->]; auto; try reflexivity.
    + now rewrite app_nil_r.
    + rewrite app_nil_r in E1. auto.
  - destruct (inline_kind never I read_field (ch ")") (field_at (value_at true)) (field_at (value_at false)) eq_refl (field_at_begins _) [] [] (e :: l) m t r' r lk) as [E1 ->]; auto; try reflexivity.
    + now rewrite app_nil_r.
    + rewrite app_nil_r in E1. auto.
Qed.
Lemma cntr_inside_lines col c m id e l t r' r v' : Forall (only (field_at (value_at false)) (field_text col) read_field) (e :: l) -> forallb name_char (fst e) = true ->
  inside m (ch "(") id t r' v' -> t ++ ch ")" :: r' = lines_text never (field_text col) c (e :: l) ++ ch ")" :: r ->
  t = lines_text never (field_text col) c (e :: l) /\ v' = VCntr (fields_of (map read_field (e :: l))).
Proof.
  intros F NE H E. set (I := field_text col) in *. assert (BX : begins (I e)) by (inversion_clear F as [|? ? [BX _] _]; exact BX).
  assert (E0 : t ++ ch ")" :: r' = 10 :: tl (lines_text never I c (e :: l)) ++ ch ")" :: r) by (rewrite E; reflexivity).
  assert (AS : assigns (trim (t ++ ch ")" :: r')) = true).
  { rewrite E. cbn [lines_text never]. replace ((nl ++ sp (c + 4) ++ I e ++ lines_text never I c l) ++ ch ")" :: r) with ((nl ++ sp (c + 4)) ++ I e ++ lines_text never I c l ++ ch ")" :: r) by now rewrite <- !app_assoc.
    rewrite trim_app; [|apply line_sp|now apply begins_space, begins_app]. unfold I at 1, field_text. rewrite <- app_assoc. now apply names_assign. }
  apply inside_round in H as [(-> & -> & B)|[(lk & -> & N & X & H)|[(lk & -> & M & X & H)|[(lk & -> & X & H)|(lk & -> & M & X & H)]]]]; try congruence.
  - exfalso. destruct t as [|y t]; injection E0 as E0 _; [discriminate|]. subst y. discriminate.
  - exfalso. exact (lines_not_inline _ (field_at_begins (value_at true)) (ch ")") r' eq_refl t lk _ H E0).
  - destruct (lines_kind never I read_field (ch ")") (field_at (value_at true)) (field_at (value_at false)) eq_refl (field_at_begins _) (field_at_begins _) c (e :: l) m t r' r lk F (or_intror (conj M H)) E) as [E1 ->]. auto.
Qed.

(** ** the text of a node: a head and an opening bracket, or a primitive *)
Lemma id_head_ok f id w : blanks w -> opt_ok is_id_plain (if f_id f then id else None) = true -> head_ok (if f_id f then id else None) w.
Proof. intros W H. now apply head_okb. Qed.
Lemma text_shape d : clear_node d = true -> flat_node d = true -> forall col r, follow r -> shape (text true d col) r.
Proof.
  destruct d as [f id v]. intros S F col r FO. unfold clear_node, shown_id in S. cbn [d_val d_id d_fmt] in S. unfold flat_node, d_line in F. cbn [d_fmt d_val] in F.
  destruct v as [|b|n|t|b|l|l|l|l]; cbn [text prim_text].
  - destruct id as [[|x i]|].
    + apply (shape_head None [] (ch "(")); [split; [reflexivity|exact Logic.I]|reflexivity].
    + pose proof (shape_head (Some (x :: i)) [] (ch "(") (s ")") r) as Q. cbn [head] in Q. rewrite app_nil_r in Q. apply Q; [split; [reflexivity|exact S]|reflexivity].
    + apply (shape_head None [] (ch "(")); [split; [reflexivity|exact Logic.I]|reflexivity].
  - apply shape_prim, shape_word; [destruct b; reflexivity|exact FO].
  - apply shape_prim. now apply shape_num.
  - apply andb_true_iff in S as [_ S]. now apply shape_str.
  - apply shape_prim. now eapply (shape_char (s "b91") (ch "'")).
  - apply andb_true_iff in S as [S SL]. unfold d_line in SL; cbn [d_fmt] in SL; destruct (f_line f).
    + rewrite inline_items, tuple_head, <- !app_assoc by assumption. apply (shape_head _ [] (ch "(")); [now apply id_head_ok|reflexivity].
    + rewrite (app_assoc (tuple_id f _)), (app_assoc _ (sp col)), concise_items, tuple_head, <- !app_assoc. apply (shape_head _ [] (ch "(")); [now apply id_head_ok|reflexivity].
    + rewrite (app_assoc (tuple_id f _)), (app_assoc _ (sp col)), concise_items, tuple_head, <- !app_assoc. apply (shape_head _ [] (ch "(")); [now apply id_head_ok|reflexivity].
  - apply andb_true_iff in S as [S SL]. destruct (f_line f); try discriminate F.
    + rewrite inline_fields, nonprim_head, <- !app_assoc. apply (shape_head _ [32] (ch "(")); [now apply id_head_ok|reflexivity].
    + rewrite (app_assoc (nonprim_id f _)), (app_assoc _ (sp col)), concise_fields, nonprim_head, <- !app_assoc. apply (shape_head _ [32] (ch "(")); [now apply id_head_ok|reflexivity].
  - apply andb_true_iff in S as [S SL]. unfold d_line in SL; cbn [d_fmt] in SL; destruct (f_line f).
    + rewrite inline_items, nonprim_head, <- !app_assoc by assumption. apply (shape_head _ [32] (ch "[")); [now apply id_head_ok|reflexivity].
    + rewrite (app_assoc (nonprim_id f _)), (app_assoc _ (sp col)), concise_items, nonprim_head, <- !app_assoc. apply (shape_head _ [32] (ch "[")); [now apply id_head_ok|reflexivity].
    + rewrite (app_assoc (nonprim_id f _)), (app_assoc _ (sp col)), concise_items, nonprim_head, <- !app_assoc. apply (shape_head _ [32] (ch "[")); [now apply id_head_ok|reflexivity].
  - destruct (f_line f).
    + rewrite (app_assoc (nonprim_id f _)), inline_entries, nonprim_head, <- !app_assoc. apply (shape_head _ [32] (ch "{")); [now apply id_head_ok|reflexivity].
    + rewrite (app_assoc (nonprim_id f _)), (app_assoc _ (sp col)), concise_entries, nonprim_head, <- !app_assoc. apply (shape_head _ [32] (ch "{")); [now apply id_head_ok|reflexivity].
    + rewrite (app_assoc (nonprim_id f _)), (app_assoc _ (sp col)), concise_entries, nonprim_head, <- !app_assoc. apply (shape_head _ [32] (ch "{")); [now apply id_head_ok|reflexivity].
Qed.

(** ** values *)
Definition exactly (m : bool) (T : str) (k : kserd) : Prop := only (value_at m) (fun _ : unit => T) (fun _ => k) tt.
Lemma exactly_only {A} m (I : A -> str) v x : exactly m (I x) (v x) <-> only (value_at m) I v x.
Proof. reflexivity. Qed.
Lemma text_exactly d : d_all clear_node d = true -> d_all flat_node d = true -> forall m col, (m = true -> d_line d = Inline) -> exactly m (text true d col) (norm d).
Proof.
  induction d as [f id v IH] using dk_ind'. intros S F m col M. apply d_all_children in S as [S SC]. apply d_all_children in F as [F FC].
  assert (G : Forall (fun x => forall m col, (m = true -> d_line x = Inline) -> exactly m (text true x col) (norm x)) (d_children v)) by (rewrite Forall_forall in *; auto). clear IH.
  assert (Q : Forall (fun x => forall c r, follow r -> shape (text true x c) r) (d_children v)).
  { rewrite Forall_forall in *. intros x Hx. apply text_shape.
    - specialize (SC x Hx). destruct x. now apply d_all_children in SC as [SC _].
    - specialize (FC x Hx). destruct x. now apply d_all_children in FC as [FC _]. }
  assert (HU : forall id0 w0, head_ok id0 w0 -> exactly m (head id0 w0 ++ s "()") (Kserd id0 (tuple_empty id0))).
  { intros id0 w0 HO. apply (list_only m id0 w0 (ch "(") [] (tuple_empty id0) HO eq_refl). intros t r' r v' HI E. exact (empty_inside m id0 t r' r v' HI E). }
  clear SC FC. unfold clear_node, shown_id in S. cbn [d_val d_id d_fmt] in S. unfold flat_node, d_line in F. cbn [d_fmt d_val] in F.
  destruct v as [|b|n|t|b|l|l|l|l]; cbn [text prim_text norm d_children] in *.
  - destruct id as [[|x i]|].
    + apply (HU None []). split; [reflexivity|exact Logic.I].
    + pose proof (HU (Some (x :: i)) []) as X. cbn [head tuple_empty] in X. rewrite app_nil_r in X. apply X. split; [reflexivity|exact S].
    + apply (HU None []). split; [reflexivity|exact Logic.I].
  - apply prim_only; [exact S|apply bool_fit].
  - apply prim_only; [exact S|apply num_fit].
  - apply andb_true_iff in S as [S T]. apply prim_only; [exact S|now apply clear_str_fit].
  - apply andb_true_iff in S as [S T]. apply prim_only; [exact S|now apply bytes_fit].
  - apply andb_true_iff in S as [S SL]. unfold d_line in *. cbn [d_fmt] in *.
    assert (EM : forall w, blanks w -> exactly m (head (if f_id f then id else None) w ++ s "()") (match (if f_id f then id else None) with Some _ => Kserd (if f_id f then id else None) (VTuple []) | None => Kserd None VUnit end)).
    { intros w W. pose proof (HU (if f_id f then id else None) w (id_head_ok f id w W S)) as X. destruct (if f_id f then id else None); exact X. }
    destruct (f_line f) eqn:EL; [|destruct l as [|x l]; [discriminate F|]; destruct m; [specialize (M eq_refl); discriminate|]..].
    + pose proof (inline_children f (VTuple l) F EL) as L. cbn [d_children] in L. rewrite inline_items, tuple_head, <- !app_assoc by assumption.
      destruct l as [|x l]; [apply EM; reflexivity|]. apply (list_only m _ [] (ch "(") (first_text drops (fun x => text true x col) [] (x :: l)) (VTuple (map norm (x :: l)))); [now apply id_head_ok|reflexivity|].
      intros t r' r v'. apply tuple_inside_inline.
      * rewrite Forall_forall in *. intros y Hy. apply exactly_only. apply G; [assumption|]; intros _; now apply L.
      * intros z FZ. inversion_clear Q as [|? ? Q1 _]. now apply Q1.
    + rewrite (app_assoc (tuple_id f _)), (app_assoc _ (sp col)), concise_items, tuple_head, <- !app_assoc.
      apply (list_only false _ [] (ch "(") (lines_text drops (fun x => text true x (col + 4)) col (x :: l)) (VTuple (map norm (x :: l)))); [now apply id_head_ok|reflexivity|].
      intros t r' r v'. apply tuple_inside_lines.
      * rewrite Forall_forall in *. intros y Hy. apply exactly_only. apply G; [assumption|discriminate].
      * intros z FZ. inversion_clear Q as [|? ? Q1 _]. now apply Q1.
    + rewrite (app_assoc (tuple_id f _)), (app_assoc _ (sp col)), concise_items, tuple_head, <- !app_assoc.
      apply (list_only false _ [] (ch "(") (lines_text drops (fun x => text true x (col + 4)) col (x :: l)) (VTuple (map norm (x :: l)))); [now apply id_head_ok|reflexivity|].
      intros t r' r v'. apply tuple_inside_lines.
      * rewrite Forall_forall in *. intros y Hy. apply exactly_only. apply G; [assumption|discriminate].
      * intros z FZ. inversion_clear Q as [|? ? Q1 _]. now apply Q1.
  - apply andb_true_iff in S as [S SL]. unfold d_line in *. cbn [d_fmt] in *.
    assert (EM : forall w, blanks w -> exactly m (head (if f_id f then id else None) w ++ s "()") (match (if f_id f then id else None) with Some _ => Kserd (if f_id f then id else None) (VTuple []) | None => Kserd None VUnit end)).
    { intros w W. pose proof (HU (if f_id f then id else None) w (id_head_ok f id w W S)) as X. destruct (if f_id f then id else None); exact X. }
    assert (FL : forall m0 c, (m0 = true -> Forall (fun x => d_line x = Inline) (map snd l)) -> Forall (only (field_at (value_at m0)) (field_text c) read_field) l).
    { intros m0 c L. rewrite Forall_map, Forall_forall in G. rewrite forallb_forall in SL. apply Forall_forall. intros e He. apply field_only; [apply value_at_begins|now apply SL|]. apply exactly_only. apply G; [exact He|].
      intros E. specialize (L E). rewrite Forall_map, Forall_forall in L. now apply L. }
    assert (NE : forall e l0, l = e :: l0 -> forallb name_char (fst e) = true).
    { intros e l0 ->. cbn [forallb] in SL. apply andb_true_iff in SL as [SL _]. destruct e as [[|c n] y]; [discriminate|exact SL]. }
    destruct (f_line f) eqn:EL; [|destruct l as [|x l]; [discriminate F|]; destruct m; [specialize (M eq_refl); discriminate|]|discriminate F].
    + pose proof (inline_children f (VCntr l) F EL) as L. cbn [d_children] in L. rewrite inline_fields, nonprim_head, <- !app_assoc.
      destruct l as [|x l]; [apply EM; reflexivity|]. apply (list_only m _ [32] (ch "(") (first_text never (field_text (fun _ => col)) [] (x :: l)) (VCntr (fields_of (map read_field (x :: l))))); [now apply id_head_ok|reflexivity|].
      intros t r' r v'. apply cntr_inside_inline; [now apply FL|now apply (NE x l)].
    + rewrite (app_assoc (nonprim_id f _)), (app_assoc _ (sp col)), concise_fields, nonprim_head, <- !app_assoc.
      apply (list_only false _ [32] (ch "(") (lines_text never (field_text (fun e => (col + 4 + (length (fst e) + 3))%nat)) col (x :: l)) (VCntr (fields_of (map read_field (x :: l))))); [now apply id_head_ok|reflexivity|].
      intros t r' r v'. apply cntr_inside_lines; [now apply FL|now apply (NE x l)].
  - apply andb_true_iff in S as [S SL]. unfold d_line in *. cbn [d_fmt] in *.
    destruct (f_line f) eqn:EL; [|destruct m; [specialize (M eq_refl); discriminate|]..].
    + pose proof (inline_children f (VSeq l) F EL) as L. cbn [d_children] in L. rewrite inline_items, nonprim_head, <- !app_assoc by assumption.
      apply (list_only m _ [32] (ch "[") (first_text drops (fun x => text true x col) [] l) (VSeq (map norm l))); [now apply id_head_ok|reflexivity|].
      intros t r' r v' HI E. apply inside_seq in HI as (lk & -> & HI).
      destruct (inline_kind drops (fun x => text true x col) norm (ch "]") (value_at true) (value_at false) eq_refl (value_at_begins true) [] [] l m t r' r lk) as [E1 ->]; auto; try reflexivity.
      * rewrite Forall_forall in *. intros y Hy. apply exactly_only. apply G; [assumption|]; intros _; now apply L.
      * now rewrite app_nil_r.
      * rewrite app_nil_r in E1. auto.
    + rewrite (app_assoc (nonprim_id f _)), (app_assoc _ (sp col)), concise_items, nonprim_head, <- !app_assoc.
      apply (list_only false _ [32] (ch "[") (lines_text drops (fun x => text true x (col + 4)) col l) (VSeq (map norm l))); [now apply id_head_ok|reflexivity|].
      intros t r' r v' HI E. apply inside_seq in HI as (lk & -> & HI).
      destruct (lines_kind drops (fun x => text true x (col + 4)) norm (ch "]") (value_at true) (value_at false) eq_refl (value_at_begins true) (value_at_begins false) col l false t r' r lk) as [E1 ->]; auto.
      rewrite Forall_forall in *. intros y Hy. apply exactly_only. apply G; [assumption|discriminate].
    + rewrite (app_assoc (nonprim_id f _)), (app_assoc _ (sp col)), concise_items, nonprim_head, <- !app_assoc.
      apply (list_only false _ [32] (ch "[") (lines_text drops (fun x => text true x (col + 4)) col l) (VSeq (map norm l))); [now apply id_head_ok|reflexivity|].
      intros t r' r v' HI E. apply inside_seq in HI as (lk & -> & HI).
      destruct (lines_kind drops (fun x => text true x (col + 4)) norm (ch "]") (value_at true) (value_at false) eq_refl (value_at_begins true) (value_at_begins false) col l false t r' r lk) as [E1 ->]; auto.
      rewrite Forall_forall in *. intros y Hy. apply exactly_only. apply G; [assumption|discriminate].
  - unfold d_line in *. cbn [d_fmt] in *.
    assert (FL : forall m0 c0 c, (m0 = true -> Forall (fun x => d_line x = Inline) (entry_list l)) -> Forall (only (entry_at (value_at false) (value_at m0)) (entry_text c0 c) read_entry) l).
    { intros m0 c0 c L. rewrite Forall_forall in G. apply Forall_forall. intros e He. apply in_entry_list in He as [H1 H2]. apply entry_only; [apply value_at_begins|apply exactly_only; apply G; [exact H1|discriminate]|].
      apply exactly_only. apply G; [exact H2|]. intros E. specialize (L E). rewrite Forall_forall in L. now apply L. }
    destruct (f_line f) eqn:EL; [|destruct m; [specialize (M eq_refl); discriminate|]..].
    + pose proof (inline_children f (VMap l) F EL) as L. cbn [d_children] in L. rewrite (app_assoc (nonprim_id f _)), inline_entries, nonprim_head, <- !app_assoc.
      rewrite (app_assoc (first_text _ _ _ _)).
      apply (list_only m _ [32] (ch "{") (first_text key_drops (entry_text col (fun _ => col)) (if nonempty l then s " " else []) l ++ (if nonempty l then s " " else [])) (VMap (map_of (map read_entry l)))); [now apply id_head_ok|reflexivity|].
      intros t r' r v' HI E. apply inside_map in HI as (lk & -> & HI).
      destruct (inline_kind key_drops (entry_text col (fun _ => col)) read_entry (ch "}") (entry_at (value_at false) (value_at true)) (entry_at (value_at false) (value_at false)) eq_refl (entry_at_begins _ _ (value_at_begins false))
        (if nonempty l then s " " else []) (if nonempty l then s " " else []) l m t r' r lk) as [E1 ->]; auto; destruct l; reflexivity.
    + rewrite (app_assoc (nonprim_id f _)), (app_assoc _ (sp col)), concise_entries, nonprim_head, <- !app_assoc.
      apply (list_only false _ [32] (ch "{") (lines_text key_drops (entry_text (col + 4) (val_col col)) col l) (VMap (map_of (map read_entry l)))); [now apply id_head_ok|reflexivity|].
      intros t r' r v' HI E. apply inside_map in HI as (lk & -> & HI).
      destruct (lines_kind key_drops (entry_text (col + 4) (val_col col)) read_entry (ch "}") (entry_at (value_at false) (value_at true)) (entry_at (value_at false) (value_at false)) eq_refl (entry_at_begins _ _ (value_at_begins false)) (entry_at_begins _ _ (value_at_begins false)) col l false t r' r lk) as [E1 ->]; auto.
      apply FL. discriminate.
    + rewrite (app_assoc (nonprim_id f _)), (app_assoc _ (sp col)), concise_entries, nonprim_head, <- !app_assoc.
      apply (list_only false _ [32] (ch "{") (lines_text key_drops (entry_text (col + 4) (val_col col)) col l) (VMap (map_of (map read_entry l)))); [now apply id_head_ok|reflexivity|].
      intros t r' r v' HI E. apply inside_map in HI as (lk & -> & HI).
      destruct (lines_kind key_drops (entry_text (col + 4) (val_col col)) read_entry (ch "}") (entry_at (value_at false) (value_at true)) (entry_at (value_at false) (value_at false)) eq_refl (entry_at_begins _ _ (value_at_begins false)) (entry_at_begins _ _ (value_at_begins false)) col l false t r' r lk) as [E1 ->]; auto.
      apply FL. discriminate.
Qed.
