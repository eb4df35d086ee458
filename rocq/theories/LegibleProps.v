(** Exactly which texts can be read: the texts which can. *)
From Verif Require Import Base F64 Number NumberSpec BTree Value BaseProps NumberProps3 Base91 Base91Props Nom Parse ParseErr Grammar GrammarProps Nav NavSpec Fmt FmtText FmtSpec FmtProps FmtProps2 RtProps RtSpec RtProps2 RtProps3 RtProps4 MisreadSpec LegibleSpec.
Open Scope N_scope.

(** as [safe_node], but for what strings contain *)
Definition fine_string (id : option str) (t : str) : bool :=
  match delimiter t with Some d => is_some id || plain_delim d | None => false end.
Definition fine_node (d : dk) : bool :=
  let id := shown_id d in
  match d_val d with
  | VUnit => match d_id d with None | Some [] => true | Some i => is_id_plain i end
  | VBool _ => opt_ok is_id id
  | VNum n => opt_ok is_id id && is_some (num_from_str (num_display n))
  | VStr t => opt_ok is_id id && fine_string id t
  | VBarr b => opt_ok is_id id && forallb (fun x => x <? 256) b
  | VTuple l | VSeq l =>
      opt_ok is_id_plain id &&
      match d_line d with Inline => first_shown l | _ => chain apart l end
  | VCntr m => opt_ok is_id_plain id && forallb (fun e => match fst e with [] => false | n => forallb name_char n end) m
  | VMap m => opt_ok is_id_plain id && match d_line d with Inline => true | _ => chain (fun e e' => apart (snd e) (fst e')) m end
  end.
Lemma fine_here d : clear_node d = true -> legible_node d = true -> fine_node d = true.
Proof.
  unfold clear_node, legible_node, fine_node. destruct (d_val d) as [|b|n|t|b|l|l|l|l]; intros C L; auto.
  - now rewrite C, L.
  - apply andb_true_iff in C as [-> C]. cbn [andb]. unfold clear_string, fine_string in *. destruct (delimiter t); [|discriminate]. destruct (is_some _); [reflexivity|]. cbn [orb] in *. now apply andb_true_iff in C as [C _].
  - apply andb_true_iff in C as [-> C]. cbn [andb]. destruct (d_line d); [exact C|now apply andb_true_iff in L as [L _]..].
  - apply andb_true_iff in C as [-> C]. cbn [andb]. destruct (d_line d); [exact C|exact L..].
  - now rewrite C, L.
Qed.
Lemma fine_all d : d_all clear_node d = true -> d_all legible_node d = true -> d_all fine_node d = true.
Proof.
  induction d as [f id v IH] using dk_ind'. intros C L. apply d_all_children in C as [C CC]. apply d_all_children in L as [L LC]. apply d_all_children. split; [now apply fine_here|].
  rewrite Forall_forall in *. auto.
Qed.

(** ** the search for '=' in a text *)
Lemma scan_sign t : scan t = first_sign t.
Proof. reflexivity. Qed.
Lemma scan_head id w c t b : blanks w -> opt_ok is_id_plain id = true -> scan (c :: t) = b -> scan (head id w ++ c :: t) = b.
Proof. intros W H E. rewrite scan_app, head_scan by assumption. exact E. Qed.
Section Scan.
  Context {A : Type} (g : A -> bool) (I : A -> str) (v : A -> option bool).
  Lemma more_scan l : Forall (fun x => scan (I x) = v x) l -> scan (more_text g I l) = first_some (map v l).
  Proof.
    induction 1 as [|x l H _ IH]; cbn [more_text map first_some]; [reflexivity|]. rewrite !scan_app, H, IH. change (scan (s ",")) with (@None bool).
    destruct (g x); now destruct (v x).
  Qed.
  Lemma first_scan l : Forall (fun x => scan (I x) = v x) l -> scan (first_text g I [] l) = first_some (map v l).
  Proof.
    intros [|x l' H F]; cbn [first_text map first_some]; [reflexivity|]. rewrite !scan_app, H, (more_scan l' F).
    destruct (g x); now destruct (v x).
  Qed.
  Lemma lines_scan col x l : scan (I x) = v x -> starts (I x) ->
    scan (trim (lines_text g I col (x :: l)) ++ s ")") = match v x with Some b => Some b | None => Some false end.
  Proof.
    intros H S. cbn [lines_text]. set (n := if g x then (col + 3)%nat else (col + 4)%nat). rewrite (app_assoc nl), trim_app; [|apply (spaces_app nl); [reflexivity|apply spaces_sp]|now apply starts_space, starts_app].
    rewrite <- app_assoc, scan_app, H. destruct (v x); [reflexivity|]. destruct l; reflexivity.
  Qed.
End Scan.
Lemma prim_scan f id t : scan (prim_id f id ++ t) = match (if f_id f then id else None) with Some _ => Some false | None => scan t end.
Proof. unfold prim_id. destruct (f_id f), id; try reflexivity. Qed.
Lemma text_sign d : d_all fine_node d = true -> d_all flat_node d = true -> forall col, scan (text true d col) = sign d.
Proof.
  induction d as [f id v IH] using dk_ind'. intros S F col. apply d_all_children in S as [S SC]. apply d_all_children in F as [F FC].
  destruct v as [|b|n|t|b|l|m|l|m]; cbn [text sign prim_text]; unfold fine_node, shown_id in S; cbn [d_val d_id d_fmt] in S.
  - destruct id as [[|c i]|]; [reflexivity| |reflexivity]. pose proof (scan_head (Some (c :: i)) [] (ch "(") (s ")") (Some false) eq_refl S eq_refl) as Q.
    cbn [head] in Q. rewrite app_nil_r in Q. exact Q.
  - rewrite prim_scan. destruct (if f_id f then id else None); [reflexivity|]. now destruct b.
  - rewrite prim_scan. destruct (if f_id f then id else None); [reflexivity|]. apply num_quiet, display_num_chars.
  - rewrite prim_scan. reflexivity.
  - rewrite prim_scan. now destruct (if f_id f then id else None).
  - apply andb_true_iff in S as [S SL]. unfold flat_node, d_line in *. cbn [d_fmt d_val d_children] in *. destruct (f_line f); try discriminate.
    + rewrite inline_items, tuple_head, <- !app_assoc by assumption. now apply scan_head.
    + rewrite (app_assoc (tuple_id f id)), (app_assoc _ (sp col)), concise_items, tuple_head, <- !app_assoc. now apply scan_head.
    + rewrite (app_assoc (tuple_id f id)), (app_assoc _ (sp col)), concise_items, tuple_head, <- !app_assoc. now apply scan_head.
  - apply andb_true_iff in S as [S SL]. unfold flat_node, d_line in *. cbn [d_fmt d_val d_children] in *. destruct (f_line f); try discriminate.
    + rewrite inline_fields, nonprim_head, <- !app_assoc. now apply scan_head.
    + rewrite (app_assoc (nonprim_id f id)), (app_assoc _ (sp col)), concise_fields, nonprim_head, <- !app_assoc. now apply scan_head.
  - apply andb_true_iff in S as [S SL]. unfold flat_node, d_line in *. cbn [d_fmt d_val d_children] in *. destruct (f_line f); try discriminate.
    + rewrite inline_items, nonprim_head, <- !app_assoc by assumption. apply (scan_head _ [32] (ch "[") (first_text drops (fun x => text true x col) [] l ++ s "]")); [reflexivity|exact S|].
      change (scan (ch "[" :: ?t)) with (scan t). rewrite scan_app, (first_scan _ _ sign); [now destruct (first_some _)|]. rewrite Forall_forall in *. intros x Hx. apply IH; auto.
    + rewrite (app_assoc (nonprim_id f id)), (app_assoc _ (sp col)), concise_items, nonprim_head, <- !app_assoc. apply (scan_head _ [32] (ch "[")); [reflexivity|exact S|]. now destruct l.
    + rewrite (app_assoc (nonprim_id f id)), (app_assoc _ (sp col)), concise_items, nonprim_head, <- !app_assoc. apply (scan_head _ [32] (ch "[")); [reflexivity|exact S|]. now destruct l.
  - apply andb_true_iff in S as [S SL]. unfold flat_node, d_line in *. cbn [d_fmt d_val d_children] in *. destruct (f_line f); try discriminate.
    + rewrite (app_assoc (nonprim_id f id)), inline_entries, nonprim_head, <- !app_assoc. now apply scan_head.
    + rewrite (app_assoc (nonprim_id f id)), (app_assoc _ (sp col)), concise_entries, nonprim_head, <- !app_assoc. now apply scan_head.
    + rewrite (app_assoc (nonprim_id f id)), (app_assoc _ (sp col)), concise_entries, nonprim_head, <- !app_assoc. now apply scan_head.
Qed.

(** ** as for safe texts *)
Lemma fine_opens d : fine_node d = true -> flat_node d = true -> bracket_first d = false -> forall col z, Grammar.opens (text true d col ++ z) = false.
Proof.
  destruct d as [f id v]. intros S F B col z.
  destruct v as [|b|n|t|b|l|m|l|m]; cbn [text prim_text]; unfold fine_node, shown_id, bracket_first, shown_id in *; cbn [d_val d_id d_fmt] in *.
  - destruct id as [[|c i]|]; try discriminate. rewrite <- app_assoc. apply id_opens. apply andb_true_iff in S as [S _]. now apply andb_true_iff in S as [S _].
  - apply prim_opens. destruct b; reflexivity.
  - apply prim_opens. apply andb_true_iff in S as [_ S]. pose proof (nonempty_display n S) as N. pose proof (display_num_chars n) as C.
    destruct (num_display n) as [|c u]; [congruence|]. cbn [forallb] in C. apply andb_true_iff in C as [C _]. cbn [app]. apply opens_first; [now apply num_char_space|now apply num_char_opener].
  - apply prim_opens. unfold str_text. apply andb_true_iff in S as [_ S]. unfold fine_string in S. destruct (delimiter t) as [d|]; [|discriminate].
    destruct (N.eqb_spec d 34); [subst d|]; rewrite <- ?app_assoc; reflexivity.
  - apply prim_opens. rewrite <- !app_assoc. reflexivity.
  - apply andb_true_iff in S as [S SL]. apply negb_false_iff in B. unfold flat_node, d_line in *. cbn [d_fmt d_val d_children] in *.
    destruct (f_id f) eqn:EI; [|discriminate]. destruct id as [i|]; [|discriminate]. cbn [opt_ok] in S. apply andb_true_iff in S as [S _]. apply andb_true_iff in S as [S _].
    destruct (f_line f); try discriminate.
    + rewrite inline_items by assumption. unfold tuple_id. rewrite EI, <- !app_assoc. now apply id_opens.
    + rewrite (app_assoc (tuple_id f _)), (app_assoc _ (sp col)), concise_items. unfold tuple_id. rewrite EI, <- !app_assoc. now apply id_opens.
    + rewrite (app_assoc (tuple_id f _)), (app_assoc _ (sp col)), concise_items. unfold tuple_id. rewrite EI, <- !app_assoc. now apply id_opens.
  - apply andb_true_iff in S as [S SL]. apply negb_false_iff in B. unfold flat_node, d_line in *. cbn [d_fmt d_val d_children] in *.
    destruct (f_id f) eqn:EI; [|discriminate]. destruct id as [i|]; [|discriminate]. cbn [opt_ok] in S. apply andb_true_iff in S as [S _]. apply andb_true_iff in S as [S _].
    destruct (f_line f); try discriminate.
    + rewrite inline_fields. unfold nonprim_id. rewrite EI, <- !app_assoc. now apply id_opens.
    + rewrite (app_assoc (nonprim_id f _)), (app_assoc _ (sp col)), concise_fields. unfold nonprim_id. rewrite EI, <- !app_assoc. now apply id_opens.
  - apply andb_true_iff in S as [S SL]. apply negb_false_iff in B. unfold flat_node, d_line in *. cbn [d_fmt d_val d_children] in *.
    destruct (f_id f) eqn:EI; [|discriminate]. destruct id as [i|]; [|discriminate]. cbn [opt_ok] in S. apply andb_true_iff in S as [S _]. apply andb_true_iff in S as [S _].
    destruct (f_line f); try discriminate.
    + rewrite inline_items by assumption. unfold nonprim_id. rewrite EI, <- !app_assoc. now apply id_opens.
    + rewrite (app_assoc (nonprim_id f _)), (app_assoc _ (sp col)), concise_items. unfold nonprim_id. rewrite EI, <- !app_assoc. now apply id_opens.
    + rewrite (app_assoc (nonprim_id f _)), (app_assoc _ (sp col)), concise_items. unfold nonprim_id. rewrite EI, <- !app_assoc. now apply id_opens.
  - apply andb_true_iff in S as [S SL]. apply negb_false_iff in B. unfold flat_node, d_line in *. cbn [d_fmt d_val d_children] in *.
    destruct (f_id f) eqn:EI; [|discriminate]. destruct id as [i|]; [|discriminate]. cbn [opt_ok] in S. apply andb_true_iff in S as [S _]. apply andb_true_iff in S as [S _].
    destruct (f_line f); try discriminate.
    + rewrite (app_assoc (nonprim_id f _)), inline_entries. unfold nonprim_id. rewrite EI, <- !app_assoc. now apply id_opens.
    + rewrite (app_assoc (nonprim_id f _)), (app_assoc _ (sp col)), concise_entries. unfold nonprim_id. rewrite EI, <- !app_assoc. now apply id_opens.
    + rewrite (app_assoc (nonprim_id f _)), (app_assoc _ (sp col)), concise_entries. unfold nonprim_id. rewrite EI, <- !app_assoc. now apply id_opens.
Qed.
Lemma fine_in_grammar d : d_all fine_node d = true -> d_all legible_node d = true -> d_all flat_node d = true -> in_grammar d.
Proof.
  induction d as [f id v IH] using dk_ind'. intros S LG F m col M. pose proof S as S0. pose proof F as F0. apply d_all_children in LG as [LG LC].
  apply d_all_children in S as [S SC]. apply d_all_children in F as [F FC].
  assert (G : Forall in_grammar (d_children v)) by (rewrite Forall_forall in *; auto). clear IH.
  assert (O : Forall (fun x => bracket_first x = false -> forall c z, Grammar.opens (text true x c ++ z) = false) (d_children v)).
  { rewrite Forall_forall in *. intros x Hx B c z. apply fine_opens; [| |exact B].
    - specialize (SC x Hx). destruct x. now apply d_all_children in SC as [SC _].
    - specialize (FC x Hx). destruct x. now apply d_all_children in FC as [FC _]. }
  assert (Q : Forall (fun x => forall c, scan (text true x c) = sign x) (d_children v)).
  { rewrite Forall_forall in *. intros x Hx c. apply text_sign; auto. }
  clear SC FC LC. unfold legible_node, d_line in LG. cbn [d_val d_fmt] in LG.
  destruct v as [|b|n|t|b|l|l|l|l]; cbn [text]; unfold fine_node, shown_id in S; cbn [d_val d_id d_fmt] in S.
  - cbn [prim_text norm]. unfold bare_number. cbn [d_val]. destruct id as [[|c i]|].
    + apply (R_plain m (s "()") VUnit); [now apply (T_unit [])|discriminate].
    + pose proof (empty_reads m (Some (c :: i)) [] eq_refl S) as E. cbn [head] in E. rewrite app_nil_r in E. exact E.
    + apply (R_plain m (s "()") VUnit); [now apply (T_unit [])|discriminate].
  - cbn [prim_text norm]. unfold bare_number. cbn [d_val]. destruct b; (eapply eq_ind; [apply prim_reads; [constructor|exact S|]|]).
    all: try (intros _ d r X; discriminate). all: destruct (if f_id f then id else None); reflexivity.
  - cbn [prim_text norm]. apply andb_true_iff in S as [S N]. replace (bare_number (DK f id (VNum n)))
      with (match (if f_id f then id else None) with Some _ => false | None => bare (num_display n) (VNum (reread n)) end).
    + apply prim_reads; [now apply num_token|exact S|]. intros _ d r X. exfalso. eapply num_not_str; [apply display_num_chars|exact X].
    + rewrite (bare_num n). unfold bare_number, shown_id. cbn [d_val d_fmt d_id]. destruct (if f_id f then id else None), n as [| |[| [] |]]; reflexivity.
  - cbn [prim_text norm]. apply andb_true_iff in S as [S T]. unfold fine_string in T. destruct (delimiter t) as [d|] eqn:E; [|discriminate].
    unfold bare_number. cbn [d_val]. eapply eq_ind; [apply prim_reads; [eapply str_token; exact E|exact S|]|destruct (if f_id f then id else None); reflexivity].
    intros N. rewrite N in T. cbn [orb] in T. intros d' r X. unfold str_text in X. rewrite E in X.
    destruct (N.eqb_spec d 34) as [->|_]; [discriminate X|]. injection X as X1 X2. now subst d'.
  - cbn [prim_text norm]. apply andb_true_iff in S as [S T]. unfold bare_number. cbn [d_val].
    eapply eq_ind; [apply prim_reads; [apply bytes_token; exact T|exact S|]|destruct (if f_id f then id else None); reflexivity].
    intros _ d r X. discriminate.
  - apply andb_true_iff in S as [S SL]. unfold flat_node, d_line in *. cbn [d_fmt d_val d_children] in *. unfold bare_number. cbn [d_val].
    destruct (f_line f) eqn:EL; try discriminate.
    + rewrite inline_items, tuple_head, <- !app_assoc by assumption. pose proof (inline_children f (VTuple l) F EL) as L. cbn [d_children] in L.
      destruct l as [|x l]; [apply empty_reads; [reflexivity|exact S]|].
      pose proof (items_in true (x :: l) col G (fun _ => L)) as I. cbn [norm]. apply R_tuple; [now apply head_okb| |discriminate|].
      * pose proof (first_in (reads true) drops (fun x => text true x col) norm bare_number [] (x :: l) [] I eq_refl eq_refl) as X. now rewrite app_nil_r in X.
      * rewrite trim_id.
        -- rewrite assigns_scan, scan_app, (first_scan _ _ sign); [now destruct (first_some _) as [[]|]|]. eapply Forall_impl; [|exact Q]. auto.
        -- cbn [first_text]; unfold pop. inversion_clear I as [|? ? I1 _]. apply reads_start in I1. destruct (drops x); cbn [app removelast]; now apply starts_space, starts_app.
    + rewrite (app_assoc (tuple_id f _)), (app_assoc _ (sp col)), concise_items, tuple_head, <- !app_assoc.
      pose proof (items_in false l (col + 4) G ltac:(discriminate)) as I. destruct l as [|x l]; [discriminate|]. cbn [norm].
      destruct m; [specialize (M eq_refl); discriminate|]. apply C_tuple; [now apply head_okb| |].
      * apply (lines_in (reads false) drops (fun x => text true x (col + 4)) norm bare_number bracket_first); [exact I|exact SL|]. eapply Forall_impl; [|exact O]. auto.
      * apply andb_true_iff in LG as [_ LG]. inversion_clear I as [|? ? I1 _]. apply reads_start in I1. inversion_clear Q as [|? ? Q1 _]. rewrite assigns_scan, (lines_scan _ _ sign) by auto. cbn [firstn map first_some] in LG. now destruct (sign x) as [[]|].
    + rewrite (app_assoc (tuple_id f _)), (app_assoc _ (sp col)), concise_items, tuple_head, <- !app_assoc.
      pose proof (items_in false l (col + 4) G ltac:(discriminate)) as I. destruct l as [|x l]; [discriminate|]. cbn [norm].
      destruct m; [specialize (M eq_refl); discriminate|]. apply C_tuple; [now apply head_okb| |].
      * apply (lines_in (reads false) drops (fun x => text true x (col + 4)) norm bare_number bracket_first); [exact I|exact SL|]. eapply Forall_impl; [|exact O]. auto.
      * apply andb_true_iff in LG as [_ LG]. inversion_clear I as [|? ? I1 _]. apply reads_start in I1. inversion_clear Q as [|? ? Q1 _]. rewrite assigns_scan, (lines_scan _ _ sign) by auto. cbn [firstn map first_some] in LG. now destruct (sign x) as [[]|].
  - apply andb_true_iff in S as [S SL]. unfold flat_node, d_line in *. cbn [d_fmt d_val d_children] in *. unfold bare_number. cbn [d_val].
    destruct (f_line f) eqn:EL; try discriminate.
    + rewrite inline_fields, nonprim_head, <- !app_assoc. pose proof (inline_children f (VCntr l) F EL) as L. cbn [d_children] in L.
      destruct l as [|x l]; [apply empty_reads; [reflexivity|exact S]|].
      pose proof (fields_in true (x :: l) (fun _ => col) G SL (fun _ => L)) as I. cbn [norm]. apply R_cntr; [now apply head_okb| |discriminate].
      pose proof (first_in _ never (field_text (fun _ => col)) (fun e => (fst e, norm (snd e))) (fun e => bare_number (snd e)) [] (x :: l) [] I eq_refl eq_refl) as X. now rewrite app_nil_r in X.
    + rewrite (app_assoc (nonprim_id f _)), (app_assoc _ (sp col)), concise_fields, nonprim_head, <- !app_assoc.
      pose proof (fields_in false l (fun e => (col + 4 + (length (fst e) + 3))%nat) G SL ltac:(discriminate)) as I. destruct l as [|x l]; [discriminate|]. cbn [norm].
      destruct m; [specialize (M eq_refl); discriminate|]. apply C_cntr; [now apply head_okb| |discriminate].
      apply (lines_in _ never (field_text _) (fun e => (fst e, norm (snd e))) (fun e => bare_number (snd e)) never); [exact I| |].
      * clear. induction (x :: l) as [|a [|b q] J]; [reflexivity..|]. cbn [chain]. rewrite andb_false_r. exact J.
      * apply Forall_forall. intros [nm y] Hy _ z. rewrite forallb_forall in SL. specialize (SL _ Hy). cbn [fst] in SL. destruct nm as [|c nm]; [discriminate|].
        unfold field_text. cbn [fst app]. cbn [forallb] in SL. apply andb_true_iff in SL as [SL _]. apply opens_first.
        -- destruct (space c) eqn:E; [|reflexivity]. unfold space in E. apply mem_In in E. each_char E; discriminate.
        -- destruct (mem c (s "([{")) eqn:E; [|reflexivity]. apply mem_In in E. each_char E; discriminate.
  - apply andb_true_iff in S as [S SL]. unfold flat_node, d_line in *. cbn [d_fmt d_val d_children] in *. unfold bare_number. cbn [d_val].
    destruct (f_line f) eqn:EL; try discriminate.
    + rewrite inline_items, nonprim_head, <- !app_assoc by assumption. pose proof (inline_children f (VSeq l) F EL) as L. cbn [d_children] in L.
      pose proof (items_in true l col G (fun _ => L)) as I. cbn [norm]. apply R_seq; [now apply head_okb|].
      pose proof (first_in (reads true) drops (fun x => text true x col) norm bare_number [] l [] I eq_refl eq_refl) as X. now rewrite app_nil_r in X.
    + rewrite (app_assoc (nonprim_id f _)), (app_assoc _ (sp col)), concise_items, nonprim_head, <- !app_assoc.
      pose proof (items_in false l (col + 4) G ltac:(discriminate)) as I. cbn [norm].
      destruct m; [specialize (M eq_refl); discriminate|]. apply C_seq; [now apply head_okb|].
      apply (lines_in (reads false) drops (fun x => text true x (col + 4)) norm bare_number bracket_first); [exact I|exact SL|]. eapply Forall_impl; [|exact O]. auto.
    + rewrite (app_assoc (nonprim_id f _)), (app_assoc _ (sp col)), concise_items, nonprim_head, <- !app_assoc.
      pose proof (items_in false l (col + 4) G ltac:(discriminate)) as I. cbn [norm].
      destruct m; [specialize (M eq_refl); discriminate|]. apply C_seq; [now apply head_okb|].
      apply (lines_in (reads false) drops (fun x => text true x (col + 4)) norm bare_number bracket_first); [exact I|exact SL|]. eapply Forall_impl; [|exact O]. auto.
  - apply andb_true_iff in S as [S SL]. unfold flat_node, d_line in *. cbn [d_fmt d_val d_children] in *. unfold bare_number. cbn [d_val].
    destruct (f_line f) eqn:EL; try discriminate.
    + rewrite (app_assoc (nonprim_id f _)), inline_entries, nonprim_head, <- !app_assoc. pose proof (inline_children f (VMap l) F EL) as L. cbn [d_children] in L.
      pose proof (entries_in true l col (fun _ => col) G (fun _ => L)) as I. cbn [norm].
      rewrite (app_assoc (first_text _ _ _ _)). apply R_map; [now apply head_okb|].
      apply (first_in _ key_drops (entry_text col (fun _ => col)) (fun e => (norm (fst e), norm (snd e))) (fun e => bare_number (snd e))); [exact I|destruct l; reflexivity|destruct l; reflexivity].
    + rewrite (app_assoc (nonprim_id f _)), (app_assoc _ (sp col)), concise_entries, nonprim_head, <- !app_assoc.
      pose proof (entries_in false l (col + 4) (val_col col) G ltac:(discriminate)) as I. cbn [norm].
      destruct m; [specialize (M eq_refl); discriminate|]. apply C_map; [now apply head_okb|].
      apply (lines_in _ key_drops (entry_text _ _) (fun e => (norm (fst e), norm (snd e))) (fun e => bare_number (snd e)) (fun e => bracket_first (fst e))); [exact I|exact SL|].
      apply Forall_forall. intros e He B z. unfold entry_text. rewrite <- app_assoc. rewrite Forall_forall in O. now apply O; [apply in_entry_list in He as [He _]|].
    + rewrite (app_assoc (nonprim_id f _)), (app_assoc _ (sp col)), concise_entries, nonprim_head, <- !app_assoc.
      pose proof (entries_in false l (col + 4) (val_col col) G ltac:(discriminate)) as I. cbn [norm].
      destruct m; [specialize (M eq_refl); discriminate|]. apply C_map; [now apply head_okb|].
      apply (lines_in _ key_drops (entry_text _ _) (fun e => (norm (fst e), norm (snd e))) (fun e => bare_number (snd e)) (fun e => bracket_first (fst e))); [exact I|exact SL|].
      apply Forall_forall. intros e He B z. unfold entry_text. rewrite <- app_assoc. rewrite Forall_forall in O. now apply O; [apply in_entry_list in He as [He _]|].
Qed.
Lemma fine_wordy d : fine_node d = true -> flat_node d = true -> word_only d = false -> forall col z, wordy (text true d col ++ z) = false.
Proof.
  destruct d as [f id v]. intros S F W col z.
  assert (P : forall t, (is_some (if f_id f then id else None) = false -> wordy (t ++ z) = false) -> wordy ((prim_id f id ++ t) ++ z) = false).
  { intros t H. unfold prim_id. destruct (f_id f); [destruct id|]; [|now apply H..]. rewrite <- !app_assoc. now apply wordy_stop. }
  destruct v as [|b|n|t|b|l|l|l|l]; cbn [text prim_text]; unfold fine_node, shown_id, word_only, shown_id in *; cbn [d_val d_id d_fmt] in *.
  - destruct id as [[|c i]|]; try reflexivity. pose proof (id_wordy (Some (c :: i)) [] (ch "(") (s ")" ++ z) S eq_refl eq_refl) as X. cbn [head] in X. rewrite app_nil_r in X. rewrite <- app_assoc. exact X.
  - apply P. intros N. rewrite N in W. discriminate.
  - apply P. intros N. rewrite N in W. cbn [negb andb] in W. apply wordy_stop. apply andb_true_iff in S as [_ S].
    pose proof (nonempty_display n S) as NE. apply stops_app; [exact NE|]. apply display_head. unfold bare_number, shown_id in W. cbn [d_val d_fmt d_id] in W.
    destruct (if f_id f then id else None); [discriminate|]. destruct n as [| |[|[] |]]; (reflexivity || exact W).
  - apply P. intros N. apply andb_true_iff in S as [_ S]. unfold fine_string, str_text in *. destruct (delimiter t) as [d|] eqn:E; [|discriminate]. rewrite N in S. cbn [orb] in S.
    destruct (N.eqb_spec d 34) as [->|_]; [now apply wordy_stop|]. rewrite <- !app_assoc.
    unfold plain_delim in S. apply negb_true_iff, orb_false_iff in S as [S _]. apply orb_false_iff in S as [S1 S2].
    apply (wordy_next (s "str") [] d); [reflexivity|reflexivity|exact S1|now apply space_blank|]. apply delimiter_spec in E as [E _]. intros ->. revert E. clear. intros E. repeat (destruct E as [E|E]; [discriminate|]). contradiction.
  - apply P. intros N. rewrite <- !app_assoc. now apply (wordy_next (s "b91") [] (ch "'")).
  - apply andb_true_iff in S as [S SL]. unfold flat_node, d_line in *. cbn [d_fmt d_val d_children] in *. destruct (f_line f); try discriminate.
    + rewrite inline_items, tuple_head, <- !app_assoc by assumption. now apply id_wordy.
    + rewrite (app_assoc (tuple_id f _)), (app_assoc _ (sp col)), concise_items, tuple_head, <- !app_assoc. now apply id_wordy.
    + rewrite (app_assoc (tuple_id f _)), (app_assoc _ (sp col)), concise_items, tuple_head, <- !app_assoc. now apply id_wordy.
  - apply andb_true_iff in S as [S SL]. unfold flat_node, d_line in *. cbn [d_fmt d_val d_children] in *. destruct (f_line f); try discriminate.
    + rewrite inline_fields, nonprim_head, <- !app_assoc. now apply id_wordy.
    + rewrite (app_assoc (nonprim_id f _)), (app_assoc _ (sp col)), concise_fields, nonprim_head, <- !app_assoc. now apply id_wordy.
  - apply andb_true_iff in S as [S SL]. unfold flat_node, d_line in *. cbn [d_fmt d_val d_children] in *. destruct (f_line f); try discriminate.
    + rewrite inline_items, nonprim_head, <- !app_assoc by assumption. now apply id_wordy.
    + rewrite (app_assoc (nonprim_id f _)), (app_assoc _ (sp col)), concise_items, nonprim_head, <- !app_assoc. now apply id_wordy.
    + rewrite (app_assoc (nonprim_id f _)), (app_assoc _ (sp col)), concise_items, nonprim_head, <- !app_assoc. now apply id_wordy.
  - apply andb_true_iff in S as [S SL]. unfold flat_node, d_line in *. cbn [d_fmt d_val d_children] in *. destruct (f_line f); try discriminate.
    + rewrite (app_assoc (nonprim_id f _)), inline_entries, nonprim_head, <- !app_assoc. now apply id_wordy.
    + rewrite (app_assoc (nonprim_id f _)), (app_assoc _ (sp col)), concise_entries, nonprim_head, <- !app_assoc. now apply id_wordy.
    + rewrite (app_assoc (nonprim_id f _)), (app_assoc _ (sp col)), concise_entries, nonprim_head, <- !app_assoc. now apply id_wordy.
Qed.
Lemma fine_bracket d : fine_node d = true -> flat_node d = true -> bracket_first d && match d_val d with VSeq _ => true | _ => false end = false ->
  forall col z, starts_with (s "[") (text true d col ++ z) = false.
Proof.
  intros S F B col z. destruct (bracket_first d) eqn:BF.
  - cbn [andb] in B. destruct d as [f id v]. unfold bracket_first, shown_id in BF. cbn [d_val d_id d_fmt] in *.
    assert (H : forall c t, c <> ch "[" -> starts_with (s "[") (c :: t) = false).
    { intros c t N. change (starts_with (s "[") (c :: t)) with ((ch "[" =? c) && true). rewrite andb_true_r. apply N.eqb_neq. congruence. }
    destruct v as [| | | | |l|l|l|l]; try discriminate; cbn [text prim_text].
    + destruct id as [[|]|]; try discriminate; now apply H.
    + unfold fine_node, flat_node, d_line, shown_id in *. cbn [d_val d_fmt d_id] in *. apply andb_true_iff in S as [_ S].
      assert (T : tuple_id f id = []) by (unfold tuple_id; destruct (f_id f), id; (reflexivity || discriminate)). rewrite T. cbn [app].
      destruct (f_line f).
      * rewrite inline_items by exact S. rewrite <- !app_assoc. now apply H.
      * rewrite (app_assoc _ (sp col)). rewrite (concise_items (s "(")). rewrite <- !app_assoc. now apply H.
      * rewrite (app_assoc _ (sp col)). rewrite (concise_items (s "(")). rewrite <- !app_assoc. now apply H.
    + unfold fine_node, flat_node, d_line, shown_id in *. cbn [d_val d_fmt d_id] in *.
      assert (T : nonprim_id f id = []) by (unfold nonprim_id; destruct (f_id f), id; (reflexivity || discriminate)). rewrite T. cbn [app].
      destruct (f_line f); [| |discriminate].
      * rewrite inline_fields. rewrite <- !app_assoc. now apply H.
      * rewrite (app_assoc _ (sp col)). rewrite (concise_fields (s "(")). rewrite <- !app_assoc. now apply H.
    + unfold fine_node, flat_node, d_line, shown_id in *. cbn [d_val d_fmt d_id] in *.
      assert (T : nonprim_id f id = []) by (unfold nonprim_id; destruct (f_id f), id; (reflexivity || discriminate)). rewrite T. cbn [app].
      destruct (f_line f).
      * rewrite (inline_entries (s "{")). rewrite <- !app_assoc. now apply H.
      * rewrite (app_assoc _ (sp col)). rewrite (concise_entries (s "{")). rewrite <- !app_assoc. now apply H.
      * rewrite (app_assoc _ (sp col)). rewrite (concise_entries (s "{")). rewrite <- !app_assoc. now apply H.
  - pose proof (fine_opens d S F BF col z) as O. destruct (text true d col ++ z) as [|c u]; [reflexivity|].
    change (starts_with (s "[") (c :: u)) with ((ch "[" =? c) && true). destruct (N.eqb_spec (ch "[") c) as [<-|_]; [discriminate O|reflexivity].
Qed.
Lemma fine_looks d : d_all fine_node d = true -> d_all legible_node d = true -> d_all flat_node d = true -> safe_root d = true -> forall col z, looks (text true d col ++ z) = false.
Proof.
  intros SA LA FA R col z. destruct d as [f id v]. pose proof SA as S. pose proof FA as F. apply d_all_children in LA as [_ LC]. apply d_all_children in S as [S SC]. apply d_all_children in F as [F FC].
  assert (P : forall t, looks (t ++ z) = false -> looks ((prim_id f id ++ t) ++ z) = false).
  { intros t H. unfold prim_id. destruct (f_id f); [destruct id|]; [|exact H..]. rewrite <- !app_assoc. now apply looks_first. }
  destruct v as [|b|n|t|b|l|l|l|l]; cbn [text prim_text]; unfold fine_node, shown_id in S; cbn [d_val d_id d_fmt] in *.
  - destruct id as [[|c i]|]; try reflexivity. pose proof (looks_id (Some (c :: i)) [] (ch "(") (s ")" ++ z) S ltac:(discriminate)) as X. cbn [head] in X. rewrite app_nil_r in X. rewrite <- app_assoc. exact X.
  - apply P. destruct b; reflexivity.
  - apply P. pose proof (display_num_chars n) as C. apply andb_true_iff in S as [_ S]. pose proof (nonempty_display n S) as NE. destruct (num_display n) as [|c u]; [congruence|]. cbn [forallb] in C. apply andb_true_iff in C as [C _]. apply looks_first. intros ->. discriminate.
  - apply P. apply andb_true_iff in S as [_ S]. unfold fine_string, str_text in *. destruct (delimiter t) as [d|]; [|discriminate]. destruct (N.eqb_spec d 34) as [->|]; now apply looks_first.
  - apply P. now apply looks_first.
  - apply andb_true_iff in S as [S SL]. unfold flat_node, d_line in *. cbn [d_fmt d_val d_children] in *. destruct (f_line f); try discriminate.
    + rewrite inline_items, tuple_head, <- !app_assoc by assumption. now apply looks_id.
    + rewrite (app_assoc (tuple_id f _)), (app_assoc _ (sp col)), concise_items, tuple_head, <- !app_assoc. now apply looks_id.
    + rewrite (app_assoc (tuple_id f _)), (app_assoc _ (sp col)), concise_items, tuple_head, <- !app_assoc. now apply looks_id.
  - apply andb_true_iff in S as [S SL]. unfold flat_node, d_line in *. cbn [d_fmt d_val d_children] in *. destruct (f_line f); try discriminate.
    + rewrite inline_fields, nonprim_head, <- !app_assoc by assumption. now apply looks_id.
    + rewrite (app_assoc (nonprim_id f _)), (app_assoc _ (sp col)), concise_fields, nonprim_head, <- !app_assoc. now apply looks_id.
  - apply andb_true_iff in S as [S SL]. unfold flat_node, safe_root, d_line, shown_id in *. cbn [d_fmt d_val d_id d_children] in *.
    destruct (f_line f) eqn:EL; try discriminate.
    + rewrite inline_items, nonprim_head, <- !app_assoc by assumption. destruct (if f_id f then id else None) as [i|]; [now apply looks_id|]. cbn [head app].
      change (looks (ch "[" :: (first_text drops (fun x => text true x col) [] l ++ s "]" ++ z)) = false). destruct l as [|x l]; [reflexivity|].
      inversion_clear SC as [|? ? SX _]. inversion_clear LC as [|? ? LX _]. inversion_clear FC as [|? ? FX _]. cbn [first_shown] in SL. apply negb_true_iff in SL.
      cbn [first_text]. rewrite SL. cbn [app]. rewrite <- app_assoc. apply andb_true_iff in R as [R1 R2]. apply negb_true_iff in R1, R2.
      assert (ST : starts (text true x col)).
      { eapply reads_start, (fine_in_grammar x SX LX FX false). discriminate. }
      assert (SX1 : fine_node x = true) by (destruct x; now apply d_all_children in SX as [SX _]).
      assert (FX1 : flat_node x = true) by (destruct x; now apply d_all_children in FX as [FX _]).
      rewrite looks_bracket by now apply starts_blank, starts_app. rewrite fine_bracket by assumption. cbn [orb].
      destruct (word_only x) eqn:W; [|now apply fine_wordy]. cbn [andb] in R2. destruct l as [|y l]; [discriminate|]. cbn [more_text]. rewrite <- !app_assoc.
      apply (wordy_next _ [] (ch ",")); (reflexivity || discriminate || now apply word_text).
    + rewrite (app_assoc (nonprim_id f _)), (app_assoc _ (sp col)), concise_items, nonprim_head, <- !app_assoc. destruct (if f_id f then id else None) as [i|]; [now apply looks_id|]. destruct l; reflexivity.
    + rewrite (app_assoc (nonprim_id f _)), (app_assoc _ (sp col)), concise_items, nonprim_head, <- !app_assoc. destruct (if f_id f then id else None) as [i|]; [now apply looks_id|]. destruct l; reflexivity.
  - apply andb_true_iff in S as [S SL]. unfold flat_node, d_line in *. cbn [d_fmt d_val d_children] in *. destruct (f_line f); try discriminate.
    + rewrite (app_assoc (nonprim_id f _)), inline_entries, nonprim_head, <- !app_assoc by assumption. now apply looks_id.
    + rewrite (app_assoc (nonprim_id f _)), (app_assoc _ (sp col)), concise_entries, nonprim_head, <- !app_assoc. now apply looks_id.
    + rewrite (app_assoc (nonprim_id f _)), (app_assoc _ (sp col)), concise_entries, nonprim_head, <- !app_assoc. now apply looks_id.
Qed.
Theorem legible_parses d : d_all clear_node d = true -> d_all flat_node d = true -> legible d = true -> parse (text true d 0) = ParseOk (norm d).
Proof.
  intros C F L. unfold legible, legible_root in L. rewrite each_all in L. apply andb_true_iff in L as [L R]. apply andb_true_iff in R as [R N]. pose proof (fine_all d C L) as S.
  assert (D : document (text true d 0) (norm d)).
  { rewrite <- (app_nil_r (text true d 0)). apply (Document [] _ [] _ (bare_number d)); [reflexivity|apply fine_in_grammar; auto; discriminate|reflexivity|].
    rewrite app_nil_r. unfold verbose_start. pose proof (fine_looks d S L F R 0 []) as X. rewrite app_nil_r in X. unfold looks in X. apply orb_false_iff in X as [-> ->].
    rewrite assigns_scan, text_sign by assumption. now destruct (sign d) as [[]|]. }
  unfold parse. now rewrite (document_ok _ _ D).
Qed.
