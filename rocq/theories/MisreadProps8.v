(** What is written is not taken for another value: what stands below titles. *)
From Verif Require Import ParseSpec PropertiesParse Base F64 Number NumberSpec BTree Value BaseProps BTreeProps ValueSpec ValueProps ValueProps2 Nom Parse ParseErr ParseProps Grammar VGrammar GrammarProps VGrammarProps VAssemble VGrammarProps2 Format FormatProps Nav NavSpec NavProps NavProps2 Fmt Formatter FmtText FmtSpec FmtProps FmtProps2 FormatterProps FormatterProps2 FormatterProps3 FormatterProps4 VSpec VRtProps VRtProps2 VRtProps3 VRtProps4 VRtProps5 Syntax SyntaxProps SyntaxProps2 SyntaxProps3 SyntaxProps4 RtSpec RtProps2 RtProps3 RtProps4 RtProps5 RtProps6 RtProps7 MisreadSpec MisreadProps MisreadProps2 MisreadProps3 MisreadProps4 MisreadProps5 MisreadProps6 MisreadProps7 LegibleSpec MisreadSpec2.
From Verif Require LegibleProps.
Open Scope N_scope.

(** ** the first line of an element *)
Lemma text_scan d : clear_node d = true -> flat_node d = true -> (forall l, d_val d <> VSeq l) -> forall col, scan (text true d col) = sign d.
Proof.
  destruct d as [f id v]. intros S F N col.
  destruct v as [|b|n|t|b|l|m|l|m]; cbn [text sign prim_text]; unfold clear_node, shown_id in S; cbn [d_val d_id d_fmt] in *.
  - destruct id as [[|c i]|]; [reflexivity| |reflexivity]. pose proof (LegibleProps.scan_head (Some (c :: i)) [] (ch "(") (s ")") (Some false) eq_refl S eq_refl) as Q.
    cbn [head] in Q. rewrite app_nil_r in Q. exact Q.
  - rewrite LegibleProps.prim_scan. destruct (if f_id f then id else None); [reflexivity|]. now destruct b.
  - rewrite LegibleProps.prim_scan. destruct (if f_id f then id else None); [reflexivity|]. apply num_quiet, display_num_chars.
  - rewrite LegibleProps.prim_scan. reflexivity.
  - rewrite LegibleProps.prim_scan. now destruct (if f_id f then id else None).
  - apply andb_true_iff in S as [S SL]. unfold flat_node, d_line in *. cbn [d_fmt d_val d_children] in *. destruct (f_line f); try discriminate.
    + rewrite inline_items, tuple_head, <- !app_assoc by assumption. now apply LegibleProps.scan_head.
    + rewrite (app_assoc (tuple_id f id)), (app_assoc _ (sp col)), concise_items, tuple_head, <- !app_assoc. now apply LegibleProps.scan_head.
    + rewrite (app_assoc (tuple_id f id)), (app_assoc _ (sp col)), concise_items, tuple_head, <- !app_assoc. now apply LegibleProps.scan_head.
  - apply andb_true_iff in S as [S SL]. unfold flat_node, d_line in *. cbn [d_fmt d_val d_children] in *. destruct (f_line f); try discriminate.
    + rewrite inline_fields, nonprim_head, <- !app_assoc. now apply LegibleProps.scan_head.
    + rewrite (app_assoc (nonprim_id f id)), (app_assoc _ (sp col)), concise_fields, nonprim_head, <- !app_assoc. now apply LegibleProps.scan_head.
  - now elim (N l).
  - unfold flat_node, d_line in *. cbn [d_fmt d_val d_children] in *. destruct (f_line f); try discriminate.
    + rewrite (app_assoc (nonprim_id f id)), inline_entries, nonprim_head, <- !app_assoc. now apply LegibleProps.scan_head.
    + rewrite (app_assoc (nonprim_id f id)), (app_assoc _ (sp col)), concise_entries, nonprim_head, <- !app_assoc. now apply LegibleProps.scan_head.
    + rewrite (app_assoc (nonprim_id f id)), (app_assoc _ (sp col)), concise_entries, nonprim_head, <- !app_assoc. now apply LegibleProps.scan_head.
Qed.
Lemma text_colon d col Z : tidy d -> text true d col ++ nl = ch ":" :: Z -> False.
Proof.
  intros TD E. pose proof (text_shape d (all_here _ _ (proj1 TD)) (all_here _ _ (proj2 TD)) col nl ltac:(now apply follow_char)) as SH.
  destruct SH as (a & Y & E1 & A & ST & D). rewrite E in E1. destruct a as [|y a]; [|cbn [app s map list_ascii_of_string] in E1; injection E1 as <- _; discriminate].
  cbn [app] in E1. destruct D as [->|(w' & b & X & -> & B1 & B2 & B3)]; [discriminate|]. destruct w' as [|y w']; cbn [app] in E1; injection E1 as <- _; discriminate.
Qed.
Lemma elem_value j d col Z : tidy d -> plain_elem d = true -> verbose_first (sp j ++ text true d col ++ nl ++ Z) = false.
Proof.
  intros TD P. pose proof (text_begins d col (proj1 TD) (proj2 TD)) as B. unfold verbose_first. rewrite trim_app; [|apply blanks_spaces, sp_blanks|now apply begins_space, SyntaxProps2.begins_app].
  unfold plain_elem in P. rewrite !andb_true_iff in P. destruct P as [[_ NS] SG].
  assert (NV : forall l, d_val d <> VSeq l) by (intros l E; rewrite E in NS; discriminate).
  pose proof (text_scan d (all_here _ _ (proj1 TD)) (all_here _ _ (proj2 TD)) NV col) as SC.
  assert (AS : assigns (text true d col ++ nl ++ Z) = false). { rewrite assigns_scan, scan_app, SC. destruct (sign d) as [[]|]; (reflexivity || discriminate). }
  pose proof (text_colon d col) as TC. pose proof (bracket_first d col) as BF. destruct (text true d col) as [|c X]; [contradiction|]. cbn [app] in *.
  assert (C1 : (ch ":" =? c) = false) by (apply N.eqb_neq; intros <-; now apply (TC (X ++ nl))).
  assert (C2 : (ch "[" =? c) = false). { apply N.eqb_neq. intros <-. destruct (BF X (all_here _ _ (proj1 TD)) (all_here _ _ (proj2 TD)) eq_refl) as (f & id & l & -> & _). now apply (NV l). }
  unfold verbose_start. rewrite AS. cbn [bracketed]. rewrite (N.eqb_sym c), C2. change (starts_with (s ":") (c :: X ++ nl ++ Z)) with ((ch ":" =? c) && true). rewrite C1.
  change (starts_with (s "[[") (c :: X ++ nl ++ Z)) with ((ch "[" =? c) && starts_with (s "[") (X ++ nl ++ Z)). now rewrite C2.
Qed.

(** ** what is not a key *)
Lemma keyless_keyed t rest : keyless t = true -> ~ keyed (t ++ rest).
Proof.
  intros K. set (i := t ++ rest). apply (key_keyed (S (length i))); [lia|]. apply key_none. unfold i. now apply keyless_no_key.
Qed.
Lemma text_keyed j d col Z : tidy d -> keyed (sp j ++ text true d col ++ nl ++ Z) -> False.
Proof.
  intros TD (w1 & tk & w2 & r & k & E & W1 & W2 & V). apply value_at_weak in V. pose proof (value_at_begins _ _ _ _ V) as B. pose proof (text_begins d col (proj1 TD) (proj2 TD)) as BT.
  apply blank_eq in E as [_ E]; [|apply sp_blanks|now apply begins_space, SyntaxProps2.begins_app|exact W1|now apply begins_space, SyntaxProps2.begins_app].
  destruct (text_exactly d (proj1 TD) (proj2 TD) false col) as [_ X]; [discriminate|]. symmetry in E.
  destruct (X tk _ k (nl ++ Z) ltac:(now apply follow_char) V E) as [-> _]. apply app_inv_head in E. destruct w2 as [|c w2]; [discriminate E|]. cbn [app] in E. change (nl ++ Z) with (10 :: Z) in E. injection E as -> _. discriminate W2.
Qed.

(** ** titles *)
Definition id_part (id : option str) : str := match id with Some i => s ":" ++ i | None => [] end.
Lemma names_space i r : forallb name_char i = true -> i <> [] -> stops space (i ++ r).
Proof. apply names_stop_space. Qed.
Lemma title_eq h name' id' name id X Y : titlef h name' id' -> name_ok name = true -> opt_ok is_id id = true ->
  h ++ ch "]" :: X = name ++ id_part id ++ ch "]" :: Y -> name' = name /\ id' = id /\ X = Y.
Proof.
  intros H N I E. apply name_ok_spec in N as [NE N].
  assert (S : forall a Z, stops space (name ++ a ++ Z)) by (intros; now apply names_space).
  assert (ID : stops name_char (id_part id ++ ch "]" :: Y)) by (destruct id; reflexivity).
  destruct H as [w1 name' w2 W1 HN W2|w1 name' w2 w3 id' w4 W1 HN W2 W3 I' W4]; rewrite <- !app_assoc in E.
  - assert (S1 : stops name_char (w2 ++ ch "]" :: X)). { destruct w2 as [|y w2]; [reflexivity|]. unfold blanks in W2. cbn [forallb] in W2. apply andb_true_iff in W2 as [W2 _]. cbn [app stops]. unfold blank in W2. apply mem_In in W2. each_char W2. }
    assert (w1 = []) as ->. { destruct w1 as [|y w1]; [reflexivity|]. exfalso. pose proof (S [] []) as S'. rewrite app_nil_r in S'. destruct name as [|c name]; [congruence|]. cbn [app] in E. injection E as -> _. cbn [app stops] in S'. unfold blanks in W1. cbn [forallb] in W1. apply andb_true_iff in W1 as [W1 _]. apply blank_space in W1. congruence. }
    cbn [app] in E. apply span_eq with (f := name_char) in E as [-> E]; auto. split; [reflexivity|].
    destruct id as [i|]; cbn [id_part app] in E; cbn [app s map list_ascii_of_string] in E.
    + exfalso. destruct w2 as [|y w2]; [discriminate E|]. cbn [app] in E. apply (f_equal (hd 0)) in E. cbn [hd] in E. subst y. discriminate W2.
    + destruct w2 as [|y w2]; cbn [app] in E; [apply (f_equal (@tl _)) in E; auto|]. apply (f_equal (hd 0)) in E. cbn [hd] in E. subst y. discriminate W2.
  - cbn [app s map list_ascii_of_string] in E.
    assert (S1 : stops name_char (w2 ++ ch ":" :: w3 ++ id' ++ w4 ++ ch "]" :: X)). { destruct w2 as [|y w2]; [reflexivity|]. unfold blanks in W2. cbn [forallb] in W2. apply andb_true_iff in W2 as [W2 _]. cbn [app stops]. unfold blank in W2. apply mem_In in W2. each_char W2. }
    assert (w1 = []) as ->. { destruct w1 as [|y w1]; [reflexivity|]. exfalso. pose proof (S [] []) as S'. rewrite app_nil_r in S'. destruct name as [|c name]; [congruence|]. cbn [app] in E. injection E as -> _. cbn [app stops] in S'. unfold blanks in W1. cbn [forallb] in W1. apply andb_true_iff in W1 as [W1 _]. apply blank_space in W1. congruence. }
    cbn [app] in E. apply span_eq with (f := name_char) in E as [-> E]; auto. split; [reflexivity|].
    destruct id as [i|]; cbn [id_part app] in E; cbn [app s map list_ascii_of_string] in E.
    + destruct w2 as [|y w2]; cbn [app] in E; [|apply (f_equal (hd 0)) in E; cbn [hd] in E; subst y; discriminate W2].
      apply (f_equal (@tl _)) in E. cbn [tl] in E. rename E into E2.
      cbn [opt_ok] in I. pose proof (id_name _ I) as [NI I1]. pose proof (id_name _ I') as [NH H1].
      apply (blank_eq w3 _ [] _) in E2 as [-> E2]; auto; try reflexivity; try now apply names_space.
      apply span_eq with (f := name_char) in E2 as [-> E2]; auto.
      * destruct w4 as [|y w4]; cbn [app] in E2; [apply (f_equal (@tl _)) in E2; auto|]. apply (f_equal (hd 0)) in E2. cbn [hd] in E2. subst y. discriminate W4.
      * destruct w4 as [|y w4]; [reflexivity|]. unfold blanks in W4. cbn [forallb] in W4. apply andb_true_iff in W4 as [W4 _]. cbn [app stops]. unfold blank in W4. apply mem_In in W4. each_char W4.
    + exfalso. destruct w2 as [|y w2]; [discriminate E|]. cbn [app] in E. apply (f_equal (hd 0)) in E. cbn [hd] in E. subst y. discriminate W2.
Qed.
Lemma line_eq w e X Y : blanks w -> eol e -> w ++ e ++ X = nl ++ Y -> X = Y.
Proof.
  intros W H E. destruct w as [|c w].
  - destruct H as [->| ->]; cbn [app] in E; [|discriminate]. now injection E.
  - cbn [app] in E. change (nl ++ Y) with (10 :: Y) in E. injection E as -> _. unfold blanks in W. discriminate W.
Qed.

(** ** indents *)
Lemma sp_all n : forall x, In x (sp n) -> x = 32.
Proof. intros x Hx. now apply repeat_spec in Hx. Qed.
Lemma indents_length n b : indents n b -> (forall x, In x b -> x = 32) -> length b = (4 * n)%nat.
Proof.
  induction 1 as [|n w _ IH|n w _ IH]; intros H; [reflexivity| |].
  - rewrite app_length, IH; [cbn [length s map list_ascii_of_string]; lia|]. intros x Hx. apply H. apply in_or_app. now right.
  - specialize (H 9 (or_introl eq_refl)). discriminate.
Qed.
(** the last line of the blank lines and what follows *)
Lemma bl_last a : blank_lines a -> a = [] \/ exists a', a = a' ++ [10].
Proof.
  induction 1 as [|w e r W E _ IH]; [now left|]. right. destruct IH as [->|(a' & ->)].
  - destruct E as [->| ->]; [exists w; now rewrite app_nil_r|exists (w ++ [13]); now rewrite app_nil_r, <- app_assoc].
  - exists (w ++ e ++ a'). now rewrite <- !app_assoc.
Qed.
Lemma blanks_no_nl b : blanks b -> ~ In 10 b.
Proof. intros B H. unfold blanks in B. rewrite forallb_forall in B. specialize (B 10 H). discriminate. Qed.
Lemma last_line a b a' b' : blank_lines a -> blank_lines a' -> ~ In 10 b -> ~ In 10 b' -> a ++ b = a' ++ b' -> b = b'.
Proof.
  intros A A' B B' E. apply (f_equal (@rev _)) in E. rewrite !rev_app_distr in E. 
  assert (G : forall x, blank_lines x -> stops (fun c => negb (c =? 10)) (rev x)). { intros x X. apply bl_last in X as [->|(z & ->)]; [exact I|]. rewrite rev_app_distr. reflexivity. }
  assert (Q : forall x, ~ In 10 x -> forallb (fun c => negb (c =? 10)) (rev x) = true).
  { intros x X. apply forallb_forall. intros c C. apply in_rev in C. apply negb_true_iff, N.eqb_neq. intros ->. auto. }
  apply span_eq with (f := fun c => negb (c =? 10)) in E as [E _]; auto. apply (f_equal (@rev _)) in E. now rewrite !rev_involutive in E.
Qed.
Lemma lead_short n w a j : lead n w -> blank_lines a -> w = a ++ sp j -> (4 * n <= j)%nat.
Proof.
  intros [x y z X Y Z] A E. apply last_line in E; auto.
  - assert (L : (length y <= j)%nat). { apply (f_equal (@length _)) in E. rewrite app_length in E. unfold sp in E. rewrite repeat_length in E. lia. }
    rewrite <- (indents_length n y Y); [exact L|]. intros c C. apply (sp_all j). rewrite <- E. apply in_or_app. now left.
  - intros H. apply in_app_or in H as [H|H]; [|now apply blanks_no_nl in H]. clear -Y H. induction Y as [|n w _ IH|n w _ IH]; [contradiction| |].
    + apply in_app_or in H as [H|H]; [cbn in H; intuition discriminate|auto].
    + destruct H as [H|H]; [discriminate|auto].
  - intros H. apply sp_all in H. discriminate.
Qed.
Lemma indented_sp n z : indented n (sp (4 * n) ++ z) = true.
Proof. induction n as [|n IH]; [reflexivity|]. replace (4 * S n)%nat with (4 + 4 * n)%nat by lia. unfold sp. rewrite repeat_app, <- app_assoc. exact IH. Qed.
Lemma opens_here n a c z : blank_lines a -> space c = false -> closes n (a ++ sp (4 * n) ++ c :: z) = false.
Proof.
  intros A C. unfold closes. rewrite next_line_blank_lines by exact A. rewrite next_line_stop.
  - rewrite indented_sp, forallb_app. cbn [forallb]. rewrite (space_blank _ C), andb_false_r. reflexivity.
  - left. rewrite skip_blanks_app by apply sp_blanks. rewrite skip_blanks_id by (cbn; now apply space_blank). cbn [at_eol].
    destruct (N.eqb_spec c 10) as [->|N1]; [discriminate|]. destruct (N.eqb_spec c 13) as [->|N2]; [discriminate|].
    destruct c as [|p]; [reflexivity|]. repeat (destruct p as [p|p|]; try reflexivity); congruence.
Qed.

(** ** items one after another *)
Definition lower (n : nat) (r : str) : Prop := blank_lines r \/ exists e j c z, r = e ++ sp j ++ c :: z /\ blank_lines e /\ (j < 4 * n)%nat /\ space c = false.
Lemma lower_S n r : lower n r -> lower (S n) r.
Proof. intros [H|(e & j & c & z & E & B & J & C)]; [now left|]. right. exists e, j, c, z. repeat split; auto. lia. Qed.
Lemma lower_lines n e r : blank_lines e -> lower n r -> lower n (e ++ r).
Proof. intros E [H|(e' & j & c & z & -> & B & J & C)]; [left; now apply bl_app|]. right. exists (e ++ e'), j, c, z. split; [now rewrite app_assoc|]. split; [now apply bl_app|auto]. Qed.
Definition piece_ok (n : nat) (T : str) (i : VGrammar.item) : Prop :=
  SyntaxProps2.begins T /\ forall t r i' rest, lower (S n) rest -> item_at n t r i' -> t ++ r = T ++ rest -> i' = i /\ exists W, blank_lines W /\ r = W ++ rest.
Definition piece : Type := str * str * VGrammar.item.
Definition render (n : nat) (p : piece) : str := fst (fst p) ++ sp (4 * n) ++ snd (fst p).
Definition piece_read (n : nat) (p : piece) : Prop := blank_lines (fst (fst p)) /\ piece_ok n (snd (fst p)) (snd p).
Lemma pieces_lower n ps rest : Forall (piece_read n) ps -> lower n rest -> lower (S n) (concat (map (render n) ps) ++ rest).
Proof.
  intros F L. destruct F as [|[[p T] i] ps [P [B _]] _]; [now apply lower_S|]. cbn [fst snd] in *. right. unfold SyntaxProps2.begins in B. destruct T as [|c z]; [contradiction|].
  exists p, (4 * n)%nat, c, (z ++ concat (map (render n) ps) ++ rest). cbn [map concat]. unfold render at 1. cbn [fst snd]. rewrite <- !app_assoc. cbn [app]. repeat split; auto; [lia|apply B].
Qed.
Lemma pieces_read n ps : Forall (piece_read n) ps -> forall W t r l rest, blank_lines W -> lower n rest -> items_at n t r l -> closes n r = true ->
  t ++ r = W ++ concat (map (render n) ps) ++ rest -> l = map snd ps /\ exists W', blank_lines W' /\ r = W' ++ rest.
Proof.
  induction 1 as [|[[p T] i] ps [P [B H]] F IH]; intros W t r l rest HW L HI C E; cbn [map concat fst snd] in *.
  - cbn [app] in E. inversion HI as [|n0 w t0 i u l0 r0 LD HA HU]; subst; [split; [reflexivity|]; now exists W|]. exfalso. pose proof (item_begins _ _ _ _ HA) as B. rewrite <- !app_assoc in E.
    destruct L as [BR|(e & j & c & z & -> & Be & J & Hc)].
    + assert (HX : blank_lines (W ++ rest)) by now apply bl_app. clear HW. rename HX into HW. apply blank_lines_spaces in HW. unfold spaces in HW. rewrite <- E in HW. destruct t0 as [|c t0]; [contradiction|]. destruct B as [B _].
      rewrite forallb_app in HW. cbn [app forallb] in HW. rewrite B in HW. cbn [andb] in HW. rewrite andb_false_r in HW. discriminate.
    + rewrite !(app_assoc W), (app_assoc (W ++ e)) in E. apply gap_eq in E as [E _]; [|now apply lead_spaces in LD|now apply begins_space, SyntaxProps2.begins_app| |exact Hc].
      * apply (lead_short n w (W ++ e) j LD) in E; [lia|now apply bl_app].
      * unfold spaces. rewrite forallb_app. apply andb_true_iff. split; [apply blank_lines_spaces; now apply bl_app|apply spaces_sp].
  - unfold render at 1 in E. cbn [fst snd] in E. rewrite <- !app_assoc in E. destruct T as [|c z]; [contradiction|].
    inversion HI as [|n0 w t0 i' u l0 r0 LD HA HU]; subst.
    + exfalso. cbn [app] in E. rewrite E, app_assoc in C. rewrite opens_here in C; [discriminate|now apply bl_app|apply B].
    + rewrite <- !app_assoc in E. rewrite (app_assoc W), (app_assoc (W ++ p)) in E. pose proof (item_begins _ _ _ _ HA) as BA.
      apply gap_eq in E as [_ E]; [|now apply lead_spaces in LD|now apply begins_space, SyntaxProps2.begins_app| |apply B].
      2:{ unfold spaces. rewrite forallb_app. apply andb_true_iff. split; [apply blank_lines_spaces; now apply bl_app|apply spaces_sp]. }
      destruct (H t0 (u ++ r) i' (concat (map (render n) ps) ++ rest)) as (-> & W' & HW' & E'); [now apply pieces_lower|exact HA|exact E|].
      destruct (IH W' u r l0 rest HW' L HU C E') as (-> & R). split; [reflexivity|exact R].
Qed.
