(** The texts of trees without verbose parts are in the grammar. *)
From Verif Require Import Base F64 Number BTree Value BaseProps NumberProps3 Base91 Base91Props Nom Parse Grammar GrammarProps Nav Fmt FmtText FmtSpec FmtProps FmtProps2 RtProps RtSpec RtProps2.
Open Scope N_scope.

(** ** the texts of lists *)
Lemma fold_ext {A B} (f g : A -> B -> A) l : (forall a b, In b l -> f a b = g a b) -> forall a, fold_left f l a = fold_left g l a.
Proof.
  intros H. induction l as [|x l IH]; intros a; [reflexivity|]. cbn [fold_left]. rewrite H by now left. apply IH. intros. apply H. now right.
Qed.
Definition field_text (col : str * dk -> nat) (e : str * dk) : str := fst e ++ s " =" ++ gap (snd e) ++ text true (snd e) (col e).
Definition entry_text (c : nat) (col : dk * dk -> nat) (e : dk * dk) : str :=
  text true (fst e) c ++ s ":" ++ gap (snd e) ++ text true (snd e) (col e).
Definition never {A} (_ : A) : bool := false.
Definition key_drops (e : dk * dk) : bool := drops (fst e).

Lemma inline_items pre l col : first_shown l = true ->
  pop2 l (fold_left (fun acc x => FmtText.cut x acc ++ text true x col ++ s ", ") l pre) = pre ++ first_text drops (fun x => text true x col) [] l.
Proof.
  intros H. rewrite <- (app_nil_r pre) at 1. apply (first_fold drops (fun x => text true x col) [] l pre).
  destruct l as [|x l]; [exact Logic.I|]. cbn [first_shown] in H. intros E. rewrite E in H. discriminate.
Qed.
Lemma concise_items pre l col :
  fold_left (fun acc x => FmtText.cut x (acc ++ sp (col + 4)) ++ text true x (col + 4) ++ nl) l (pre ++ nl) ++ sp col
  = pre ++ lines_text drops (fun x => text true x (col + 4)) col l.
Proof. apply (lines_fold drops (fun x => text true x (col + 4)%nat) col l). Qed.
Lemma inline_fields pre (m : list (str * dk)) col :
  pop2 m (fold_left (fun acc e => FmtText.cut (snd e) (acc ++ fst e ++ s " = ") ++ text true (snd e) col ++ s ", ") m pre)
  = pre ++ first_text never (field_text (fun _ => col)) [] m.
Proof.
  rewrite <- (app_nil_r pre) at 1. rewrite <- (first_fold never (field_text (fun _ => col)) [] m pre).
  - f_equal. apply fold_ext. intros a e _. unfold istep, never, field_text. change (s " = ") with (s " =" ++ [32]). rewrite !app_assoc, cut_space. now rewrite <- !app_assoc.
  - now destruct m.
Qed.
Lemma concise_fields pre (m : list (str * dk)) col :
  fold_left (fun acc e => FmtText.cut (snd e) (acc ++ sp (col + 4) ++ fst e ++ s " = ") ++ text true (snd e) (col + 4 + (length (fst e) + 3)) ++ nl) m (pre ++ nl) ++ sp col
  = pre ++ lines_text never (field_text (fun e => (col + 4 + (length (fst e) + 3))%nat)) col m.
Proof.
  rewrite <- (lines_fold never (field_text _) col m pre). f_equal. apply fold_ext. intros a e _.
  unfold cstep, never, field_text. change (s " = ") with (s " =" ++ [32]). rewrite !app_assoc, cut_space. now rewrite <- !app_assoc.
Qed.
Lemma inline_entries pre (m : list (dk * dk)) col :
  pop2 m (fold_left (fun acc e => FmtText.cut (snd e) (FmtText.cut (fst e) acc ++ text true (fst e) col ++ s ": ") ++ text true (snd e) col ++ s ", ")
            m (pre ++ (if nonempty m then s " " else [])))
  = pre ++ first_text key_drops (entry_text col (fun _ => col)) (if nonempty m then s " " else []) m.
Proof.
  rewrite <- (first_fold key_drops (entry_text col (fun _ => col)) _ m pre).
  - f_equal. apply fold_ext. intros a e _. unfold istep, key_drops, entry_text, FmtText.cut at 2.
    change (s ": ") with (s ":" ++ [32]). rewrite !app_assoc, cut_space. now rewrite <- !app_assoc.
  - destruct m; [exact Logic.I|discriminate].
Qed.
Definition val_col (col : nat) (e : dk * dk) : nat :=
  (col + 4 + match d_line (fst e) with Inline => length (text true (fst e) (col + 4)) + 2 - (if drops (fst e) then 1 else 0) | _ => 3 end)%nat.
Lemma concise_entries pre (m : list (dk * dk)) col :
  fold_left (fun acc e =>
                let kt := text true (fst e) (col + 4) in
                let ind := match d_line (fst e) with Inline => length kt + 2 - (if drops (fst e) then 1 else 0) | _ => 3 end%nat in
                FmtText.cut (snd e) (FmtText.cut (fst e) (acc ++ sp (col + 4)) ++ kt ++ s ": ") ++ text true (snd e) (col + 4 + ind) ++ nl)
                m (pre ++ nl) ++ sp col
  = pre ++ lines_text key_drops (entry_text (col + 4) (val_col col)) col m.
Proof.
  rewrite <- (lines_fold key_drops (entry_text _ _) col m pre). f_equal. apply fold_ext. intros a e _.
  unfold cstep, key_drops, entry_text, val_col. cbv zeta. unfold FmtText.cut at 2.
  change (s ": ") with (s ":" ++ [32]). rewrite !app_assoc, cut_space. now rewrite <- !app_assoc.
Qed.
Lemma nonprim_head f id : nonprim_id f id = head (if f_id f then id else None) [32].
Proof. unfold nonprim_id. destruct (f_id f), id; reflexivity. Qed.
Lemma tuple_head f id : tuple_id f id = head (if f_id f then id else None) [].
Proof. unfold tuple_id. destruct (f_id f), id; try reflexivity. cbn. now rewrite app_nil_r. Qed.

(** ** no '=' comes first in the texts of safe trees *)
Lemma head_scan id w : blanks w -> opt_ok is_id_plain id = true -> scan (head id w) = None.
Proof.
  intros W H. destruct id as [i|]; [|reflexivity]. cbn [opt_ok] in H. apply andb_true_iff in H as [H _]. apply andb_true_iff in H as [H _].
  apply id_name in H as [H _]. cbn [head]. rewrite scan_app, name_quiet by assumption. clear -W. unfold blanks in W. induction w as [|c w IH]; [reflexivity|].
  cbn [forallb] in W. apply andb_true_iff in W as [W1 W2]. cbn [scan]. rewrite IH by assumption. unfold blank in W1. apply mem_In in W1. each_char W1.
Qed.
Lemma head_quiet id w t : blanks w -> opt_ok is_id_plain id = true -> quiet t -> quiet (head id w ++ t).
Proof. intros W H Q. unfold quiet. now rewrite scan_app, head_scan by assumption. Qed.
Lemma angle_quiet i t : quiet (s "<" ++ i ++ t).
Proof. apply (quiet_stop (s "<")). reflexivity. Qed.
Lemma prim_quiet f id t : quiet t -> quiet (prim_id f id ++ t).
Proof. intros Q. unfold prim_id. destruct (f_id f), id; try exact Q. rewrite <- app_assoc. now apply angle_quiet. Qed.
Lemma str_quiet id t : safe_string id t = true -> is_some id = false -> quiet (str_text t).
Proof.
  unfold safe_string, str_text. destruct (delimiter t) as [d|]; [|discriminate]. intros H E. rewrite E in H. cbn [orb] in H. apply andb_true_iff in H as [H _].
  apply negb_true_iff in H. assert (Q : quiet ([d] ++ t ++ [d])).
  { apply (quiet_app (d :: t) [d]); [now apply quiet_assigns|]. cbn [assigns] in H. unfold quiet. cbn [scan]. destruct (d =? ch "="); [discriminate|]. destruct (mem d _); discriminate. }
  destruct (d =? 34); [exact Q|]. unfold quiet. rewrite scan_app. exact Q.
Qed.
Lemma text_quiet d : d_all safe_node d = true -> d_all flat_node d = true -> forall col, quiet (text true d col).
Proof.
  induction d as [f id v IH] using dk_ind'. intros S F col. apply d_all_children in S as [S SC]. apply d_all_children in F as [F FC].
  destruct v as [|b|n|t|b|l|m|l|m]; cbn [text]; unfold safe_node, shown_id in S; cbn [d_val d_id d_fmt] in S.
  - cbn [prim_text]. destruct id as [[|c i]|]; [discriminate| |discriminate]. pose proof (head_quiet (Some (c :: i)) [] (s "()") eq_refl S) as Q.
    cbn [head] in Q. rewrite app_nil_r in Q. apply Q. discriminate.
  - cbn [prim_text]. apply prim_quiet. destruct b; discriminate.
  - cbn [prim_text]. apply prim_quiet. unfold quiet. rewrite num_quiet by apply display_num_chars. discriminate.
  - cbn [prim_text]. apply andb_true_iff in S as [_ S]. unfold prim_id. destruct (f_id f); [destruct id as [i|]|].
    + rewrite <- app_assoc. now apply angle_quiet.
    + now apply (str_quiet None).
    + now apply (str_quiet None).
  - cbn [prim_text]. apply prim_quiet. apply (quiet_stop (s "b91'")). reflexivity.
  - apply andb_true_iff in S as [S SL]. unfold flat_node, d_line in *. cbn [d_fmt d_val d_children] in *. destruct (f_line f); try discriminate.
    + rewrite inline_items by assumption. rewrite tuple_head. rewrite <- !app_assoc. apply head_quiet; [reflexivity|exact S|]. now apply (quiet_stop (s "(")).
    + change (s "(" ++ nl) with (s "(" ++ nl). rewrite (app_assoc (tuple_id f id)). rewrite (app_assoc _ (sp col)). rewrite concise_items. rewrite tuple_head.
      rewrite <- !app_assoc. apply head_quiet; [reflexivity|exact S|]. now apply (quiet_stop (s "(")).
    + change (s "(" ++ nl) with (s "(" ++ nl). rewrite (app_assoc (tuple_id f id)). rewrite (app_assoc _ (sp col)). rewrite concise_items. rewrite tuple_head.
      rewrite <- !app_assoc. apply head_quiet; [reflexivity|exact S|]. now apply (quiet_stop (s "(")).
  - apply andb_true_iff in S as [S SL]. unfold flat_node, d_line in *. cbn [d_fmt d_val d_children] in *. destruct (f_line f); try discriminate.
    + rewrite inline_fields. rewrite nonprim_head. rewrite <- !app_assoc. apply head_quiet; [reflexivity|exact S|]. now apply (quiet_stop (s "(")).
    + rewrite (app_assoc (nonprim_id f id)). rewrite (app_assoc _ (sp col)). rewrite concise_fields. rewrite nonprim_head.
      rewrite <- !app_assoc. apply head_quiet; [reflexivity|exact S|]. now apply (quiet_stop (s "(")).
  - apply andb_true_iff in S as [S SL]. unfold flat_node, d_line in *. cbn [d_fmt d_val d_children] in *. destruct (f_line f); try discriminate.
    + rewrite inline_items by assumption. rewrite nonprim_head. rewrite <- !app_assoc. apply head_quiet; [reflexivity|exact S|].
      apply quiet_app; [discriminate|]. apply quiet_app; [|discriminate]. apply first_quiet. rewrite Forall_forall in *. intros x Hx. apply IH; auto.
    + rewrite (app_assoc (nonprim_id f id)). rewrite (app_assoc _ (sp col)). rewrite concise_items. rewrite nonprim_head.
      rewrite <- !app_assoc. apply head_quiet; [reflexivity|exact S|]. destruct l; now apply (quiet_stop (s "[" ++ nl)).
    + rewrite (app_assoc (nonprim_id f id)). rewrite (app_assoc _ (sp col)). rewrite concise_items. rewrite nonprim_head.
      rewrite <- !app_assoc. apply head_quiet; [reflexivity|exact S|]. destruct l; now apply (quiet_stop (s "[" ++ nl)).
  - apply andb_true_iff in S as [S SL]. unfold flat_node, d_line in *. cbn [d_fmt d_val d_children] in *. destruct (f_line f); try discriminate.
    + rewrite (app_assoc (nonprim_id f id)). rewrite inline_entries. rewrite nonprim_head. rewrite <- !app_assoc. apply head_quiet; [reflexivity|exact S|]. now apply (quiet_stop (s "{")).
    + rewrite (app_assoc (nonprim_id f id)). rewrite (app_assoc _ (sp col)). rewrite concise_entries. rewrite nonprim_head.
      rewrite <- !app_assoc. apply head_quiet; [reflexivity|exact S|]. now apply (quiet_stop (s "{")).
    + rewrite (app_assoc (nonprim_id f id)). rewrite (app_assoc _ (sp col)). rewrite concise_entries. rewrite nonprim_head.
      rewrite <- !app_assoc. apply head_quiet; [reflexivity|exact S|]. now apply (quiet_stop (s "{")).
Qed.

(** ** an opening bracket comes first only where it is said to *)
Lemma opens_first c t : space c = false -> mem c (s "([{") = false -> Grammar.opens (c :: t) = false.
Proof. intros S O. cbn [Grammar.opens]. now rewrite S. Qed.
Lemma id_opens i t : is_id i = true -> Grammar.opens (i ++ t) = false.
Proof.
  destruct i as [|c i]; [discriminate|]. intros H. apply id_start in H as [_ H]. cbn [forallb] in H. apply andb_true_iff in H as [H _].
  cbn [app]. apply opens_first.
  - destruct (space c) eqn:E; [|reflexivity]. unfold space in E. apply mem_In in E. each_char E; discriminate.
  - destruct (mem c (s "([{")) eqn:E; [|reflexivity]. apply mem_In in E. each_char E; discriminate.
Qed.
Lemma prim_opens f id t z : Grammar.opens (t ++ z) = false -> Grammar.opens ((prim_id f id ++ t) ++ z) = false.
Proof. intros H. unfold prim_id. destruct (f_id f); [destruct id as [i|]|]; [|exact H..]. rewrite <- !app_assoc. reflexivity. Qed.
Lemma nonempty_display n : is_some (num_from_str (num_display n)) = true -> num_display n <> [].
Proof. intros H E. rewrite E in H. discriminate. Qed.
Lemma text_opens d : safe_node d = true -> flat_node d = true -> bracket_first d = false -> forall col z, Grammar.opens (text true d col ++ z) = false.
Proof.
  destruct d as [f id v]. intros S F B col z.
  destruct v as [|b|n|t|b|l|m|l|m]; cbn [text prim_text]; unfold safe_node, shown_id, bracket_first, shown_id in *; cbn [d_val d_id d_fmt] in *.
  - destruct id as [[|c i]|]; try discriminate. rewrite <- app_assoc. apply id_opens. apply andb_true_iff in S as [S _]. now apply andb_true_iff in S as [S _].
  - apply prim_opens. destruct b; reflexivity.
  - apply prim_opens. apply andb_true_iff in S as [_ S]. pose proof (nonempty_display n S) as N. pose proof (display_num_chars n) as C.
    destruct (num_display n) as [|c u]; [congruence|]. cbn [forallb] in C. apply andb_true_iff in C as [C _]. cbn [app]. apply opens_first; [now apply num_char_space|now apply num_char_opener].
  - apply prim_opens. unfold str_text. apply andb_true_iff in S as [_ S]. unfold safe_string in S. destruct (delimiter t) as [d|]; [|discriminate].
    destruct (N.eqb_spec d 34); [subst d|]; rewrite <- ?app_assoc; reflexivity.
  - apply prim_opens. rewrite <- !app_assoc. reflexivity.
  - apply andb_true_iff in S as [S SL]. apply negb_false_iff in B. unfold flat_node, d_line in *. cbn [d_fmt d_val d_children] in *.
    destruct (f_id f) eqn:EI; [|discriminate]. destruct id as [i|]; [|discriminate]. cbn [opt_ok] in S. apply andb_true_iff in S as [S _]. apply andb_true_iff in S as [S _].
    destruct (f_line f); try discriminate.
    + rewrite inline_items by assumption. unfold tuple_id. rewrite EI, <- !app_assoc. now apply id_opens.
    + rewrite (app_assoc (tuple_id f _)), (app_assoc _ (sp col)), concise_items. unfold tuple_id. rewrite EI, <- !app_assoc. now apply id_opens.
    + rewrite (app_assoc (tuple_id f _)), (app_assoc _ (sp col)), concise_items. unfold tuple_id. rewrite EI, <- !app_assoc. now apply id_opens.
  - apply andb_true_iff in S as [S SL]. apply negb_false_iff in B. unfold flat_node, d_line in *. cbn [d_fmt d_val d_children] in *.
    destruct (f_id f) eqn:EI; [|discriminate]. destruct id as [i|]; [|discriminate]. cbn [opt_ok] in S. apply andb_true_iff in S as [S _]. apply andb_true_iff in S as [S _].
    destruct (f_line f); try discriminate.
    + rewrite inline_fields. unfold nonprim_id. rewrite EI, <- !app_assoc. now apply id_opens.
    + rewrite (app_assoc (nonprim_id f _)), (app_assoc _ (sp col)), concise_fields. unfold nonprim_id. rewrite EI, <- !app_assoc. now apply id_opens.
  - apply andb_true_iff in S as [S SL]. apply negb_false_iff in B. unfold flat_node, d_line in *. cbn [d_fmt d_val d_children] in *.
    destruct (f_id f) eqn:EI; [|discriminate]. destruct id as [i|]; [|discriminate]. cbn [opt_ok] in S. apply andb_true_iff in S as [S _]. apply andb_true_iff in S as [S _].
    destruct (f_line f); try discriminate.
    + rewrite inline_items by assumption. unfold nonprim_id. rewrite EI, <- !app_assoc. now apply id_opens.
    + rewrite (app_assoc (nonprim_id f _)), (app_assoc _ (sp col)), concise_items. unfold nonprim_id. rewrite EI, <- !app_assoc. now apply id_opens.
    + rewrite (app_assoc (nonprim_id f _)), (app_assoc _ (sp col)), concise_items. unfold nonprim_id. rewrite EI, <- !app_assoc. now apply id_opens.
  - apply andb_true_iff in S as [S SL]. apply negb_false_iff in B. unfold flat_node, d_line in *. cbn [d_fmt d_val d_children] in *.
    destruct (f_id f) eqn:EI; [|discriminate]. destruct id as [i|]; [|discriminate]. cbn [opt_ok] in S. apply andb_true_iff in S as [S _]. apply andb_true_iff in S as [S _].
    destruct (f_line f); try discriminate.
    + rewrite (app_assoc (nonprim_id f _)), inline_entries. unfold nonprim_id. rewrite EI, <- !app_assoc. now apply id_opens.
    + rewrite (app_assoc (nonprim_id f _)), (app_assoc _ (sp col)), concise_entries. unfold nonprim_id. rewrite EI, <- !app_assoc. now apply id_opens.
    + rewrite (app_assoc (nonprim_id f _)), (app_assoc _ (sp col)), concise_entries. unfold nonprim_id. rewrite EI, <- !app_assoc. now apply id_opens.
Qed.

(** ** primitives *)
Lemma prim_reads m f id t v : token t v -> opt_ok is_id (if f_id f then id else None) = true ->
  (is_some (if f_id f then id else None) = false -> forall d r, t = s "str" ++ d :: r -> plain_delim d = true) ->
  reads m (prim_id f id ++ t) (Kserd (if f_id f then id else None) v) (match (if f_id f then id else None) with Some _ => false | None => bare t v end).
Proof.
  intros T I P. unfold prim_id. destruct (f_id f); [destruct id as [i|]|]; cbn [opt_ok is_some app] in *.
  - rewrite <- !app_assoc. change (s "> " ++ t) with (s ">" ++ [32] ++ t). now apply (R_named m i [32] t v).
  - apply R_plain; [exact T|exact (P eq_refl)].
  - apply R_plain; [exact T|exact (P eq_refl)].
Qed.
Lemma head_okb id w : blanks w -> opt_ok is_id_plain id = true -> head_ok id w.
Proof. intros W H. split; [exact W|]. now destruct id. Qed.
Lemma alphabet_quote : mem (ch "'") b91_alphabet = false. Proof. reflexivity. Qed.
Lemma bytes_token b : forallb (fun x => x <? 256) b = true -> token (s "b91'" ++ b91_encode b ++ s "'") (VBarr b).
Proof.
  intros H. assert (F : Forall (fun x => x < 256) b) by (apply Forall_forall; intros x Hx; rewrite forallb_forall in H; now apply N.ltb_lt, H).
  rewrite <- (b91_round_trip b F) at 2. constructor. apply mem_not_In. intros Q. apply b91_encode_alphabet in F. rewrite Forall_forall in F. apply F in Q.
  apply mem_In in Q. rewrite alphabet_quote in Q. discriminate.
Qed.
Lemma str_token t d : delimiter t = Some d -> token (str_text t) (VStr t).
Proof.
  intros E. unfold str_text. rewrite E. apply delimiter_spec in E as [_ E]. assert (M : mem d t = false).
  { apply mem_not_In. intros Q. rewrite forallb_forall in E. apply E in Q. now rewrite N.eqb_refl in Q. }
  destruct (N.eqb_spec d 34) as [->|_]; [now apply (T_str t)|now apply (T_str_delim d t)].
Qed.
Lemma num_token n : is_some (num_from_str (num_display n)) = true -> token (num_display n) (VNum (reread n)).
Proof.
  intros H. constructor; [apply display_num_chars|]. unfold reread. destruct (num_from_str _); [reflexivity|discriminate].
Qed.
Lemma num_not_str t d r : forallb Grammar.num_char t = true -> t = s "str" ++ d :: r -> False.
Proof. intros H ->. discriminate. Qed.

(** ** the children *)
Definition in_grammar (d : dk) : Prop := forall m col, (m = true -> d_line d = Inline) -> reads m (text true d col) (norm d) (bare_number d).
Lemma inline_line f d : repr_eqb f Inline = true -> d = f -> d = Inline.
Proof. intros H ->. now destruct f. Qed.
Lemma fields_in m (M : list (str * dk)) (col : str * dk -> nat) : Forall in_grammar (map snd M) ->
  forallb (fun e => match fst e with [] => false | n => forallb name_char n end) M = true ->
  (m = true -> Forall (fun c => d_line c = Inline) (map snd M)) ->
  Forall (fun e => field_of (reads m) (field_text col e) (fst e, norm (snd e)) (bare_number (snd e))) M.
Proof.
  intros F N L. rewrite Forall_map, Forall_forall in F. apply Forall_forall. intros [n x] H. rewrite forallb_forall in N. specialize (N _ H). specialize (F _ H). cbn [fst snd] in *.
  unfold field_text. cbn [fst snd]. change (s " =" ++ gap x ++ text true x (col (n, x))) with ([32] ++ s "=" ++ gap x ++ text true x (col (n, x))).
  apply Field; [now destruct n|now destruct n|reflexivity|unfold gap; destruct (drops x); reflexivity|].
  apply F. intros E. specialize (L E). rewrite Forall_map, Forall_forall in L. exact (L _ H).
Qed.
Lemma in_entry_list e (M : list (dk * dk)) : In e M -> In (fst e) (entry_list M) /\ In (snd e) (entry_list M).
Proof. intros H. unfold entry_list. split; apply in_flat_map; exists e; split; try assumption; [now left|right; now left]. Qed.
Lemma entries_in m (M : list (dk * dk)) c (col : dk * dk -> nat) : Forall in_grammar (entry_list M) ->
  (m = true -> Forall (fun c => d_line c = Inline) (entry_list M)) ->
  Forall (fun e => entry_of (reads false) (reads m) (entry_text c col e) (norm (fst e), norm (snd e)) (bare_number (snd e))) M.
Proof.
  intros F L. rewrite Forall_forall in F. apply Forall_forall. intros e H. apply in_entry_list in H as [H1 H2].
  unfold entry_text. change (s ":" ++ gap (snd e) ++ text true (snd e) (col e)) with ([] ++ s ":" ++ gap (snd e) ++ text true (snd e) (col e)).
  apply (Entry (reads false) (reads m) _ _ _ _ _ _ (bare_number (fst e))); [reflexivity|unfold gap; destruct (drops (snd e)); reflexivity|apply (F _ H1); discriminate|apply (F _ H2)].
  intros E. specialize (L E). rewrite Forall_forall in L. exact (L _ H2).
Qed.
Lemma inline_children f v : forallb (fun c => repr_eqb (d_line c) Inline) (d_children v) = true -> f_line f = Inline -> Forall (fun c => d_line c = Inline) (d_children v).
Proof. intros H _. apply Forall_forall. intros c Hc. rewrite forallb_forall in H. specialize (H c Hc). now destruct (d_line c). Qed.
Lemma items_in m l col : Forall in_grammar l -> (m = true -> Forall (fun c => d_line c = Inline) l) ->
  Forall (fun x => reads m (text true x col) (norm x) (bare_number x)) l.
Proof. intros F L. rewrite Forall_forall in *. intros x Hx. apply F; [exact Hx|]. intros E. exact (L E x Hx). Qed.

Lemma empty_reads m id w : blanks w -> opt_ok is_id_plain id = true ->
  reads m (head id w ++ s "()") (match id with Some _ => Kserd id (VTuple []) | None => Kserd None VUnit end) false.
Proof.
  intros W H. destruct id as [i|].
  - apply (R_tuple m (Some i) w [] []); [now apply head_okb|now apply IL_empty|discriminate|reflexivity].
  - apply (R_plain m (s "()") VUnit); [now apply (T_unit [])|discriminate].
Qed.

Lemma bare_num n : bare (num_display n) (VNum (reread n)) = match n with Float (FInf false | FNaN _ _) => true | _ => false end.
Proof. unfold bare. rewrite (display_bare n None Inline). unfold bare_number, shown_id. cbn [d_val d_fmt d_id f_id]. destruct n as [| |[| |]]; reflexivity. Qed.
Lemma trim_id t : stops space t -> trim t = t.
Proof. intros H. exact (trim_app [] t eq_refl H). Qed.
Lemma text_in_grammar d : d_all safe_node d = true -> d_all flat_node d = true -> in_grammar d.
Proof.
  induction d as [f id v IH] using dk_ind'. intros S F m col M. pose proof S as S0. pose proof F as F0.
  apply d_all_children in S as [S SC]. apply d_all_children in F as [F FC].
  assert (G : Forall in_grammar (d_children v)) by (rewrite Forall_forall in *; auto). clear IH.
  assert (O : Forall (fun x => bracket_first x = false -> forall c z, Grammar.opens (text true x c ++ z) = false) (d_children v)).
  { rewrite Forall_forall in *. intros x Hx B c z. apply text_opens; [| |exact B].
    - specialize (SC x Hx). destruct x. now apply d_all_children in SC as [SC _].
    - specialize (FC x Hx). destruct x. now apply d_all_children in FC as [FC _]. }
  assert (Q : Forall (fun x => forall c, quiet (text true x c)) (d_children v)).
  { rewrite Forall_forall in *. intros x Hx c. apply text_quiet; auto. }
  clear SC FC.
  destruct v as [|b|n|t|b|l|l|l|l]; cbn [text]; unfold safe_node, shown_id in S; cbn [d_val d_id d_fmt] in S.
  - cbn [prim_text norm]. unfold bare_number. cbn [d_val]. destruct id as [[|c i]|].
    + apply (R_plain m (s "()") VUnit); [now apply (T_unit [])|discriminate].
    + pose proof (empty_reads m (Some (c :: i)) [] eq_refl S) as E. cbn [head] in E. rewrite app_nil_r in E. exact E.
    + apply (R_plain m (s "()") VUnit); [now apply (T_unit [])|discriminate].
  - cbn [prim_text norm]. unfold bare_number. cbn [d_val]. destruct b; (eapply eq_ind; [apply prim_reads; [constructor|exact S|]|]).
    all: try (intros _ d r X; discriminate). all: destruct (if f_id f then id else None); reflexivity.
  - cbn [prim_text norm]. apply andb_true_iff in S as [S N]. replace (bare_number (DK f id (VNum n)))
      with (match (if f_id f then id else None) with Some _ => false | None => bare (num_display n) (VNum (reread n)) end).
    + apply prim_reads; [now apply num_token|exact S|]. intros _ d r X. exfalso. eapply num_not_str; [apply display_num_chars|exact X].
    + rewrite (bare_num n). unfold bare_number, shown_id. cbn [d_val d_fmt d_id]. destruct (if f_id f then id else None), n as [| |[| [] |]]; reflexivity.
  - cbn [prim_text norm]. apply andb_true_iff in S as [S T]. unfold safe_string in T. destruct (delimiter t) as [d|] eqn:E; [|discriminate].
    unfold bare_number. cbn [d_val]. eapply eq_ind; [apply prim_reads; [eapply str_token; exact E|exact S|]|destruct (if f_id f then id else None); reflexivity].
    intros N. rewrite N in T. cbn [orb] in T. apply andb_true_iff in T as [_ T]. intros d' r X. unfold str_text in X. rewrite E in X.
    destruct (N.eqb_spec d 34) as [->|_]; [discriminate X|]. injection X as X1 X2. now subst d'.
  - cbn [prim_text norm]. apply andb_true_iff in S as [S T]. unfold bare_number. cbn [d_val].
    eapply eq_ind; [apply prim_reads; [apply bytes_token; exact T|exact S|]|destruct (if f_id f then id else None); reflexivity].
    intros _ d r X. discriminate.
  - apply andb_true_iff in S as [S SL]. unfold flat_node, d_line in *. cbn [d_fmt d_val d_children] in *. unfold bare_number. cbn [d_val].
    destruct (f_line f) eqn:EL; try discriminate.
    + rewrite inline_items, tuple_head, <- !app_assoc by assumption. pose proof (inline_children f (VTuple l) F EL) as L. cbn [d_children] in L.
      destruct l as [|x l]; [apply empty_reads; [reflexivity|exact S]|].
      pose proof (items_in true (x :: l) col G (fun _ => L)) as I. cbn [norm]. apply R_tuple; [now apply head_okb| |discriminate|].
      * pose proof (first_in (reads true) drops (fun x => text true x col) norm bare_number [] (x :: l) [] I eq_refl eq_refl) as X. now rewrite app_nil_r in X.
      * rewrite trim_id.
        -- apply quiet_assigns. apply quiet_app; [|discriminate]. apply first_quiet. eapply Forall_impl; [|exact Q]. auto.
        -- cbn [first_text]; unfold pop. inversion_clear I as [|? ? I1 _]. apply reads_start in I1. destruct (drops x); cbn [app removelast]; now apply starts_space, starts_app.
    + rewrite (app_assoc (tuple_id f _)), (app_assoc _ (sp col)), concise_items, tuple_head, <- !app_assoc.
      pose proof (items_in false l (col + 4) G ltac:(discriminate)) as I. destruct l as [|x l]; [discriminate|]. cbn [norm].
      destruct m; [specialize (M eq_refl); discriminate|]. apply C_tuple; [now apply head_okb| |].
      * apply (lines_in (reads false) drops (fun x => text true x (col + 4)) norm bare_number bracket_first); [exact I|exact SL|]. eapply Forall_impl; [|exact O]. auto.
      * apply quiet_assigns. apply lines_quiet; [eapply Forall_impl; [|exact Q]; auto|]. inversion_clear I as [|? ? I1 _]. now apply reads_start in I1.
    + rewrite (app_assoc (tuple_id f _)), (app_assoc _ (sp col)), concise_items, tuple_head, <- !app_assoc.
      pose proof (items_in false l (col + 4) G ltac:(discriminate)) as I. destruct l as [|x l]; [discriminate|]. cbn [norm].
      destruct m; [specialize (M eq_refl); discriminate|]. apply C_tuple; [now apply head_okb| |].
      * apply (lines_in (reads false) drops (fun x => text true x (col + 4)) norm bare_number bracket_first); [exact I|exact SL|]. eapply Forall_impl; [|exact O]. auto.
      * apply quiet_assigns. apply lines_quiet; [eapply Forall_impl; [|exact Q]; auto|]. inversion_clear I as [|? ? I1 _]. now apply reads_start in I1.
  - apply andb_true_iff in S as [S SL]. unfold flat_node, d_line in *. cbn [d_fmt d_val d_children] in *. unfold bare_number. cbn [d_val].
    destruct (f_line f) eqn:EL; try discriminate.
    + rewrite inline_fields, nonprim_head, <- !app_assoc. pose proof (inline_children f (VCntr l) F EL) as L. cbn [d_children] in L.
      destruct l as [|x l]; [apply empty_reads; [reflexivity|exact S]|].
      pose proof (fields_in true (x :: l) (fun _ => col) G SL (fun _ => L)) as I. cbn [norm]. apply R_cntr; [now apply head_okb| |discriminate].
      pose proof (first_in _ never (field_text (fun _ => col)) (fun e => (fst e, norm (snd e))) (fun e => bare_number (snd e)) [] (x :: l) [] I eq_refl eq_refl) as X. now rewrite app_nil_r in X.
    + rewrite (app_assoc (nonprim_id f _)), (app_assoc _ (sp col)), concise_fields, nonprim_head, <- !app_assoc.
      pose proof (fields_in false l (fun e => (col + 4 + (length (fst e) + 3))%nat) G SL ltac:(discriminate)) as I. destruct l as [|x l]; [discriminate|]. cbn [norm].
      destruct m; [specialize (M eq_refl); discriminate|]. apply C_cntr; [now apply head_okb| |discriminate].
      apply (lines_in _ never (field_text _) (fun e => (fst e, norm (snd e))) (fun e => bare_number (snd e)) never); [exact I| |].
      * clear. induction (x :: l) as [|a [|b q] J]; [reflexivity..|]. cbn [chain]. rewrite andb_false_r. exact J.
      * apply Forall_forall. intros [nm y] Hy _ z. rewrite forallb_forall in SL. specialize (SL _ Hy). cbn [fst] in SL. destruct nm as [|c nm]; [discriminate|].
        unfold field_text. cbn [fst app]. cbn [forallb] in SL. apply andb_true_iff in SL as [SL _]. apply opens_first.
        -- destruct (space c) eqn:E; [|reflexivity]. unfold space in E. apply mem_In in E. each_char E; discriminate.
        -- destruct (mem c (s "([{")) eqn:E; [|reflexivity]. apply mem_In in E. each_char E; discriminate.
  - apply andb_true_iff in S as [S SL]. unfold flat_node, d_line in *. cbn [d_fmt d_val d_children] in *. unfold bare_number. cbn [d_val].
    destruct (f_line f) eqn:EL; try discriminate.
    + rewrite inline_items, nonprim_head, <- !app_assoc by assumption. pose proof (inline_children f (VSeq l) F EL) as L. cbn [d_children] in L.
      pose proof (items_in true l col G (fun _ => L)) as I. cbn [norm]. apply R_seq; [now apply head_okb|].
      pose proof (first_in (reads true) drops (fun x => text true x col) norm bare_number [] l [] I eq_refl eq_refl) as X. now rewrite app_nil_r in X.
    + rewrite (app_assoc (nonprim_id f _)), (app_assoc _ (sp col)), concise_items, nonprim_head, <- !app_assoc.
      pose proof (items_in false l (col + 4) G ltac:(discriminate)) as I. cbn [norm].
      destruct m; [specialize (M eq_refl); discriminate|]. apply C_seq; [now apply head_okb|].
      apply (lines_in (reads false) drops (fun x => text true x (col + 4)) norm bare_number bracket_first); [exact I|exact SL|]. eapply Forall_impl; [|exact O]. auto.
    + rewrite (app_assoc (nonprim_id f _)), (app_assoc _ (sp col)), concise_items, nonprim_head, <- !app_assoc.
      pose proof (items_in false l (col + 4) G ltac:(discriminate)) as I. cbn [norm].
      destruct m; [specialize (M eq_refl); discriminate|]. apply C_seq; [now apply head_okb|].
      apply (lines_in (reads false) drops (fun x => text true x (col + 4)) norm bare_number bracket_first); [exact I|exact SL|]. eapply Forall_impl; [|exact O]. auto.
  - apply andb_true_iff in S as [S SL]. unfold flat_node, d_line in *. cbn [d_fmt d_val d_children] in *. unfold bare_number. cbn [d_val].
    destruct (f_line f) eqn:EL; try discriminate.
    + rewrite (app_assoc (nonprim_id f _)), inline_entries, nonprim_head, <- !app_assoc. pose proof (inline_children f (VMap l) F EL) as L. cbn [d_children] in L.
      pose proof (entries_in true l col (fun _ => col) G (fun _ => L)) as I. cbn [norm].
      rewrite (app_assoc (first_text _ _ _ _)). apply R_map; [now apply head_okb|].
      apply (first_in _ key_drops (entry_text col (fun _ => col)) (fun e => (norm (fst e), norm (snd e))) (fun e => bare_number (snd e))); [exact I|destruct l; reflexivity|destruct l; reflexivity].
    + rewrite (app_assoc (nonprim_id f _)), (app_assoc _ (sp col)), concise_entries, nonprim_head, <- !app_assoc.
      pose proof (entries_in false l (col + 4) (val_col col) G ltac:(discriminate)) as I. cbn [norm].
      destruct m; [specialize (M eq_refl); discriminate|]. apply C_map; [now apply head_okb|].
      apply (lines_in _ key_drops (entry_text _ _) (fun e => (norm (fst e), norm (snd e))) (fun e => bare_number (snd e)) (fun e => bracket_first (fst e))); [exact I|exact SL|].
      apply Forall_forall. intros e He B z. unfold entry_text. rewrite <- app_assoc. rewrite Forall_forall in O. now apply O; [apply in_entry_list in He as [He _]|].
    + rewrite (app_assoc (nonprim_id f _)), (app_assoc _ (sp col)), concise_entries, nonprim_head, <- !app_assoc.
      pose proof (entries_in false l (col + 4) (val_col col) G ltac:(discriminate)) as I. cbn [norm].
      destruct m; [specialize (M eq_refl); discriminate|]. apply C_map; [now apply head_okb|].
      apply (lines_in _ key_drops (entry_text _ _) (fun e => (norm (fst e), norm (snd e))) (fun e => bare_number (snd e)) (fun e => bracket_first (fst e))); [exact I|exact SL|].
      apply Forall_forall. intros e He B z. unfold entry_text. rewrite <- app_assoc. rewrite Forall_forall in O. now apply O; [apply in_entry_list in He as [He _]|].
Qed.
