(** Proofs about texts put together from others: the verbose layout. *)
From Verif Require Import Base F64 Number BTree BTreeProps Value BaseProps ValueProps2 Base91 Nom Parse ParseProps ParseErr Grammar VGrammar GrammarProps VGrammarProps VGrammarProps2 VAssemble VRtProps Format Syntax SyntaxProps SyntaxProps2 SyntaxProps3 SyntaxProps4 CutSpec CutProps CutProps3 OrderProps PasteSpec PasteProps.
Open Scope N_scope.

Definition as_field (e : str * kserd) : item := It_field (fst e) (snd e).
Lemma direct_fields k ks : direct_of k (map as_field ks) = map Some (map snd (filter (fun e => str_eqb (fst e) k) ks)).
Proof. induction ks as [|[n v] ks IH]; [reflexivity|]. unfold direct_of in *. cbn [map flat_map as_field fst snd filter]. rewrite IH. destruct (str_eqb n k); reflexivity. Qed.
Lemma names_fields ks : names (map as_field ks) = map fst ks.
Proof. induction ks as [|[n v] ks IH]; [reflexivity|]. unfold names in *. cbn [map flat_map as_field fst snd app]. now rewrite IH. Qed.
Lemma gathers_fields ks : gathers (map as_field ks) ks.
Proof.
  intros k.
  assert (E1 : entries_of k (map as_field ks) = []) by (induction ks as [|[n v] ks IH]; [reflexivity|exact IH]).
  assert (E2 : elems_of k (map as_field ks) = []) by (clear E1; induction ks as [|[n v] ks IH]; [reflexivity|exact IH]).
  unfold value_of. rewrite E1, E2, direct_fields, names_fields. clear E1 E2.
  induction ks as [|[n v] ks IH] using rev_ind; [reflexivity|].
  rewrite OrderProps.last_binding_app. cbn [last_binding fst snd]. rewrite filter_app, !map_app, existsb_app. cbn [filter map existsb fst snd]. rewrite orb_false_r.
  destruct (str_eqb n k) eqn:E.
  - apply str_eqb_eq in E. subst n. rewrite str_cmp_refl, (proj2 (str_eqb_eq k k) eq_refl), orb_true_r. cbn [map]. now rewrite last_some_snoc.
  - assert (E' : str_eqb k n = false) by (destruct (str_eqb k n) eqn:Q; [|reflexivity]; apply str_eqb_eq in Q; subst; rewrite (proj2 (str_eqb_eq n n) eq_refl) in E; discriminate).
    rewrite E', orb_false_r. cbn [map]. rewrite app_nil_r, <- IH. rewrite eqb_cmp in E. destruct (str_cmp k n); (discriminate || reflexivity).
Qed.
Lemma lead_blanks w : blanks w -> lead O w.
Proof. intros B. change w with ([] ++ [] ++ w : str). constructor; [constructor|constructor|exact B]. Qed.
Lemma lead_nl w : blanks w -> lead O (10 :: w).
Proof. intros B. change (10 :: w) with (([] ++ [10] ++ []) ++ [] ++ w : str). constructor; [|constructor|exact B]. apply BL_line; [reflexivity|now left|constructor]. Qed.
Lemma good_items ts ks : good (field_at (value_at false)) [] ts ks ->
  exists u, [10] ++ lines ts = u ++ [10] /\ items_at O u [10] (map as_field ks).
Proof.
  induction 1 as [|w u [n v] ts l B H G (u1 & E & S)]; [exists []; split; [reflexivity|constructor]|].
  exists ((10 :: w) ++ u ++ u1). split.
  - rewrite lines_cons. cbn [app]. f_equal. rewrite <- !app_assoc. do 2 f_equal. exact E.
  - cbn [map]. apply Items_at_next; [now apply lead_nl| |exact S]. constructor. change (field_at (value_at false) u (u1 ++ [10]) (n, v)). rewrite <- E. rewrite app_nil_r in H. exact H.
Qed.
Theorem paste_verbose id fs ks : id_reads id -> fields_stand fs ks -> fs <> [] ->
  parse (id_line id ++ field_lines fs) = ParseOk (Kserd id (VCntr (fields_of ks))).
Proof.
  intros I H NE. pose proof (fields_good [] eq_refl fs ks H) as G. destruct (first_field fs ks H NE) as (n & z & E & N).
  assert (C : container (map as_field ks) = Kserd None (VCntr (fields_of ks)) /\ forall i, container (It_id i :: map as_field ks) = Kserd (Some i) (VCntr (fields_of ks))).
  { assert (X : forall i, In i (map as_field ks) -> item_name i <> None) by (intros i Hi; apply in_map_iff in Hi as (e & <- & _); discriminate).
    split; [apply container_plain|intros; apply container_id]; (exact X || apply gathers_fields). }
  destruct C as [C1 C2]. apply parse_iff. assert (BL : blank_lines ([] ++ [10] ++ [])) by (apply BL_line; [reflexivity|now left|constructor]).
  destruct id as [i|]; cbn [id_line].
  - destruct (good_items _ _ G) as (u & E1 & S). rewrite <- C2.
    replace ((s ":" ++ i ++ [10]) ++ field_lines fs) with (([] ++ (s ":" ++ [] ++ i) ++ u) ++ ([] ++ [10] ++ []) ++ []).
    2:{ unfold field_lines. rewrite <- !app_assoc. cbn [app]. do 2 f_equal. symmetry. exact E1. }
    apply Syntax_items; [|exact BL|reflexivity|].
    + apply Items_at_next; [now apply lead_blanks| |exact S]. apply A_id; [reflexivity|exact I|]. match goal with |- stop _ ?y = true => replace y with (10 :: lines (map (fun e => fst e ++ s " = " ++ snd e) fs)) by exact E1 end. reflexivity.
    + unfold verbose_first. rewrite <- app_assoc. reflexivity.
  - rewrite <- C1. inversion G as [E0 E2|w u [a v] ts l B HV G' E0 E2]; [destruct fs; [congruence|discriminate E0]|].
    destruct (good_items _ _ G') as (u1 & E1 & S). cbn [app map].
    assert (X : field_lines fs = (w ++ u ++ u1) ++ ([] ++ [10] ++ []) ++ []).
    { transitivity (lines ((w ++ u) :: ts)); [unfold field_lines; f_equal; symmetry; exact E0|]. rewrite lines_cons. rewrite <- !app_assoc. do 2 f_equal. exact E1. }
    rewrite X. apply Syntax_items; [|exact BL|reflexivity|].
    + apply Items_at_next; [now apply lead_blanks| |exact S]. constructor. rewrite (app_nil_r (lines ts)), E1 in HV. exact HV.
    + match goal with |- verbose_first ?y = true => replace y with (n ++ s " = " ++ z) by (rewrite <- E; exact X) end. unfold verbose_first. rewrite <- (app_nil_l (n ++ _)), (trim_name [] n) by (exact N || reflexivity). unfold verbose_start. rewrite (assigns_names n z (proj2 N)), orb_true_r. apply orb_true_r.
Qed.
