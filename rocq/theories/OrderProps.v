(** Proofs: the order of fields, entries and sections does not matter. *)
From Coq Require Import Permutation.
From Verif Require Import Base F64 Number BTree Value BaseProps BTreeProps ValueSpec ValueProps ValueProps2 Nom Parse ParseErr Grammar GrammarProps VGrammar VGrammarProps VAssemble VGrammarProps2 RtProps6 RtProps7 OrderSpec.
Open Scope N_scope.

(** ** maps from lists with the same entries *)
Section Same.
  Context {K V : Type} (P : K -> Prop) (cmp : K -> K -> comparison) (eqb : K -> K -> bool).
  Hypothesis L : lawful P cmp.
  Hypothesis E : forall a b, P a -> P b -> eqb a b = true <-> cmp a b = Eq.
  (** equal keys belong to the same entry *)
  Definition single (l : list (K * V)) : Prop := forall e e', In e l -> In e' l -> cmp (fst e) (fst e') = Eq -> e = e'.

  Lemma last_some_in k (l : list (K * V)) : P k -> keysP P l -> (exists e, In e l /\ cmp k (fst e) = Eq) -> exists v, last_binding cmp k l = Some v.
  Proof.
    intros Hk Hl (e & He & C). induction l as [|[k' v'] l IH]; [destruct He|]. inversion Hl; subst. cbn [last_binding].
    destruct (last_binding cmp k l) as [v|] eqn:X; [now exists v|]. destruct He as [->|He]; [cbn [fst] in C; rewrite C; eauto|].
    destruct (IH ltac:(assumption) He) as [v Hv]. congruence.
  Qed.
  Lemma from_list_mem (l : list (K * V)) x : keysP P l -> single l -> In x (bt_from_list cmp eqb l) <-> In x l.
  Proof.
    intros Hl S. split; [apply bt_from_list_in|]. intros Hx. destruct (bt_from_list_spec P cmp eqb L E l Hl) as (HK & A & G).
    assert (Px : P (fst x)) by (unfold keysP in Hl; rewrite Forall_forall in Hl; now apply Hl).
    assert (C : cmp (fst x) (fst x) = Eq) by (apply (law_refl _ _ L)).
    destruct (last_some_in (fst x) l Px Hl (ex_intro _ x (conj Hx C))) as [v Hv]. rewrite <- (G _ Px) in Hv.
    apply get_some in Hv as (k' & Hin & C'). pose proof (bt_from_list_in _ _ _ _ Hin) as Hin'. rewrite (S x (k', v) Hx Hin' C'). exact Hin.
  Qed.
  Lemma asc_same (m1 : list (K * V)) : forall m2, keysP P m1 -> keysP P m2 -> ascending cmp m1 = true -> ascending cmp m2 = true ->
    (forall x, In x m1 <-> In x m2) -> m1 = m2.
  Proof.
    induction m1 as [|e1 m1 IH]; intros [|e2 m2] P1 P2 A1 A2 H; [reflexivity| | |].
    - exfalso. apply (proj2 (H e2)). now left.
    - exfalso. apply (proj1 (H e1)). now left.
    - apply (ascending_cons P cmp L) in A1 as [B1 A1]; [|exact P1]. apply (ascending_cons P cmp L) in A2 as [B2 A2]; [|exact P2].
      unfold below in *. rewrite Forall_forall in B1, B2.
      assert (R : forall a, cmp a a <> Lt) by (intros a; rewrite (law_refl _ _ L); congruence).
      assert (X : e1 = e2).
      { destruct (proj1 (H e1) (or_introl eq_refl)) as [X|X]; [now subst|]. destruct (proj2 (H e2) (or_introl eq_refl)) as [Y|Y]; [now subst|].
        apply B2 in X. apply B1 in Y. rewrite (law_anti _ _ L), Y in X. discriminate. }
      subst e2. f_equal. inversion P1; inversion P2; subst. apply IH; try assumption. intros x. split; intros Hx.
      + destruct (proj1 (H x) (or_intror Hx)) as [<-|Y]; [apply B1 in Hx; now apply R in Hx|exact Y].
      + destruct (proj2 (H x) (or_intror Hx)) as [<-|Y]; [apply B2 in Hx; now apply R in Hx|exact Y].
  Qed.
  Lemma from_list_same (l : list (K * V)) l' : keysP P l -> single l -> (forall x, In x l <-> In x l') -> bt_from_list cmp eqb l = bt_from_list cmp eqb l'.
  Proof.
    intros Hl S H. assert (Hl' : keysP P l') by (apply (keysP_in P l); [intros x; apply H|exact Hl]).
    assert (S' : single l') by (intros e e' He He'; apply S; now apply H).
    destruct (bt_from_list_spec P cmp eqb L E l Hl) as (HK & A & _). destruct (bt_from_list_spec P cmp eqb L E l' Hl') as (HK' & A' & _).
    apply asc_same; try assumption. intros x. rewrite !from_list_mem by assumption. apply H.
  Qed.
End Same.

Lemma fields_same (l l' : list (str * kserd)) : NoDup (map fst l) -> Permutation l l' -> fields_of l = fields_of l'.
Proof.
  intros N H. apply (from_list_same (fun _ => True) str_cmp str_eqb str_lawful str_eqb_cmp'); [apply keysP_true| |].
  - intros e e' He He' C. apply str_cmp_eq in C. clear H. induction l as [|x l IH]; [destruct He|]. cbn [map] in N. inversion N as [|? ? N1 N2]; subst.
    destruct He as [->|He], He' as [->|He']; [reflexivity| | |now apply IH].
    + exfalso. apply N1. rewrite C. now apply in_map.
    + exfalso. apply N1. rewrite <- C. now apply in_map.
  - intros x. split; apply Permutation_in; [exact H|now symmetry].
Qed.
Lemma last_binding_app {K V} (cmp : K -> K -> comparison) k (l l' : list (K * V)) :
  last_binding cmp k (l ++ l') = match last_binding cmp k l' with Some v => Some v | None => last_binding cmp k l end.
Proof. induction l as [|e l IH]; cbn [app last_binding]; [now destruct (last_binding cmp k l')|]. rewrite IH. now destruct (last_binding cmp k l'). Qed.
Lemma fields_again pre n v (l : list (str * kserd)) : In n (map fst l) -> fields_of (pre ++ (n, v) :: l) = fields_of (pre ++ l).
Proof.
  intros H. assert (A : forall x : list (str * kserd), ascending str_cmp (fields_of x) = true /\ forall k, bt_get str_cmp k (fields_of x) = last_binding str_cmp k x).
  { intros x. destruct (bt_from_list_spec (V := kserd) (fun _ => True) str_cmp str_eqb str_lawful str_eqb_cmp' x (keysP_true x)) as (_ & B & C). split; [exact B|]. intros k. now apply C. }
  apply sorted_ext; [apply A|apply A|]. intros k. rewrite !(proj2 (A _)), !last_binding_app. cbn [last_binding fst snd].
  destruct (last_binding str_cmp k l) eqn:Y; [reflexivity|]. destruct (str_cmp k n) eqn:C; try reflexivity.
  apply str_cmp_eq in C. subst k. exfalso. apply in_map_iff in H as (e & <- & He).
  destruct (last_some_in (fun _ => True) str_cmp (fst e) l Logic.I (keysP_true l)) as [w Hw]; [|congruence]. exists e. split; [exact He|apply str_cmp_refl].
Qed.

(** ** texts *)
Lemma blanks_nil : blanks []. Proof. reflexivity. Qed.
Lemma blanks_1 : blanks (s " "). Proof. reflexivity. Qed.
Definition means (inline : bool) (f : str * str) (e : str * kserd) : Prop := fst e = fst f /\ exists b, reads inline (snd f) (snd e) b.
Lemma means_all inline fs : (forall f, In f fs -> good_field inline f) -> exists l, Forall2 (means inline) fs l.
Proof.
  induction fs as [|f fs IH]; intros H; [exists []; constructor|]. destruct IH as [l Hl]; [intros; apply H; now right|].
  destruct (H f (or_introl eq_refl)) as (_ & _ & k & b & R). exists ((fst f, k) :: l). constructor; [|exact Hl]. split; [reflexivity|]. exists b. exact R.
Qed.
Lemma field_of_text inline f e : good_field inline f -> means inline f e -> exists b, field_of (reads inline) (field_text f) e b.
Proof.
  intros (N & C & _) (F & b & R). destruct e as [n k]. cbn [fst snd] in *. subst n. exists b. unfold field_text.
  change (s " = ") with (s " " ++ s "=" ++ s " "). rewrite <- !app_assoc. apply Field; auto using blanks_1.
Qed.
Lemma inline_more_text {A} (R : str -> A -> bool -> Prop) ts l : Forall2 (fun t a => exists b, R t a b) ts l ->
  inline_more R (flat_map (fun t => s ", " ++ t) ts) l.
Proof.
  induction 1 as [|t a ts l (b & H) _ IH]; [apply IM_end, blanks_nil|]. cbn [flat_map]. change (s ", ") with (s "," ++ s " ").
  rewrite <- !app_assoc. apply (IM_next R [] (s " ") t a b); auto using blanks_nil, blanks_1.
Qed.
Lemma joined_cons sep t l : joined sep (t :: l) = t ++ flat_map (fun t => sep ++ t) l.
Proof.
  revert t. induction l as [|u l IH]; intros t; [cbn; now rewrite app_nil_r|]. change (joined sep (t :: u :: l)) with (t ++ sep ++ joined sep (u :: l)).
  rewrite IH. cbn [flat_map]. now rewrite <- app_assoc.
Qed.
Lemma inline_list_text {A} (R : str -> A -> bool -> Prop) ts l : Forall2 (fun t a => exists b, R t a b) ts l -> inline_list R (joined (s ", ") ts) l.
Proof.
  intros [|t a ts' l' (b & H) F]; [apply IL_empty, blanks_nil|]. rewrite joined_cons. apply (IL_first R [] t a b); [apply blanks_nil|exact H|].
  now apply inline_more_text.
Qed.
Lemma Forall2_map_l {A B C} (f : A -> B) (R : B -> C -> Prop) l m : Forall2 (fun x y => R (f x) y) l m -> Forall2 R (map f l) m.
Proof. induction 1; constructor; assumption. Qed.
Lemma head_none : head_ok None []. Proof. split; [apply blanks_nil|exact Logic.I]. Qed.

Lemma means_text inline fs l : (forall f, In f fs -> good_field inline f) -> Forall2 (means inline) fs l ->
  Forall2 (fun t a => exists b, field_of (reads inline) t a b) (map field_text fs) l.
Proof.
  intros G H. apply Forall2_map_l. induction H as [|f e fs l H _ IH]; constructor.
  - apply field_of_text; [apply G; now left|exact H].
  - apply IH. intros; apply G. now right.
Qed.
Lemma inline_cntr_reads m fs l : fs <> [] -> (forall f, In f fs -> good_field true f) -> Forall2 (means true) fs l ->
  reads m (inline_cntr fs) (Kserd None (VCntr (fields_of l))) false.
Proof.
  intros N G H. unfold inline_cntr. change (s "(" ++ joined (s ", ") (map field_text fs) ++ s ")") with (head None [] ++ s "(" ++ joined (s ", ") (map field_text fs) ++ s ")").
  apply R_cntr; [apply head_none| |]. { apply inline_list_text. now apply means_text. }
  intros ->. inversion H. congruence.
Qed.
Lemma means_names inline fs l : Forall2 (means inline) fs l -> map fst l = map fst fs.
Proof. induction 1 as [|f e fs l (H & _) _ IH]; [reflexivity|]. cbn [map]. now rewrite H, IH. Qed.
Lemma Forall2_perm {A B} (R : A -> B -> Prop) l m : Permutation l m -> forall l', Forall2 R l l' -> exists m', Forall2 R m m' /\ Permutation l' m'.
Proof.
  induction 1 as [|x l m H IH|x y l|l m n H1 IH1 H2 IH2]; intros l' F.
  - inversion F; subst. exists []. split; constructor.
  - inversion F; subst. destruct (IH _ ltac:(eassumption)) as (m' & F' & P'). eexists. split; [constructor; eassumption|now constructor].
  - inversion F as [|? ? ? ? Ry F1]; subst. inversion F1 as [|? ? ? ? Rx F2]; subst. eexists. split; [constructor; [exact Rx|constructor; [exact Ry|exact F2]]|apply perm_swap].
  - destruct (IH1 _ F) as (m' & F1 & P1). destruct (IH2 _ F1) as (n' & F2 & P2). exists n'. split; [exact F2|now transitivity m'].
Qed.
Lemma paren_document t k : (exists u, t = s "(" ++ u \/ t = s "{" ++ u) -> reads false t k false -> parse t = ParseOk k.
Proof.
  intros (u & H) R. apply document_parses. replace t with ([] ++ t ++ []) by now rewrite app_nil_r. apply (Document [] t [] k false); [apply blanks_nil|exact R|reflexivity|].
  rewrite app_nil_r. destruct H as [-> | ->]; reflexivity.
Qed.

Theorem inline_order m fs gs : fs <> [] -> (forall f, In f fs -> good_field true f) -> NoDup (map fst fs) -> Permutation fs gs ->
  exists k, reads m (inline_cntr fs) k false /\ reads m (inline_cntr gs) k false.
Proof.
  intros N G D P. destruct (means_all true fs G) as [l Hl]. destruct (Forall2_perm _ _ _ P _ Hl) as (l' & Hl' & P').
  exists (Kserd None (VCntr (fields_of l))). split; [now apply inline_cntr_reads|].
  rewrite (fields_same l l'); [|now rewrite (means_names _ _ _ Hl)|exact P']. apply inline_cntr_reads; [|intros f Hf; apply G; eapply Permutation_in; [symmetry; exact P|exact Hf]|exact Hl'].
  intros ->. apply Permutation_sym, Permutation_nil in P. congruence.
Qed.
Theorem inline_order_parse fs gs : fs <> [] -> (forall f, In f fs -> good_field true f) -> NoDup (map fst fs) -> Permutation fs gs ->
  exists k, parse (inline_cntr fs) = ParseOk k /\ parse (inline_cntr gs) = ParseOk k.
Proof.
  intros N G D P. destruct (inline_order false fs gs N G D P) as (k & R1 & R2). exists k. split; (apply paren_document; [eexists; left; reflexivity|assumption]).
Qed.
Theorem inline_again pre f fs : In (fst f) (map fst fs) -> (forall g, In g (pre ++ f :: fs) -> good_field true g) ->
  exists k, parse (inline_cntr (pre ++ f :: fs)) = ParseOk k /\ parse (inline_cntr (pre ++ fs)) = ParseOk k.
Proof.
  intros H G. destruct (means_all true pre) as [p Hp]; [intros; apply G, in_or_app; now left|].
  destruct (means_all true fs) as [l Hl]; [intros; apply G, in_or_app; right; now right|].
  destruct (G f) as (_ & _ & v & b & R); [apply in_or_app; right; now left|].
  assert (N : fs <> []) by (intros ->; destruct H).
  exists (Kserd None (VCntr (fields_of (p ++ l)))). split; (apply paren_document; [eexists; left; reflexivity|]).
  - rewrite <- (fields_again p (fst f) v l) by now rewrite (means_names _ _ _ Hl). apply inline_cntr_reads; [now destruct pre|exact G|].
    apply Forall2_app; [exact Hp|]. constructor; [split; [reflexivity|exists b; exact R]|exact Hl].
  - apply inline_cntr_reads; [destruct pre; [exact N|discriminate]| |now apply Forall2_app].
    intros g Hg. apply G. apply in_app_or in Hg as [Hg|Hg]; apply in_or_app; [now left|right; now right].
Qed.

(** ** a field to a line *)
Lemma name_not_mem c l : name_char c = true -> forallb (fun d => negb (name_char d)) l = true -> mem c l = false.
Proof.
  intros H. unfold mem. induction l as [|d l IH]; [reflexivity|]. cbn [forallb existsb]. intros [X Y]%andb_true_iff.
  destruct (c =? d) eqn:E; [apply N.eqb_eq in E; subst d; rewrite H in X; discriminate|]. now apply IH.
Qed.
Lemma name_char_opens c r : name_char c = true -> opens (c :: r) = false.
Proof. intros H. cbn [opens]. unfold space. rewrite (name_not_mem c [32; 9; 13; 10]) by (assumption || reflexivity). now apply name_not_mem. Qed.
Lemma concise_more_text fs l : (forall f, In f fs -> good_field false f) -> Forall2 (means false) fs l ->
  concise_more (field_of (reads false)) (flat_map (fun f => [10] ++ s "    " ++ field_text f) fs ++ [10]) l.
Proof.
  intros G H. induction H as [|f e fs l H Hr IH]; [apply CM_end; [reflexivity|discriminate]|].
  destruct (field_of_text false f e (G f (or_introl eq_refl)) H) as [b F]. cbn [flat_map]. 
  replace (([10] ++ s "    " ++ field_text f) ++ flat_map (fun f => [10] ++ s "    " ++ field_text f) fs)
    with (([10] ++ s "    ") ++ field_text f ++ flat_map (fun f => [10] ++ s "    " ++ field_text f) fs) by now rewrite <- !app_assoc.
  rewrite <- !app_assoc. rewrite (app_assoc [10] (s "    ")).
  apply (CM_next _ _ _ _ b); [reflexivity|discriminate|exact F|apply IH; intros; apply G; now right|]. intros _.
  destruct fs as [|g fs]; [reflexivity|]. cbn [flat_map]. destruct (G g (or_intror (or_introl eq_refl))) as (N & C & _).
  unfold field_text at 1. destruct (fst g) as [|c n]; [congruence|]. cbn [forallb] in C. apply andb_true_iff in C as [C _].
  rewrite <- !app_assoc. cbn. now apply name_char_opens.
Qed.

Lemma concise_cntr_reads fs l : fs <> [] -> (forall f, In f fs -> good_field false f) -> Forall2 (means false) fs l ->
  reads false (concise_cntr fs) (Kserd None (VCntr (fields_of l))) false.
Proof.
  intros N G H. unfold concise_cntr. rewrite (app_assoc (flat_map _ fs) [10]).
  match goal with |- reads _ (?a ++ ?t ++ ?z) _ _ => change (a ++ t ++ z) with (head None [] ++ a ++ t ++ z) end.
  apply C_cntr; [apply head_none| |]. { split; [|now apply concise_more_text]. destruct fs; [congruence|reflexivity]. }
  intros ->. inversion H. congruence.
Qed.
Theorem concise_order_parse fs gs : fs <> [] -> (forall f, In f fs -> good_field false f) -> NoDup (map fst fs) -> Permutation fs gs ->
  exists k, parse (concise_cntr fs) = ParseOk k /\ parse (concise_cntr gs) = ParseOk k.
Proof.
  intros N G D P. destruct (means_all false fs G) as [l Hl]. destruct (Forall2_perm _ _ _ P _ Hl) as (l' & Hl' & P').
  exists (Kserd None (VCntr (fields_of l))). split; (apply paren_document; [eexists; left; reflexivity|]); [now apply concise_cntr_reads|].
  rewrite (fields_same l l'); [|now rewrite (means_names _ _ _ Hl)|exact P']. apply concise_cntr_reads; [|intros f Hf; apply G; eapply Permutation_in; [symmetry; exact P|exact Hf]|exact Hl'].
  intros ->. apply Permutation_sym, Permutation_nil in P. congruence.
Qed.

(** ** entries of a map *)
Definition stands (e : str * str) (x : kserd * kserd) : Prop := key_of (fst e) (fst x) /\ exists b, reads true (snd e) (snd x) b.
Lemma stands_all es : (forall e, In e es -> good_entry e) -> exists l, Forall2 stands es l.
Proof.
  induction es as [|e es IH]; intros H; [exists []; constructor|]. destruct IH as [l Hl]; [intros; apply H; now right|].
  destruct (H e (or_introl eq_refl)) as ((k & K) & v & b & R). exists ((k, v) :: l). constructor; [|exact Hl]. split; [exact K|]. exists b. exact R.
Qed.
Lemma inline_map_reads m es l : Forall2 stands es l -> reads m (inline_map es) (Kserd None (VMap (map_of l))) false.
Proof.
  intros H. unfold inline_map. change (s "{" ++ joined (s ", ") (map entry_text es) ++ s "}") with (head None [] ++ s "{" ++ joined (s ", ") (map entry_text es) ++ s "}").
  apply R_map; [apply head_none|]. apply inline_list_text. apply Forall2_map_l. induction H as [|e [k v] es l (((b & K) & _) & b' & R) _ IH]; constructor; [|exact IH].
  cbn [fst snd] in *. exists b'. unfold entry_text. change (s ": ") with ([] ++ s ":" ++ s " "). rewrite <- !app_assoc.
  apply (Entry _ _ (fst e) [] (s " ") (snd e) k v b); auto using blanks_nil, blanks_1.
Qed.
Lemma stands_keys es l : Forall2 stands es l -> keysP good_key l.
Proof. unfold keysP. induction 1 as [|e x es l H _ IH]; constructor; [|exact IH]. destruct H as ((_ & A & B) & _). now split. Qed.
Lemma stands_single es l : Forall2 stands es l -> ForallOrdPairs different es -> single k_cmp l.
Proof.
  intros H D. induction H as [|e x es l H Hl IH]; [intros ? ? []|]. inversion D as [|? ? D1 D2]; subst. specialize (IH D2).
  assert (X : forall y, In y l -> k_cmp (fst x) (fst y) <> Eq).
  { clear IH D2 D. intros y Hy. assert (exists e', In e' es /\ stands e' y) as (e' & He' & S').
    { clear D1. induction Hl as [|a b es l S _ IH]; [destruct Hy|]. destruct Hy as [->|Hy]; [exists a; split; [now left|exact S]|].
      destruct (IH Hy) as (e' & A & B). exists e'. split; [now right|exact B]. }
    rewrite Forall_forall in D1. pose proof (D1 e' He' (fst x) (fst y) (proj1 H) (proj1 S')) as N.
    destruct H as ((_ & G) & _), S' as ((_ & G') & _). intros C. apply good_key_eqb in C; [congruence|exact G|exact G']. }
  intros a b [->|Ha] [->|Hb] C; [reflexivity| | |now apply IH].
  - exfalso. exact (X b Hb C).
  - exfalso. apply (X a Ha). rewrite (law_anti _ _ good_key_lawful), C. reflexivity.
Qed.
Theorem map_order_parse es es' : (forall e, In e es -> good_entry e) -> ForallOrdPairs different es -> Permutation es es' ->
  exists k, parse (inline_map es) = ParseOk k /\ parse (inline_map es') = ParseOk k.
Proof.
  intros G D P. destruct (stands_all es G) as [l Hl]. destruct (Forall2_perm _ _ _ P _ Hl) as (l' & Hl' & P').
  exists (Kserd None (VMap (map_of l))). split; (apply paren_document; [eexists; right; reflexivity|]); [now apply inline_map_reads|].
  unfold map_of. rewrite (from_list_same good_key k_cmp k_eqb good_key_lawful good_key_eqb l l'); [now apply inline_map_reads|now apply (stands_keys es)|now apply (stands_single es)|].
  intros x. split; apply Permutation_in; [exact P'|now symmetry].
Qed.

(** ** items of a document *)
Lemma about_names name l : existsb (str_eqb name) (names l) = match filter (about (Some name)) l with [] => false | _ => true end.
Proof.
  assert (S : forall a b, str_eqb a b = str_eqb b a).
  { intros a b. destruct (str_eqb a b) eqn:X, (str_eqb b a) eqn:Y; try reflexivity; apply str_eqb_eq in X || apply str_eqb_eq in Y; subst; rewrite ?str_eqb_refl in *; congruence. }
  induction l as [|i l IH]; [reflexivity|]. destruct i; cbn [names flat_map app existsb filter about]; fold (names l); [exact IH| | |];
    rewrite (S name name0); (destruct (str_eqb name0 name); [reflexivity|exact IH]).
Qed.
Lemma about_id l : last_some (map (fun i => match i with It_id id => Some id | _ => None end) l) =
  last_some (map (fun i => match i with It_id id => Some id | _ => None end) (filter (about None) l)).
Proof.
  set (g := fun i : item => match i with It_id id => Some id | _ => None end). unfold last_some.
  assert (X : forall o : option str, fold_left (fun acc o => match o with Some _ => o | None => acc end) (map g l) o =
    fold_left (fun acc o => match o with Some _ => o | None => acc end) (map g (filter (about None) l)) o).
  { induction l as [|i l IH]; intros o; [reflexivity|]. destruct i; cbn; apply IH. }
  apply X.
Qed.
Lemma about_elems name l : elems_of name l = elems_of name (filter (about (Some name)) l).
Proof. unfold elems_of. induction l as [|i l IH]; [reflexivity|]. cbn [flat_map filter]. rewrite IH. destruct i as [id|n v|id n v|id n k v]; cbn [about]; [reflexivity| | |]; destruct (str_eqb n name) eqn:E; cbn [flat_map app]; rewrite ?E; reflexivity. Qed.
Lemma about_entries name l : entries_of name l = entries_of name (filter (about (Some name)) l).
Proof. unfold entries_of. induction l as [|i l IH]; [reflexivity|]. cbn [flat_map filter]. rewrite IH. destruct i as [id|n v|id n v|id n k v]; cbn [about]; [reflexivity| | |]; destruct (str_eqb n name) eqn:E; cbn [flat_map app]; rewrite ?E; reflexivity. Qed.
Lemma about_direct name l : direct_of name l = direct_of name (filter (about (Some name)) l).
Proof. unfold direct_of. induction l as [|i l IH]; [reflexivity|]. cbn [flat_map filter]. rewrite IH. destruct i as [id|n v|id n v|id n k v]; cbn [about]; [reflexivity| | |]; destruct (str_eqb n name) eqn:E; cbn [flat_map app]; rewrite ?E; reflexivity. Qed.

Lemma container_same l l' : same_but_order l l' -> container l = container l'.
Proof.
  intros H. unfold container. rewrite (about_id l), (about_id l'), (H None). f_equal. f_equal.
  assert (V : forall n, value_of n l = value_of n l').
  { intros n. unfold value_of. now rewrite (about_entries n l), (about_elems n l), (about_direct n l), (H (Some n)), <- about_entries, <- about_elems, <- about_direct. }
  assert (A : forall x : list (str * kserd), ascending str_cmp (fields_of x) = true /\ forall k, bt_get str_cmp k (fields_of x) = last_binding str_cmp k x).
  { intros x. destruct (bt_from_list_spec (V := kserd) (fun _ => True) str_cmp str_eqb str_lawful str_eqb_cmp' x (keysP_true x)) as (_ & B & C). split; [exact B|]. intros k. now apply C. }
  apply sorted_ext; [apply A|apply A|]. intros k. rewrite !(proj2 (A _)), !last_binding_names, !about_names, (H (Some k)), V. reflexivity.
Qed.
Lemma vitem_start t i b c : vitem O t i b c -> exists x u, t = x :: u /\ (name_char x || mem x (s "[:")) = true.
Proof.
  intros H. inversion H; subst; try (eexists; eexists; split; [reflexivity|reflexivity]).
  match goal with F : field_of _ _ _ _ |- _ => inversion F; subst end. destruct name as [|x n]; [congruence|].
  match goal with C : forallb name_char _ = true |- _ => cbn [forallb] in C; apply andb_true_iff in C as [C _]; eexists; eexists; split; [reflexivity|]; rewrite C end. reflexivity.
Qed.
Lemma start_plain x : (name_char x || mem x (s "[:")) = true -> mem x [32; 9; 10; 13] = false.
Proof.
  intros [H|H]%orb_true_iff; [now apply name_not_mem|]. unfold mem, existsb in H. cbn in H. apply orb_true_iff in H as [H|H]; [apply N.eqb_eq in H; now subst x|].
  apply orb_true_iff in H as [H|H]; [apply N.eqb_eq in H; now subst x|discriminate].
Qed.
Lemma item_closes x u : (name_char x || mem x (s "[:")) = true -> closes 1 (10 :: x :: u) = true.
Proof.
  intros H. apply start_plain in H. unfold mem in H. cbn [existsb] in H. apply orb_false_iff in H as [A H]. apply orb_false_iff in H as [B H]. apply orb_false_iff in H as [C H]. apply orb_false_iff in H as [D _].
  assert (E : next_line (10 :: x :: u) = x :: u).
  { unfold next_line. cbn [first_line]. change (blank 10) with false. change (10 =? 10) with true. cbv iota. unfold blank, mem. cbn [existsb]. rewrite A, B, C, D. reflexivity. }
  unfold closes. rewrite E. apply orb_true_iff. right. cbn [indented]. rewrite B.
  change (s "    ") with (32 :: s "   "). cbn [starts_with]. rewrite N.eqb_sym, A. reflexivity.
Qed.
Lemma lead_line : lead O [10].
Proof. change [10] with (([] ++ [10] ++ []) ++ [] ++ [] : str). constructor; [|constructor|reflexivity]. apply BL_line; [reflexivity|now left|constructor]. Qed.
Lemma lead_nil : lead O [].
Proof. change (@nil char) with ([] ++ [] ++ [] : str). constructor; [constructor|constructor|reflexivity]. Qed.
Lemma items_list l : forall w, lead O w -> l <> [] -> (forall e, In e l -> good_item e) -> vlist O (w ++ verbose_doc l) (map snd l) false.
Proof.
  unfold verbose_doc. induction l as [|e l IH]; intros w W N G; [congruence|]. destruct (G e (or_introl eq_refl)) as [c V].
  destruct l as [|e' l]; [cbn [map joined]; exact (V_last O w (fst e) (snd e) false c W V)|].
  cbn [map]. change (joined [10] (fst e :: fst e' :: map fst l)) with (fst e ++ ([10] ++ joined [10] (map fst (e' :: l)))).
  apply (V_next O w (fst e) (snd e) false c ([10] ++ joined [10] (map fst (e' :: l))) (map snd (e' :: l)) false W V);
    [apply IH; [exact lead_line|discriminate|intros; apply G; now right]|reflexivity|discriminate|].
  intros _. destruct (G e' (or_intror (or_introl eq_refl))) as [c' V']. apply vitem_start in V' as (x & u & E & H). cbn [map]. rewrite joined_cons, E. now apply item_closes.
Qed.
Theorem items_order l l' : (forall e, In e l -> good_item e) -> (forall e, In e l' -> good_item e) -> same_but_order (map snd l) (map snd l') ->
  verbose_first (verbose_doc l) = true -> verbose_first (verbose_doc l') = true ->
  exists k, parse (verbose_doc l) = ParseOk k /\ parse (verbose_doc l') = ParseOk k.
Proof.
  assert (X : forall l, (forall e, In e l -> good_item e) -> verbose_first (verbose_doc l) = true -> parse (verbose_doc l) = ParseOk (container (map snd l))).
  { clear. intros l G F. assert (N : l <> []) by (intros ->; discriminate F). apply vdocument_parses. replace (verbose_doc l) with (verbose_doc l ++ [] ++ []) by now rewrite !app_nil_r.
    apply (VDocument _ _ false); [exact (items_list l [] lead_nil N G)|exact F|constructor|reflexivity|reflexivity]. }
  intros G G' S F F'. exists (container (map snd l)). split; [now apply X|]. rewrite (container_same _ _ S). now apply X.
Qed.
Lemma perm_filter {A} (f : A -> bool) l l' : Permutation l l' -> (length (filter f l) <= 1)%nat -> filter f l = filter f l'.
Proof.
  intros P H. assert (Q : Permutation (filter f l) (filter f l')).
  { clear H. induction P as [|x l l' P IH|x y l|l m n P IH Q IH']; cbn [filter]; [constructor| | |now transitivity (filter f m)].
    - destruct (f x); [now constructor|exact IH].
    - destruct (f x), (f y); try apply perm_swap; reflexivity. }
  destruct (filter f l) as [|a [|b m]]; [now apply Permutation_nil in Q|now apply Permutation_length_1_inv in Q|cbn in H; lia].
Qed.
Theorem items_perm l l' : (forall e, In e l -> good_item e) -> Permutation l l' -> (forall name, length (filter (about name) (map snd l)) <= 1)%nat ->
  verbose_first (verbose_doc l) = true -> verbose_first (verbose_doc l') = true ->
  exists k, parse (verbose_doc l) = ParseOk k /\ parse (verbose_doc l') = ParseOk k.
Proof.
  intros G P H. apply items_order; [exact G|intros e He; apply G; eapply Permutation_in; [symmetry; exact P|exact He]|].
  intros name. apply perm_filter; [now apply Permutation_map|apply H].
Qed.
(** words are no first line of a container *)
Lemma word_line t r : t <> [] -> forallb name_char t = true -> line_ends r = true -> verbose_start (t ++ r) = false.
Proof.
  intros N H E. unfold verbose_start. destruct t as [|c t]; [congruence|]. cbn [forallb] in H. apply andb_true_iff in H as [C H].
  assert (X : (ch "[" =? c) = false) by (rewrite N.eqb_sym; pose proof (name_not_mem c [ch "["] C eq_refl) as M; cbn in M; now rewrite orb_false_r in M).
  assert (A : assigns ((c :: t) ++ r) = false).
  { assert (R : assigns r = false).
    { apply line_ends_split in E as (w & u & -> & W & U). induction w as [|x w IH].
      - destruct U as [-> |(e & z & [-> | ->] & ->)]; reflexivity.
      - unfold blanks in W. cbn [forallb] in W. apply andb_true_iff in W as [B W]. cbn [app assigns]. rewrite (IH W), andb_false_r, orb_false_r.
        unfold blank, mem in B. cbn [existsb] in B. apply orb_true_iff in B as [B|B]; [apply N.eqb_eq in B; now subst|]. apply orb_true_iff in B as [B|B]; [apply N.eqb_eq in B; now subst|discriminate]. }
    assert (F : forallb name_char (c :: t) = true) by (cbn [forallb]; now rewrite C). clear - R F. induction (c :: t) as [|x l IH]; [exact R|].
    cbn [forallb] in F. apply andb_true_iff in F as [F1 F2]. cbn [app assigns]. rewrite (IH F2), andb_false_r, orb_false_r.
    pose proof (name_not_mem x [ch "="] F1 eq_refl) as M. cbn in M. now rewrite orb_false_r in M. }
  rewrite A. cbn [app bracketed]. change (s "[[") with (ch "[" :: s "["). cbn [starts_with]. rewrite X. rewrite N.eqb_sym, X. reflexivity.
Qed.
Lemma key_unique t k k' : verbose_start t = false -> parse t = ParseOk k' -> key_of t k -> k = k'.
Proof.
  intros V P ((b & R) & _). assert (D : document t k).
  { replace t with ([] ++ t ++ []) by now rewrite app_nil_r. apply (Document [] t [] k b); [apply blanks_nil|exact R|reflexivity|now rewrite app_nil_r]. }
  apply document_parses in D. congruence.
Qed.
