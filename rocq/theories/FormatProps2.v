(** What a text of the format can stand for: nothing but its own words, and no
    more nodes than it has characters. *)
From Coq Require Import Permutation.
From Verif Require Import Base F64 Number BTree Value BaseProps BTreeProps ValueProps2 Base91 NavSpec FmtSpec Nom Parse ParseProps ParseErr Grammar VGrammar GrammarProps VGrammarProps VAssemble Format FormatProps.
Open Scope nat_scope.

Definition part (u t : str) : Prop := exists p q, t = p ++ u ++ q.
Lemma part_refl t : part t t.
Proof. exists [], []. now rewrite app_nil_r. Qed.
Lemma part_app a u b t : part u t -> part u (a ++ t ++ b).
Proof. intros (p & q & ->). exists (a ++ p), (q ++ b). now rewrite !app_assoc. Qed.
Lemma part_l u a b : part u a -> part u (a ++ b).
Proof. intros (p & q & ->). exists p, (q ++ b). now rewrite !app_assoc. Qed.
Lemma part_r u a b : part u b -> part u (a ++ b).
Proof. intros (p & q & ->). exists (a ++ p), q. now rewrite !app_assoc. Qed.
Lemma part_trans a b c : part a b -> part b c -> part a c.
Proof. intros (p & q & ->) (p' & q' & ->). exists (p' ++ p), (q ++ q'). now rewrite !app_assoc. Qed.

Definition texts (k : kserd) : list str := flat_map texts_of (preorder k).
Definition size (k : kserd) : nat := length (preorder k).
Definition sum (l : list nat) : nat := list_sum l.
Lemma list_sum_perm l l' : Permutation l l' -> list_sum l = list_sum l'.
Proof. induction 1; cbn [list_sum fold_right] in *; unfold list_sum in *; cbn in *; lia. Qed.

(** ** the texts and sizes of a node by those of its children *)
Lemma flat_map_flat_map {A B C} (f : B -> list C) (g : A -> list B) l : flat_map f (flat_map g l) = flat_map (fun x => flat_map f (g x)) l.
Proof. induction l as [|x l IH]; [reflexivity|]. cbn [flat_map]. now rewrite flat_map_app, IH. Qed.
Lemma flat_map_map' {A B C} (f : B -> list C) (g : A -> B) l : flat_map f (map g l) = flat_map (fun x => f (g x)) l.
Proof. induction l as [|x l IH]; [reflexivity|]. cbn [flat_map map]. now rewrite IH. Qed.
Lemma length_flat_map {A B} (f : A -> list B) l : length (flat_map f l) = list_sum (map (fun x => length (f x)) l).
Proof. induction l as [|x l IH]; [reflexivity|]. cbn [flat_map map list_sum fold_right]. rewrite app_length, IH. reflexivity. Qed.
Definition otext (o : option str) : list str := match o with Some i => [i] | None => [] end.
Lemma texts_list id l : (forall v, v = VTuple l \/ v = VSeq l -> texts (Kserd id v) = otext id ++ flat_map texts l).
Proof. intros v [-> | ->]; unfold texts; cbn [preorder flat_map]; unfold texts_of at 1; cbn [kid kval]; rewrite app_nil_r, flat_map_flat_map; reflexivity. Qed.
Lemma texts_cntr id m : texts (Kserd id (VCntr m)) = otext id ++ map fst m ++ flat_map (fun e => texts (snd e)) m.
Proof. unfold texts; cbn [preorder flat_map]; unfold texts_of at 1; cbn [kid kval]. rewrite flat_map_flat_map, <- app_assoc. reflexivity. Qed.
Lemma texts_map id m : texts (Kserd id (VMap m)) = otext id ++ flat_map (fun e => texts (fst e) ++ texts (snd e)) m.
Proof.
  unfold texts; cbn [preorder flat_map]; unfold texts_of at 1; cbn [kid kval]. rewrite app_nil_r, flat_map_flat_map. f_equal.
  apply flat_map_ext. intros e. now rewrite flat_map_app.
Qed.
Lemma size_list id l v : v = VTuple l \/ v = VSeq l -> size (Kserd id v) = S (list_sum (map size l)).
Proof. intros [-> | ->]; unfold size; cbn [preorder length]; now rewrite length_flat_map. Qed.
Lemma size_cntr id m : size (Kserd id (VCntr m)) = S (list_sum (map (fun e => size (snd e)) m)).
Proof. unfold size; cbn [preorder length]; now rewrite length_flat_map. Qed.
Lemma size_map id m : size (Kserd id (VMap m)) = S (list_sum (map (fun e => size (fst e) + size (snd e)) m)).
Proof.
  unfold size; cbn [preorder length]. rewrite length_flat_map. do 2 f_equal. apply map_ext. intros e. now rewrite app_length.
Qed.
Lemma token_texts t v : token t v -> (forall id u, In u (texts (Kserd id v)) -> In u (otext id) \/ part u t) /\ (forall id, size (Kserd id v) = 1) /\ 1 <= length t.
Proof.
  intros T. assert (X : forall id u, In u (texts (Kserd id v)) -> In u (otext id) \/ In u (match v with VStr x => [x] | VCntr m => map fst m | _ => [] end) \/ In u (flat_map texts_of (tl (preorder (Kserd id v))))).
  { intros id u Hu. unfold texts in Hu. destruct v; cbn [preorder flat_map tl] in *; apply in_app_or in Hu as [Hu|Hu]; auto; unfold texts_of in Hu; cbn [kid kval] in Hu; apply in_app_or in Hu as [Hu|Hu]; auto. }
  destruct T as [w B| | |t n F E|t M|d t M|t M]; (split; [intros id u Hu; apply X in Hu as [Hu|[Hu|Hu]]; cbn in Hu; try contradiction; [now left|..]|split; [reflexivity|try (unfold str, char; rewrite ?app_length; cbn; lia)]]).
  - destruct t; [vm_compute in E; discriminate|cbn; lia].
  - destruct Hu as [<-|[]]. right. apply part_r, part_l, part_refl.
  - destruct Hu as [<-|[]]. right. apply part_r, part_r, part_l, part_refl.
Qed.

(** ** maps hold no more than the entries they were made from *)
Section Weights.
  Context {K V : Type} (cmp : K -> K -> comparison) (f : K -> nat) (g : V -> nat).
  Definition weight (m : list (K * V)) : nat := list_sum (map (fun e => f (fst e) + g (snd e)) m).
  Lemma weight_insert k v m : weight (bt_insert cmp k v m) <= f k + g v + weight m.
  Proof.
    unfold weight. induction m as [|[k' v'] m IH]; [cbn; lia|]. cbn [bt_insert]. destruct (cmp k k'); cbn [map list_sum fold_right fst snd] in *; unfold list_sum in *; lia.
  Qed.
  Lemma weight_inserts l : weight (bt_inserts cmp l) <= weight l.
  Proof.
    unfold bt_inserts. enough (G : forall m, weight (fold_left (fun m e => bt_insert cmp (fst e) (snd e) m) l m) <= weight l + weight m) by (specialize (G []); cbn in G |- *; lia).
    induction l as [|[k v] l IH]; intros m; [reflexivity|]. cbn [fold_left fst snd]. etransitivity; [apply IH|]. pose proof (weight_insert k v m).
    change (weight ((k, v) :: l)) with (f k + g v + weight l). lia.
  Qed.
  Lemma weight_sort l : weight (bt_sort cmp l) = weight l.
  Proof.
    unfold bt_sort. induction l as [|e l IH]; [reflexivity|]. cbn [fold_right]. set (m := fold_right (sort_ins cmp) [] l) in *.
    enough (weight (sort_ins cmp e m) = weight (e :: m)) as -> by (unfold weight in *; cbn [map list_sum fold_right]; unfold list_sum in IH; rewrite IH; reflexivity).
    clear. induction m as [|e' m IH]; [reflexivity|]. cbn [sort_ins]. destruct (cmp (fst e) (fst e')); try reflexivity.
    unfold weight in *. cbn [map list_sum fold_right] in *. unfold list_sum in *. lia.
  Qed.
  Lemma weight_dedup (eqb : K -> K -> bool) l : weight (bt_dedup eqb l) <= weight l.
  Proof.
    unfold weight. induction l as [|e l IH]; [reflexivity|]. cbn [bt_dedup]. destruct l as [|e' l]; [reflexivity|].
    destruct (eqb _ _); cbn [map list_sum fold_right] in *; unfold list_sum in *; lia.
  Qed.
  Lemma weight_of (eqb : K -> K -> bool) l : weight (bt_from_list cmp eqb l) <= weight l.
  Proof. unfold bt_from_list. rewrite <- (weight_sort l). apply weight_dedup. Qed.
End Weights.
Section Members.
  Context {K V : Type} (cmp : K -> K -> comparison).
  Lemma insert_in k v (m : list (K * V)) (e : K * V) : In e (bt_insert cmp k v m) -> (fst e = k \/ In (fst e) (map fst m)) /\ (snd e = v \/ In (snd e) (map snd m)).
  Proof.
    induction m as [|[k' v'] m IH]; cbn [bt_insert].
    - intros [<-|[]]; auto.
    - destruct (cmp k k'); cbn [map fst snd In].
      + intros [<-|H]; cbn [fst snd]; [auto|]. split; right; right; now apply in_map.
      + intros [<-|[<-|H]]; cbn [fst snd]; auto. split; right; right; now apply in_map.
      + intros [<-|H]; cbn [fst snd]; [auto|]. apply IH in H. tauto.
  Qed.
  Lemma inserts_in (l : list (K * V)) (e : K * V) : In e (bt_inserts cmp l) -> In (fst e) (map fst l) /\ In (snd e) (map snd l).
  Proof.
    unfold bt_inserts. enough (G : forall m, In e (fold_left (fun m e => bt_insert cmp (fst e) (snd e) m) l m) -> (In (fst e) (map fst l) \/ In (fst e) (map fst m)) /\ (In (snd e) (map snd l) \/ In (snd e) (map snd m))).
    { intros H. apply G in H. cbn in H. tauto. }
    induction l as [|[k v] l IH]; intros m H; cbn [fold_left fst snd map In] in *; [split; right; now apply in_map|].
    apply IH in H as [[H1|H1] [H2|H2]].
    - tauto.
    - split; [tauto|]. apply in_map_iff in H2 as (e' & E & H2). apply insert_in in H2. rewrite E in H2. cbn [In map]. destruct H2 as [_ [->|]]; tauto.
    - split; [|tauto]. apply in_map_iff in H1 as (e' & E & H1). apply insert_in in H1. rewrite E in H1. cbn [In map]. destruct H1 as [[->|] _]; tauto.
    - split.
      + apply in_map_iff in H1 as (e' & E & H1). apply insert_in in H1. rewrite E in H1. cbn [In map]. destruct H1 as [[->|] _]; tauto.
      + apply in_map_iff in H2 as (e' & E & H2). apply insert_in in H2. rewrite E in H2. cbn [In map]. destruct H2 as [_ [->|]]; tauto.
  Qed.
  Lemma sort_in (l : list (K * V)) (e : K * V) : In e (bt_sort cmp l) -> In e l.
  Proof.
    unfold bt_sort. induction l as [|a l IH]; [auto|]. cbn [fold_right]. set (m := fold_right (sort_ins cmp) [] l) in *. intros H.
    enough (e = a \/ In e m) by (cbn [In]; intuition). clear IH. induction m as [|b m IH]; cbn [sort_ins] in H; [destruct H as [<-|[]]; auto|].
    destruct (cmp (fst a) (fst b)); cbn [In] in *; intuition congruence.
  Qed.
  Lemma dedup_in (eqb : K -> K -> bool) (l : list (K * V)) (e : K * V) : In e (bt_dedup eqb l) -> In e l.
  Proof.
    induction l as [|a l IH]; [auto|]. cbn [bt_dedup]. destruct l as [|b l]; [auto|]. destruct (eqb _ _); cbn [In] in *; intuition.
  Qed.
  Lemma of_in (eqb : K -> K -> bool) (l : list (K * V)) (e : K * V) : In e (bt_from_list cmp eqb l) -> In e l.
  Proof. intros H. now apply sort_in, (dedup_in eqb). Qed.
End Members.

(** ** lists *)
Section Lists.
  Context {A : Type} (R : str -> A -> Prop).
  Definition spread (t : str) (l : list A) (ts : list str) : Prop :=
    Forall2 R ts l /\ Forall (fun u => part u t) ts /\ list_sum (map (@length char) ts) <= length t.
  Lemma separated_spread S t l : separated R S t l -> exists ts, spread t l ts.
  Proof.
    induction 1 as [|w t a r l HS HR H (ts & F & P & L)].
    - exists []. repeat constructor.
    - exists (t :: ts). repeat split; [now constructor| |].
      + constructor; [apply part_r, part_l, part_refl|]. eapply Forall_impl; [|exact P]. cbn. intros u Hu. now apply part_r, part_r.
      + cbn [map list_sum fold_right]. rewrite !app_length. unfold list_sum in L. lia.
  Qed.
  Lemma spread_around w t a r l w' ts : R t a -> spread r l ts -> spread (w ++ t ++ r ++ w') (a :: l) (t :: ts).
  Proof.
    intros H (F & P & L). repeat split; [now constructor| |].
    - constructor; [apply part_r, part_l, part_refl|]. eapply Forall_impl; [|exact P]. cbn. intros u Hu. now apply part_r, part_r, part_l.
    - cbn [map list_sum fold_right]. rewrite !app_length. unfold list_sum in L. lia.
  Qed.
  Lemma inline_spread t l : inline_items R t l -> exists ts, spread t l ts.
  Proof.
    intros [w _|w x a r m w' _ H HS _].
    - exists []. repeat constructor. cbn. lia.
    - apply separated_spread in HS as [ts HS]. exists (x :: ts). now apply spread_around.
  Qed.
  Lemma concise_spread t l : concise_items R t l -> exists ts, spread t l ts.
  Proof.
    intros [w _|w x a r m w' _ _ H HS _].
    - exists []. repeat constructor. cbn. lia.
    - apply separated_spread in HS as [ts HS]. exists (x :: ts). now apply spread_around.
  Qed.
End Lists.
(** what is found in and counted of the elements *)
Lemma spread_fold {A} (R : str -> A -> Prop) (f : A -> list str) (g : A -> nat) t l ts : spread R t l ts ->
  (forall u a, length u <= length t -> R u a -> (forall x, In x (f a) -> part x u) /\ g a <= length u) ->
  (forall x, In x (flat_map f l) -> part x t) /\ list_sum (map g l) <= length t.
Proof.
  intros (F & P & L) H. assert (B : Forall (fun u => length u <= length t) ts).
  { eapply Forall_impl; [|exact P]. intros u (p & q & ->). rewrite !app_length. lia. }
  split.
  - clear L. induction F as [|u a us l HR F IH]; [intros x []|]. inversion P; subst. inversion B; subst. intros x Hx. cbn [flat_map] in Hx. apply in_app_or in Hx as [Hx|Hx]; [|auto].
    apply (H u a) in HR as [HX _]; [|assumption]. eapply part_trans; [now apply HX|assumption].
  - etransitivity; [|exact L]. clear L. induction F as [|u a us l HR F IH]; [cbn; lia|]. inversion P; subst. inversion B; subst. specialize (IH ltac:(assumption) ltac:(assumption)).
    apply (H u a) in HR as [_ HX]; [|assumption]. cbn [map list_sum fold_right]. unfold list_sum in IH. lia.
Qed.

(** ** delimited values *)
Definition fits (t : str) (k : kserd) : Prop := (forall u, In u (texts k) -> part u t) /\ size k <= length t.
Lemma head_part id w x o c u : In u (otext id) -> part u (head id w ++ o ++ x ++ c).
Proof. destruct id as [i|]; [|intros []]. intros [<-|[]]. cbn [head]. apply part_l, part_l, part_refl. Qed.
Lemma fits_list id w o c t l v : v = VTuple l \/ v = VSeq l -> (forall x, In x (flat_map texts l) -> part x t) /\ list_sum (map size l) <= length t ->
  1 <= length o -> fits (head id w ++ o ++ t ++ c) (Kserd id v).
Proof.
  intros E [H1 H2] Lo. split.
  - intros u. rewrite (texts_list id l v E). intros Hu. apply in_app_or in Hu as [Hu|Hu]; [now apply head_part|]. apply part_r, part_r, part_l. auto.
  - rewrite (size_list id l v E), !app_length. lia.
Qed.
Lemma in_flat_fields {V} (f : V -> list str) (l m : list (str * V)) x : (forall e, In e m -> In e l) ->
  In x (map fst m ++ flat_map (fun e => f (snd e)) m) -> In x (flat_map (fun e => fst e :: f (snd e)) l).
Proof.
  intros H Hx. apply in_flat_map. apply in_app_or in Hx as [Hx|Hx].
  - apply in_map_iff in Hx as (e & <- & He). exists e. split; [auto|]. now left.
  - apply in_flat_map in Hx as (e & He & Hx). exists e. split; [auto|]. now right.
Qed.
Lemma fits_cntr id w o c t l : (forall x, In x (flat_map (fun e => fst e :: texts (snd e)) l) -> part x t) /\ list_sum (map (fun e => size (snd e)) l) <= length t ->
  1 <= length o -> fits (head id w ++ o ++ t ++ c) (Kserd id (VCntr (fields_of l))).
Proof.
  intros [H1 H2] Lo. split.
  - intros u. rewrite texts_cntr. intros Hu. apply in_app_or in Hu as [Hu|Hu]; [now apply head_part|]. apply part_r, part_r, part_l, H1.
    eapply in_flat_fields; [|exact Hu]. apply (proj2 (fields_of_spec l)).
  - rewrite size_cntr, !app_length. pose proof (weight_of str_cmp (fun _ => 0) size str_eqb l) as W. unfold weight in W. fold (fields_of l) in W. cbn in W. lia.
Qed.
Lemma in_flat_entries (l m : list (kserd * kserd)) x : (forall e, In e m -> In (fst e) (map fst l) /\ In (snd e) (map snd l)) ->
  In x (flat_map (fun e => texts (fst e) ++ texts (snd e)) m) -> In x (flat_map (fun e => texts (fst e) ++ texts (snd e)) l).
Proof.
  intros H Hx. apply in_flat_map in Hx as (e & He & Hx). apply H in He as [H1 H2]. apply in_flat_map. apply in_app_or in Hx as [Hx|Hx].
  - apply in_map_iff in H1 as (e' & E & He'). exists e'. split; [assumption|]. apply in_or_app. left. now rewrite E.
  - apply in_map_iff in H2 as (e' & E & He'). exists e'. split; [assumption|]. apply in_or_app. right. now rewrite E.
Qed.
Lemma fits_map id w o c t l : (forall x, In x (flat_map (fun e => texts (fst e) ++ texts (snd e)) l) -> part x t) /\ list_sum (map (fun e => size (fst e) + size (snd e)) l) <= length t ->
  1 <= length o -> fits (head id w ++ o ++ t ++ c) (Kserd id (VMap (map_of l))).
Proof.
  intros [H1 H2] Lo. split.
  - intros u. rewrite texts_map. intros Hu. apply in_app_or in Hu as [Hu|Hu]; [now apply head_part|]. apply part_r, part_r, part_l, H1.
    eapply in_flat_entries; [|exact Hu]. intros e He. apply of_in in He. split; now apply in_map.
  - rewrite size_map, !app_length. pose proof (weight_of k_cmp size size k_eqb l) as W. unfold weight in W. fold (map_of l) in W. lia.
Qed.
Lemma fieldf_fits (R : str -> kserd -> Prop) n : (forall u a, length u < n -> R u a -> fits u a) ->
  forall u (a : str * kserd), length u <= n -> fieldf R u a -> (forall x, In x (fst a :: texts (snd a)) -> part x u) /\ S (size (snd a)) <= length u.
Proof.
  intros H u a L F. destruct F as [name w1 w2 t k HN B1 B2 HR]. apply H in HR as [T S1]; [|rewrite !app_length in L; cbn in L; lia]. cbn [fst snd]. split.
  - intros x [<-|Hx]; [apply part_l, part_refl|]. apply part_r, part_r, part_r, part_r. auto.
  - rewrite !app_length. cbn. lia.
Qed.
Lemma entryf_fits (K R : str -> kserd -> Prop) n : (forall u a, length u < n -> K u a -> fits u a) -> (forall u a, length u < n -> R u a -> fits u a) ->
  forall u (a : kserd * kserd), length u <= n -> entryf K R u a -> (forall x, In x (texts (fst a) ++ texts (snd a)) -> part x u) /\ size (fst a) + size (snd a) <= length u.
Proof.
  intros HK H u a L F. destruct F as [tk w1 w2 t k v B1 B2 HKt HR]. rewrite !app_length in L; cbn in L. apply HK in HKt as [T0 S0]; [|lia]. apply H in HR as [T S1]; [|lia]. cbn [fst snd]. split.
  - intros x Hx. apply in_app_or in Hx as [Hx|Hx]; [apply part_l; auto|]. apply part_r, part_r, part_r, part_r. auto.
  - rewrite !app_length. cbn. lia.
Qed.
Theorem derives_fits n : forall m t k, length t < n -> derives m t k -> fits t k.
Proof.
  induction n as [|n IH]; intros m t k L D; [lia|].
  assert (IHt : forall x u a, length u < length t -> derives x u a -> fits u a) by (intros x u a Lu; apply IH; lia).
  assert (LB : forall id w o c x, t = head id w ++ o ++ x ++ c -> 1 <= length o -> length x < length t) by (intros id w o c x ->; rewrite !app_length; lia).
  destruct D as [m id w t v HI B T|m t v T|m id w t l HO I|m id w t l HO I NE AS|m id w t l HO I AS|m id w t l HO I|id w t l HO I|id w t l HO I AS|id w t l HO I AS|id w t l HO I].
  1: { apply token_texts in T as (T1 & T2 & T3). split.
       - intros u Hu. apply T1 in Hu as [[<-|[]]|Hu]; [apply part_r, part_l, part_refl|]. now apply part_r, part_r, part_r, part_r.
       - rewrite T2, !app_length. cbn. lia. }
  1: { apply token_texts in T as (T1 & T2 & T3). split.
       - intros u Hu. now apply T1 in Hu as [[]|Hu].
       - rewrite T2. lia. }
  all: pose proof (LB _ _ _ _ _ eq_refl ltac:(cbn; lia)) as LX.
  all: (apply inline_spread in I as [ts I] || apply concise_spread in I as [ts I]).
  - eapply fits_list; [right; reflexivity| |cbn; lia]. eapply spread_fold; [exact I|]. intros u a Lu HR. apply (IHt true); [lia|exact HR].
  - eapply fits_list; [left; reflexivity| |cbn; lia]. eapply spread_fold; [exact I|]. intros u a Lu HR. apply (IHt true); [lia|exact HR].
  - eapply fits_cntr; [|cbn; lia]. eapply spread_fold; [exact I|]. intros u a Lu HR. eapply fieldf_fits in HR as [H1 H2]; [split; [exact H1|lia]| |exact Lu].
    intros u' a' Lu'. apply IHt. lia.
  - eapply fits_map; [|cbn; lia]. eapply spread_fold; [exact I|]. intros u a Lu HR. eapply entryf_fits in HR as [H1 H2]; [split; [exact H1|lia]| | |exact Lu].
    all: intros u' a' Lu'; apply IHt; lia.
  - eapply fits_list; [right; reflexivity| |cbn; lia]. eapply spread_fold; [exact I|]. intros u a Lu HR. apply (IHt false); [lia|exact HR].
  - eapply fits_list; [left; reflexivity| |cbn; lia]. eapply spread_fold; [exact I|]. intros u a Lu HR. apply (IHt false); [lia|exact HR].
  - eapply fits_cntr; [|cbn; lia]. eapply spread_fold; [exact I|]. intros u a Lu HR. eapply fieldf_fits in HR as [H1 H2]; [split; [exact H1|lia]| |exact Lu].
    intros u' a' Lu'. apply IHt. lia.
  - eapply fits_map; [|cbn; lia]. eapply spread_fold; [exact I|]. intros u a Lu HR. eapply entryf_fits in HR as [H1 H2]; [split; [exact H1|lia]| | |exact Lu].
    all: intros u' a' Lu'; apply IHt; lia.
Qed.
Lemma derives_fits' m t k : derives m t k -> fits t k.
Proof. apply (derives_fits (S (length t))). lia. Qed.

(** ** the verbose layout *)
Definition itexts (i : item) : list str :=
  match i with
  | It_id id => [id]
  | It_field n v => n :: texts v
  | It_elem id n v => otext id ++ n :: texts v
  | It_entry id n k v => otext id ++ n :: texts k ++ texts v
  end.
Definition isize (i : item) : nat :=
  match i with It_id _ => 0 | It_field _ v => size v | It_elem _ _ v => S (size v) | It_entry _ _ k v => S (size k + size v) end.
Definition iname (i : item) : option str :=
  match i with It_id _ => None | It_field n _ | It_elem _ n _ | It_entry _ n _ _ => Some n end.
Definition named (n : str) (i : item) : bool := match iname i with Some x => str_eqb x n | None => false end.

Lemma last_some_in {A} (l : list (option A)) a : last_some l = Some a -> In (Some a) l.
Proof.
  unfold last_some. enough (G : forall acc, fold_left (fun acc o => match o with Some _ => o | None => acc end) l acc = Some a -> acc = Some a \/ In (Some a) l).
  { intros H. apply G in H as [H|H]; [discriminate|exact H]. }
  induction l as [|o l IH]; intros acc H; cbn [fold_left In] in *; [now left|]. apply IH in H as [H|H]; [|tauto]. destruct o; [right; now left|tauto].
Qed.
Lemma last_some_none {A} (l : list (option A)) a : last_some l = None -> ~ In (Some a) l.
Proof.
  unfold last_some. set (f := fun acc o => _).
  assert (G : forall l b, fold_left f l (Some b) <> None) by (clear; induction l as [|[o|] l IH]; intros b; cbn; [discriminate|apply IH|apply IH]).
  enough (X : forall acc, fold_left f l acc = None -> ~ In (Some a) l) by apply X.
  induction l as [|o l IH]; intros acc E; [intros []|]. cbn [fold_left In] in *. intros [->|H]; [now apply G in E|now apply IH in E].
Qed.
Lemma last_fst {A} (l : list (option str * A)) u : In u (otext (last_some (map fst l))) -> exists x, In x l /\ fst x = Some u.
Proof.
  destruct (last_some (map fst l)) as [i|] eqn:E; [|intros []]. intros [<-|[]]. apply last_some_in in E. apply in_map_iff in E as (x & E & H). eauto.
Qed.
Lemma value_texts n l u : In u (texts (value_of n l)) -> exists i, In i l /\ In u (itexts i).
Proof.
  unfold value_of. destruct (entries_of n l) as [|e es] eqn:EE; [destruct (elems_of n l) as [|e es] eqn:EL|].
  - destruct (last_some (direct_of n l)) as [v|] eqn:E; [|intros []]. intros Hu. apply last_some_in in E. apply in_flat_map in E as (i & Hi & H).
    exists i. split; [exact Hi|]. destruct i; try contradiction. destruct (str_eqb name n); [|contradiction]. destruct H as [H|[]]. injection H as ->. now right.
  - rewrite <- EL. clear EL e es EE. rewrite (texts_list _ _ _ (or_intror eq_refl)). intros Hu. assert (X : exists x, In x (elems_of n l) /\ (fst x = Some u \/ In u (texts (snd x)))).
    { apply in_app_or in Hu as [Hu|Hu]; [apply last_fst in Hu as (x & H & E); eauto|]. apply in_flat_map in Hu as (k & Hk & Hu). apply in_map_iff in Hk as (x & <- & H). eauto. }
    destruct X as (x & Hx & X). apply in_flat_map in Hx as (i & Hi & H). exists i. split; [exact Hi|]. destruct i; try contradiction. destruct (str_eqb name n); [|contradiction].
    destruct H as [<-|[]]. cbn [fst snd itexts] in *. apply in_or_app. destruct X as [->|X]; [left; now left|right; now right].
  - rewrite <- EE. clear EE e es. rewrite texts_map. intros Hu. assert (X : exists x, In x (entries_of n l) /\ (fst x = Some u \/ In u (texts (fst (snd x))) \/ In u (texts (snd (snd x))))).
    { apply in_app_or in Hu as [Hu|Hu]; [apply last_fst in Hu as (x & H & E); eauto|]. apply in_flat_map in Hu as (k & Hk & Hu). apply inserts_in in Hk as [H1 H2].
      rewrite map_map in H1, H2. apply in_app_or in Hu as [Hu|Hu].
      - apply in_map_iff in H1 as (x & E & H). exists x. rewrite E. auto.
      - apply in_map_iff in H2 as (x & E & H). exists x. rewrite E. auto. }
    destruct X as (x & Hx & X). apply in_flat_map in Hx as (i & Hi & H). exists i. split; [exact Hi|]. destruct i; try contradiction. destruct (str_eqb name n); [|contradiction].
    destruct H as [<-|[]]. cbn [fst snd itexts] in *. apply in_or_app. destruct X as [->|[X|X]]; [left; now left|right; right; apply in_or_app; auto|right; right; apply in_or_app; auto].
Qed.
Lemma container_texts l u : In u (texts (container l)) -> exists i, In i l /\ In u (itexts i).
Proof.
  unfold container. rewrite texts_cntr. intros Hu. apply in_app_or in Hu as [Hu|Hu].
  - destruct (last_some _) as [x|] eqn:E; [|destruct Hu]. destruct Hu as [<-|[]]. apply last_some_in in E. apply in_map_iff in E as (i & E & H). destruct i; try discriminate. injection E as ->.
    eexists. split; [exact H|]. now left.
  - eapply in_flat_fields in Hu; [|apply (proj2 (fields_of_spec _))]. apply in_flat_map in Hu as (e & He & Hu). apply in_map_iff in He as (n & <- & Hn). cbn [fst snd] in Hu.
    destruct Hu as [<-|Hu]; [|now apply value_texts in Hu]. apply in_flat_map in Hn as (i & Hi & H). exists i. split; [exact Hi|].
    destruct i; cbn [In itexts] in *; try contradiction; destruct H as [<-|[]]; [now left| |]; apply in_or_app; right; now left.
Qed.
Definition isum (l : list item) : nat := list_sum (map isize l).
Lemma value_size n l : In n (names l) -> size (value_of n l) <= isum (filter (named n) l).
Proof.
  intros Hn.
  assert (E1 : list_sum (map (fun x => size (fst (snd x)) + size (snd (snd x))) (entries_of n l)) + length (entries_of n l) <= isum (filter (named n) l)).
  { unfold isum. clear Hn. induction l as [|i l IH]; [cbn; lia|]. unfold entries_of, named in *. destruct i; cbn [flat_map filter iname]; try destruct (str_eqb name n); cbn [app map isize list_sum fold_right length fst snd] in *; unfold list_sum in *; lia. }
  assert (E2 : list_sum (map (fun x => size (snd x)) (elems_of n l)) + length (elems_of n l) <= isum (filter (named n) l)).
  { unfold isum. clear Hn E1. induction l as [|i l IH]; [cbn; lia|]. unfold elems_of, named in *. destruct i; cbn [flat_map filter iname]; try destruct (str_eqb name n); cbn [app map isize list_sum fold_right length fst snd] in *; unfold list_sum in *; lia. }
  assert (E3 : forall v, In (Some v) (direct_of n l) -> size v <= isum (filter (named n) l)).
  { unfold isum. clear Hn E1 E2. induction l as [|i l IH]; [intros v []|]. unfold direct_of, named in *. intros v Hv. destruct i; cbn [flat_map filter iname] in *; try destruct (str_eqb name n); cbn [app map isize list_sum fold_right length In] in *; unfold list_sum in *;
      try (destruct Hv as [Hv|Hv]; [injection Hv as ->; lia|]); specialize (IH v Hv); lia. }
  unfold value_of. destruct (entries_of n l) as [|e es] eqn:EE; [destruct (elems_of n l) as [|e es] eqn:EL|].
  - destruct (last_some (direct_of n l)) as [v|] eqn:E; [now apply E3, last_some_in|]. exfalso.
    apply in_flat_map in Hn as (i & Hi & H). destruct i; try contradiction; destruct H as [->|[]].
    + assert (In (Some v) (direct_of n l)) by (apply in_flat_map; eexists; split; [exact Hi|]; cbn; rewrite str_eqb_refl; now left).
      now apply (last_some_none _ v) in E.
    + enough (In (id, v) (elems_of n l)) by (rewrite EL in *; contradiction). apply in_flat_map; eexists; split; [exact Hi|]; cbn; rewrite str_eqb_refl; now left.
    + enough (In (id, (k, v)) (entries_of n l)) by (rewrite EE in *; contradiction). apply in_flat_map; eexists; split; [exact Hi|]; cbn; rewrite str_eqb_refl; now left.
  - rewrite (size_list _ _ _ (or_intror eq_refl)), map_map. cbn [length] in E2. cbn [map] in E2 |- *. lia.
  - rewrite size_map. pose proof (weight_inserts k_cmp size size (map snd (e :: es))) as W. unfold weight in W. rewrite map_map in W. cbn [length] in E1. cbn [map] in E1, W |- *. lia.
Qed.
Lemma isum_le (f g : item -> bool) l : (forall i, f i = true -> g i = true) -> isum (filter f l) <= isum (filter g l).
Proof.
  intros H. induction l as [|i l IH]; [reflexivity|]. unfold isum in *. cbn [filter]. specialize (H i). destruct (f i), (g i); cbn [map list_sum fold_right]; unfold list_sum in *; try lia; now specialize (H eq_refl).
Qed.
Lemma isum_split (f g : item -> bool) l : (forall i, f i = true -> g i = false) -> isum (filter f l) + isum (filter g l) <= isum (filter (fun i => f i || g i) l).
Proof.
  intros H. induction l as [|i l IH]; [reflexivity|]. unfold isum in *. cbn [filter]. specialize (H i). destruct (f i), (g i); cbn [orb map list_sum fold_right]; unfold list_sum in *; try lia; now specialize (H eq_refl).
Qed.
Lemma fields_sum l ns : NoDup ns -> incl ns (names l) -> list_sum (map (fun n => size (value_of n l)) ns) <= isum (filter (fun i => existsb (fun n => named n i) ns) l).
Proof.
  induction 1 as [|n ns NI ND IH]; intros I; [cbn; lia|]. cbn [map list_sum fold_right existsb].
  etransitivity; [|apply isum_split].
  - pose proof (value_size n l (I n (or_introl eq_refl))). specialize (IH (fun x Hx => I x (or_intror Hx))). unfold list_sum in IH. lia.
  - intros i Hi. apply not_true_is_false. intros E. apply existsb_exists in E as (m & Hm & E). unfold named in *. destruct (iname i); [|discriminate]. apply str_eqb_eq in Hi, E. congruence.
Qed.
Lemma container_size l : size (container l) <= S (isum l).
Proof.
  unfold container. rewrite size_cntr. apply le_n_S. destruct (fields_of_spec (map (fun n => (n, value_of n l)) (names l))) as (SS & IN & _). set (m := fields_of _) in *.
  assert (V : forall e, In e m -> In (fst e) (names l) /\ snd e = value_of (fst e) l).
  { intros e He. apply IN in He. apply in_map_iff in He as (n & <- & Hn). auto. }
  assert (E : map (fun e => size (snd e)) m = map (fun n => size (value_of n l)) (map fst m)).
  { rewrite map_map. apply map_ext_in. intros e He. now rewrite (proj2 (V e He)). }
  rewrite E. etransitivity; [apply fields_sum|].
  - clear E V IN. rewrite (strictly_sorted_spec (fun _ => True) str_cmp str_lawful m (keysP_true m)) in SS. induction m as [|e m IH]; [constructor|].
    apply asc_cons in SS as [B A]. cbn [map]. constructor; [|auto]. intros H. apply in_map_iff in H as (e' & E & He'). rewrite Forall_forall in B. specialize (B e' He'). rewrite E, str_cmp_refl in B. discriminate.
  - intros n Hn. apply in_map_iff in Hn as (e & <- & He). now apply V.
  - etransitivity; [apply (isum_le _ (fun _ => true) l); reflexivity|]. enough (filter (fun _ => true) l = l) as -> by lia. clear. induction l; cbn; congruence.
Qed.

Lemma titlef_part h name id : titlef h name id -> part name h /\ (forall i, id = Some i -> part i h).
Proof.
  intros [w1 n w2 _ _ _|w1 n w2 w3 i w4 _ _ _ _ _ _]; split; try discriminate.
  - apply part_r, part_l, part_refl.
  - apply part_r, part_l, part_refl.
  - intros j [= <-]. do 5 apply part_r. apply part_l, part_refl.
Qed.
Lemma otext_part id h u : (forall i, id = Some i -> part i h) -> In u (otext id) -> part u h.
Proof. destruct id; [|intros _ []]. intros H [<-|[]]. now apply H. Qed.
Scheme itemf_mut := Minimality for itemf Sort Prop
  with bodyf_mut := Minimality for bodyf Sort Prop
  with itemsf_mut := Minimality for itemsf Sort Prop.
Combined Scheme verbose_mut from itemf_mut, bodyf_mut, itemsf_mut.
Definition vitem_fits (t : str) (i : item) : Prop := (forall u, In u (itexts i) -> part u t) /\ isize i < length t.
Definition body_fits (t : str) (v : kserd) : Prop := (forall u, In u (texts v) -> part u t) /\ size v <= S (length t).
Definition items_fit (t : str) (l : list item) : Prop := (forall i u, In i l -> In u (itexts i) -> part u t) /\ isum l <= length t /\ (l <> [] -> isum l < length t).
Lemma verbose_fits : (forall n t i, itemf n t i -> vitem_fits t i) /\ (forall n t v, bodyf n t v -> body_fits t v) /\ (forall n t l, itemsf n t l -> items_fit t l).
Proof.
  apply verbose_mut.
  - intros n w id B HI. split; [|cbn; lia]. intros u [<-|[]]. do 2 apply part_r. apply part_refl.
  - intros n t name v F. apply fieldf_fits with (n := length t) in F as [H1 H2]; [split; assumption| |lia]. intros u a _. apply derives_fits'.
  - intros n h name id w e t v HT B EO _ [H1 H2]. apply titlef_part in HT as [T1 T2]. split.
    + assert (X : forall u, In u (texts (default_id id v)) -> In u (otext id) \/ In u (texts v)).
      { intros u. destruct v as [o v]. unfold default_id. cbn [kid kval]. destruct o as [o|]; [auto|]. destruct id as [i|]; [|auto]. intros Hu.
        unfold texts in *. destruct v; cbn [preorder flat_map] in *; unfold texts_of in *; cbn [kid kval app] in *; destruct Hu as [<-|Hu]; auto; left; now left. }
      intros u [<-|Hu]; [apply part_r, part_l, T1|]. apply X in Hu as [Hu|Hu]; [apply part_r, part_l; now apply (otext_part id)|]. do 5 apply part_r. auto.
    + cbn [isize]. assert (size (default_id id v) = size v) as ->. { destruct v as [o v]. unfold default_id, size. cbn [kid kval]. destruct v; reflexivity. } rewrite !app_length. cbn. destruct EO as [-> | ->]; cbn; lia.
  - intros n h name id w e t v HT B EO _ [H1 H2]. apply titlef_part in HT as [T1 T2]. split.
    + intros u Hu. cbn [itexts] in Hu. apply in_app_or in Hu as [Hu|[<-|Hu]]; [apply part_r, part_l; now apply (otext_part id)|apply part_r, part_l, T1|]. do 5 apply part_r. auto.
    + cbn [isize]. rewrite !app_length. cbn. destruct EO as [-> | ->]; cbn; lia.
  - intros n h name id w e w1 tk k w2 w3 t v HT B EO B1 DK B2 B3 D. apply titlef_part in HT as [T1 T2]. apply derives_fits' in DK as [K1 K2]. apply derives_fits' in D as [D1 D2]. split.
    + intros u Hu. cbn [itexts] in Hu. apply in_app_or in Hu as [Hu|[<-|Hu]]; [apply part_r, part_l; now apply (otext_part id)|apply part_r, part_l, T1|].
      apply in_app_or in Hu as [Hu|Hu]; [do 6 apply part_r; apply part_l; auto|do 10 apply part_r; auto].
    + cbn [isize]. rewrite !app_length. cbn. destruct EO as [-> | ->]; cbn; lia.
  - intros n h name id w e w1 tk k w2 w3 e' t v HT B EO B1 DK B2 B3 EO' _ [D1 D2]. apply titlef_part in HT as [T1 T2]. apply derives_fits' in DK as [K1 K2]. split.
    + intros u Hu. cbn [itexts] in Hu. apply in_app_or in Hu as [Hu|[<-|Hu]]; [apply part_r, part_l; now apply (otext_part id)|apply part_r, part_l, T1|].
      apply in_app_or in Hu as [Hu|Hu]; [do 6 apply part_r; apply part_l; auto|do 11 apply part_r; auto].
    + cbn [isize]. rewrite !app_length. cbn. destruct EO as [-> | ->], EO' as [-> | ->]; cbn; lia.
  - intros n w t v B D. apply derives_fits' in D as [D1 D2]. split; [intros u Hu; apply part_r; auto|rewrite app_length; lia].
  - intros n t l _ (I1 & I2 & I3). split.
    + intros u Hu. apply container_texts in Hu as (i & Hi & Hu). eauto.
    + pose proof (container_size l). lia.
  - intros n. repeat split; [intros i u []|cbn; lia|congruence].
  - intros n w t i r l HL _ [I1 I2] _ (R1 & R2 & R3). split; [|split].
    + intros j u [<-|Hj] Hu; [apply part_r, part_l; auto|]. do 2 apply part_r. eauto.
    + change (isum (i :: l)) with (isize i + isum l). rewrite !app_length. lia.
    + intros _. change (isum (i :: l)) with (isize i + isum l). rewrite !app_length. lia.
Qed.
Lemma verbose_first_spaces w : spaces w -> verbose_first w = false.
Proof.
  intros H. unfold verbose_first. assert (trim w = []) as ->; [|reflexivity]. unfold spaces in H. induction w as [|c w IH]; [reflexivity|]. cbn [forallb trim] in *. destruct (space c); [auto|discriminate].
Qed.
Theorem format_fits src k : format src k -> fits src k.
Proof.
  intros [w1 t w2 v B1 D B2 _|t l w H B VF].
  - apply derives_fits' in D as [D1 D2]. split; [intros u Hu; apply part_r, part_l; auto|rewrite !app_length; lia].
  - pose proof H as H'. apply (proj2 (proj2 verbose_fits)) in H' as (I1 & I2 & I3). split.
    + intros u Hu. apply container_texts in Hu as (i & Hi & Hu). apply part_l. eauto.
    + pose proof (container_size l). destruct l as [|i l]; [|specialize (I3 ltac:(discriminate)); rewrite app_length; lia].
      inversion H; subst. rewrite verbose_first_spaces in VF by exact B. discriminate.
Qed.
Lemma parse_words src k x u : parse src = ParseOk k -> In x (preorder k) -> In u (texts_of x) -> exists before after, src = before ++ u ++ after.
Proof. intros H Hx Hu. apply parse_format, format_fits in H as [H _]. apply H. unfold texts. apply in_flat_map. eauto. Qed.
Lemma parse_size src k : parse src = ParseOk k -> length (preorder k) <= length src.
Proof. intros H. now apply parse_format, format_fits in H as [_ H]. Qed.
