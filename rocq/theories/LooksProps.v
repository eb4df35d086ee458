(** Values which look the same have the same text. *)
From Verif Require Import Base F64 Number BTree Value Base91 ValueProps Nav NavSpec Fmt Formatter LooksSpec.
Open Scope nat_scope.

Section Looks.
Variable cfg : config.
Notation lk := (looks cfg).

Lemma looks_size k : forall k', lk k k' -> ksize k = ksize k'.
Proof.
  induction k as [id v IH] using kserd_ind'. intros k' L. inversion L; subst; clear L; try reflexivity; cbn [ksize vchildren] in *; f_equal.
  - match goal with F : Forall2 _ l l' |- _ => induction F as [|x y l l' H F F'] end; [reflexivity|]. inversion IH; subst. cbn. f_equal; auto.
  - match goal with F : Forall2 _ m m' |- _ => induction F as [|x y m m' H F F'] end; [reflexivity|]. inversion IH; subst. destruct H. cbn. f_equal; auto.
  - match goal with F : Forall2 _ l l' |- _ => induction F as [|x y l l' H F F'] end; [reflexivity|]. inversion IH; subst. cbn. f_equal; auto.
  - match goal with F : Forall2 _ m m' |- _ => induction F as [|x y m m' H F F'] end; [reflexivity|]. cbn in IH. inversion IH as [|? ? I1 I2]; subst. inversion I2; subst. destruct H. cbn. f_equal; [f_equal; auto|]. apply F'; assumption.
Qed.

(** ** nodes *)
Definition nrel (n n' : node) : Prop :=
  lk (n_kserd n) (n_kserd n') /\ n_idx n = n_idx n' /\ n_parent n = n_parent n' /\ n_value_idx n = n_value_idx n' /\ n_key_idx n = n_key_idx n' /\
  n_value_children n = n_value_children n' /\ n_key_children n = n_key_children n'.
Definition irel (e e' : ninfo * kserd) : Prop := fst e = fst e' /\ lk (snd e) (snd e').
Lemma enumerate_rel {A} (R : A -> A -> Prop) l l' : Forall2 R l l' -> forall i, Forall2 (fun e e' => fst e = fst e' /\ R (snd e) (snd e')) (enumerate_from i l) (enumerate_from i l').
Proof. induction 1; intros i; cbn; constructor; auto. Qed.
Lemma Forall2_rev {A B} (R : A -> B -> Prop) l l' : Forall2 R l l' -> Forall2 R (rev l) (rev l').
Proof. induction 1; cbn; [constructor|]. apply Forall2_app; auto. Qed.
Lemma Forall2_mapped {A B C D} (R : C -> D -> Prop) (f : A -> C) (g : B -> D) l l' : Forall2 (fun x y => R (f x) (g y)) l l' -> Forall2 R (map f l) (map g l').
Proof. induction 1; cbn; constructor; auto. Qed.
Lemma Forall2_imp {A B} (R S : A -> B -> Prop) l l' : (forall x y, R x y -> S x y) -> Forall2 R l l' -> Forall2 S l l'.
Proof. intros H. induction 1; constructor; auto. Qed.
Lemma Forall2_len {A B} (R : A -> B -> Prop) l l' : Forall2 R l l' -> length l = length l'.
Proof. induction 1; cbn; auto. Qed.
Lemma pushes_rel p k k' : lk k k' -> Forall2 irel (pushes p (kval k)) (pushes p (kval k')).
Proof.
  intros L. inversion L; subst; cbn [kval pushes]; try constructor.
  - apply Forall2_mapped, Forall2_rev. eapply Forall2_imp; [|apply enumerate_rel; eassumption]. intros x y [E H']. split; cbn; [now rewrite E|exact H'].
  - apply Forall2_mapped, Forall2_rev. eapply Forall2_imp; [|apply (enumerate_rel lk), Forall2_mapped; eapply Forall2_imp; [|eassumption]; now intros ? ? [_ ?]]. intros x y [E H']. split; cbn; [now rewrite E|exact H'].
  - apply Forall2_mapped, Forall2_rev. eapply Forall2_imp; [|apply enumerate_rel; eassumption]. intros x y [E H']. split; cbn; [now rewrite E|exact H'].
  - assert (F : Forall2 (fun e e' => fst e = fst e' /\ (lk (fst (snd e)) (fst (snd e')) /\ lk (snd (snd e)) (snd (snd e')))) (rev (enumerate m)) (rev (enumerate m'))).
    { apply Forall2_rev. apply (enumerate_rel (fun e e' => lk (fst e) (fst e') /\ lk (snd e) (snd e'))). assumption. }
    induction F as [|x y l l' [E [H1 H2]] F IH]; [constructor|]. cbn. rewrite E. repeat constructor; assumption.
Qed.
Lemma push_rel {A} (R : A -> A -> Prop) l l' : Forall2 R l l' -> forall st st', Forall2 R st st' -> Forall2 R (push_each st l) (push_each st' l').
Proof. unfold push_each. induction 1; intros st st' S; cbn; [exact S|]. apply IHForall2. constructor; assumption. Qed.
Definition orel {A} (R : A -> A -> Prop) (o o' : option A) : Prop := match o, o' with Some x, Some y => R x y | None, None => True | _, _ => False end.
Lemma nav_loop_rel fuel : forall st st' inner inner', Forall2 irel st st' -> Forall2 nrel inner inner' ->
  orel (Forall2 nrel) (nav_loop fuel st inner) (nav_loop fuel st' inner').
Proof.
  induction fuel as [|fuel IH]; intros st st' inner inner' S I; destruct S as [|[i x] [j y] st st' [E H] S]; cbn [nav_loop orel]; try exact I; try exact Logic.I.
  cbn in E. subst j. cbn in H. pose proof (Forall2_len _ _ _ I) as EL. rewrite <- EL. apply IH.
  - apply push_rel; [now apply pushes_rel|exact S].
  - apply Forall2_app; [exact I|]. repeat constructor. cbn. exact H.
Qed.
Lemma children_rel inner inner' p (sel : node -> option nat) : (forall n n', nrel n n' -> sel n = sel n') -> Forall2 nrel inner inner' -> children_of inner sel p = children_of inner' sel p.
Proof.
  intros HS I. unfold children_of. f_equal. f_equal. induction I as [|n n' l l' H I IH]; [reflexivity|]. cbn [filter].
  destruct H as (H1 & H2 & H3 & H4). rewrite <- H3. destruct (opt_eqb _ _); [|exact IH]. cbn [flat_map]. rewrite IH. rewrite <- (HS n n') by (repeat split; tauto). now rewrite <- H2.
Qed.
Lemma link_rel inner inner' : Forall2 nrel inner inner' -> Forall2 nrel (map (link_node inner) inner) (map (link_node inner') inner').
Proof.
  intros I. apply Forall2_mapped. eapply Forall2_imp; [|exact I]. intros n n' (H1 & H2 & H3 & H4 & H5 & H6 & H7). unfold link_node, nrel. cbn.
  rewrite <- H2, <- H3, <- H4, <- H5, <- H6, <- H7.
  rewrite <- (children_rel inner inner' _ n_value_idx), <- (children_rel inner inner' _ n_key_idx) by (try exact I; intros ? ? (? & ? & ? & ? & ? & _); assumption). repeat split; auto.
Qed.
Definition lrel {A B} (R : A -> B -> Prop) (x : lres A) (y : lres B) : Prop := match x, y with LRet a, LRet b => R a b | LPanic, LPanic | LFuel, LFuel => True | _, _ => False end.
Lemma nav_rel k k' : lk k k' -> lrel (Forall2 nrel) (nav_new k) (nav_new k').
Proof.
  intros L. unfold nav_new. rewrite <- (looks_size k k' L). pose proof (nav_loop_rel (ksize k) [(info_default, k)] [(info_default, k')] [] []) as H.
  assert (H1 : Forall2 irel [(info_default, k)] [(info_default, k')]) by (repeat constructor; assumption). specialize (H H1 (Forall2_nil _)).
  destruct (nav_loop _ [(info_default, k)] []) as [inner|], (nav_loop _ [(info_default, k')] []) as [inner'|]; cbn [orel] in H; try contradiction; [|exact Logic.I].
  assert (EP : parents_in_range inner = parents_in_range inner').
  { unfold parents_in_range. rewrite (Forall2_len _ _ _ H). generalize (length inner'). intros m. induction H as [|n n' l l' H0 H IH]; [reflexivity|]. cbn [forallb]. rewrite IH. destruct H0 as (_ & _ & P & _). now rewrite P. }
  rewrite EP. destruct (parents_in_range inner'); [|exact Logic.I]. cbn. now apply link_rel.
Qed.

(** ** navigators *)
Variables nv nv' : nav.
Hypothesis NV : Forall2 nrel nv nv'.
Lemma get_rel i : orel nrel (nav_get nv i) (nav_get nv' i).
Proof. unfold nav_get. clear -NV. revert i. induction NV as [|n n' l l' H N IH]; intros [|i]; cbn; auto; try exact Logic.I. Qed.
Lemma parent_rel n n' : nrel n n' -> orel nrel (node_parent nv n) (node_parent nv' n').
Proof. intros (_ & _ & H & _). unfold node_parent. rewrite H. destruct (n_parent n'); cbn; [apply get_rel|exact Logic.I]. Qed.
Lemma seq_iter_rel l : Forall2 nrel (seq_iter nv l) (seq_iter nv' l).
Proof. induction l as [|i l IH]; cbn [seq_iter]; [constructor|]. pose proof (get_rel i) as G. destruct (nav_get nv i), (nav_get nv' i); cbn [orel] in G; try contradiction; constructor; (assumption || exact IH). Qed.
Definition frel (e e' : str * node) : Prop := fst e = fst e' /\ nrel (snd e) (snd e').
Definition erel (e e' : node * node) : Prop := nrel (fst e) (fst e') /\ nrel (snd e) (snd e').
Lemma named_rel names : forall l, Forall2 frel (named_iter nv names l) (named_iter nv' names l).
Proof.
  induction names as [|name names IH]; intros [|i l]; cbn [named_iter]; try constructor. pose proof (get_rel i) as G. destruct (nav_get nv i), (nav_get nv' i); cbn [orel] in G; try contradiction; constructor; [now split|apply IH].
Qed.
Lemma keyed_rel ks : forall vs, Forall2 erel (keyed_iter nv ks vs) (keyed_iter nv' ks vs).
Proof.
  induction ks as [|i ks IH]; intros [|j vs]; cbn [keyed_iter]; try constructor. pose proof (get_rel i) as G. pose proof (get_rel j) as G'.
  destruct (nav_get nv i), (nav_get nv' i); cbn [orel] in G; try contradiction; try constructor. destruct (nav_get nv j), (nav_get nv' j); cbn [orel] in G'; try contradiction; constructor; [now split|apply IH].
Qed.
Inductive vrel : node_value -> node_value -> Prop :=
| vr_prim : vrel NPrimitive NPrimitive
| vr_tuple l l' : Forall2 nrel l l' -> vrel (NTuple l) (NTuple l')
| vr_cntr m m' : Forall2 frel m m' -> vrel (NCntr m) (NCntr m')
| vr_seq l l' : Forall2 nrel l l' -> vrel (NSeq l) (NSeq l')
| vr_map m m' : Forall2 erel m m' -> vrel (NMap m) (NMap m').
Lemma val_rel n n' : nrel n n' -> vrel (node_val nv n) (node_val nv' n').
Proof.
  intros (H & _ & _ & _ & _ & HV & HK). unfold node_val. rewrite <- HV, <- HK. 
  inversion H; cbn [kval]; constructor; try apply seq_iter_rel; try apply keyed_rel.
  replace (map fst m') with (map fst m); [apply named_rel|]. match goal with F : Forall2 _ m m' |- _ => clear -F; induction F as [|? ? ? ? [E _]] end; cbn; congruence.
Qed.
Lemma is_key_rel n n' : nrel n n' -> is_key n = is_key n'.
Proof. intros (_ & _ & _ & _ & H & _). unfold is_key. now rewrite H. Qed.
Lemma idx_rel n n' : nrel n n' -> n_idx n = n_idx n'.
Proof. now intros (_ & H & _). Qed.
Lemma in_parent_rel n n' : nrel n n' -> idx_in_parent n = idx_in_parent n'.
Proof. intros (_ & _ & _ & H4 & H5 & _). unfold idx_in_parent. now rewrite H4, H5. Qed.
Lemma len_rel : length nv = length nv'.
Proof. exact (Forall2_len _ _ _ NV). Qed.
Lemma lfold_rel {A B} (R : A -> A -> Prop) (f f' : B -> A -> lres B) l l' : Forall2 R l l' -> (forall acc x x', R x x' -> f acc x = f' acc x') -> forall acc, lfold f l acc = lfold f' l' acc.
Proof. intros F H. induction F as [|x x' l l' E F IH]; intros acc; [reflexivity|]. cbn [lfold]. rewrite <- (H acc x x' E). destruct (f acc x); cbn [lbind]; auto. Qed.
Lemma lfold_eq {A B} (f f' : B -> A -> lres B) l : (forall acc x, f acc x = f' acc x) -> forall acc, lfold f l acc = lfold f' l acc.
Proof. intros H. induction l as [|x l IH]; intros acc; [reflexivity|]. cbn [lfold]. rewrite H. destruct (f' acc x); cbn [lbind]; auto. Qed.
Lemma max_line_rel v v' : vrel v v' -> max_line_repr v = max_line_repr v'.
Proof. intros V. destruct V as [|l l' F|m m' F|l l' F|m m' F]; cbn; try destruct F; reflexivity. Qed.
Lemma depth_rel fuel : forall todo l l', Forall2 nrel l l' -> lrel (Forall2 nrel) (depth_loop fuel nv todo l) (depth_loop fuel nv' todo l').
Proof.
  induction fuel as [|fuel IH]; intros [|i todo] l l' L; cbn [depth_loop]; try exact Logic.I; try exact L. pose proof (get_rel i) as G. destruct (nav_get nv i) as [n|], (nav_get nv' i) as [n'|]; cbn [orel] in G; try contradiction; try exact Logic.I. destruct G as (G & G').
  assert (E : depth_pushes n = depth_pushes n') by (unfold depth_pushes; destruct G' as (_ & _ & _ & _ & -> & ->); reflexivity). rewrite <- E. apply IH. apply Forall2_app; [exact L|]. repeat constructor; tauto.
Qed.
Lemma breadth_rel fuel : forall todo l l', Forall2 nrel l l' -> lrel (Forall2 nrel) (breadth_loop fuel nv todo l) (breadth_loop fuel nv' todo l').
Proof.
  induction fuel as [|fuel IH]; intros [|i todo] l l' L; cbn [breadth_loop]; try exact Logic.I; try exact L. pose proof (get_rel i) as G. destruct (nav_get nv i) as [n|], (nav_get nv' i) as [n'|]; cbn [orel] in G; try contradiction; try exact Logic.I. destruct G as (G & G').
  assert (E : breadth_children n = breadth_children n') by (unfold breadth_children; destruct G' as (_ & _ & _ & _ & -> & ->); reflexivity). rewrite <- E. apply IH. apply Forall2_app; [exact L|]. repeat constructor; tauto.
Qed.
Lemma descendants_depth_rel n n' : nrel n n' -> lrel (Forall2 nrel) (descendants_depth nv n) (descendants_depth nv' n').
Proof.
  intros (_ & _ & _ & _ & _ & H6 & H7). unfold descendants_depth. rewrite <- len_rel. replace (depth_pushes n') with (depth_pushes n) by (unfold depth_pushes; now rewrite H6, H7). apply depth_rel. constructor.
Qed.
Lemma descendants_breadth_rel n n' : nrel n n' -> lrel (Forall2 nrel) (descendants_breadth nv n) (descendants_breadth nv' n').
Proof.
  intros (_ & _ & _ & _ & _ & H6 & H7). unfold descendants_breadth. rewrite <- len_rel. replace (breadth_children n') with (breadth_children n) by (unfold breadth_children; now rewrite H6, H7). apply breadth_rel. constructor.
Qed.

(** ** formats *)
Lemma lbind_eq {A B} (x : lres A) (f g : A -> lres B) : (forall a, f a = g a) -> lbind x f = lbind x g.
Proof. intros H. destruct x; cbn; auto. Qed.
Lemma constraints_rel fmts n n' : nrel n n' -> line_repr_constraints nv fmts n = line_repr_constraints nv' fmts n'.
Proof.
  intros H. unfold line_repr_constraints. rewrite (max_line_rel _ _ (val_rel n n' H)). f_equal. pose proof (parent_rel n n' H) as P. destruct (node_parent nv n), (node_parent nv' n'); cbn [orel] in P; try contradiction; try reflexivity. cbn. now rewrite (idx_rel _ _ P).
Qed.
Lemma request_rel fmts i r : request_repr nv fmts i r = request_repr nv' fmts i r.
Proof.
  unfold request_repr. pose proof (get_rel i) as G. destruct (nav_get nv i) as [n|], (nav_get nv' i) as [n'|]; cbn [orel] in G; try contradiction; [|reflexivity].
  apply lbind_eq. intros prev. destruct (repr_eqb r (f_line prev)); [reflexivity|].
  replace (match node_val nv' n' with NSeq _ | NMap _ => true | _ => false end) with (match node_val nv n with NSeq _ | NMap _ => true | _ => false end) by (destruct (val_rel n n' G); reflexivity).
  destruct (_ && _); [reflexivity|]. rewrite (constraints_rel fmts n n' G). destruct (line_repr_constraints nv' fmts n') as [mx pa]. apply lbind_eq. intros [r'|e]; [|reflexivity].
  pose proof (descendants_depth_rel n n' G) as DD. destruct (descendants_depth nv n) as [ds| |], (descendants_depth nv' n') as [ds'| |]; cbn [lrel] in DD; try contradiction; try reflexivity; cbn [lbind].
  rewrite (lfold_rel nrel _ (fun fmts d => dl cur <- lunwrap (nth_error fmts (n_idx d)) ; LRet (if repr_lt r' (f_line cur) then update fmts (n_idx d) (set_line r') else fmts)) ds ds'); [reflexivity|exact DD|].
  intros acc d d' H2. now rewrite (idx_rel _ _ H2).
Qed.

Lemma initial_rel n n' : nrel n n' -> initial_fmt nv n = initial_fmt nv' n'.
Proof. intros H. unfold initial_fmt. now rewrite (max_line_rel _ _ (val_rel n n' H)), (is_key_rel n n' H). Qed.
Lemma knock_rel fmts i : knock_on nv fmts i = knock_on nv' fmts i.
Proof.
  unfold knock_on. pose proof (get_rel i) as G. destruct (nav_get nv i) as [n|], (nav_get nv' i) as [n'|]; cbn [orel] in G; try contradiction; [|reflexivity]. cbn [opt_bind].
  pose proof (parent_rel n n' G) as P. destruct (node_parent nv n) as [p|], (node_parent nv' n') as [p'|]; cbn [orel] in P; try contradiction; [|reflexivity].
  rewrite <- (idx_rel p p' P). apply lbind_eq. intros a. apply lbind_eq. intros b. destruct (repr_lt _ _); [|reflexivity]. now rewrite request_rel.
Qed.
Lemma map_idx : map n_idx nv = map n_idx nv'.
Proof. clear -NV. induction NV as [|n n' l l' H N IH]; [reflexivity|]. cbn. now rewrite (idx_rel n n' H), IH. Qed.
Lemma initials : map (initial_fmt nv) nv = map (initial_fmt nv') nv'.
Proof.
  assert (H : forall l l', Forall2 nrel l l' -> map (initial_fmt nv) l = map (initial_fmt nv') l').
  { induction 1 as [|n n' l l' H N IH]; [reflexivity|]. cbn [map]. now rewrite (initial_rel n n' H), IH. }
  now apply H.
Qed.
Lemma root_rel : orel nrel (nav_root nv) (nav_root nv').
Proof. unfold nav_root. destruct NV; [exact Logic.I|assumption]. Qed.

(** ** widths *)
Lemma names_rel (m m' : list (str * kserd)) : Forall2 (fun e e' => fst e = fst e' /\ lk (snd e) (snd e')) m m' -> map (fun e => length (fst e)) m = map (fun e => length (fst e)) m'.
Proof. induction 1 as [|x y l l' [E _] F IH]; [reflexivity|]. cbn [map]. f_equal; [exact (f_equal (@length char) E)|exact IH]. Qed.
Lemma inline_width_rel k k' : lk k k' -> inline_width k cfg = inline_width k' cfg.
Proof.
  intros L. inversion L; subst; unfold inline_width, ident_len; cbn [kval kid]; try reflexivity; unfold same_id, same_tuple_id in *;
    try (destruct (id_on_primitives cfg); subst; congruence);
    match goal with F : Forall2 _ _ _ |- _ => rewrite (Forall2_len _ _ _ F); try rewrite (names_rel _ _ F) end; f_equal.
  - destruct (id_on_tuples cfg); [now subst|now rewrite !andb_false_r].
  - destruct (id_on_containers cfg); [now subst|now rewrite !andb_false_r].
  - destruct (id_on_seqs cfg); [now subst|now rewrite !andb_false_r].
  - destruct (id_on_maps cfg); [now subst|now rewrite !andb_false_r].
Qed.
Lemma concise_width_rel k k' : lk k k' -> concise_width k cfg = concise_width k' cfg.
Proof.
  intros L. pose proof (inline_width_rel k k' L) as W. inversion L; subst; unfold concise_width, ident_len; cbn [kval kid]; try exact W; unfold same_id, same_tuple_id in *; f_equal.
  - destruct (id_on_tuples cfg); [now subst|reflexivity].
  - destruct (id_on_containers cfg); [now subst|reflexivity].
  - destruct (id_on_seqs cfg); [now subst|reflexivity].
  - destruct (id_on_maps cfg); [now subst|reflexivity].
Qed.
Definition wrel (f f' : node -> widths_t -> lres (nat * widths_t)) : Prop := forall n n' ws, nrel n n' -> f n ws = f' n' ws.
Lemma child_width_rel f f' n n' ws : wrel f f' -> nrel n n' -> child_width f n ws = child_width f' n' ws.
Proof. intros W H. unfold child_width. rewrite <- (idx_rel n n' H), <- (W n n' ws H). reflexivity. Qed.
Lemma inline_recurse_rel fuel : wrel (inline_widths_recurse fuel nv cfg) (inline_widths_recurse fuel nv' cfg).
Proof.
  induction fuel as [|fuel IH]; intros n n' ws H; [reflexivity|]. cbn [inline_widths_recurse]. destruct H as (H1 & H). assert (H0 : nrel n n') by (split; assumption).
  rewrite <- (inline_width_rel _ _ H1).
  assert (V : Forall2 nrel (value_children nv n) (value_children nv' n')) by (unfold value_children; replace (n_value_children n') with (n_value_children n) by tauto; apply seq_iter_rel).
  assert (K : Forall2 nrel (key_children nv n) (key_children nv' n')) by (unfold key_children; replace (n_key_children n') with (n_key_children n) by tauto; apply seq_iter_rel).
  set (f := fun acc child => _). set (f' := fun acc child => _).
  assert (E : forall acc x x', nrel x x' -> f acc x = f' acc x') by (intros acc x x' R; unfold f, f'; now rewrite (child_width_rel _ _ x x' (snd acc) IH R)).
  rewrite (lfold_rel nrel f f' _ _ V E). apply lbind_eq. intros acc. now apply (lfold_rel nrel).
Qed.
Lemma all_widths_rel f f' : wrel f f' -> all_widths f nv = all_widths f' nv'.
Proof.
  intros W. unfold all_widths, nav_nodes, nav_len. rewrite len_rel.
  match goal with |- lbind (lfold ?g _ _) _ = lbind (lfold ?g' _ _) _ => rewrite (lfold_rel nrel g g' nv nv' NV); [reflexivity|] end.
  intros acc x x' R. cbv beta. rewrite <- (idx_rel x x' R). apply lbind_eq. intros [w|]; [reflexivity|]. now rewrite (W x x' acc R).
Qed.
Lemma inline_widths_rel : inline_widths nv cfg = inline_widths nv' cfg.
Proof. unfold inline_widths, nav_len. rewrite <- len_rel. apply all_widths_rel, inline_recurse_rel. Qed.
Lemma concise_recurse_rel inw fuel : wrel (concise_widths_recurse fuel nv cfg inw) (concise_widths_recurse fuel nv' cfg inw).
Proof.
  induction fuel as [|fuel IH]; intros n n' ws H; [reflexivity|]. cbn [concise_widths_recurse]. rewrite <- (concise_width_rel _ _ (proj1 H)).
  destruct (val_rel n n' H) as [|l l' F|m m' F|l l' F|m m' F]; [reflexivity|..].
  - apply (lfold_rel nrel); [exact F|]. intros acc x x' R. now rewrite (child_width_rel _ _ x x' _ IH R).
  - apply (lfold_rel frel); [exact F|]. intros acc [a x] [a' x'] [E R]. cbn [fst snd] in *. subst a'. now rewrite (child_width_rel _ _ _ _ _ IH R).
  - apply (lfold_rel nrel); [exact F|]. intros acc x x' R. now rewrite (child_width_rel _ _ x x' _ IH R).
  - apply (lfold_rel erel); [exact F|]. intros acc x x' [R1 R2]. now rewrite (child_width_rel _ _ _ _ _ IH R2), (idx_rel _ _ R1).
Qed.
Lemma concise_widths_rel inw : concise_widths nv cfg inw = concise_widths nv' cfg inw.
Proof. unfold concise_widths, nav_len. rewrite <- len_rel. apply all_widths_rel, concise_recurse_rel. Qed.

(** ** columns *)
Lemma nth_rel {A} (R : A -> A -> Prop) l l' i : Forall2 R l l' -> orel R (nth_error l i) (nth_error l' i).
Proof. intros F. revert i. induction F; intros [|i]; cbn; auto; exact Logic.I. Qed.
Lemma concise_column_rel v v' n n' fmts inw : vrel v v' -> nrel n n' -> concise_column v n fmts inw = concise_column v' n' fmts inw.
Proof.
  intros V H. destruct V as [|l l' F|m m' F|l l' F|m m' F]; cbn [concise_column]; try reflexivity.
  - unfold cntr_field_offset. rewrite <- (in_parent_rel n n' H). pose proof (nth_rel frel m m' (idx_in_parent n) F) as E. destruct (nth_error m _), (nth_error m' _); cbn [orel] in E; try contradiction; [|reflexivity]. destruct E as [E _]. cbn. now rewrite E.
  - unfold map_entry_offset. rewrite <- (is_key_rel n n' H), <- (in_parent_rel n n' H). destruct (is_key n); [reflexivity|].
    pose proof (nth_rel erel m m' (idx_in_parent n) F) as E. destruct (nth_error m _), (nth_error m' _); cbn [orel] in E; try contradiction; [|reflexivity]. destruct E as [E _]. cbn [lunwrap lbind]. now rewrite (idx_rel _ _ E).
Qed.
Lemma verbose_column_rel v v' n n' w w' : vrel v v' -> nrel n n' -> vrel w w' -> verbose_column v n w = verbose_column v' n' w'.
Proof. intros V H W. destruct V, W; cbn [verbose_column]; try reflexivity; now rewrite (is_key_rel n n' H). Qed.
Lemma offset_loop_rel fmts inw fuel : forall n n' off, nrel n n' -> lrel (fun x y => fst x = fst y /\ nrel (snd x) (snd y)) (offset_loop fuel nv fmts inw n off) (offset_loop fuel nv' fmts inw n' off).
Proof.
  induction fuel as [|fuel IH]; intros n n' off H; cbn [offset_loop]; pose proof (parent_rel n n' H) as P; destruct (node_parent nv n) as [p|], (node_parent nv' n') as [p'|]; cbn [orel] in P; try contradiction; try (split; [reflexivity|exact H]); try exact Logic.I.
  rewrite <- (idx_rel p p' P). destruct (nth_error fmts (n_idx p)) as [pf|]; cbn [lunwrap lbind]; [|exact Logic.I].
  rewrite <- (concise_column_rel _ _ n n' fmts inw (val_rel p p' P) H), <- (verbose_column_rel _ _ n n' _ _ (val_rel p p' P) H (val_rel n n' H)).
  match goal with |- lrel _ (lbind ?x _) _ => destruct x end; cbn [lbind]; [|exact Logic.I..]. now apply IH.
Qed.
Lemma offset_rel n n' fmts inw : nrel n n' -> calculate_offset nv n fmts inw = calculate_offset nv' n' fmts inw.
Proof.
  intros H. unfold calculate_offset. pose proof (parent_rel n n' H) as P. destruct (node_parent nv n) as [p|], (node_parent nv' n') as [p'|]; cbn [orel] in P; try contradiction; [|reflexivity].
  rewrite <- (idx_rel p p' P). apply lbind_eq. intros pf. rewrite <- (concise_column_rel _ _ n n' fmts inw (val_rel p p' P) H). apply lbind_eq. intros off. unfold nav_len. rewrite <- len_rel.
  pose proof (offset_loop_rel fmts inw (length nv) p p' off P) as O. destruct (offset_loop _ nv _ _ _ _) as [[o q]| |], (offset_loop _ nv' _ _ _ _) as [[o' q']| |]; cbn [lrel] in O; try contradiction; try reflexivity.
  cbn [fst snd lbind] in *. destruct O as [-> O]. now rewrite (idx_rel q q' O).
Qed.

(** ** apply_config *)
Lemma id_flag_rel v v' : vrel v v' -> id_flag cfg v = id_flag cfg v'.
Proof. now intros []. Qed.
Lemma apply_ids_rel fmts : apply_ids nv cfg fmts = apply_ids nv' cfg fmts.
Proof.
  unfold apply_ids, nav_len. rewrite len_rel. apply lfold_eq. intros acc i. pose proof (get_rel i) as G. destruct (nav_get nv i) as [n|], (nav_get nv' i) as [n'|]; cbn [orel] in G; try contradiction; [|reflexivity]. cbn [lunwrap lbind].
  now rewrite (id_flag_rel _ _ (val_rel n n' G)).
Qed.
Lemma apply_node_rel inw con fmts i : apply_node nv cfg inw con fmts i = apply_node nv' cfg inw con fmts i.
Proof.
  unfold apply_node. pose proof (get_rel i) as G. destruct (nav_get nv i) as [n|], (nav_get nv' i) as [n'|]; cbn [orel] in G; try contradiction; [|reflexivity]. cbn [lunwrap lbind].
  rewrite <- (offset_rel n n' fmts inw G). apply lbind_eq. intros off. apply lbind_eq. intros r. pose proof (parent_rel n n' G) as P.
  destruct (node_parent nv n) as [p|], (node_parent nv' n') as [p'|]; cbn [orel] in P; try contradiction; [|reflexivity]. cbn [lunwrap lbind]. rewrite request_rel.
  replace (match r, node_val nv' n', node_val nv' p' with Concise, NCntr _, NSeq _ => Verbose | _, _, _ => r end) with (match r, node_val nv n, node_val nv p with Concise, NCntr _, NSeq _ => Verbose | _, _, _ => r end); [reflexivity|].
  destruct (val_rel n n' G), (val_rel p p' P); reflexivity.
Qed.
Lemma config_rel fmts : lrel (fun fm fm' => fm_nav fm = nv /\ fm_nav fm' = nv' /\ fm_fmts fm = fm_fmts fm') (apply_config (mkFmtr nv fmts) cfg) (apply_config (mkFmtr nv' fmts) cfg).
Proof.
  unfold apply_config. cbn [fm_nav fm_fmts]. rewrite <- apply_ids_rel. destruct (apply_ids nv cfg fmts) as [f1| |]; cbn [lbind]; [|exact Logic.I..].
  pose proof root_rel as RR. destruct (nav_root nv) as [r|], (nav_root nv') as [r'|]; cbn [orel] in RR; try contradiction; [|exact Logic.I]. cbn [lunwrap lbind].
  rewrite <- inline_widths_rel. destruct (inline_widths nv cfg) as [inw| |]; cbn [lbind]; [|exact Logic.I..]. rewrite <- concise_widths_rel. destruct (concise_widths nv cfg inw) as [con| |]; cbn [lbind]; [|exact Logic.I..].
  destruct (min_line_repr 0 (width_limit cfg) inw con) as [q| |]; cbn [lbind]; [|exact Logic.I..].
  pose proof (descendants_breadth_rel r r' RR) as DB. destruct (descendants_breadth nv r) as [ds| |], (descendants_breadth nv' r') as [ds'| |]; cbn [lrel] in DB; try contradiction; try exact Logic.I. cbn [lbind].
  rewrite <- request_rel. destruct (request_repr nv f1 0 q) as [x| |]; cbn [lbind]; [|exact Logic.I..].
  assert (E : map n_idx ds = map n_idx ds') by (clear -DB; induction DB as [|a b l l' H F IH]; [reflexivity|]; cbn; now rewrite (idx_rel a b H), IH). rewrite <- E.
  rewrite (lfold_eq (apply_node nv cfg inw con) (apply_node nv' cfg inw con)) by (intros; apply apply_node_rel).
  destruct (lfold (apply_node nv' cfg inw con) (map n_idx ds) (fst x)) as [f2| |]; cbn [lbind lrel fm_nav fm_fmts]; auto.
Qed.
End Looks.

Lemma new_rel cfg k k' : looks cfg k k' -> lrel (fun fm fm' => Forall2 (nrel cfg) (fm_nav fm) (fm_nav fm') /\ fm_fmts fm = fm_fmts fm') (fm_new k) (fm_new k').
Proof.
  intros L. unfold fm_new. pose proof (nav_rel cfg k k' L) as N. destruct (nav_new k) as [nv| |], (nav_new k') as [nv'| |]; cbn [lrel] in N; try contradiction; try exact Logic.I. cbn [lbind]. unfold nav_nodes.
  rewrite <- (initials cfg nv nv' N). pose proof (root_rel cfg nv nv' N) as RR. destruct (nav_root nv) as [r|], (nav_root nv') as [r'|]; cbn [orel] in RR; try contradiction; [|exact Logic.I]. cbn [lunwrap lbind].
  rewrite <- (request_rel cfg nv nv' N), <- (map_idx cfg nv nv' N).
  replace (match node_val nv' r' with NSeq _ | NMap _ => dl x <- request_repr nv (map (initial_fmt nv) nv) 0 Concise; LRet (fst x) | _ => LRet (map (initial_fmt nv) nv) end)
    with (match node_val nv r with NSeq _ | NMap _ => dl x <- request_repr nv (map (initial_fmt nv) nv) 0 Concise; LRet (fst x) | _ => LRet (map (initial_fmt nv) nv) end)
    by (destruct (val_rel cfg nv nv' N r r' RR); reflexivity).
  match goal with |- lrel _ (lbind ?x _) _ => destruct x as [f1| |] end; cbn [lbind]; [|exact Logic.I..].
  rewrite (lfold_eq (knock_on nv) (knock_on nv')) by (intros; now apply (knock_rel cfg)). destruct (lfold (knock_on nv') _ f1) as [f2| |]; cbn [lbind lrel fm_nav fm_fmts]; auto.
Qed.

(** ** the writers *)
Section Write.
Variable cfg : config.
Variables nv nv' : nav.
Hypothesis NV : Forall2 (nrel cfg) nv nv'.
Variable fmts : list fmt.
(** the flags are those of the configuration *)
Definition flagged (n : node) : Prop := forall f, nth_error fmts (n_idx n) = Some f -> f_id f = id_flag cfg (node_val nv n).
Hypothesis FL : forall n, In n nv -> flagged n.
Definition xrel (n n' : node) : Prop := nrel cfg n n' /\ flagged n.
Definition xfrel (e e' : str * node) : Prop := fst e = fst e' /\ xrel (snd e) (snd e').
Definition xerel (e e' : node * node) : Prop := xrel (fst e) (fst e') /\ xrel (snd e) (snd e').
Inductive xvrel : node_value -> node_value -> Prop :=
| xv_prim : xvrel NPrimitive NPrimitive
| xv_tuple l l' : Forall2 xrel l l' -> xvrel (NTuple l) (NTuple l')
| xv_cntr m m' : Forall2 xfrel m m' -> xvrel (NCntr m) (NCntr m')
| xv_seq l l' : Forall2 xrel l l' -> xvrel (NSeq l) (NSeq l')
| xv_map m m' : Forall2 xerel m m' -> xvrel (NMap m) (NMap m').
Lemma get_flagged i n : nav_get nv i = Some n -> flagged n.
Proof. intros H. apply FL. now apply nth_error_In in H. Qed.
Lemma seq_flagged l : Forall flagged (seq_iter nv l).
Proof. induction l as [|i l IH]; cbn [seq_iter]; [constructor|]. destruct (nav_get nv i) eqn:E; constructor; [now apply (get_flagged i)|exact IH]. Qed.
Lemma named_flagged names : forall l, Forall (fun e => flagged (snd e)) (named_iter nv names l).
Proof. induction names as [|a names IH]; intros [|i l]; cbn [named_iter]; try constructor. destruct (nav_get nv i) eqn:E; constructor; [now apply (get_flagged i)|apply IH]. Qed.
Lemma keyed_flagged ks : forall l, Forall (fun e => flagged (fst e) /\ flagged (snd e)) (keyed_iter nv ks l).
Proof.
  induction ks as [|j ks IH]; intros [|i l]; cbn [keyed_iter]; try constructor. destruct (nav_get nv j) eqn:E, (nav_get nv i) eqn:E'; constructor; [|apply IH]. split; [now apply (get_flagged j)|now apply (get_flagged i)].
Qed.
Lemma with_flags {A} (R S : A -> A -> Prop) (P : A -> Prop) l l' : (forall x y, R x y -> P x -> S x y) -> Forall2 R l l' -> Forall P l -> Forall2 S l l'.
Proof. intros H F. induction F; intros G; inversion G; constructor; auto. Qed.
Lemma xval_rel n n' : nrel cfg n n' -> xvrel (node_val nv n) (node_val nv' n').
Proof.
  intros H. pose proof (val_rel cfg nv nv' NV n n' H) as V. unfold node_val in *. destruct (kval (n_kserd n)), (kval (n_kserd n')); inversion V; subst; constructor.
  - eapply with_flags; [|eassumption|apply seq_flagged]. now split.
  - eapply with_flags; [|eassumption|apply named_flagged]. intros x y [E R] F. split; [exact E|now split].
  - eapply with_flags; [|eassumption|apply seq_flagged]. now split.
  - eapply with_flags; [|eassumption|apply keyed_flagged]. intros x y [R1 R2] [F1 F2]. split; now split.
Qed.
Variables rec rec' : bool -> str -> node -> nat -> lres str.
Hypothesis RC : forall b buf n n' col, xrel n n' -> rec b buf n col = rec' b buf n' col.
Lemma get_fmt_rel n n' : xrel n n' -> get_fmt fmts n = get_fmt fmts n'.
Proof. intros [H _]. unfold get_fmt. now rewrite (idx_rel cfg n n' H). Qed.
Lemma inline_items_rel col l l' buf : Forall2 xrel l l' -> inline_items rec col l buf = inline_items rec' col l' buf.
Proof.
  intros F. unfold inline_items. rewrite (lfold_rel xrel _ (fun buf n => dl buf <- rec' true buf n col ; LRet (buf ++ FIELDS_SEPARATOR)) l l' F) by (intros acc x x' R; now rewrite (RC true acc x x' col R)).
  replace (nonempty l') with (nonempty l) by now destruct F. reflexivity.
Qed.
Lemma concise_items_rel col l l' buf : Forall2 xrel l l' -> concise_items rec col l buf = concise_items rec' col l' buf.
Proof. intros F. unfold concise_items. rewrite (lfold_rel xrel _ (fun buf n => dl buf <- rec' true (write_indent buf (col + INDENT)) n (col + INDENT) ; LRet (buf ++ [10%N])) l l' F); [reflexivity|]. intros acc x x' R. now rewrite (RC true _ x x' _ R). Qed.
Lemma fmt_cases n n' (g g' : fmt -> lres str) : xrel n n' -> (forall f, f_id f = id_flag cfg (node_val nv n) -> g f = g' f) -> lbind (get_fmt fmts n) g = lbind (get_fmt fmts n') g'.
Proof.
  intros R H. rewrite <- (get_fmt_rel n n' R). unfold get_fmt. destruct R as [_ FG]. specialize (FG). unfold flagged in FG. destruct (nth_error fmts (n_idx n)) as [f|]; [|reflexivity]. cbn [lunwrap lbind]. auto.
Qed.
Lemma tuples_rel buf n n' col l l' : xrel n n' -> node_val nv n = NTuple l -> Forall2 xrel l l' -> tuples_write fmts rec buf n col l = tuples_write fmts rec' buf n' col l'.
Proof.
  intros R E F. unfold tuples_write. apply (fmt_cases n n' _ _ R). intros f HF. rewrite E in HF. cbn [id_flag] in HF.
  assert (P : tuple_prefix buf f (kid (n_kserd n)) = tuple_prefix buf f (kid (n_kserd n'))).
  { destruct R as [[L _] _]. unfold node_val in E. inversion L; subst; match goal with H : _ = n_kserd n |- _ => rewrite <- H in E; cbn [kval] in E; try discriminate end.
    cbn [kid]. unfold tuple_prefix, maybe_write_nonprim_ident. rewrite HF. unfold same_tuple_id in *. destruct (id_on_tuples cfg); [now subst|]. destruct i, j; try contradiction; reflexivity. }
  rewrite P. destruct (f_line f); [now rewrite (inline_items_rel col l l' _ F)|now rewrite (concise_items_rel col l l' _ F)|reflexivity].
Qed.
Lemma seq_prefix buf f n n' l : xrel n n' -> node_val nv n = NSeq l -> f_id f = id_flag cfg (NSeq l) -> maybe_write_nonprim_ident buf (f_id f) (kid (n_kserd n)) = maybe_write_nonprim_ident buf (f_id f) (kid (n_kserd n')).
Proof.
  intros [[L _] _] E HF. rewrite HF. cbn [id_flag]. unfold node_val in E. inversion L; subst; match goal with H : _ = n_kserd n |- _ => rewrite <- H in E; cbn [kval] in E; try discriminate end.
  cbn [kid]. unfold same_id, maybe_write_nonprim_ident in *. destruct (id_on_seqs cfg); [now subst|reflexivity].
Qed.
Lemma map_prefix buf f n n' l : xrel n n' -> node_val nv n = NMap l -> f_id f = id_flag cfg (NMap l) -> maybe_write_nonprim_ident buf (f_id f) (kid (n_kserd n)) = maybe_write_nonprim_ident buf (f_id f) (kid (n_kserd n')).
Proof.
  intros [[L _] _] E HF. rewrite HF. cbn [id_flag]. unfold node_val in E. inversion L; subst; match goal with H : _ = n_kserd n |- _ => rewrite <- H in E; cbn [kval] in E; try discriminate end.
  cbn [kid]. unfold same_id, maybe_write_nonprim_ident in *. destruct (id_on_maps cfg); [now subst|reflexivity].
Qed.
Lemma cntr_id n n' l : xrel n n' -> node_val nv n = NCntr l -> id_on_containers cfg = true -> kid (n_kserd n) = kid (n_kserd n').
Proof.
  intros [[L _] _] E HF. unfold node_val in E. inversion L; subst; match goal with H : _ = n_kserd n |- _ => rewrite <- H in E; cbn [kval] in E; try discriminate end.
  cbn [kid]. unfold same_id in *. now rewrite HF in *.
Qed.
Lemma seqs_rel buf n n' col l l' name : xrel n n' -> node_val nv n = NSeq l -> Forall2 xrel l l' -> seqs_write fmts rec buf n col l name = seqs_write fmts rec' buf n' col l' name.
Proof.
  intros R E F. unfold seqs_write. apply (fmt_cases n n' _ _ R). intros f HF. rewrite E in HF. rewrite (seq_prefix buf f n n' l R E HF).
  destruct (f_line f), name as [name|]; try now rewrite (inline_items_rel col l l' _ F); try now rewrite (concise_items_rel col l l' _ F).
  all: try (now rewrite (concise_items_rel col l l' _ F)).
  apply (lfold_rel xrel); [exact F|]. intros acc x x' RX. apply (fmt_cases x x' _ _ RX). intros fx _. rewrite <- !(RC true _ x x' _ RX). reflexivity.
Qed.
Lemma kv_rel buf a a' b b' col : xrel a a' -> xrel b b' -> key_and_value_concise fmts rec buf a b col = key_and_value_concise fmts rec' buf a' b' col.
Proof.
  intros RA RB. unfold key_and_value_concise. apply (fmt_cases a a' _ _ RA). intros f _. rewrite <- (RC true _ a a' _ RA). apply lbind_eq. intros t. apply lbind_eq. intros i. now rewrite (RC true _ b b' _ RB).
Qed.
Lemma maps_rel buf n n' col m m' name : xrel n n' -> node_val nv n = NMap m -> Forall2 xerel m m' -> maps_write fmts rec buf n col m name = maps_write fmts rec' buf n' col m' name.
Proof.
  intros R E F. unfold maps_write. apply (fmt_cases n n' _ _ R). intros f HF. rewrite E in HF. rewrite (map_prefix buf f n n' m R E HF). replace (nonempty m') with (nonempty m) by now destruct F.
  assert (C : forall c b0 (z : str -> lres str), lbind (lfold (fun buf e => key_and_value_concise fmts rec (write_indent buf c) (fst e) (snd e) c) m b0) z = lbind (lfold (fun buf e => key_and_value_concise fmts rec' (write_indent buf c) (fst e) (snd e) c) m' b0) z).
  { intros c b0 z. rewrite (lfold_rel xerel _ (fun buf e => key_and_value_concise fmts rec' (write_indent buf c) (fst e) (snd e) c) m m' F); [reflexivity|]. intros acc x x' [R1 R2]. now apply kv_rel. }
  assert (I : forall b0 (z : str -> lres str), lbind (lfold (fun buf e => dl buf <- rec true buf (fst e) col ; dl buf <- rec true (buf ++ KEYS_ASSIGNER ++ s " ") (snd e) col ; LRet (buf ++ FIELDS_SEPARATOR)) m b0) z
     = lbind (lfold (fun buf e => dl buf <- rec' true buf (fst e) col ; dl buf <- rec' true (buf ++ KEYS_ASSIGNER ++ s " ") (snd e) col ; LRet (buf ++ FIELDS_SEPARATOR)) m' b0) z).
  { intros b0 z. rewrite (lfold_rel xerel _ (fun buf e => dl buf <- rec' true buf (fst e) col ; dl buf <- rec' true (buf ++ KEYS_ASSIGNER ++ s " ") (snd e) col ; LRet (buf ++ FIELDS_SEPARATOR)) m m' F); [reflexivity|].
    intros acc x x' [R1 R2]. rewrite (RC true _ _ _ _ R1). apply lbind_eq. intros t. now rewrite (RC true _ _ _ _ R2). }
  destruct (f_line f), name as [name|]; try apply C; try apply I.
  apply (lfold_rel xerel); [exact F|]. intros acc [a b] [a' b'] [R1 R2]. cbn [fst snd] in R1, R2. apply (fmt_cases b b' _ _ R2). intros fx _. rewrite <- !(RC true _ a a' _ R1), (kv_rel _ a a' b b' _ R1 R2).
  destruct (f_line fx); try reflexivity. apply lbind_eq. intros t. now rewrite (RC true _ b b' _ R2).
Qed.
Lemma mapping_rel buf name n n' col : xrel n n' -> field_mapping rec buf name n col = field_mapping rec' buf name n' col.
Proof. intros R. unfold field_mapping. now rewrite (RC true _ n n' _ R). Qed.
Lemma cntr_rel buf n n' col b m m' : xrel n n' -> node_val nv n = NCntr m -> Forall2 xfrel m m' -> cntr_write nv fmts rec buf n col b m = cntr_write nv' fmts rec' buf n' col b m'.
Proof.
  intros R E F. unfold cntr_write. apply (fmt_cases n n' _ _ R). intros f HF. rewrite E in HF. cbn [id_flag] in HF. replace (nonempty m') with (nonempty m) by now destruct F.
  assert (P : forall buf, maybe_write_nonprim_ident buf (f_id f) (kid (n_kserd n)) = maybe_write_nonprim_ident buf (f_id f) (kid (n_kserd n'))).
  { intros b0. rewrite HF. destruct (id_on_containers cfg) eqn:EC; [now rewrite (cntr_id n n' m R E EC)|reflexivity]. }
  rewrite <- P. destruct (f_line f).
  - rewrite (lfold_rel xfrel _ (fun buf e => dl buf <- rec' true (buf ++ fst e ++ FIELDS_ASSIGNER ++ s " ") (snd e) col ; LRet (buf ++ FIELDS_SEPARATOR)) m m' F); [reflexivity|]. intros acc [a x] [a' x'] [EN RX]. cbn [fst snd] in *. subst a'. now rewrite (RC true _ x x' _ RX).
  - rewrite (lfold_rel xfrel _ (fun buf e => field_mapping rec' (write_indent buf (col + INDENT)) (fst e) (snd e) (col + INDENT)) m m' F); [reflexivity|]. intros acc [a x] [a' x'] [EN RX]. cbn [fst snd] in *. subst a'. now apply mapping_rel.
  - replace (match f_id f && b, kid (n_kserd n') with true, Some id => write_indent buf col ++ s ":" ++ id ++ [10%N] | _, _ => buf end) with (match f_id f && b, kid (n_kserd n) with true, Some id => write_indent buf col ++ s ":" ++ id ++ [10%N] | _, _ => buf end).
    2:{ rewrite HF. destruct (id_on_containers cfg) eqn:EC; [now rewrite (cntr_id n n' m R E EC)|reflexivity]. }
    apply (lfold_rel xfrel); [exact F|]. intros acc [a x] [a' x'] [EN RX]. cbn [fst snd] in *. subst a'. apply (fmt_cases x x' _ _ RX). intros fx HX. rewrite <- (mapping_rel _ a x x' _ RX).
    destruct (f_line fx); try reflexivity. pose proof (xval_rel x x' (proj1 RX)) as V. remember (node_val nv x) as v eqn:EV. remember (node_val nv' x') as v' eqn:EV'. symmetry in EV. destruct V as [|l l' FX|l l' FX|l l' FX|l l' FX]; try reflexivity.
    + rewrite <- (RC false _ x x' _ RX). replace (match f_id fx, kid (n_kserd x') with true, Some id => (write_indent (acc ++ [10%N]) col ++ s "[" ++ a) ++ s ":" ++ id | _, _ => write_indent (acc ++ [10%N]) col ++ s "[" ++ a end)
        with (match f_id fx, kid (n_kserd x) with true, Some id => (write_indent (acc ++ [10%N]) col ++ s "[" ++ a) ++ s ":" ++ id | _, _ => write_indent (acc ++ [10%N]) col ++ s "[" ++ a end); [reflexivity|].
      rewrite HX. cbn [id_flag]. destruct (id_on_containers cfg) eqn:EC; [now rewrite (cntr_id x x' l RX EV EC)|reflexivity].
    + now rewrite (seqs_rel _ x x' col l l' _ RX EV FX).
    + now apply maps_rel.
Qed.
Lemma prims_rel buf n n' f : xrel n n' -> node_val nv n = NPrimitive -> f_id f = id_on_primitives cfg ->
  prims_write buf (kid (n_kserd n)) (kval (n_kserd n)) (f_id f) = prims_write buf (kid (n_kserd n')) (kval (n_kserd n')) (f_id f).
Proof.
  intros [[L _] _] E HF. rewrite HF. unfold node_val in E. inversion L; subst; match goal with H : _ = n_kserd n |- _ => rewrite <- H in E; cbn [kval] in E; try discriminate end;
    cbn [kid kval prims_write]; try reflexivity; unfold same_id, fmt_display, fmt_str, fmt_byte_array, maybe_write_prim_ident in *; destruct (id_on_primitives cfg); subst; congruence.
Qed.
Lemma body_rel b buf n n' col : xrel n n' -> write_body nv fmts rec b buf n col = write_body nv' fmts rec' b buf n' col.
Proof.
  intros R. unfold write_body. pose proof (xval_rel n n' (proj1 R)) as V. remember (node_val nv n) as v eqn:EV. remember (node_val nv' n') as v' eqn:EV'. symmetry in EV. destruct V as [|l l' F|l l' F|l l' F|l l' F].
  - apply (fmt_cases n n' _ _ R). intros f HF. rewrite EV in HF. now apply prims_rel.
  - now apply tuples_rel.
  - now apply cntr_rel.
  - now apply seqs_rel.
  - now apply maps_rel.
Qed.
End Write.
Lemma write_rel cfg nv nv' fmts : Forall2 (nrel cfg) nv nv' -> (forall n, In n nv -> flagged cfg nv fmts n) -> forall fuel b buf n n' col, xrel cfg nv fmts n n' ->
  write_node fuel nv fmts b buf n col = write_node fuel nv' fmts b buf n' col.
Proof. intros N FL. induction fuel as [|fuel IH]; intros b buf n n' col R; [reflexivity|]. cbn [write_node]. now apply (body_rel cfg). Qed.
