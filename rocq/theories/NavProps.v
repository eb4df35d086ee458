(** Proofs about the navigator. *)
From Verif Require Import Base BaseProps F64 Number BTree BTreeProps Value ValueProps Nav NavSpec.
From Coq Require Import Permutation.
Open Scope nat_scope.

(** ** phase one as a recursive listing *)

(** the children of a node in index order with their position in the parent *)
Fixpoint vinfos (p i : nat) (l : list kserd) : list (ninfo * kserd) :=
  match l with [] => [] | x :: l' => (info_value p i, x) :: vinfos p (S i) l' end.
Fixpoint minfos (p i : nat) (m : list (kserd * kserd)) : list (ninfo * kserd) :=
  match m with
  | [] => []
  | e :: m' => (info_key p i, fst e) :: (info_value p i, snd e) :: minfos p (S i) m'
  end.
Definition kid_infos (p : nat) (v : value kserd) : list (ninfo * kserd) :=
  match v with
  | VTuple l | VSeq l => vinfos p 0 l
  | VCntr m => vinfos p 0 (map snd m)
  | VMap m => minfos p 0 m
  | _ => []
  end.

Lemma push_each_rev {A} (xs st : list A) : push_each st xs = rev xs ++ st.
Proof.
  revert st. induction xs as [|x xs IH]; intros st; [reflexivity|].
  unfold push_each in *. cbn [fold_left rev]. rewrite IH. unfold push. now rewrite <- app_assoc.
Qed.

Lemma vinfos_enum p l : forall i, map (fun e => (info_value p (fst e), snd e)) (enumerate_from i l) = vinfos p i l.
Proof. induction l as [|x l IH]; intros i; [reflexivity|]. cbn. now rewrite IH. Qed.
Lemma minfos_enum p m : forall i,
  flat_map (fun e => [(info_key p (fst e), fst (snd e)); (info_value p (fst e), snd (snd e))]) (enumerate_from i m) = minfos p i m.
Proof. induction m as [|x l IH]; intros i; [reflexivity|]. cbn. now rewrite IH. Qed.
Lemma rev_flat_map {A B} (f : A -> list B) l : rev (flat_map f (rev l)) = flat_map (fun x => rev (f x)) l.
Proof.
  induction l as [|x l IH]; [reflexivity|]. cbn [rev flat_map]. rewrite flat_map_app, rev_app_distr. cbn [flat_map].
  rewrite app_nil_r. now rewrite IH.
Qed.

Lemma push_kids p v st : push_each st (pushes p v) = kid_infos p v ++ st.
Proof.
  rewrite push_each_rev. f_equal. destruct v; try reflexivity; cbn [pushes kid_infos]; unfold enumerate.
  - rewrite <- map_rev, rev_involutive. apply vinfos_enum.
  - rewrite <- map_rev, rev_involutive. apply vinfos_enum.
  - rewrite <- map_rev, rev_involutive. apply vinfos_enum.
  - rewrite rev_flat_map. cbn [rev app]. apply minfos_enum.
Qed.

Definition sizes (l : list (ninfo * kserd)) : nat := list_sum (map (fun e => ksize (snd e)) l).
Lemma sizes_app a b : sizes (a ++ b) = sizes a + sizes b.
Proof. unfold sizes. now rewrite map_app, list_sum_app. Qed.
Lemma sizes_cons e l : sizes (e :: l) = ksize (snd e) + sizes l.
Proof. reflexivity. Qed.

Lemma vinfos_sizes p l : forall i, sizes (vinfos p i l) = list_sum (map ksize l).
Proof. induction l as [|x l IH]; intros i; [reflexivity|]. cbn [vinfos map]. rewrite sizes_cons, IH. reflexivity. Qed.
Lemma minfos_sizes p m : forall i, sizes (minfos p i m) = list_sum (map (fun e => ksize (fst e) + ksize (snd e)) m).
Proof.
  induction m as [|x l IH]; intros i; [reflexivity|]. cbn [minfos map]. rewrite !sizes_cons, IH. cbn [snd].
  change (list_sum (ksize (fst x) + ksize (snd x) :: map (fun e => ksize (fst e) + ksize (snd e)) l))
    with (ksize (fst x) + ksize (snd x) + list_sum (map (fun e => ksize (fst e) + ksize (snd e)) l)). lia.
Qed.
Lemma ksize_kids p k : ksize k = S (sizes (kid_infos p (kval k))).
Proof.
  destruct k as [id v]. cbn [kval]. destruct v; cbn [ksize kid_infos]; try reflexivity; f_equal.
  - now rewrite vinfos_sizes.
  - now rewrite vinfos_sizes, map_map.
  - now rewrite vinfos_sizes.
  - now rewrite minfos_sizes.
Qed.
Lemma ksize_pos k : 1 <= ksize k.
Proof. rewrite (ksize_kids 0). lia. Qed.

Definition mk_head (info : ninfo) (i : nat) (k : kserd) : node :=
  mkNode k i (i_parent info) (i_value info) (i_key info) [] [].

Fixpoint pre (info : ninfo) (base : nat) (k : kserd) {struct k} : list node :=
  mk_head info base k ::
  match k with
  | Kserd _ v =>
      match v with
      | VTuple l | VSeq l =>
          (fix go i off l := match l with
             | [] => [] | x :: l' => pre (info_value base i) off x ++ go (S i) (off + ksize x) l' end) 0 (S base) l
      | VCntr m =>
          (fix go i off m := match m with
             | [] => [] | e :: m' => pre (info_value base i) off (snd e) ++ go (S i) (off + ksize (snd e)) m' end) 0 (S base) m
      | VMap m =>
          (fix go i off m := match m with
             | [] => []
             | e :: m' => pre (info_key base i) off (fst e) ++ pre (info_value base i) (off + ksize (fst e)) (snd e)
                          ++ go (S i) (off + ksize (fst e) + ksize (snd e)) m' end) 0 (S base) m
      | _ => []
      end
  end.
Fixpoint pre_list (off : nat) (l : list (ninfo * kserd)) : list node :=
  match l with [] => [] | e :: l' => pre (fst e) off (snd e) ++ pre_list (off + ksize (snd e)) l' end.

Lemma pre_unfold info base k : pre info base k = mk_head info base k :: pre_list (S base) (kid_infos base (kval k)).
Proof.
  destruct k as [id v]. destruct v as [| | | | |l|m|l|m]; try reflexivity; cbn [pre kval kid_infos]; f_equal.
  - generalize 0, (S base). induction l as [|x l IH]; intros i o; [reflexivity|]. cbn [vinfos pre_list fst snd].
    f_equal. apply IH.
  - generalize 0, (S base). induction m as [|x l IH]; intros i o; [reflexivity|]. cbn [map vinfos pre_list fst snd].
    f_equal. apply IH.
  - generalize 0, (S base). induction l as [|x l IH]; intros i o; [reflexivity|]. cbn [vinfos pre_list fst snd].
    f_equal. apply IH.
  - generalize 0, (S base). induction m as [|x l IH]; intros i o; [reflexivity|]. cbn [minfos pre_list fst snd].
    f_equal. f_equal. apply IH.
Qed.

Lemma kid_infos_snd p v : map snd (kid_infos p v) = vchildren v.
Proof.
  assert (V : forall l i, map snd (vinfos p i l) = l) by (induction l as [|x l IH]; intros i; cbn; [|rewrite IH]; reflexivity).
  destruct v as [| | | | |l|m|l|m]; cbn [kid_infos vchildren]; auto.
  unfold entry_list. generalize 0. induction m as [|x l IH]; intros i; [reflexivity|]. cbn. now rewrite IH.
Qed.
Lemma kid_infos_parent p v : Forall (fun e => i_parent (fst e) = Some p) (kid_infos p v).
Proof.
  assert (V : forall l i, Forall (fun e => i_parent (fst e) = Some p) (vinfos p i l)).
  { induction l as [|x l IH]; intros i; cbn; constructor; auto. }
  destruct v as [| | | | |l|m|l|m]; cbn [kid_infos]; try constructor; auto.
  generalize 0. induction m as [|x l IH]; intros i; cbn; repeat constructor; auto.
Qed.

Lemma pre_length k : forall info base, length (pre info base k) = ksize k.
Proof.
  induction k as [id v IH] using kserd_ind'. intros info base.
  rewrite pre_unfold, (ksize_kids base). cbn [length kval]. f_equal.
  rewrite <- (kid_infos_snd base) in IH. revert IH. generalize (kid_infos base v), (S base).
  induction l as [|e l IHl]; intros o H; [reflexivity|]. cbn [map] in H. inversion H; subst.
  cbn [pre_list]. rewrite app_length, H2, IHl by assumption. reflexivity.
Qed.
Lemma pre_list_length l : forall off, length (pre_list off l) = sizes l.
Proof.
  induction l as [|e l IH]; intros off; [reflexivity|]. cbn [pre_list]. rewrite app_length, pre_length, IH. reflexivity.
Qed.
Lemma pre_list_app a b : forall off, pre_list off (a ++ b) = pre_list off a ++ pre_list (off + sizes a) b.
Proof.
  induction a as [|e a IH]; intros off; cbn [app pre_list].
  - change (sizes []) with 0. now rewrite Nat.add_0_r.
  - rewrite IH, sizes_cons, <- app_assoc. now rewrite Nat.add_assoc.
Qed.

(** ** the loop *)
Lemma nav_loop_spec fuel : forall stack inner, sizes stack <= fuel ->
  nav_loop fuel stack inner = Some (inner ++ pre_list (length inner) stack).
Proof.
  induction fuel as [|fuel IH]; intros stack inner H.
  - destruct stack as [|[info k] st]; [cbn; now rewrite app_nil_r|].
    rewrite sizes_cons in H. cbn [snd] in H. pose proof (ksize_pos k). lia.
  - destruct stack as [|[info k] st]; [cbn; now rewrite app_nil_r|].
    rewrite sizes_cons in H. cbn [snd] in H. cbn [nav_loop]. rewrite push_kids.
    rewrite IH.
    + f_equal. rewrite app_length. cbn [length]. rewrite <- app_assoc. f_equal.
      cbn [pre_list fst snd]. rewrite pre_unfold. cbn [app]. f_equal.
      rewrite pre_list_app. f_equal; [now rewrite Nat.add_1_r|]. f_equal.
      rewrite (ksize_kids (length inner) k). lia.
    + rewrite sizes_app. rewrite (ksize_kids (length inner) k) in H. lia.
Qed.

Lemma nav_loop_root root : nav_loop (ksize root) [(info_default, root)] [] = Some (pre info_default 0 root).
Proof.
  rewrite nav_loop_spec; [|rewrite sizes_cons; cbn [snd]; change (sizes []) with 0; lia].
  cbn [pre_list fst snd length app]. now rewrite app_nil_r.
Qed.

(** ** where a subtree sits in the listing *)
Definition par_lt (p : nat) (n : node) : Prop := match n_parent n with Some q => q < p | None => True end.
Definition par_out (a b : nat) (n : node) : Prop := match n_parent n with Some q => q < a \/ b <= q | None => True end.
Definition par_in (a b : nat) (n : node) : Prop := match n_parent n with Some q => a <= q < b | None => False end.

Lemma pre_list_parents l : forall p off, p < off -> Forall (fun e => i_parent (fst e) = Some p) l ->
  (Forall (fun k => forall info base, Forall (par_in base (base + ksize k)) (tl (pre info base k))) (map snd l)) ->
  Forall (par_in p (off + sizes l)) (pre_list off l).
Proof.
  induction l as [|e l IH]; intros p off Hp HF HK; [constructor|]. cbn [pre_list map] in *.
  inversion HF as [|? ? F1 F2]; subst. inversion HK as [|? ? K1 K2]; subst. rewrite sizes_cons. apply Forall_app. split.
  - specialize (K1 (fst e) off). rewrite pre_unfold in *. cbn [tl] in K1. constructor.
    + unfold par_in. cbn. rewrite F1. pose proof (ksize_pos (snd e)). lia.
    + eapply Forall_impl; [|exact K1]. intros n. unfold par_in. destruct (n_parent n); [|easy]. lia.
  - eapply Forall_impl; [|apply (IH p); auto; pose proof (ksize_pos (snd e)); lia].
    intros n. unfold par_in. destruct (n_parent n); [|easy]. lia.
Qed.

Lemma pre_tail_parents k : forall info base, Forall (par_in base (base + ksize k)) (tl (pre info base k)).
Proof.
  induction k as [id v IH] using kserd_ind'. intros info base. rewrite pre_unfold. cbn [tl kval].
  rewrite (ksize_kids base). cbn [kval]. replace (base + S (sizes (kid_infos base v))) with (S base + sizes (kid_infos base v)) by lia.
  apply pre_list_parents; [lia|apply kid_infos_parent|]. now rewrite kid_infos_snd.
Qed.
Lemma pre_list_par_in l p off : p < off -> Forall (fun e => i_parent (fst e) = Some p) l ->
  Forall (par_in p (off + sizes l)) (pre_list off l).
Proof.
  intros. apply pre_list_parents; auto. apply Forall_forall. intros. apply pre_tail_parents.
Qed.

(** parents within the kids: the parent [p] itself or inside the listed range *)
Lemma pre_list_par_range l : forall p off, Forall (fun e => i_parent (fst e) = Some p) l ->
  Forall (fun n => n_parent n = Some p \/ par_in off (off + sizes l) n) (pre_list off l).
Proof.
  induction l as [|e l IH]; intros p off HF; [constructor|]. cbn [pre_list]. inversion HF; subst. rewrite sizes_cons.
  apply Forall_app. split.
  - pose proof (pre_tail_parents (snd e) (fst e) off) as T. rewrite pre_unfold in *. cbn [tl] in T. constructor.
    + left. cbn. assumption.
    + eapply Forall_impl; [|exact T]. intros n. unfold par_in. destruct (n_parent n); [|easy]. right. lia.
  - eapply Forall_impl; [|apply (IH p (off + ksize (snd e))); assumption]. cbn beta. intros n [H|H]; [now left|].
    right. unfold par_in in *. destruct (n_parent n); [|easy]. lia.
Qed.

Definition sub (L : list node) (p : nat) (info : ninfo) (k : kserd) : Prop :=
  exists A B, L = A ++ pre info p k ++ B /\ length A = p /\
    Forall (par_lt p) A /\ Forall (par_out p (p + ksize k)) B /\
    match i_parent info with Some q => q < p | None => True end.

Lemma sub_root root : sub (pre info_default 0 root) 0 info_default root.
Proof. exists [], []. rewrite app_nil_r. repeat split; constructor. Qed.

Lemma sub_child L p info k l1 inf x l2 : sub L p info k ->
  kid_infos p (kval k) = l1 ++ (inf, x) :: l2 -> sub L (S p + sizes l1) inf x.
Proof.
  intros (A & B & E & LA & FA & FB & PI) EK.
  pose proof (kid_infos_parent p (kval k)) as KP. rewrite EK in KP.
  apply Forall_app in KP as [KP1 KP2]. inversion KP2 as [|? ? KP3 KP4]; subst. cbn [fst] in KP3.
  pose proof (ksize_kids (length A) k) as KS. rewrite EK, sizes_app, sizes_cons in KS. cbn [snd] in KS.
  rewrite pre_unfold, EK, pre_list_app in *. cbn [pre_list fst snd] in *.
  exists (A ++ mk_head info (length A) k :: pre_list (S (length A)) l1),
         (pre_list (S (length A) + sizes l1 + ksize x) l2 ++ B).
  split; [rewrite <- !app_assoc; cbn [app]; rewrite <- !app_assoc; reflexivity|].
  split; [rewrite app_length; cbn [length]; rewrite pre_list_length; lia|].
  split; [|split].
  - apply Forall_app. split; [eapply Forall_impl; [|exact FA]; intros n; unfold par_lt; destruct (n_parent n); [lia|easy]|].
    constructor.
    + unfold par_lt. cbn. destruct (i_parent info); [lia|easy].
    + eapply Forall_impl; [|apply (pre_list_par_in l1 (length A)); auto]. intros n. unfold par_lt, par_in.
      destruct (n_parent n); [lia|easy].
  - apply Forall_app. split.
    + eapply Forall_impl; [|apply (pre_list_par_range l2 (length A)); assumption]. cbn beta. intros n [H|H]; unfold par_out, par_in in *.
      * rewrite H. lia.
      * destruct (n_parent n); [lia|easy].
    + eapply Forall_impl; [|exact FB]. intros n. unfold par_out. destruct (n_parent n); [lia|easy].
  - rewrite KP3. lia.
Qed.

(** every index is the root of a subtree; if not of the whole, it is a kid *)
Definition located (L : list node) (base i : nat) (info0 : ninfo) (k0 : kserd) (info : ninfo) (k : kserd) : Prop :=
  sub L i info k /\
  ((i = base /\ info = info0 /\ k = k0) \/
   exists p infop kp l1 l2, sub L p infop kp /\ kid_infos p (kval kp) = l1 ++ (info, k) :: l2 /\ i = S p + sizes l1).

Lemma split_kids (l : list (ninfo * kserd)) : forall off i, off <= i < off + sizes l ->
  exists l1 e l2, l = l1 ++ e :: l2 /\ off + sizes l1 <= i < off + sizes l1 + ksize (snd e).
Proof.
  induction l as [|e l IH]; intros off i H.
  - change (sizes []) with 0 in H. lia.
  - rewrite sizes_cons in H. destruct (Nat.lt_ge_cases i (off + ksize (snd e))).
    + exists [], e, l. change (sizes []) with 0. split; [reflexivity|lia].
    + destruct (IH (off + ksize (snd e)) i ltac:(lia)) as (l1 & e' & l2 & -> & R).
      exists (e :: l1), e', l2. rewrite sizes_cons. split; [reflexivity|lia].
Qed.

Lemma locate L k : forall info base i, sub L base info k -> base <= i < base + ksize k ->
  exists info' k', located L base i info k info' k'.
Proof.
  induction k as [id v IH] using kserd_ind'. intros info base i S R.
  destruct (Nat.eq_dec i base) as [->|N].
  - exists info, (Kserd id v). split; [assumption|now left].
  - rewrite (ksize_kids base) in R. cbn [kval] in R.
    destruct (split_kids (kid_infos base v) (1 + base) i ltac:(lia)) as (l1 & [inf x] & l2 & E & R').
    pose proof (sub_child L base info (Kserd id v) l1 inf x l2 S E) as SC.
    rewrite <- (kid_infos_snd base), E, map_app, Forall_app in IH. destruct IH as [_ IH].
    cbn [map snd] in *. inversion IH as [|? ? IHx _]; subst.
    destruct (IHx inf _ i SC ltac:(lia)) as (info' & k' & S' & D).
    exists info', k'. split; [assumption|]. right. destruct D as [(-> & -> & ->)|D].
    + exists base, info, (Kserd id v), l1, l2. auto.
    + exact D.
Qed.

Lemma locate_root root i : i < ksize root ->
  exists info k, located (pre info_default 0 root) 0 i info_default root info k.
Proof. intros H. apply locate; [apply sub_root|lia]. Qed.

(** the node at a located index *)
Lemma sub_nth L p info k : sub L p info k -> nth_error L p = Some (mk_head info p k).
Proof.
  intros (A & B & -> & LA & _). rewrite nth_error_app2 by lia. replace (p - length A) with 0 by lia.
  rewrite pre_unfold. reflexivity.
Qed.
Lemma sub_lt L p info k : sub L p info k -> p + ksize k <= length L.
Proof.
  intros (A & B & -> & LA & _). rewrite !app_length, pre_length. lia.
Qed.

(** ** linking *)
Fixpoint offl (off : nat) (l : list (ninfo * kserd)) : list (nat * (ninfo * kserd)) :=
  match l with [] => [] | e :: l' => (off, e) :: offl (off + ksize (snd e)) l' end.
Definition kids (p : nat) (k : kserd) : list (nat * (ninfo * kserd)) := offl (S p) (kid_infos p (kval k)).

Lemma offl_in l : forall off o e, In (o, e) (offl off l) -> exists l1 l2, l = l1 ++ e :: l2 /\ o = off + sizes l1.
Proof.
  induction l as [|x l IH]; intros off o e H; [easy|]. cbn [offl In] in H. destruct H as [[= <- <-]|H].
  - exists [], l. split; [reflexivity|]. change (sizes []) with 0. lia.
  - apply IH in H as (l1 & l2 & -> & ->). exists (x :: l1), l2. rewrite sizes_cons. split; [reflexivity|lia].
Qed.
Lemma in_offl l1 e l2 : forall off, In (off + sizes l1, e) (offl off (l1 ++ e :: l2)).
Proof.
  induction l1 as [|x l1 IH]; intros off.
  - left. change (sizes []) with 0. now rewrite Nat.add_0_r.
  - right. cbn [app offl]. rewrite sizes_cons. specialize (IH (off + ksize (snd x))). now rewrite <- Nat.add_assoc in IH.
Qed.
Lemma kids_sub L p info k o e : sub L p info k -> In (o, e) (kids p k) -> sub L o (fst e) (snd e).
Proof.
  intros S H. apply offl_in in H as (l1 & l2 & E & ->). destruct e as [inf x]. eapply sub_child; eassumption.
Qed.

Definition is_child (p : nat) (c : node) : bool := opt_eqb (n_parent c) (Some p).

Lemma filter_none (p : nat) (l : list node) : Forall (fun n => n_parent n <> Some p) l -> filter (is_child p) l = [].
Proof.
  induction 1 as [|n l H HF IH]; [reflexivity|]. cbn [filter]. unfold is_child at 1, opt_eqb.
  destruct (n_parent n) as [q|]; [|exact IH]. destruct (Nat.eqb_spec q p); [congruence|exact IH].
Qed.

Lemma filter_kids l : forall p off, p < off -> Forall (fun e => i_parent (fst e) = Some p) l ->
  filter (is_child p) (pre_list off l) = map (fun e => mk_head (fst (snd e)) (fst e) (snd (snd e))) (offl off l).
Proof.
  induction l as [|e l IH]; intros p off Hp HF; [reflexivity|]. inversion HF; subst. cbn [pre_list offl map fst snd].
  rewrite filter_app, IH by (auto; lia).
  pose proof (pre_tail_parents (snd e) (fst e) off) as T. rewrite pre_unfold in *. cbn [tl] in T. cbn [filter].
  unfold is_child at 1. cbn [n_parent mk_head]. rewrite H1. cbn [opt_eqb]. rewrite Nat.eqb_refl. cbn [app]. f_equal.
  rewrite filter_none; [reflexivity|]. eapply Forall_impl; [|exact T]. intros n. unfold par_in.
  destruct (n_parent n); [|easy]. intros ? [= ->]. lia.
Qed.

Lemma filter_sub L p info k : sub L p info k ->
  filter (is_child p) L = map (fun e => mk_head (fst (snd e)) (fst e) (snd (snd e))) (kids p k).
Proof.
  intros (A & B & -> & LA & FA & FB & PI). rewrite !filter_app.
  rewrite (filter_none p A).
  2:{ eapply Forall_impl; [|exact FA]. intros n. unfold par_lt. destruct (n_parent n); [|easy]. intros ? [= ->]. lia. }
  rewrite (filter_none p B).
  2:{ eapply Forall_impl; [|exact FB]. intros n. unfold par_out. pose proof (ksize_pos k).
      destruct (n_parent n); [|easy]. intros ? [= ->]. lia. }
  rewrite app_nil_r. cbn [app]. rewrite pre_unfold. cbn [filter]. unfold is_child at 1. cbn [n_parent mk_head].
  replace (opt_eqb (i_parent info) (Some p)) with false.
  2:{ destruct (i_parent info) as [q|]; [|reflexivity]. cbn. symmetry. apply Nat.eqb_neq. lia. }
  apply filter_kids; [lia|apply kid_infos_parent].
Qed.

(** children lists in terms of [kids] *)
Definition sel_pairs (sel : ninfo -> option nat) (l : list (nat * (ninfo * kserd))) : list (nat * nat) :=
  flat_map (fun e => match sel (fst (snd e)) with Some y => [(y, fst e)] | None => [] end) l.

Lemma flat_map_map {A B C} (f : B -> list C) (g : A -> B) l : flat_map f (map g l) = flat_map (fun x => f (g x)) l.
Proof. induction l as [|x l IH]; [reflexivity|]. cbn. now rewrite IH. Qed.

Lemma nat_lawful : lawful (fun _ : nat => True) Nat.compare.
Proof.
  constructor; intros.
  - apply Nat.compare_refl.
  - apply Nat.compare_antisym.
  - rewrite Nat.compare_lt_iff in *. lia.
  - apply Nat.compare_eq in H2. now subst.
Qed.

Lemma sel_keys_ascending (l : list (nat * nat)) i n : map fst l = seq i n -> ascending Nat.compare l = true.
Proof.
  revert i n. induction l as [|e l IH]; intros i n H; [reflexivity|].
  destruct n as [|n]; [discriminate|]. cbn [map seq] in H. injection H as H1 H2.
  cbn [ascending]. destruct l as [|e' l]; [reflexivity|].
  destruct n as [|n]; [discriminate|]. cbn [map seq] in H2. injection H2 as H2 H3. rewrite H1, H2.
  rewrite (proj2 (Nat.compare_lt_iff i (S i)) ltac:(lia)). apply (IH (S i) (S n)). cbn [map seq]. congruence.
Qed.

Lemma sort_sel (l : list (nat * nat)) n : map fst l = seq 0 n -> bt_sort Nat.compare l = l.
Proof.
  intros H. apply (bt_sort_ascending (fun _ => True) Nat.compare nat_lawful).
  - apply Forall_forall. auto.
  - now apply (sel_keys_ascending l 0 n).
Qed.

Lemma vinfos_sel_v p l : forall i off, map fst (sel_pairs i_value (offl off (vinfos p i l))) = seq i (length l).
Proof. unfold sel_pairs. induction l as [|x l IH]; intros i off; [reflexivity|]. cbn. now rewrite IH. Qed.
Lemma vinfos_sel_k p l : forall i off, sel_pairs i_key (offl off (vinfos p i l)) = [].
Proof. unfold sel_pairs. induction l as [|x l IH]; intros i off; [reflexivity|]. cbn. apply IH. Qed.
Lemma minfos_sel_v p l : forall i off, map fst (sel_pairs i_value (offl off (minfos p i l))) = seq i (length l).
Proof. unfold sel_pairs. induction l as [|x l IH]; intros i off; [reflexivity|]. cbn. now rewrite IH. Qed.
Lemma minfos_sel_k p l : forall i off, map fst (sel_pairs i_key (offl off (minfos p i l))) = seq i (length l).
Proof. unfold sel_pairs. induction l as [|x l IH]; intros i off; [reflexivity|]. cbn. now rewrite IH. Qed.

Lemma kids_sel_v p k : map fst (sel_pairs i_value (kids p k)) = seq 0 (length (values_of k)).
Proof.
  unfold kids, values_of. destruct (kval k); try reflexivity; cbn [kid_infos]; rewrite ?map_length.
  - apply vinfos_sel_v.
  - rewrite vinfos_sel_v. now rewrite map_length.
  - apply vinfos_sel_v.
  - apply minfos_sel_v.
Qed.
Lemma kids_sel_k p k : map fst (sel_pairs i_key (kids p k)) = seq 0 (length (keys_of k)).
Proof.
  unfold kids, keys_of. destruct (kval k); try reflexivity; cbn [kid_infos]; rewrite ?map_length, ?vinfos_sel_k; try reflexivity.
  apply minfos_sel_k.
Qed.

Definition vc (p : nat) (k : kserd) : list nat := map snd (sel_pairs i_value (kids p k)).
Definition kc (p : nat) (k : kserd) : list nat := map snd (sel_pairs i_key (kids p k)).

Lemma children_of_v L p info k : sub L p info k -> children_of L n_value_idx p = vc p k.
Proof.
  intros S. unfold children_of. change (fun c => opt_eqb (n_parent c) (Some p)) with (is_child p).
  rewrite (filter_sub _ _ _ _ S), flat_map_map. cbn [n_value_idx n_idx mk_head].
  change (flat_map _ (kids p k)) with (sel_pairs i_value (kids p k)).
  now rewrite (sort_sel _ _ (kids_sel_v p k)).
Qed.
Lemma children_of_k L p info k : sub L p info k -> children_of L n_key_idx p = kc p k.
Proof.
  intros S. unfold children_of. change (fun c => opt_eqb (n_parent c) (Some p)) with (is_child p).
  rewrite (filter_sub _ _ _ _ S), flat_map_map. cbn [n_key_idx n_idx mk_head].
  change (flat_map _ (kids p k)) with (sel_pairs i_key (kids p k)).
  now rewrite (sort_sel _ _ (kids_sel_k p k)).
Qed.

(** ** the finished navigator *)
Definition mk_full (info : ninfo) (i : nat) (k : kserd) : node :=
  mkNode k i (i_parent info) (i_value info) (i_key info) (vc i k) (kc i k).

Definition full (root : kserd) : nav := map (link_node (pre info_default 0 root)) (pre info_default 0 root).

Lemma pre_parents_in_range root : parents_in_range (pre info_default 0 root) = true.
Proof.
  unfold parents_in_range. rewrite pre_length. apply forallb_forall. intros n H.
  pose proof (pre_tail_parents root info_default 0) as T. rewrite pre_unfold in H, T. cbn [tl] in T.
  destruct H as [<-|H]; [reflexivity|]. rewrite Forall_forall in T. specialize (T n H). unfold par_in in T.
  destruct (n_parent n); [|reflexivity]. apply Nat.ltb_lt. lia.
Qed.
Lemma nav_new_full root : nav_new root = LRet (full root).
Proof. unfold nav_new. rewrite nav_loop_root, pre_parents_in_range. reflexivity. Qed.

Lemma full_length root : length (full root) = ksize root.
Proof. unfold full. now rewrite map_length, pre_length. Qed.

(** the subtree at [i] in the navigator of [root] *)
Definition at_ (root : kserd) (i : nat) (info : ninfo) (k : kserd) : Prop := sub (pre info_default 0 root) i info k.

Lemma at_nth root i info k : at_ root i info k -> nav_get (full root) i = Some (mk_full info i k).
Proof.
  intros S. unfold nav_get, full. erewrite map_nth_error by (apply (sub_nth _ _ _ _ S)).
  unfold link_node, mk_full. cbn [n_kserd n_idx n_parent n_value_idx n_key_idx n_value_children n_key_children mk_head app].
  now rewrite (children_of_v _ _ _ _ S), (children_of_k _ _ _ _ S).
Qed.
Lemma at_exists root i n : nav_get (full root) i = Some n -> exists info k, at_ root i info k /\ n = mk_full info i k.
Proof.
  intros H. assert (i < ksize root) by (rewrite <- full_length; apply nth_error_Some; unfold nav_get in H; congruence).
  destruct (locate_root root i H0) as (info & k & S & _). exists info, k. split; [exact S|].
  rewrite (at_nth _ _ _ _ S) in H. congruence.
Qed.
Lemma at_kid root p info k o e : at_ root p info k -> In (o, e) (kids p k) -> at_ root o (fst e) (snd e).
Proof. apply kids_sub. Qed.
Lemma at_root root : at_ root 0 info_default root.
Proof. apply sub_root. Qed.
