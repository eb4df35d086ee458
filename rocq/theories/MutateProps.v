(** Proofs about mutable access. *)
From Verif Require Import Base BaseProps F64 Number BTree BTreeProps Value ValueSpec ValueProps Mutate MutateSpec.
Open Scope nat_scope.

(** ** lookups *)
Section Lookup.
  Context {K V : Type} (cmp : K -> K -> comparison).
  Lemma get_at k k' (y : V) l1 l2 : Forall (fun e => cmp k (fst e) = Gt) l1 -> cmp k k' = Eq -> bt_get cmp k (l1 ++ (k', y) :: l2) = Some y.
  Proof. induction 1 as [|[a b] l1 G F IH]; intros E; cbn [app bt_get fst] in *; [now rewrite E|]. rewrite G. now apply IH. Qed.
  Lemma get_mut_at k k' (x : V) l1 l2 : Forall (fun e => cmp k (fst e) = Gt) l1 -> cmp k k' = Eq ->
    exists r, bt_get_mut cmp k (l1 ++ (k', x) :: l2) = Some r /\ shows r = x /\ forall y, after r y = l1 ++ (k', y) :: l2.
  Proof.
    induction 1 as [|[a b] l1 G F IH]; intros E; cbn [app bt_get_mut fst] in *.
    - rewrite E. eexists. split; [reflexivity|]. now split.
    - rewrite G. destruct (IH E) as (r & -> & S1 & S2). eexists. split; [reflexivity|]. cbn [shows after]. split; [exact S1|]. intros y. now rewrite S2.
  Qed.
  Lemma get_mut_some k m r : @bt_get_mut K V cmp k m = Some r ->
    exists l1 k' l2, m = l1 ++ (k', shows r) :: l2 /\ Forall (fun e => cmp k (fst e) = Gt) l1 /\ cmp k k' = Eq.
  Proof.
    revert r. induction m as [|[a b] m IH]; intros r; cbn [bt_get_mut]; [discriminate|]. destruct (cmp k a) eqn:C; [|discriminate|].
    - intros [= <-]. exists [], a, m. now repeat split; try constructor.
    - destruct (bt_get_mut cmp k m) as [r'|]; [|discriminate]. intros [= <-]. destruct (IH _ eq_refl) as (l1 & k' & l2 & -> & F & E).
      exists ((a, b) :: l1), k', l2. cbn [shows]. split; [reflexivity|]. split; [now constructor|exact E].
  Qed.
  Lemma get_mut_get k m : bt_get cmp k m = option_map shows (@bt_get_mut K V cmp k m).
  Proof.
    induction m as [|[a b] m IH]; [reflexivity|]. cbn [bt_get bt_get_mut]. destruct (cmp k a); [reflexivity|reflexivity|]. rewrite IH.
    now destruct (bt_get_mut cmp k m).
  Qed.
End Lookup.

Lemma nth_mut_at {A} (l1 l2 : list A) x : exists r, nth_mut (length l1) (l1 ++ x :: l2) = Some r /\ shows r = x /\ forall y, after r y = l1 ++ y :: l2.
Proof.
  induction l1 as [|a l1 (r & E & S1 & S2)]; cbn [app length nth_mut]; [eexists; split; [reflexivity|]; now split|].
  rewrite E. eexists. split; [reflexivity|]. cbn [shows after]. split; [exact S1|]. intros y. now rewrite S2.
Qed.
Lemma nth_mut_get {A} i (l : list A) : nth_error l i = option_map shows (nth_mut i l).
Proof. revert i. induction l as [|a l IH]; intros [|i]; try reflexivity. cbn [nth_error nth_mut]. rewrite IH. now destruct (nth_mut i l). Qed.

Lemma nth_at {A} (l1 l2 : list A) x : nth_error (l1 ++ x :: l2) (length l1) = Some x.
Proof. induction l1; [reflexivity|assumption]. Qed.
Lemma in_range {A} i (l : list A) : i < length l -> exists l1 x l2, l = l1 ++ x :: l2 /\ length l1 = i.
Proof.
  intros L. destruct (nth_error l i) as [x|] eqn:E; [|apply nth_error_None in E; lia].
  apply nth_error_split in E. destruct E as (l1 & l2 & E & H). now exists l1, x, l2.
Qed.

(** ** one step *)
Lemma step_points st k i : points st k i ->
  exists r, step_mut st k = Some r /\ part i k = Some (shows r) /\ forall y, one i k (shows r) y (after r y).
Proof.
  intros P. destruct P as [id l i L|id l i L|id l i L|id l i L|id l1 l2 name x F|id l1 l2 key key' x F E].
  1-4: destruct (in_range _ _ L) as (l1 & x & l2 & -> & <-); destruct (nth_mut_at l1 l2 x) as (r & E1 & E2 & E3);
       unfold step_mut, mthen, part; cbn; rewrite E1; eexists; split; [reflexivity|]; cbn [shows after]; rewrite nth_at, E2; split; [reflexivity|];
       intros y; rewrite E3; constructor.
  - destruct (get_mut_at str_cmp name name x l1 l2 F (str_cmp_refl name)) as (r & E1 & E2 & E3).
    unfold step_mut, mthen, part; cbn [k_val_mut v_cntr_mut shows after kval kid]; rewrite E1; eexists; split; [reflexivity|]; cbn [shows after]; rewrite nth_at, E2; split; [reflexivity|];
       intros y; rewrite E3; constructor.
  - destruct (get_mut_at k_cmp key key' x l1 l2 F E) as (r & E1 & E2 & E3).
    unfold step_mut, mthen, part; cbn [k_val_mut v_map_mut shows after kval kid]; rewrite E1; eexists; split; [reflexivity|]; cbn [shows after]; rewrite nth_at, E2; split; [reflexivity|];
       intros y; rewrite E3; constructor.
Qed.

Lemma nth_mut_range {A} i (l : list A) r : nth_mut i l = Some r -> i < length l.
Proof. intros E. apply nth_error_Some. rewrite nth_mut_get, E. discriminate. Qed.

Lemma step_some st k r : step_mut st k = Some r -> exists i, points st k i.
Proof.
  destruct k as [id v]. destruct st as [i|i|i|name|key]; unfold step_mut, mthen; cbn [k_val_mut shows after kval kid];
    destruct v as [| | | | |l|m|l|m]; cbn [v_tuple_mut v_seq_mut v_tuple_or_seq_mut v_cntr_mut v_map_mut shows]; try discriminate.
  1-4: destruct (nth_mut i l) eqn:E; [|discriminate]; intros _; exists i; constructor; exact (nth_mut_range _ _ _ E).
  - destruct (bt_get_mut str_cmp name m) eqn:E; [|discriminate]. intros _. destruct (get_mut_some _ _ _ _ E) as (l1 & k' & l2 & -> & F & C).
    apply str_cmp_eq in C. subst k'. exists (length l1). now constructor.
  - destruct (bt_get_mut k_cmp key m) eqn:E; [|discriminate]. intros _. destruct (get_mut_some _ _ _ _ E) as (l1 & k' & l2 & -> & F & C).
    exists (length l1). now constructor.
Qed.

Lemma step_get_mut st k : step_get st k = option_map shows (step_mut st k).
Proof.
  destruct k as [id v]. destruct st as [i|i|i|name|key]; unfold step_mut, step_get, mthen; cbn [k_val_mut shows after kval kid];
    destruct v as [| | | | |l|m|l|m]; cbn [v_tuple v_seq v_tuple_or_seq v_cntr v_map v_tuple_mut v_seq_mut v_tuple_or_seq_mut v_cntr_mut v_map_mut shows opt_bind option_map]; try reflexivity.
  1-4: rewrite nth_mut_get; now destruct (nth_mut i l).
  - rewrite get_mut_get. now destruct (bt_get_mut str_cmp name m).
  - rewrite get_mut_get. now destruct (bt_get_mut k_cmp key m).
Qed.

Lemma splits_unique {A} (P : A -> Prop) l1 x l2 l1' x' l2' : l1 ++ x :: l2 = l1' ++ x' :: l2' -> Forall P l1 -> Forall P l1' -> ~ P x -> ~ P x' -> length l1 = length l1'.
Proof.
  revert l1'. induction l1 as [|a l1 IH]; intros [|a' l1']; cbn [app length]; intros E F F' N N'; try reflexivity.
  - injection E as -> ->. inversion F'. contradiction.
  - injection E as -> <-. inversion F. contradiction.
  - injection E as -> E. inversion F; inversion F'; subst. f_equal. now apply (IH l1').
Qed.

Lemma points_unique st k i j : points st k i -> points st k j -> i = j.
Proof.
  intros P. destruct P as [id l i L|id l i L|id l i L|id l i L|id l1 l2 name x F|id l1 l2 key key' x F E]; intros Q; inversion Q; subst; try reflexivity.
  - match goal with H : _ = l1 ++ _ |- _ => symmetry in H; apply (splits_unique (fun e => str_cmp name (fst e) = Gt)) in H end; auto; cbn [fst]; rewrite str_cmp_refl; discriminate.
  - match goal with H : _ = l1 ++ _ |- _ => symmetry in H; apply (splits_unique (fun e => k_cmp key (fst e) = Gt)) in H end; auto; cbn [fst]; congruence.
Qed.

(** ** replacing a part *)
Fixpoint upd {A} (i : nat) (f : A -> A) (l : list A) : list A :=
  match l, i with
  | [], _ => []
  | x :: l', O => f x :: l'
  | x :: l', S i' => x :: upd i' f l'
  end.
Definition put (i : nat) (y : kserd) (k : kserd) : kserd :=
  Kserd (kid k) (match kval k with
    | VTuple l => VTuple (upd i (fun _ => y) l)
    | VSeq l => VSeq (upd i (fun _ => y) l)
    | VCntr m => VCntr (upd i (fun e => (fst e, y)) m)
    | VMap m => VMap (upd i (fun e => (fst e, y)) m)
    | v => v end).

Lemma upd_at {A} f (l1 l2 : list A) x : upd (length l1) f (l1 ++ x :: l2) = l1 ++ f x :: l2.
Proof. induction l1 as [|a l1 IH]; cbn [length app upd]; [reflexivity|]. now rewrite IH. Qed.
Lemma upd_comm {A} (f g : A -> A) i j l : i <> j -> upd i f (upd j g l) = upd j g (upd i f l).
Proof. revert i j. induction l as [|a l IH]; intros [|i] [|j] N; cbn [upd]; try reflexivity; try congruence. rewrite IH; [reflexivity|congruence]. Qed.
Lemma upd_nth {A} (f : A -> A) i l : nth_error (upd i f l) i = option_map f (nth_error l i).
Proof. revert i. induction l as [|a l IH]; intros [|i]; cbn [upd nth_error]; try reflexivity. apply IH. Qed.
Lemma upd_other {A} (f : A -> A) i j l : i <> j -> nth_error (upd i f l) j = nth_error l j.
Proof. revert i j. induction l as [|a l IH]; intros [|i] [|j] N; cbn [upd nth_error]; try reflexivity; try congruence. apply IH. congruence. Qed.
Lemma upd_length {A} (f : A -> A) i l : length (upd i f l) = length l.
Proof. revert i. induction l as [|a l IH]; intros [|i]; cbn [upd length]; congruence. Qed.
Lemma upd_fst {A B} (y : B) i (m : list (A * B)) : map fst (upd i (fun e => (fst e, y)) m) = map fst m.
Proof. revert i. induction m as [|a m IH]; intros [|i]; cbn [upd map]; f_equal; auto. Qed.
Lemma upd_same {A B} (y : B) i (m : list (A * B)) : option_map snd (nth_error m i) = Some y -> upd i (fun e => (fst e, y)) m = m.
Proof. revert i. induction m as [|[a b] m IH]; intros [|i]; cbn [upd nth_error option_map fst snd]; try reflexivity; [now intros [= ->]|]. intros E. now rewrite IH. Qed.
Lemma upd_same' {A} (y : A) i (l : list A) : nth_error l i = Some y -> upd i (fun _ => y) l = l.
Proof. revert i. induction l as [|a m IH]; intros [|i]; cbn [upd nth_error]; try reflexivity; [now intros [= ->]|]. intros E. now rewrite IH. Qed.

Lemma one_put i k x y k' : one i k x y k' -> k' = put i y k /\ part i k = Some x.
Proof. intros [] ; unfold put, part; cbn [kid kval]; rewrite upd_at, nth_at; split; reflexivity. Qed.
Lemma put_one i k x y : part i k = Some x -> one i k x y (put i y k).
Proof.
  unfold part, put. destruct k as [id [| | | | |l|m|l|m]]; cbn [kval kid]; try discriminate; intros E.
  1,3: apply nth_error_split in E; destruct E as (l1 & l2 & -> & <-); rewrite upd_at; constructor.
  all: destruct (nth_error m i) as [[a b]|] eqn:N; [|discriminate]; injection E as <-; apply nth_error_split in N;
    destruct N as (l1 & l2 & -> & <-); rewrite upd_at; cbn [fst snd]; constructor.
Qed.
Lemma part_put i y k x : part i k = Some x -> part i (put i y k) = Some y.
Proof.
  unfold part, put. destruct k as [id [| | | | |l|m|l|m]]; cbn [kval kid]; try discriminate; intros E; rewrite upd_nth.
  1,3: now rewrite E. all: now destruct (nth_error m i).
Qed.
Lemma part_other i j y k : i <> j -> part j (put i y k) = part j k.
Proof. intros N. unfold part, put. destruct k as [id [| | | | |l|m|l|m]]; cbn [kval kid]; try reflexivity; now rewrite upd_other. Qed.
Lemma put_comm i j x y k : i <> j -> put i x (put j y k) = put j y (put i x k).
Proof. intros N. unfold put. destruct k as [id [| | | | |l|m|l|m]]; cbn [kval kid]; try reflexivity; now rewrite upd_comm. Qed.
Lemma put_same i k x : part i k = Some x -> put i x k = k.
Proof. unfold part, put. destruct k as [id [| | | | |l|m|l|m]]; cbn [kval kid]; try discriminate; intros E; now rewrite ?(upd_same' _ _ _ E), ?(upd_same _ _ _ E). Qed.
Lemma put_put i x y k : put i x (put i y k) = put i x k.
Proof.
  assert (G : forall A (f g : A -> A) l, (forall a, f (g a) = f a) -> upd i f (upd i g l) = upd i f l).
  { intros A f g l H. revert i. induction l as [|a l IH]; intros [|i]; cbn [upd]; congruence. }
  unfold put. destruct k as [id [| | | | |l|m|l|m]]; cbn [kval kid]; try reflexivity; now rewrite G.
Qed.

Lemma fst_split {A B} (m m' : list (A * B)) l1 a x l2 : map fst m' = map fst m -> m = l1 ++ (a, x) :: l2 ->
  exists l1' x' l2', m' = l1' ++ (a, x') :: l2' /\ map fst l1' = map fst l1 /\ length l1' = length l1.
Proof.
  intros E ->. rewrite map_app in E. cbn [map fst] in E. apply map_eq_app in E. destruct E as (l1' & r & -> & E1 & E2).
  destruct r as [|[a' x'] l2']; [discriminate|]. cbn [map fst] in E2. injection E2 as -> E2. exists l1', x', l2'. split; [reflexivity|]. split; [exact E1|].
  rewrite <- (map_length fst l1'), E1. apply map_length.
Qed.

(** where a step leads does not depend on the contents of the parts *)
Lemma points_put st k i j y : points st k j -> points st (put i y k) j.
Proof.
  intros P. destruct P as [id l j L|id l j L|id l j L|id l j L|id l1 l2 name x F|id l1 l2 key key' x F E]; unfold put; cbn [kval kid].
  1-4: constructor; now rewrite upd_length.
  - destruct (fst_split _ (upd i (fun e => (fst e, y)) (l1 ++ (name, x) :: l2)) l1 name x l2 (upd_fst y i _) eq_refl) as (l1' & x' & l2' & -> & M & <-).
    constructor. rewrite <- (Forall_map fst (fun a => str_cmp name a = Gt)), M. now apply Forall_map.
  - destruct (fst_split _ (upd i (fun e => (fst e, y)) (l1 ++ (key', x) :: l2)) l1 key' x l2 (upd_fst y i _) eq_refl) as (l1' & x' & l2' & -> & M & <-).
    constructor; [|exact E]. rewrite <- (Forall_map fst (fun a => k_cmp key a = Gt)), M. now apply Forall_map.
Qed.

Lemma step_put st k i : points st k i -> exists r, step_mut st k = Some r /\ part i k = Some (shows r) /\ forall y, after r y = put i y k.
Proof.
  intros P. destruct (step_points st k i P) as (r & E & S1 & O). exists r. split; [exact E|]. split; [exact S1|]. intros y. apply (one_put _ _ _ _ _ (O y)).
Qed.

(** ** walks *)
Lemma steps_get_mut q : forall k, steps_get q k = option_map shows (steps_mut q k).
Proof.
  induction q as [|st q IH]; intros k; [reflexivity|]. cbn [steps_get steps_mut]. rewrite step_get_mut. destruct (step_mut st k) as [r|]; [|reflexivity].
  cbn [option_map opt_bind]. rewrite IH. unfold mthen. now destruct (steps_mut q (shows r)).
Qed.

Lemma steps_inv st q k r : steps_mut (st :: q) k = Some r ->
  exists i c rq, points st k i /\ part i k = Some c /\ steps_mut q c = Some rq /\ shows r = shows rq /\ forall y, after r y = put i (after rq y) k.
Proof.
  cbn [steps_mut]. intros H. destruct (step_mut st k) as [r0|] eqn:E; [|discriminate]. destruct (step_some _ _ _ E) as [i P].
  destruct (step_put _ _ _ P) as (r0' & E' & S1 & A). rewrite E in E'. injection E' as <-. unfold mthen in H.
  destruct (steps_mut q (shows r0)) as [rq|] eqn:Q; [|discriminate]. injection H as <-. exists i, (shows r0), rq. cbn [shows after].
  repeat split; auto.
Qed.
Lemma steps_intro st q k i c rq : points st k i -> part i k = Some c -> steps_mut q c = Some rq ->
  exists r, steps_mut (st :: q) k = Some r /\ shows r = shows rq /\ forall y, after r y = put i (after rq y) k.
Proof.
  intros P C Q. destruct (step_put _ _ _ P) as (r0 & E & S1 & A). rewrite C in S1. injection S1 as ->. cbn [steps_mut]. rewrite E. unfold mthen. rewrite Q.
  eexists. split; [reflexivity|]. cbn [shows after]. split; [reflexivity|]. intros y. apply A.
Qed.

Lemma steps_edit q : forall k r, steps_mut q k = Some r -> exists p, leads q k p /\ forall y, edited (shows r) y p k (after r y).
Proof.
  induction q as [|st q IH]; intros k r H.
  - injection H as <-. exists []. split; [constructor|]. intros y. constructor.
  - apply steps_inv in H. destruct H as (i & c & rq & P & C & Q & S1 & A). destruct (IH _ _ Q) as (p & L & E). exists (i :: p).
    split; [econstructor; eassumption|]. intros y. rewrite S1, A. econstructor; [apply put_one; exact C|apply E].
Qed.

Lemma leads_unique q : forall k p p', leads q k p -> leads q k p' -> p = p'.
Proof.
  induction q as [|st q IH]; intros k p p' L L'; inversion L; inversion L'; subst; [reflexivity|].
  assert (i = i0) by (eapply points_unique; eassumption). subst i0. f_equal. eapply IH; [eassumption|]. congruence.
Qed.

Lemma leads_reach q : forall k p, leads q k p -> exists r, steps_mut q k = Some r.
Proof.
  induction q as [|st q IH]; intros k p L; inversion L; subst; [eexists; reflexivity|].
  match goal with H : leads q _ _ |- _ => destruct (IH _ _ H) as [rq Q] end.
  match goal with P : points _ _ _, C : part _ _ = _ |- _ => destruct (steps_intro _ _ _ _ _ _ P C Q) as (r & E & _) end. now exists r.
Qed.

(** a second walk along the same steps *)
Lemma steps_again q : forall k r y, steps_mut q k = Some r ->
  exists r', steps_mut q (after r y) = Some r' /\ shows r' = y /\ forall z, after r' z = after r z.
Proof.
  induction q as [|st q IH]; intros k r y H.
  - injection H as <-. eexists. split; [reflexivity|]. now split.
  - apply steps_inv in H. destruct H as (i & c & rq & P & C & Q & S1 & A). destruct (IH _ _ y Q) as (r' & Q' & S2 & A').
    rewrite A. destruct (steps_intro st q (put i (after rq y) k) i (after rq y) r') as (r2 & E & S3 & A2);
      [now apply points_put|exact (part_put _ _ _ _ C)|exact Q'|].
    exists r2. split; [exact E|]. split; [now rewrite S3|]. intros z. now rewrite A2, A', A, put_put.
Qed.

Lemma steps_same q : forall k r, steps_mut q k = Some r -> after r (shows r) = k.
Proof.
  induction q as [|st q IH]; intros k r H; [now injection H as <-|]. apply steps_inv in H. destruct H as (i & c & rq & P & C & Q & S1 & A).
  rewrite S1, A, (IH _ _ Q). now apply put_same.
Qed.

Lemma apart_cons i p q : apart (i :: p) (i :: q) -> apart p q.
Proof. intros [A B]. split; intros t ->; [now apply (A t)|now apply (B t)]. Qed.

Lemma steps_apart q : forall q' k r r' p p', steps_mut q k = Some r -> steps_mut q' k = Some r' -> leads q k p -> leads q' k p' -> apart p p' ->
  forall y z, exists r1 r1', steps_mut q (after r' z) = Some r1 /\ steps_mut q' (after r y) = Some r1' /\
    shows r1 = shows r /\ shows r1' = shows r' /\ after r1 y = after r1' z.
Proof.
  induction q as [|st q IH]; intros [|st' q'] k r r' p p' H H' L L' A y z.
  1,2: inversion L; subst; destruct A as [A _]; now destruct (A p').
  - inversion L'; subst. destruct A as [_ A]. now destruct (A p).
  - apply steps_inv in H, H'. destruct H as (i & c & rq & P & C & Q & S1 & W), H' as (i' & c' & rq' & P' & C' & Q' & S1' & W').
    inversion L; inversion L'; subst.
    match goal with X : points st k ?j |- _ => assert (j = i) by (eapply points_unique; eassumption) end. subst.
    match goal with X : points st' k ?j |- _ => assert (j = i') by (eapply points_unique; eassumption) end. subst.
    rewrite W, W', S1, S1'. destruct (Nat.eq_dec i i') as [<-|N].
    + rewrite C in C'. injection C' as <-.
      match goal with X : leads q ?d _, Y : leads q' ?e _ |- _ => assert (d = c) by congruence; assert (e = c) by congruence; subst d e;
        destruct (IH q' c rq rq' _ _ Q Q' X Y (apart_cons _ _ _ A) y z) as (r1 & r1' & E1 & E1' & D1 & D1' & G) end.
      destruct (steps_intro st q (put i (after rq' z) k) i (after rq' z) r1) as (r2 & E2 & D2 & W2);
        [now apply points_put|exact (part_put _ _ _ _ C)|exact E1|].
      destruct (steps_intro st' q' (put i (after rq y) k) i (after rq y) r1') as (r2' & E2' & D2' & W2');
        [now apply points_put|exact (part_put _ _ _ _ C)|exact E1'|].
      exists r2, r2'. repeat split; auto; try congruence. now rewrite W2, W2', !put_put, G.
    + destruct (steps_intro st q (put i' (after rq' z) k) i c rq) as (r2 & E2 & D2 & W2);
        [now apply points_put|now rewrite part_other by congruence|exact Q|].
      destruct (steps_intro st' q' (put i (after rq y) k) i' c' rq') as (r2' & E2' & D2' & W2');
        [now apply points_put|now rewrite part_other by congruence|exact Q'|].
      exists r2, r2'. repeat split; auto. rewrite W2, W2'. now apply put_comm.
Qed.

(** ** well-formedness *)
Lemma Forall_upd {A} (P : A -> Prop) (f : A -> A) i l : Forall P l -> (forall x, In x l -> P x -> P (f x)) -> Forall P (upd i f l).
Proof.
  intros F. revert i. induction F as [|a l Pa F IH]; intros [|i] H; cbn [upd]; constructor; auto.
  - apply H; [now left|assumption].
  - apply IH. intros x I. apply H. now right.
Qed.

Lemma strictly_fst {K V W} (cmp : K -> K -> comparison) (m : list (K * V)) (m' : list (K * W)) : map fst m = map fst m' -> strictly_sorted cmp m = strictly_sorted cmp m'.
Proof.
  revert m'. induction m as [|[a b] m IH]; intros [|[a' b'] m']; cbn [map fst]; try discriminate; [reflexivity|]. intros [= -> E].
  cbn [strictly_sorted fst]. rewrite (IH _ E). f_equal. clear IH. revert m' E. induction m as [|[c d] m IH]; intros [|[c' d'] m']; cbn [map fst]; try discriminate; [reflexivity|].
  intros [= -> E]. cbn [forallb fst]. now rewrite (IH _ E).
Qed.

Lemma part_child i k c : part i k = Some c -> In c (vchildren (kval k)).
Proof.
  unfold part. destruct (kval k) as [| | | | |l|m|l|m]; try discriminate; intros E.
  1,3: exact (nth_error_In _ _ E).
  all: destruct (nth_error m i) as [[a b]|] eqn:N; [|discriminate]; injection E as <-; apply nth_error_In in N; cbn [vchildren snd].
  - apply in_map_iff. now exists (a, b).
  - unfold entry_list. apply in_flat_map. exists (a, b). split; [exact N|]. cbn [fst snd]. auto with datatypes.
Qed.

(** a condition on every node which looks at the parts of a node no further than
    at their number *)
Section All.
  Variable P : kserd -> bool.
  Hypothesis keeps : forall i y k, P k = true -> P (put i y k) = true.
  Lemma all_put i y k : k_all P k = true -> k_all P y = true -> k_all P (put i y k) = true.
  Proof.
    destruct k as [id v]. intros H Y. apply k_all_children in H. destruct H as [H C].
    pose proof (keeps i y _ H) as H'. unfold put in *. cbn [kid kval] in *. apply k_all_children. split; [exact H'|]. clear H H'.
    destruct v as [| | | | |l|m|l|m]; cbn [vchildren] in *; try exact C.
    1,3: apply Forall_upd; [exact C|intros; exact Y].
    - apply Forall_map_snd. apply Forall_map_snd in C. apply Forall_upd; [exact C|]. intros; exact Y.
    - apply Forall_entries. apply Forall_entries in C. apply Forall_upd; [exact C|]. cbn [fst snd]. intros x _ [A B]. now split.
  Qed.
  Lemma all_steps q : forall k r y, steps_mut q k = Some r -> k_all P k = true -> k_all P y = true -> k_all P (after r y) = true.
  Proof.
    induction q as [|st q IH]; intros k r y H A Y; [now injection H as <-|]. apply steps_inv in H. destruct H as (i & c & rq & Pt & C & Q & S1 & W).
    rewrite W. apply all_put; [exact A|]. apply (IH c rq y Q); [|exact Y]. apply part_child in C. destruct k as [id v]. cbn [kval] in C.
    apply k_all_children in A. destruct A as [_ A]. rewrite Forall_forall in A. exact (A _ C).
  Qed.
End All.

Lemma sorted_put i y k : sorted_node k = true -> sorted_node (put i y k) = true.
Proof.
  unfold sorted_node, put. destruct k as [id [| | | | |l|m|l|m]]; cbn [kval kid]; auto; intros H; rewrite <- H; apply strictly_fst; apply upd_fst.
Qed.

Lemma typed_put i y k : typed_node k = true -> typed_node (put i y k) = true.
Proof. unfold typed_node, put. now destruct k as [id [| | | | |l|m|l|m]]. Qed.

(** ** accessors *)
Lemma value_accessors :
  mirrors v_bool v_bool_mut /\ mirrors v_num v_num_mut /\ mirrors v_str v_str_mut /\ mirrors v_barr v_barr_mut /\
  mirrors v_tuple v_tuple_mut /\ mirrors v_cntr v_cntr_mut /\ mirrors v_seq v_seq_mut /\
  mirrors v_tuple_or_seq v_tuple_or_seq_mut /\ mirrors v_map v_map_mut.
Proof. repeat match goal with |- _ /\ _ => split end; intros place; (split; [|intros r E; split; [|intros y]; revert E]); destruct place; try reflexivity; try discriminate; intros [= <-]; reflexivity. Qed.

Lemma accessor_kinds v : 
  (forall r y, v_bool_mut v = Some r -> same_kind v (after r y)) /\ (forall r y, v_num_mut v = Some r -> same_kind v (after r y)) /\
  (forall r y, v_str_mut v = Some r -> same_kind v (after r y)) /\ (forall r y, v_barr_mut v = Some r -> same_kind v (after r y)) /\
  (forall r y, v_tuple_mut v = Some r -> same_kind v (after r y)) /\ (forall r y, v_cntr_mut v = Some r -> same_kind v (after r y)) /\
  (forall r y, v_seq_mut v = Some r -> same_kind v (after r y)) /\ (forall r y, v_tuple_or_seq_mut v = Some r -> same_kind v (after r y)) /\
  (forall r y, v_map_mut v = Some r -> same_kind v (after r y)).
Proof. destruct v; repeat split; intros r y; try discriminate; intros [= <-]; exact I. Qed.

Section Fields.
  Context {A : Type} (get : value kserd -> option A) (get_mut : value kserd -> option (mref (value kserd) A)).
  Hypothesis M : mirrors get get_mut.
  Lemma with_inv m name r : get_with_mut get_mut m name = Some r ->
    exists l1 id v l2 rv, m = l1 ++ (name, Kserd id v) :: l2 /\ Forall (fun e => str_cmp name (fst e) = Gt) l1 /\
      get_mut v = Some rv /\ shows r = shows rv /\ forall y, after r y = l1 ++ (name, Kserd id (after rv y)) :: l2.
  Proof.
    unfold get_with_mut. intros H. destruct (bt_get_mut str_cmp name m) as [rk|] eqn:E; [|discriminate].
    destruct (get_mut_some _ _ _ _ E) as (l1 & k' & l2 & -> & F & C). apply str_cmp_eq in C. subst k'. destruct (shows rk) as [id v] eqn:K.
    destruct (get_mut_at str_cmp name name (Kserd id v) l1 l2 F (str_cmp_refl name)) as (r' & E' & _ & W). rewrite E in E'. injection E' as <-.
    unfold mthen in H. rewrite K in H. cbn [k_val_mut shows after kval kid] in H. destruct (get_mut v) as [rv|] eqn:G; [|discriminate].
    injection H as <-. exists l1, id, v, l2, rv. cbn [shows after]. repeat split; auto.
  Qed.
  Lemma with_mirrors name : mirrors (fun m => get_with get m name) (fun m => get_with_mut get_mut m name).
  Proof.
    intros m. split.
    - unfold get_with, get_with_mut. rewrite get_mut_get. destruct (bt_get_mut str_cmp name m) as [r|]; [|reflexivity].
      cbn [option_map opt_bind]. destruct (M (kval (shows r))) as [-> _]. unfold mthen. cbn [k_val_mut shows]. now destruct (get_mut (kval (shows r))).
    - intros r H. destruct (with_inv _ _ _ H) as (l1 & id & v & l2 & rv & -> & F & G & S1 & W). destruct (M v) as [_ Mv]. destruct (Mv _ G) as [M1 M2].
      split; [now rewrite S1, W, M1|]. intros y. unfold get_with. rewrite W, (get_at str_cmp name name _ l1 l2 F (str_cmp_refl name)). apply M2.
  Qed.
End Fields.

Lemma field_accessors name :
  mirrors (fun m => get_bool m name) (fun m => get_bool_mut m name) /\ mirrors (fun m => get_num m name) (fun m => get_num_mut m name) /\
  mirrors (fun m => get_str m name) (fun m => get_str_mut m name) /\ mirrors (fun m => get_barr m name) (fun m => get_barr_mut m name) /\
  mirrors (fun m => get_tuple m name) (fun m => get_tuple_mut m name) /\ mirrors (fun m => get_seq m name) (fun m => get_seq_mut m name) /\
  mirrors (fun m => get_tuple_or_seq m name) (fun m => get_tuple_or_seq_mut m name) /\
  mirrors (fun m => get_cntr m name) (fun m => get_cntr_mut m name) /\ mirrors (fun m => get_map m name) (fun m => get_map_mut m name).
Proof.
  destruct value_accessors as (A & B & C & D & E & F & G & H & J).
  repeat match goal with |- _ /\ _ => split end; apply with_mirrors; assumption.
Qed.

Lemma field_edit {A} (f : value kserd -> option (mref (value kserd) A)) m name r :
  (forall v r y, f v = Some r -> same_kind v (after r y)) -> get_with_mut f m name = Some r ->
  exists l1 id v l2, m = l1 ++ (name, Kserd id v) :: l2 /\ forall y, exists w, same_kind v w /\ after r y = l1 ++ (name, Kserd id w) :: l2.
Proof.
  intros K H. destruct (with_inv f _ _ _ H) as (l1 & id & v & l2 & rv & -> & F & G & S1 & W). exists l1, id, v, l2. split; [reflexivity|].
  intros y. exists (after rv y). split; [exact (K _ _ _ G)|apply W].
Qed.
Lemma field_edits m name :
  let only {A} (g : list (str * kserd) -> str -> option (mref (list (str * kserd)) A)) := forall r, g m name = Some r ->
    exists l1 id v l2, m = l1 ++ (name, Kserd id v) :: l2 /\ forall y, exists w, same_kind v w /\ after r y = l1 ++ (name, Kserd id w) :: l2 in
  only get_bool_mut /\ only get_num_mut /\ only get_str_mut /\ only get_barr_mut /\ only get_tuple_mut /\ only get_seq_mut /\
  only get_tuple_or_seq_mut /\ only get_cntr_mut /\ only get_map_mut.
Proof.
  intros only. unfold only. repeat match goal with |- _ /\ _ => split end; intros r; apply field_edit; intros v r' y E;
    destruct (accessor_kinds v) as (A & B & C & D & F & G & H & J & K); eauto.
Qed.

Lemma steps_sorted q k r y : steps_mut q k = Some r -> k_sorted k = true -> k_sorted y = true -> k_sorted (after r y) = true.
Proof. exact (all_steps sorted_node sorted_put q k r y). Qed.
Lemma steps_typed q k r y : steps_mut q k = Some r -> k_typed k = true -> k_typed y = true -> k_typed (after r y) = true.
Proof. exact (all_steps typed_node typed_put q k r y). Qed.
Lemma steps_back q k r y : steps_mut q k = Some r -> steps_get q (after r y) = Some y /\
  exists r', steps_mut q (after r y) = Some r' /\ shows r' = y /\ forall z, after r' z = after r z.
Proof.
  intros H. destruct (steps_again q k r y H) as (r' & E & S1 & W). split; [rewrite steps_get_mut, E; cbn; congruence|]. now exists r'.
Qed.
Lemma steps_elsewhere q q' k r r' p p' y z : steps_mut q k = Some r -> steps_mut q' k = Some r' -> leads q k p -> leads q' k p' -> apart p p' ->
  steps_get q' (after r y) = steps_get q' k /\
  exists r1 r1', steps_mut q (after r' z) = Some r1 /\ steps_mut q' (after r y) = Some r1' /\ after r1 y = after r1' z.
Proof.
  intros H H' L L' A. destruct (steps_apart q q' k r r' p p' H H' L L' A y z) as (r1 & r1' & E1 & E2 & S1 & S2 & W).
  split; [rewrite !steps_get_mut, E2, H'; cbn; congruence|]. now exists r1, r1'.
Qed.
