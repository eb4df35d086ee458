(** The Formatter: requests, invariant, no panics. *)
From Verif Require Import Base F64 Number BTree Value BaseProps BTreeProps ValueSpec ValueProps Base91 Nav NavSpec NavProps NavProps2 NavProps3
  Fmt Formatter FmtText FmtSpec FmtProps.
Open Scope nat_scope.

Lemma repr_lt_le a b : repr_lt a b = false <-> repr_le b a.
Proof. unfold repr_lt, repr_le. rewrite Nat.ltb_ge. reflexivity. Qed.
Lemma repr_lt_lt a b : repr_lt a b = true <-> repr_n a < repr_n b.
Proof. unfold repr_lt. apply Nat.ltb_lt. Qed.
Lemma repr_n_inj a b : repr_n a = repr_n b -> a = b.
Proof. destruct a, b; cbn; congruence || discriminate. Qed.
Lemma repr_eqb_eq a b : repr_eqb a b = true <-> a = b.
Proof. unfold repr_eqb. rewrite Nat.eqb_eq. split; [apply repr_n_inj|congruence]. Qed.
Lemma repr_eqb_neq a b : repr_eqb a b = false <-> a <> b.
Proof. rewrite <- repr_eqb_eq. destruct (repr_eqb a b); split; congruence. Qed.
Lemma repr_le_refl a : repr_le a a.
Proof. unfold repr_le. lia. Qed.
Lemma repr_le_verbose a : repr_le a Verbose.
Proof. destruct a; unfold repr_le; cbn; lia. Qed.
Lemma repr_le_inline a : repr_le Inline a.
Proof. destruct a; unfold repr_le; cbn; lia. Qed.

(** ** updates *)
Lemma update_length {A} (l : list A) f : forall i, length (update l i f) = length l.
Proof. induction l as [|x l IH]; intros [|i]; cbn; auto. Qed.
Lemma update_nth {A} (l : list A) f : forall i j,
  nth_error (update l i f) j = if j =? i then option_map f (nth_error l j) else nth_error l j.
Proof.
  induction l as [|x l IH]; intros [|i] [|j]; cbn [update nth_error Nat.eqb option_map]; try reflexivity.
  all: try (destruct (j =? _); reflexivity). apply IH.
Qed.

Definition lower (r : repr) (f : fmt) : fmt := if repr_lt r (f_line f) then set_line r f else f.
Lemma lower_line r f : f_line (lower r f) = if repr_lt r (f_line f) then r else f_line f.
Proof. unfold lower. destruct (repr_lt r (f_line f)); reflexivity. Qed.
Lemma lower_lower r f : lower r (lower r f) = lower r f.
Proof. unfold lower. destruct (repr_lt r (f_line f)) eqn:E; [|now rewrite E]. cbn [set_line f_line]. unfold repr_lt. now rewrite Nat.ltb_irrefl. Qed.

Lemma lower_fold r ds : forall fmts, Forall (fun d => n_idx d < length fmts) ds ->
  exists fmts',
    lfold (fun fmts d => dl cur <- lunwrap (nth_error fmts (n_idx d)) ;
             LRet (if repr_lt r (f_line cur) then update fmts (n_idx d) (set_line r) else fmts)) ds fmts = LRet fmts' /\
    length fmts' = length fmts /\
    forall j, nth_error fmts' j = option_map (fun f => if existsb (Nat.eqb j) (map n_idx ds) then lower r f else f) (nth_error fmts j).
Proof.
  induction ds as [|d ds IH]; intros fmts H.
  - exists fmts. split; [reflexivity|]. split; [reflexivity|]. intros j. cbn. now destruct (nth_error fmts j).
  - inversion_clear H as [|? ? H1 H2]. cbn [lfold].
    destruct (nth_error fmts (n_idx d)) as [cur|] eqn:E; [|apply nth_error_None in E; lia]. cbn [lunwrap lbind].
    set (fm1 := if repr_lt r (f_line cur) then update fmts (n_idx d) (set_line r) else fmts).
    assert (L1 : length fm1 = length fmts) by (unfold fm1; destruct (repr_lt _ _); [apply update_length|reflexivity]).
    assert (N1 : forall j, nth_error fm1 j = option_map (fun f => if j =? n_idx d then lower r f else f) (nth_error fmts j)).
    { intros j. unfold fm1. destruct (repr_lt r (f_line cur)) eqn:El.
      - rewrite update_nth. destruct (Nat.eqb_spec j (n_idx d)) as [->|]; [rewrite E|destruct (nth_error fmts j); reflexivity].
        cbn [option_map]. unfold lower. now rewrite El.
      - destruct (Nat.eqb_spec j (n_idx d)) as [->|]; [rewrite E|destruct (nth_error fmts j); reflexivity].
        cbn [option_map]. unfold lower. now rewrite El. }
    destruct (IH fm1) as (fm2 & R & L2 & N2); [eapply Forall_impl; [|exact H2]; cbn beta; intros; lia|].
    exists fm2. split; [exact R|]. split; [lia|]. intros j. rewrite N2, N1. cbn [map existsb].
    destruct (nth_error fmts j) as [f|]; [|reflexivity]. cbn [option_map]. f_equal.
    destruct (j =? n_idx d); cbn [orb]; [|reflexivity]. destruct (existsb _ _); [apply lower_lower|reflexivity].
Qed.

(** ** the subtree of a node is an interval of indices *)
Lemma firstn_seq n : forall m i, firstn n (seq i m) = seq i (min n m).
Proof. induction n as [|n IH]; intros [|m] i; cbn; try reflexivity. now rewrite IH. Qed.
Lemma skipn_seq n : forall m i, skipn n (seq i m) = seq (i + n) (m - n).
Proof.
  induction n as [|n IH]; intros [|m] i; cbn [skipn seq]; rewrite ?Nat.add_0_r, ?Nat.sub_0_r; try reflexivity.
  rewrite IH. f_equal; lia.
Qed.
Lemma segment_idx root i n : map n_idx (segment (full root) i n) = seq i (min n (length (full root) - i)).
Proof. unfold segment. now rewrite <- firstn_map, <- skipn_map, full_idx, skipn_seq, firstn_seq. Qed.

Lemma full_parent root j n : nth_error (full root) j = Some n ->
  exists m, nth_error (pre info_default 0 root) j = Some m /\ n_parent m = n_parent n.
Proof.
  unfold full. rewrite nth_error_map. destruct (nth_error (pre info_default 0 root) j) as [m|]; [|discriminate].
  intros [= <-]. now exists m.
Qed.

Lemma interval_parent root it j n p : ok_item root it -> nth_error (full root) j = Some n -> n_parent n = Some p ->
  (fst it < j < fst it + ksize (snd (snd it)) <-> fst it <= p < fst it + ksize (snd (snd it))).
Proof.
  intros H Hn Hp. destruct (full_parent root j n Hn) as (m & Hm & E). rewrite Hp in E. clear Hn Hp n.
  destruct it as [i [info k]]. unfold ok_item, at_ in H. cbn [fst snd] in *.
  destruct H as (A & B & EL & LA & FA & FB & HI). rewrite EL in Hm. pose proof (pre_length k info i) as PL.
  destruct (Nat.lt_ge_cases j i) as [Hj|Hj].
  - rewrite nth_error_app1 in Hm by lia. apply nth_error_In in Hm. rewrite Forall_forall in FA. apply FA in Hm.
    unfold par_lt in Hm. rewrite E in Hm. lia.
  - rewrite nth_error_app2 in Hm by lia. rewrite LA in Hm. destruct (Nat.lt_ge_cases j (i + ksize k)) as [Hk|Hk].
    + rewrite nth_error_app1 in Hm by lia. destruct (Nat.eq_dec j i) as [->|NE].
      * rewrite Nat.sub_diag, pre_unfold in Hm. cbn [nth_error] in Hm. injection Hm as <-. cbn [mk_head n_parent] in E. rewrite E in HI. lia.
      * destruct (pre info i k) as [|h tl_] eqn:EP; [destruct (j - i); discriminate|].
        pose proof (pre_tail_parents k info i) as TP. rewrite EP in TP. cbn [tl] in TP.
        destruct (j - i) eqn:Ej; [lia|]. cbn [nth_error] in Hm. apply nth_error_In in Hm. rewrite Forall_forall in TP. apply TP in Hm.
        unfold par_in in Hm. rewrite E in Hm. lia.
    + rewrite nth_error_app2 in Hm by lia. apply nth_error_In in Hm. rewrite Forall_forall in FB. apply FB in Hm.
      unfold par_out in Hm. rewrite E in Hm. lia.
Qed.
Lemma nth_idx root j n : nth_error (full root) j = Some n -> n_idx n = j.
Proof.
  intros Hn. pose proof (full_idx root) as FI. apply (f_equal (fun l => nth_error l j)) in FI. rewrite nth_error_map, Hn in FI. cbn [option_map] in FI.
  assert (LJ : j < length (full root)) by (apply nth_error_Some; congruence).
  rewrite (nth_error_nth' _ 0) in FI by now rewrite seq_length. rewrite seq_nth in FI by exact LJ. injection FI as FI. exact FI.
Qed.
Lemma parent_before root j n p : nth_error (full root) j = Some n -> n_parent n = Some p -> p < j.
Proof.
  intros Hn Hp. pose proof (nth_error_In _ _ Hn) as HI. destruct (item_exists root n HI) as (it & Ho & ->).
  destruct Ho as (A & B & EL & LA & FA & FB & H). cbn [nd mk_full n_parent] in Hp. rewrite Hp in H.
  pose proof (nth_idx root j _ Hn) as E. cbn [nd mk_full n_idx] in E. lia.
Qed.
Lemma get_item root j n : nth_error (full root) j = Some n -> exists it, ok_item root it /\ nd it = n /\ fst it = j.
Proof.
  intros Hn. destruct (item_exists root n (nth_error_In _ _ Hn)) as (it & Ho & ->). exists it. repeat split; auto.
  exact (nth_idx root j _ Hn).
Qed.
Lemma node_get root n : In n (full root) -> nth_error (full root) (n_idx n) = Some n.
Proof. intros H. destruct (item_exists root n H) as (it & Ho & ->). exact (ok_get root it Ho). Qed.

(** ** requests *)
Lemma nonempty_kids root it : ok_item root it -> length (vkids it) = length (values_of (snd (snd it))).
Proof. intros _. pose proof (vkids_kserds it) as E. apply (f_equal (@length _)) in E. now rewrite map_length in E. Qed.
Lemma max_line_kind root it : ok_item root it -> max_line_repr (node_val (full root) (nd it)) = kind_max (snd (snd it)).
Proof.
  intros H. rewrite item_val by exact H. pose proof (nonempty_kids root it H) as E. unfold kind_max, values_of in *.
  destruct (kval (snd (snd it))) as [| | | | |l|m|l|m] eqn:Ek; try reflexivity.
  - destruct l, (vkids it); try discriminate; reflexivity.
  - rewrite map_length in E. destruct m, (vkids it); try discriminate; reflexivity.
  - destruct l, (vkids it); try discriminate; reflexivity.
  - rewrite map_length in E. pose proof (kids_lengths it m Ek) as E2.
    destruct m, (vkids it), (kkids it); try discriminate; reflexivity.
Qed.
Lemma seq_or_map_val root it : ok_item root it ->
  match node_val (full root) (nd it) with NSeq _ | NMap _ => true | _ => false end = seq_or_map (snd (snd it)).
Proof.
  intros H. rewrite item_val by exact H. unfold seq_or_map. destruct (kval (snd (snd it))); reflexivity.
Qed.

Definition upd (i size : nat) (r : repr) (j : nat) (f : fmt) : fmt :=
  if j =? i then set_line r f else if (i <? j) && (j <? i + size) then lower r f else f.

Definition parent_line (nv : nav) (fmts : list fmt) (n : node) : option repr :=
  option_map f_line (opt_bind (node_parent nv n) (fun p => nth_error fmts (n_idx p))).

(** why a request may be refused *)
Definition refused (root : kserd) (fmts : list fmt) (it : item) (r : repr) (e : fmt_error) : Prop :=
  match e with
  | IdxOutOfBounds => False
  | SeqMapAtRoot => fst it = 0 /\ r = Verbose /\ seq_or_map (snd (snd it)) = true
  | RequestTooHigh max req => max = kind_max (snd (snd it)) /\ req = r /\ repr_n max < repr_n r
  | ParentIsInline => parent_line (full root) fmts (nd it) = Some Inline /\ r <> Inline
  | ParentIsConcise => parent_line (full root) fmts (nd it) = Some Concise /\ r = Verbose
  end.
Definition okreq (root : kserd) (fmts : list fmt) (it : item) (r : repr) : Prop :=
  repr_le r (kind_max (snd (snd it))) /\
  (forall rp, parent_line (full root) fmts (nd it) = Some rp -> repr_le r rp) /\
  (fst it = 0 -> r = Verbose -> seq_or_map (snd (snd it)) = false).

Lemma refused_not_ok root fmts it r e : refused root fmts it r e -> ~ okreq root fmts it r.
Proof.
  intros H (K1 & K2 & K3). destruct e; cbn [refused] in H.
  - exact H.
  - destruct H as [H1 H2]. apply K2 in H1. destruct r; cbn in H1; unfold repr_le in H1; cbn in H1; try lia. congruence.
  - destruct H as [H1 ->]. apply K2 in H1. unfold repr_le in H1. cbn in H1. lia.
  - destruct H as (-> & -> & H). unfold repr_le in K1. lia.
  - destruct H as (H1 & H2 & H3). rewrite K3 in H3 by assumption. discriminate.
Qed.

Lemma request_cases root fmts it r f : length fmts = length (full root) -> ok_item root it -> nth_error fmts (fst it) = Some f ->
  exists fmts' res, request_repr (full root) fmts (fst it) r = LRet (fmts', res) /\ length fmts' = length fmts /\
    match res with
    | Some e => fmts' = fmts /\ r <> f_line f /\ refused root fmts it r e
    | None => (r = f_line f /\ fmts' = fmts) \/
              (r <> f_line f /\ okreq root fmts it r /\
               forall j, nth_error fmts' j = option_map (upd (fst it) (ksize (snd (snd it))) r j) (nth_error fmts j))
    end.
Proof.
  intros L Ho Hf. unfold request_repr. rewrite (ok_get root it Ho), Hf. cbn [lunwrap lbind].
  rewrite seq_or_map_val by exact Ho. unfold line_repr_constraints. rewrite max_line_kind by exact Ho.
  fold (parent_line (full root) fmts (nd it)).
  destruct (repr_eqb r (f_line f)) eqn:E1.
  { apply repr_eqb_eq in E1. exists fmts, None. auto. }
  apply repr_eqb_neq in E1.
  destruct ((fst it =? 0) && repr_eqb r Verbose && seq_or_map (snd (snd it))) eqn:E2.
  { apply andb_true_iff in E2 as [E2 E3]. apply andb_true_iff in E2 as [E2 E4]. apply Nat.eqb_eq in E2. apply repr_eqb_eq in E4.
    exists fmts, (Some SeqMapAtRoot). repeat split; auto. }
  unfold validate_request_repr. destruct (repr_lt (kind_max (snd (snd it))) r) eqn:E3.
  { apply repr_lt_lt in E3. cbn [lbind]. eexists fmts, (Some _). repeat split; auto. }
  apply repr_lt_le in E3.
  set (pl := match parent_line (full root) fmts (nd it) with Some p => p | None => Verbose end).
  destruct (repr_lt pl r) eqn:E4.
  { apply repr_lt_lt in E4. unfold pl in *. destruct (parent_line (full root) fmts (nd it)) as [[| |]|] eqn:EP; cbn [repr_n] in E4.
    - cbn [lbind]. exists fmts, (Some ParentIsInline). repeat split; auto. intros ->. cbn in E4. lia.
    - cbn [lbind]. exists fmts, (Some ParentIsConcise). repeat split; auto. destruct r; cbn in E4; try lia. reflexivity.
    - destruct r; cbn in E4; lia.
    - destruct r; cbn in E4; lia. }
  apply repr_lt_le in E4. cbn [lbind]. rewrite depth_segment by exact Ho. cbn [lbind].
  set (sz := ksize (snd (snd it))) in *. pose proof (isz_le root it Ho) as B. fold sz in B.
  destruct (lower_fold r (segment (full root) (S (fst it)) (sz - 1)) (update fmts (fst it) (set_line r))) as (fmts' & R & L' & N').
  { apply Forall_map with (f := n_idx) (P := fun i => i < length (update fmts (fst it) (set_line r))). rewrite segment_idx.
    apply Forall_forall. intros j Hj. apply in_seq in Hj. rewrite update_length. lia. }
  rewrite R. cbn [lbind]. exists fmts', None. rewrite update_length in L'. split; [reflexivity|]. split; [exact L'|]. right. split; [exact E1|].
  split; [split; [exact E3|split]|].
  - intros rp Hrp. unfold pl in E4. rewrite Hrp in E4. exact E4.
  - intros Hi ->. destruct (seq_or_map (snd (snd it))); [|reflexivity]. rewrite Hi in E2. discriminate.
  - intros j. rewrite N', update_nth, segment_idx. unfold upd.
    assert (EX : existsb (Nat.eqb j) (seq (S (fst it)) (min (sz - 1) (length (full root) - S (fst it)))) = (fst it <? j) && (j <? fst it + sz)).
    { apply eq_true_iff_eq. rewrite existsb_exists, andb_true_iff, !Nat.ltb_lt. split.
      - intros (x & Hx & Ex). apply Nat.eqb_eq in Ex. subst x. apply in_seq in Hx. lia.
      - intros Hj. exists j. split; [apply in_seq; lia|apply Nat.eqb_refl]. }
    rewrite EX. destruct (Nat.eqb_spec j (fst it)) as [->|NE].
    + rewrite Nat.ltb_irrefl. cbn [andb]. destruct (nth_error fmts (fst it)); reflexivity.
    + destruct (nth_error fmts j); reflexivity.
Qed.

(** ** the invariant *)
Definition line_at (fmts : list fmt) (i : nat) (r : repr) : Prop := exists f, nth_error fmts i = Some f /\ f_line f = r.
Definition inv_kind (root : kserd) (fmts : list fmt) : Prop :=
  forall j n r, nth_error (full root) j = Some n -> line_at fmts j r -> repr_le r (kind_max (n_kserd n)).
Definition inv_parent (root : kserd) (fmts : list fmt) (m : nat) : Prop :=
  forall j n p r rp, j < m -> nth_error (full root) j = Some n -> n_parent n = Some p -> line_at fmts j r -> line_at fmts p rp -> repr_le r rp.
Definition inv_root (root : kserd) (fmts : list fmt) : Prop := seq_or_map root = true -> ~ line_at fmts 0 Verbose.
Definition inv (root : kserd) (fmts : list fmt) : Prop :=
  length fmts = length (full root) /\ inv_kind root fmts /\ inv_parent root fmts (length (full root)) /\ inv_root root fmts.

Lemma line_at_fun fmts i a b : line_at fmts i a -> line_at fmts i b -> a = b.
Proof. intros (f & H & <-) (g & H' & <-). congruence. Qed.
Lemma line_at_ex fmts i : i < length fmts -> exists r, line_at fmts i r.
Proof. intros H. destruct (nth_error fmts i) as [f|] eqn:E; [exists (f_line f), f; auto|]. apply nth_error_None in E. lia. Qed.

Lemma upd_line i size r j f :
  f_line (upd i size r j f) = if j =? i then r else if (i <? j) && (j <? i + size) then (if repr_lt r (f_line f) then r else f_line f) else f_line f.
Proof. unfold upd. destruct (j =? i); [reflexivity|]. destruct ((i <? j) && (j <? i + size)); [apply lower_line|reflexivity]. Qed.
Lemma upd_id i size r j f : f_id (upd i size r j f) = f_id f.
Proof. unfold upd, lower. destruct (j =? i); [reflexivity|]. destruct (_ && _); [|reflexivity]. destruct (repr_lt _ _); reflexivity. Qed.

Lemma parent_line_at root fmts it p : ok_item root it -> length fmts = length (full root) -> i_parent (fst (snd it)) = Some p ->
  exists r, line_at fmts p r /\ parent_line (full root) fmts (nd it) = Some r.
Proof.
  intros Ho L Hp. destruct (parent_kid root it p Ho Hp) as (pit & Hpo & Ep & _).
  unfold parent_line, node_parent. cbn [nd mk_full n_parent]. rewrite Hp. cbn [opt_bind]. rewrite <- Ep, (ok_get root pit Hpo).
  cbn [nd mk_full n_idx opt_bind]. pose proof (isz_le root pit Hpo). pose proof (ksize_pos (snd (snd pit))).
  destruct (nth_error fmts (fst pit)) as [f|] eqn:E; [|apply nth_error_None in E; lia].
  exists (f_line f). split; [now exists f|reflexivity].
Qed.

(** changes of a successful request, on the parts of the invariant *)
Section Change.
  Variables (root : kserd) (fmts fmts' : list fmt) (it : item) (r : repr).
  Hypothesis Ho : ok_item root it.
  Hypothesis L : length fmts = length (full root).
  Hypothesis OK : okreq root fmts it r.
  Hypothesis N : forall j, nth_error fmts' j = option_map (upd (fst it) (ksize (snd (snd it))) r j) (nth_error fmts j).

  Lemma line_at_upd j r' : line_at fmts' j r' -> exists f, nth_error fmts j = Some f /\ r' = f_line (upd (fst it) (ksize (snd (snd it))) r j f).
  Proof.
    intros (f' & H & <-). rewrite N in H. destruct (nth_error fmts j) as [f|] eqn:E; [|discriminate]. injection H as <-. now exists f.
  Qed.
  Lemma change_kind : inv_kind root fmts -> inv_kind root fmts'.
  Proof.
    intros K j n r' Hn Hl. destruct (line_at_upd j r' Hl) as (f & Hf & ->). rewrite upd_line.
    assert (Kf : repr_le (f_line f) (kind_max (n_kserd n))) by (eapply K; [exact Hn|now exists f]).
    destruct (Nat.eqb_spec j (fst it)) as [->|NE].
    - pose proof (ok_get root it Ho) as G. unfold nav_get in G. rewrite Hn in G. injection G as ->. exact (proj1 OK).
    - destruct (_ && _); [|exact Kf]. destruct (repr_lt r (f_line f)) eqn:E; [|exact Kf]. apply repr_lt_lt in E. unfold repr_le in *. lia.
  Qed.
  Lemma change_parent m : inv_parent root fmts m -> inv_parent root fmts' m.
  Proof.
    intros K j n p rj rp Hj Hn Hp Hlj Hlp.
    destruct (line_at_upd j rj Hlj) as (f & Hf & ->). destruct (line_at_upd p rp Hlp) as (fp & Hfp & ->). rewrite !upd_line.
    assert (Kf : repr_le (f_line f) (f_line fp)) by (eapply K; [exact Hj|exact Hn|exact Hp|now exists f|now exists fp]).
    pose proof (interval_parent root it j n p Ho Hn Hp) as IP. pose proof (parent_before root j n p Hn Hp) as PB.
    pose proof (ksize_pos (snd (snd it))) as KP. set (i := fst it) in *. set (sz := ksize (snd (snd it))) in *.
    destruct (Nat.eqb_spec j i) as [Ej|NE].
    - assert (Hpi : (p =? i) = false) by (apply Nat.eqb_neq; lia). rewrite Hpi.
      assert (Hpi' : (i <? p) = false) by (apply Nat.ltb_ge; lia). rewrite Hpi'. cbn [andb].
      subst j. pose proof (ok_get root it Ho) as G. unfold nav_get in G. fold i in G. rewrite Hn in G. injection G as ->.
      destruct (parent_line_at root fmts it p Ho L Hp) as (r0 & H0 & E0). destruct OK as (_ & O2 & _). apply O2 in E0.
      replace (f_line fp) with r0; [exact E0|]. eapply line_at_fun; [exact H0|now exists fp].
    - destruct ((i <? j) && (j <? i + sz)) eqn:E.
      + apply andb_true_iff in E as [E1 E2]. apply Nat.ltb_lt in E1, E2. assert (P : i <= p < i + sz) by (apply IP; lia).
        destruct (Nat.eqb_spec p i) as [Ep|NP].
        * destruct (repr_lt r (f_line f)) eqn:EL; [apply repr_le_refl|]. now apply repr_lt_le in EL.
        * replace ((i <? p) && (p <? i + sz)) with true by (symmetry; apply andb_true_iff; rewrite !Nat.ltb_lt; lia).
          unfold repr_le, repr_lt in *. destruct (repr_n r <? repr_n (f_line f)) eqn:A, (repr_n r <? repr_n (f_line fp)) eqn:C;
            rewrite ?Nat.ltb_lt, ?Nat.ltb_ge in *; lia.
      + assert (P : ~ (i <= p < i + sz)).
        { intros P. apply IP in P. apply andb_false_iff in E. rewrite !Nat.ltb_ge in E. lia. }
        replace (p =? i) with false by (symmetry; apply Nat.eqb_neq; lia).
        replace ((i <? p) && (p <? i + sz)) with false; [exact Kf|]. symmetry. apply andb_false_iff. rewrite !Nat.ltb_ge. lia.
  Qed.
  Lemma change_root : inv_root root fmts -> inv_root root fmts'.
  Proof.
    intros K S Hl. destruct (line_at_upd 0 Verbose Hl) as (f & Hf & E). rewrite upd_line in E.
    destruct (Nat.eqb_spec 0 (fst it)) as [E0|NE].
    - destruct OK as (_ & _ & O3). assert (root = snd (snd it)) as ->; [|rewrite O3 in S; [discriminate|auto|auto]].
      pose proof (ok_get root it Ho) as G. pose proof (at_nth root 0 info_default root (at_root root)) as G0. unfold nav_get in G. rewrite <- E0 in G. change (nth_error (full root) 0 = Some (nd (0, (info_default, root)))) in G0. rewrite G0 in G. apply (f_equal (option_map n_kserd)) in G. now injection G.
    - destruct (0 <? fst it) eqn:A; [|apply Nat.ltb_ge in A; lia]. replace (fst it <? 0) with false in E by reflexivity. cbn [andb] in E.
      apply (K S). now exists f.
  Qed.
End Change.

Lemma nth_error_ext_list {A} (a : list A) : forall b, (forall j, nth_error a j = nth_error b j) -> a = b.
Proof.
  induction a as [|x a IH]; intros [|y b] H; [reflexivity|discriminate (H 0)|discriminate (H 0)|].
  pose proof (H 0) as H0. cbn in H0. injection H0 as ->. f_equal. apply IH. intros j. exact (H (S j)).
Qed.
Lemma get_fmts root (fmts : list fmt) it : length fmts = length (full root) -> ok_item root it -> exists f, nth_error fmts (fst it) = Some f.
Proof.
  intros L Ho. pose proof (isz_le root it Ho). pose proof (ksize_pos (snd (snd it))).
  destruct (nth_error fmts (fst it)) as [f|] eqn:E; [now exists f|]. apply nth_error_None in E. lia.
Qed.

(** a request returns and keeps every part of the invariant *)
Lemma request_keeps root fmts i r : length fmts = length (full root) ->
  exists fmts' res, request_repr (full root) fmts i r = LRet (fmts', res) /\ length fmts' = length fmts /\
    (inv_kind root fmts -> inv_kind root fmts') /\ (forall m, inv_parent root fmts m -> inv_parent root fmts' m) /\
    (inv_root root fmts -> inv_root root fmts') /\ map f_id fmts' = map f_id fmts.
Proof.
  intros L. destruct (nth_error (full root) i) as [n|] eqn:E.
  - destruct (get_item root i n E) as (it & Ho & <- & <-). destruct (get_fmts root fmts it L Ho) as [f Hf].
    destruct (request_cases root fmts it r f L Ho Hf) as (fmts' & res & R & L' & C). exists fmts', res. split; [exact R|]. split; [exact L'|].
    destruct res as [e|].
    + destruct C as (-> & _ & _). auto.
    + destruct C as [[_ ->]|(_ & OK & N)]; [auto|]. split; [|split; [|split]].
      * apply (change_kind root fmts fmts' it r); assumption.
      * apply (change_parent root fmts fmts' it r); assumption.
      * apply (change_root root fmts fmts' it r); assumption.
      * apply nth_error_ext_list. intros j. rewrite !nth_error_map, N. destruct (nth_error fmts j); [|reflexivity]. cbn [option_map]. now rewrite upd_id.
  - exists fmts, (Some IdxOutOfBounds). unfold request_repr, nav_get. rewrite E. repeat split; auto.
Qed.
Lemma request_inv root fmts i r : inv root fmts ->
  exists fmts' res, request_repr (full root) fmts i r = LRet (fmts', res) /\ inv root fmts' /\ map f_id fmts' = map f_id fmts.
Proof.
  intros (L & K & P & R). destruct (request_keeps root fmts i r L) as (fmts' & res & E & L' & K' & P' & R' & I).
  exists fmts', res. split; [exact E|]. split; [|exact I]. split; [lia|]. auto.
Qed.

(** ** [Formatter::new] *)
Lemma root_get root : nav_get (full root) 0 = Some (nd (0, (info_default, root))).
Proof. apply at_nth, at_root. Qed.
Lemma root_nav root : nav_root (full root) = Some (nd (0, (info_default, root))).
Proof. rewrite <- root_get. unfold nav_root, nav_get. destruct (full root); reflexivity. Qed.
Lemma root_ok root : ok_item root (0, (info_default, root)).
Proof. exact (at_root root). Qed.

Lemma knock_on_keeps root fmts i n : length fmts = length (full root) -> nth_error (full root) i = Some n ->
  inv_kind root fmts -> inv_parent root fmts i -> inv_root root fmts ->
  exists fmts', knock_on (full root) fmts i = LRet fmts' /\ length fmts' = length fmts /\
    inv_kind root fmts' /\ inv_parent root fmts' (S i) /\ inv_root root fmts' /\ map f_id fmts' = map f_id fmts.
Proof.
  intros L Hn K P R. destruct (get_item root i n Hn) as (it & Ho & <- & <-). unfold knock_on, nav_get. rewrite Hn. cbn [opt_bind].
  destruct (i_parent (fst (snd it))) as [p|] eqn:Ep.
  - destruct (parent_kid root it p Ho Ep) as (pit & Hpo & Epi & _). unfold node_parent. cbn [nd mk_full n_parent]. rewrite Ep. cbn [opt_bind].
    rewrite <- Epi, (ok_get root pit Hpo). destruct (get_fmts root fmts it L Ho) as [f Hf]. destruct (get_fmts root fmts pit L Hpo) as [fp Hfp].
    rewrite Hf. cbn [lunwrap lbind nd mk_full n_idx]. rewrite Hfp. cbn [lunwrap lbind].
    assert (PB : fst pit < fst it) by (rewrite Epi; eapply parent_before; [exact Hn|exact Ep]).
    assert (PL : parent_line (full root) fmts (nd it) = Some (f_line fp)).
    { destruct (parent_line_at root fmts it p Ho L Ep) as (r & Hr & ->). f_equal. eapply line_at_fun; [exact Hr|]. exists fp. now rewrite <- Epi. }
    destruct (repr_lt (f_line fp) (f_line f)) eqn:EL.
    + apply repr_lt_lt in EL.
      destruct (request_cases root fmts it (f_line fp) f L Ho Hf) as (fmts' & res & E & L' & C).
      destruct (request_keeps root fmts (fst it) (f_line fp) L) as (fmts2 & res2 & E2 & _ & K' & P' & R' & I').
      rewrite E in E2. injection E2 as <- <-. rewrite E. cbn [lbind fst]. exists fmts'. split; [reflexivity|]. split; [exact L'|].
      split; [auto|]. split; [|split; [auto|exact I']]. destruct res as [e|].
      { destruct C as (_ & _ & C). exfalso. apply (refused_not_ok _ _ _ _ _ C). split; [|split].
        - assert (X : repr_le (f_line f) (kind_max (snd (snd it)))) by (apply (K _ _ _ Hn); now exists f). unfold repr_le in *. lia.
        - intros rp. rewrite PL. intros [= <-]. apply repr_le_refl.
        - intros E0. lia. }
      destruct C as [[C _]|(_ & OK & N)]; [rewrite C in EL; lia|].
      intros j m q rj rq Hj Hm Hq Hlj Hlq. destruct (Nat.eq_dec j (fst it)) as [->|NE].
      * rewrite Hn in Hm. injection Hm as <-. cbn [nd mk_full n_parent] in Hq. rewrite Ep in Hq. injection Hq as <-.
        destruct (line_at_upd fmts fmts' it (f_line fp) N _ _ Hlj) as (f1 & Hf1 & ->). destruct (line_at_upd fmts fmts' it (f_line fp) N _ _ Hlq) as (f2 & Hf2 & ->).
        rewrite <- Epi, Hfp in Hf2. injection Hf2 as <-. rewrite !upd_line, Nat.eqb_refl. rewrite <- Epi.
        replace (fst pit =? fst it) with false by (symmetry; apply Nat.eqb_neq; lia).
        replace (fst it <? fst pit) with false by (symmetry; apply Nat.ltb_ge; lia). apply repr_le_refl.
      * eapply (P' (fst it) P); [|exact Hm|exact Hq|exact Hlj|exact Hlq]. lia.
    + apply repr_lt_le in EL. exists fmts. repeat split; auto. intros j m q rj rq Hj Hm Hq Hlj Hlq.
      destruct (Nat.eq_dec j (fst it)) as [->|NE]; [|eapply P; [|exact Hm|exact Hq|exact Hlj|exact Hlq]; lia].
      rewrite Hn in Hm. injection Hm as <-. cbn [nd mk_full n_parent] in Hq. rewrite Ep in Hq. injection Hq as <-. subst p.
      rewrite (line_at_fun _ _ _ _ Hlj (ex_intro _ f (conj Hf eq_refl))), (line_at_fun _ _ _ _ Hlq (ex_intro _ fp (conj Hfp eq_refl))). exact EL.
  - unfold node_parent. cbn [nd mk_full n_parent]. rewrite Ep. cbn [opt_bind]. exists fmts. repeat split; auto.
    intros j m q rj rq Hj Hm Hq Hlj Hlq. destruct (Nat.eq_dec j (fst it)) as [->|NE]; [|eapply P; [|exact Hm|exact Hq|exact Hlj|exact Hlq]; lia].
    rewrite Hn in Hm. injection Hm as <-. cbn [nd mk_full n_parent] in Hq. congruence.
Qed.

Lemma knock_loop root : forall c i fmts, i + c = length (full root) -> length fmts = length (full root) ->
  inv_kind root fmts -> inv_parent root fmts i -> inv_root root fmts ->
  exists fmts', lfold (knock_on (full root)) (seq i c) fmts = LRet fmts' /\ inv root fmts' /\ map f_id fmts' = map f_id fmts.
Proof.
  induction c as [|c IH]; intros i fmts Hi L K P R; cbn [seq lfold].
  - exists fmts. split; [reflexivity|]. split; [|reflexivity]. split; [exact L|]. split; [exact K|]. split; [|exact R]. now replace (length (full root)) with i by lia.
  - destruct (nth_error (full root) i) as [n|] eqn:Hn; [|apply nth_error_None in Hn; lia].
    destruct (knock_on_keeps root fmts i n L Hn K P R) as (fmts' & E & L' & K' & P' & R' & I'). rewrite E. cbn [lbind].
    destruct (IH (S i) fmts') as (fmts'' & E2 & V & I2); auto; try lia. exists fmts''. rewrite I2. auto.
Qed.

Lemma initial_line nv n : repr_le (f_line (initial_fmt nv n)) (max_line_repr (node_val nv n)).
Proof.
  unfold initial_fmt. cbn [f_line]. destruct (is_key n); [|apply repr_le_refl].
  unfold repr_min, repr_le. destruct (max_line_repr (node_val nv n)); cbn; lia.
Qed.
Lemma initial_kind root : inv_kind root (map (initial_fmt (full root)) (full root)).
Proof.
  intros j n r Hn (f & Hf & <-). rewrite nth_error_map, Hn in Hf. injection Hf as <-.
  destruct (get_item root j n Hn) as (it & Ho & <- & <-). cbn [nd mk_full n_kserd]. rewrite <- (max_line_kind root it Ho). apply initial_line.
Qed.

Lemma fm_new_spec root : exists fmts, fm_new root = LRet (mkFmtr (full root) fmts) /\ inv root fmts /\ Forall (fun f => f_id f = true) fmts.
Proof.
  unfold fm_new. rewrite nav_new_full. cbn [lbind]. unfold nav_nodes. rewrite root_nav. cbn [lunwrap lbind]. rewrite full_idx.
  set (f0 := map (initial_fmt (full root)) (full root)).
  assert (L0 : length f0 = length (full root)) by (unfold f0; apply map_length).
  assert (I0 : Forall (fun f => f_id f = true) f0).
  { unfold f0. apply Forall_map, Forall_forall. reflexivity. }
  pose proof (initial_kind root) as K0. fold f0 in K0.
  assert (IDS : forall a b : list fmt, map f_id a = map f_id b -> Forall (fun f => f_id f = true) b -> Forall (fun f => f_id f = true) a).
  { intros a b E H. apply Forall_forall. intros x Hx. apply (in_map f_id) in Hx. rewrite E in Hx. apply in_map_iff in Hx as (y & <- & Hy). rewrite Forall_forall in H. auto. }
  assert (P0 : forall fm, inv_parent root fm 0) by (intros fm j n p r rp Hj; lia).
  assert (X : exists f1, match node_val (full root) (nd (0, (info_default, root))) with
               | NSeq _ | NMap _ => dl x <- request_repr (full root) f0 0 Concise; LRet (fst x)
               | _ => LRet f0
               end = LRet f1 /\ length f1 = length (full root) /\ inv_kind root f1 /\ inv_root root f1 /\ map f_id f1 = map f_id f0).
  { pose proof (seq_or_map_val root _ (root_ok root)) as SM. cbn [snd] in SM.
    destruct (seq_or_map root) eqn:Esm.
    - assert (Y : exists f1, dl x <- request_repr (full root) f0 0 Concise; LRet (fst x) = LRet f1 /\ length f1 = length (full root) /\ inv_kind root f1 /\ inv_root root f1 /\ map f_id f1 = map f_id f0).
      { destruct (get_fmts root f0 _ L0 (root_ok root)) as [f Hf].
        destruct (request_cases root f0 _ Concise f L0 (root_ok root) Hf) as (f1 & res & E & L1 & C). cbn [fst] in E.
        destruct (request_keeps root f0 0 Concise L0) as (f1' & res' & E' & _ & K1 & _ & _ & I1). rewrite E in E'. injection E' as <- <-.
        rewrite E. cbn [lbind fst]. exists f1. split; [reflexivity|]. split; [lia|]. split; [auto|]. split; [|exact I1].
        intros _ Hv. destruct res as [e|].
        - destruct C as (-> & _ & C). destruct e; cbn [refused] in C.
          + exact C.
          + destruct C as [C _]. discriminate C.
          + destruct C as [C _]. discriminate C.
          + destruct C as (-> & -> & C). cbn [snd] in C. pose proof (K0 0 _ Verbose (root_get root) Hv) as K2. cbn [nd mk_full n_kserd snd] in K2.
            unfold repr_le in K2. cbn in C, K2. lia.
          + destruct C as (_ & C & _). discriminate C.
        - destruct C as [[C ->]|(_ & _ & N)].
          + pose proof (line_at_fun _ _ _ _ Hv (ex_intro _ f (conj Hf eq_refl))). congruence.
          + destruct (line_at_upd f0 f1 _ Concise N _ _ Hv) as (g & Hg & Eg). rewrite upd_line in Eg. discriminate Eg. }
      destruct (node_val (full root) (nd (0, (info_default, root)))); try discriminate SM; exact Y.
    - exists f0. split.
      + destruct (node_val (full root) (nd (0, (info_default, root)))); try discriminate SM; reflexivity.
      + repeat split; auto. intros H. congruence. }
  destruct X as (f1 & -> & L1 & K1 & R1 & I1). cbn [lbind].
  destruct (knock_loop root (length (full root)) 0 f1) as (f2 & E2 & V2 & I2); auto.
  rewrite E2. cbn [lbind]. exists f2. split; [reflexivity|]. split; [exact V2|]. eapply IDS; [|exact I0]. congruence.
Qed.
