(** The layout which counts: the fields of a container on lines of their own. *)
From Verif Require Import Base F64 Number BTree Value ValueSpec Base91 Nav Fmt Formatter FmtWork NavSpec NavProps NavProps2 FmtProps FmtSpec FormatterProps FormatterProps2 FormatterProps3 FormatterProps4 LayoutSpec HistorySpec HistoryProps HistoryProps2 FmtWorkProps FmtWorkProps2 FmtWorkProps3.
Open Scope nat_scope.
Open Scope list_scope.

Lemma low_bind {A B} (r : cl A) (f : A -> cl B) x : fst r = LRet x -> snd (cbind r f) = snd r + snd (f x).
Proof. intros E. unfold cbind. now rewrite E. Qed.
Lemma ret_bind {A B} (r : cl A) (f : A -> cl B) y : fst (cbind r f) = LRet y -> exists x, fst r = LRet x /\ fst (f x) = LRet y.
Proof. unfold cbind. destruct (fst r) as [x| |]; try discriminate. eauto. Qed.
Lemma low_fold {A B} (f : B -> A -> cl B) (P : B -> Prop) (g : A -> nat) l :
  (forall acc x acc', P acc -> fst (f acc x) = LRet acc' -> P acc' /\ g x <= snd (f acc x)) ->
  forall acc out, P acc -> fst (cfold f l acc) = LRet out -> P out /\ list_sum (map g l) <= snd (cfold f l acc).
Proof.
  intros H. induction l as [|x l IH]; intros acc out Hp E. { cbn in E. injection E as <-. split; [exact Hp|cbn; lia]. }
  cbn [cfold look fst snd map list_sum fold_right] in *. apply ret_bind in E as (acc' & E1 & E2). destruct (H acc x acc' Hp E1) as [P' G].
  destruct (IH acc' out P' E2) as [P2 G2]. split; [exact P2|]. rewrite (low_bind _ _ _ E1). unfold list_sum in G2. lia.
Qed.
(** a request for another node leaves the line of the root *)
Lemma request_root root fmts i r x : inv root fmts -> i <> 0 -> request_repr (full root) fmts i r = LRet x -> inv root (fst x) /\ nth_error (fst x) 0 = nth_error fmts 0.
Proof.
  intros I Hi E. destruct (request_inv root fmts i r I) as (f2 & res & E2 & I2 & _). rewrite E in E2. injection E2 as ->. cbn [fst]. split; [exact I2|].
  destruct (nth_error (full root) i) as [n|] eqn:En.
  2: { unfold request_repr, nav_get in E. rewrite En in E. injection E as <- _. reflexivity. }
  destruct (get_item root i n En) as (it & Ho & <- & <-). destruct (get_fmts root fmts it (proj1 I) Ho) as [f Hf].
  destruct (request_cases root fmts it r f (proj1 I) Ho Hf) as (f3 & res3 & E3 & _ & C). rewrite E in E3. injection E3 as <- <-.
  destruct res as [e|]; [destruct C as (-> & _); reflexivity|]. destruct C as [[_ ->]|(_ & _ & N)]; [reflexivity|]. rewrite N.
  destruct (nth_error fmts 0); [|reflexivity]. cbn [option_map]. unfold upd. destruct (Nat.eqb_spec 0 (fst it)); [lia|].
  destruct (Nat.ltb_spec (fst it) 0); [lia|]. reflexivity.
Qed.
Definition field_cost (root : kserd) (c : nat) : nat :=
  match nth_error (full root) c with
  | Some n => match n_parent n with Some 0 => S (idx_in_parent n) | _ => 0 end
  | None => 0
  end.
Lemma low_node root m cfg inw con fmts c fmts' : kval root = VCntr m -> inv root fmts -> ~ line_at fmts 0 Inline ->
  fst (c_apply_node (full root) cfg inw con fmts c) = LRet fmts' ->
  (inv root fmts' /\ nth_error fmts' 0 = nth_error fmts 0) /\ field_cost root c <= snd (c_apply_node (full root) cfg inw con fmts c).
Proof.
  intros Ek I NI E. unfold c_apply_node in *. cbn [look fst snd] in *. apply ret_bind in E as (n & E1 & E). rewrite (low_bind _ _ _ E1). cbn [free fst snd] in *.
  destruct (nav_get (full root) c) as [n'|] eqn:En; [|discriminate]. injection E1 as ->. unfold nav_get in En.
  apply ret_bind in E as (off & E2 & E). rewrite (low_bind _ _ _ E2).
  apply ret_bind in E as (r & E3 & E). apply ret_bind in E as (p & E4 & E). cbn [free fst] in E4. destruct (node_parent (full root) n) as [p'|] eqn:Ep; [|discriminate]. injection E4 as ->.
  apply ret_bind in E as (x & E5 & E). cbn [free fst] in E. injection E as <-. rewrite e_request in E5.
  assert (C0 : c <> 0).
  { intros ->. rewrite (nth_error_nth' (full root) n) in En by (rewrite full_length; pose proof (ksize_pos root); lia). 
    pose proof (root_get root) as G. unfold nav_get in G. rewrite (nth_error_nth' (full root) n) in G by (rewrite full_length; pose proof (ksize_pos root); lia).
    rewrite En in G. injection G as ->. discriminate Ep. }
  split; [exact (request_root root fmts c _ x I C0 E5)|]. unfold field_cost. rewrite En.
  destruct (n_parent n) as [[|q]|] eqn:Eq; try lia.
  assert (Pn : node_parent (full root) n = Some (nd (0, (info_default, root)))) by (unfold node_parent; rewrite Eq; cbn [opt_bind]; apply root_get).
  unfold c_calculate_offset in *. rewrite Pn in *. cbn [look fst snd] in *. apply ret_bind in E2 as (pf & F1 & E2). rewrite (low_bind _ _ _ F1).
  cbn [free fst snd] in *. change (n_idx (nd (0, (info_default, root)))) with 0 in *. destruct (nth_error fmts 0) as [f0|] eqn:E0; [|discriminate]. injection F1 as ->.
  assert (L0 : f_line pf <> Inline) by (intros L; apply NI; now exists pf). rewrite item_val in * by apply root_ok. cbn [snd] in *. rewrite Ek in *.
  destruct (f_line pf) eqn:El; [congruence| |]; apply ret_bind in E2 as (o2 & F2 & _); rewrite (low_bind _ _ _ F2); cbn [c_concise_column look snd free]; lia.
Qed.
Lemma fields_sum l : forall i (g : nat -> nat), (forall j c, nth_error l j = Some c -> g c = S (i + j)) -> 2 * list_sum (map g l) = length l * (2 * i + length l + 1).
Proof.
  induction l as [|c l IH]; intros i g H; [reflexivity|]. cbn [map list_sum fold_right length]. rewrite (H 0 c eq_refl).
  specialize (IH (S i) g). rewrite Nat.mul_add_distr_l. unfold list_sum in IH. rewrite IH; [nia|]. intros j x Hx. rewrite (H (S j) x Hx). lia.
Qed.
Theorem fields_work k fm cfg fm' m : reachable k fm -> kval k = VCntr m -> apply_config fm cfg = LRet fm' -> line_of fm' 0 <> Some Inline ->
  length m * length m <= 2 * snd (c_apply_config fm cfg).
Proof.
  intros R Ek E NI. pose proof (reachable_finv k fm R) as [N I]. destruct fm as [nv fmts]. cbn [fm_nav fm_fmts] in N, I. subst nv.
  rewrite <- counted_config in E. unfold c_apply_config in *. cbn [fm_nav fm_fmts] in *.
  destruct (apply_ids_ok k cfg fmts (proj1 I)) as (f0 & E0 & _ & M0 & _).
  apply ret_bind in E as (f0' & F0 & E). rewrite (low_bind _ _ _ F0). assert (F0' : apply_ids (full k) cfg fmts = LRet f0') by (rewrite <- F0; unfold c_apply_ids, apply_ids; symmetry; apply e_fold; reflexivity). clear F0. rename F0' into F0. rewrite E0 in F0. injection F0 as <-.
  pose proof (inv_lines k fmts f0 M0 I) as I0.
  apply ret_bind in E as (r & F1 & E). rewrite (low_bind _ _ _ F1). cbn [free fst] in F1. rewrite root_nav in F1. injection F1 as <-.
  apply ret_bind in E as (inw & F2 & E). rewrite (low_bind _ _ _ F2). apply ret_bind in E as (con & F3 & E). rewrite (low_bind _ _ _ F3).
  apply ret_bind in E as (rr & F4 & E). rewrite (low_bind _ _ _ F4). apply ret_bind in E as (ds & F5 & E). rewrite (low_bind _ _ _ F5).
  apply ret_bind in E as (x & F6 & E). rewrite (low_bind _ _ _ F6). cbn [look fst snd] in *. apply ret_bind in E as (f2 & F7 & E). rewrite (low_bind _ _ _ F7).
  cbn [free fst] in E. injection E as <-. unfold line_of in NI. cbn [fm_fmts] in NI.
  rewrite e_request in F6. destruct (request_inv k f0 0 rr I0) as (f1 & res & E1 & I1 & _). rewrite E1 in F6. injection F6 as <-. cbn [fst] in *.
  assert (NI1 : ~ line_at f1 0 Inline).
  { intros (f & Hf & Lf). apply NI. destruct (nth_error f2 0) as [f2'|] eqn:Q.
    - assert (X : forall l a b, inv k a -> lfold (apply_node (full k) cfg inw con) l a = LRet b -> nth_error b 0 = nth_error a 0).
      { clear - Ek. induction l as [|c l IH]; intros a b Ia Eb; cbn [lfold] in Eb; [injection Eb as <-; reflexivity|].
        destruct (apply_node (full k) cfg inw con a c) as [a1| |] eqn:Ea; try discriminate. cbn [lbind] in Eb.
        assert (Y : inv k a1 /\ nth_error a1 0 = nth_error a 0).
        { unfold apply_node in Ea. destruct (nav_get (full k) c) as [n|] eqn:En; cbn [lunwrap lbind] in Ea; [|discriminate].
          destruct (calculate_offset _ _ _ _); cbn [lbind] in Ea; try discriminate. destruct (min_line_repr _ _ _ _); cbn [lbind] in Ea; try discriminate.
          destruct (node_parent (full k) n) eqn:Ep; cbn [lunwrap lbind] in Ea; [|discriminate].
          match type of Ea with context [request_repr _ _ _ ?r] => destruct (request_repr (full k) a c r) as [x| |] eqn:Ex end; cbn [lbind] in Ea; try discriminate. injection Ea as <-.
          apply (request_root k a c _ x Ia) in Ex; [exact Ex|]. intros ->. pose proof (root_get k) as G. rewrite En in G. injection G as ->. discriminate Ep. }
        destruct Y as [I1 Y]. rewrite <- Y. exact (IH a1 b I1 Eb). }
      rewrite (e_fold _ (apply_node (full k) cfg inw con)) in F7 by apply e_apply_node. apply X in F7; [|exact I1]. rewrite Q, Hf in F7. injection F7 as ->. cbn. now rewrite Lf.
    - rewrite (e_fold _ (apply_node (full k) cfg inw con)) in F7 by apply e_apply_node. pose proof (apply_loop_inv k cfg inw con _ f1 f2 I1 F7) as [L _].
      apply nth_error_None in Q. rewrite full_length in L. pose proof (ksize_pos k). lia. }
  assert (LF := low_fold (c_apply_node (full k) cfg inw con) (fun f => inv k f /\ nth_error f 0 = nth_error f1 0) (field_cost k) (map n_idx ds)).
  destruct LF with (acc := f1) (out := f2) as [_ G]; [|split; [exact I1|reflexivity]|exact F7|].
  { intros acc c acc' [Ia Na] Ea. destruct (low_node k m cfg inw con acc c acc' Ek Ia) as [[A B] C]; [|exact Ea|].
    - intros (f & Hf & Lf). apply NI1. exists f. split; [congruence|exact Lf].
    - split; [|exact C]. split; [exact A|]. congruence. }
  (* the first of the descendants are the fields *)
  unfold c_descendants_breadth in F5. rewrite e_breadth_loop in F5.
  set (rt := (0, (info_default, k)) : item) in *. rewrite breadth_children_items in F5.
  assert (BK : bkids rt = vkids rt).
  { unfold bkids. pose proof (kkids_kserds rt) as EK. unfold keys_of in EK. cbn [rt fst snd] in EK. rewrite Ek in EK. destruct (kkids rt); [reflexivity|discriminate]. }
  rewrite BK in F5. assert (Lv : length (vkids rt) = length m).
  { rewrite (nonempty_kids k rt (root_ok k)). cbn [rt snd]. unfold values_of. rewrite Ek. now rewrite map_length. }
  assert (FV : Forall (ok_item k) (vkids rt)) by (apply Forall_filter, ok_kids, root_ok).
  assert (SZ : length (vkids rt) <= length (full k)).
  { rewrite full_length. pose proof (isz_kids rt) as Z. cbn [rt snd] in Z. rewrite Z. fold rt. pose proof (isz_perm _ _ (bkids_perm rt)) as Z2. rewrite BK in Z2.
    pose proof (isz_level (vkids rt)). lia. }
  replace (length (full k)) with (length (vkids rt) + (length (full k) - length (vkids rt))) in F5 by lia.
  rewrite <- (app_nil_r (map fst (vkids rt))), breadth_level in F5 by exact FV. cbn [app] in F5.
  assert (PRE : exists rest, ds = map nd (vkids rt) ++ rest).
  { revert F5. generalize (map nd (vkids rt)) (map fst (flat_map bkids (vkids rt))) (length (full k) - length (vkids rt)). clear. intros acc todo fuel. revert todo acc.
    induction fuel as [|fuel IH]; intros [|i todo] acc H; cbn [breadth_loop] in H; try discriminate; try (injection H as <-; exists []; now rewrite app_nil_r).
    destruct (nav_get (full k) i); [|discriminate]. apply IH in H as (rest & ->). exists (n :: rest). now rewrite <- app_assoc. }
  destruct PRE as [rest ->]. rewrite map_app, map_app, list_sum_app in G.
  assert (PREM : forall j c, nth_error (map n_idx (map nd (vkids rt))) j = Some c -> field_cost k c = S (0 + j)).
  { intros j c Hc. rewrite nth_error_map in Hc. rewrite nth_error_map in Hc. destruct (nth_error (vkids rt) j) as [it|] eqn:Ej; [|discriminate]. cbn [option_map] in Hc. injection Hc as <-.
    assert (Hin : In it (vkids rt)) by (eapply nth_error_In; exact Ej). pose proof (vkids_in rt it Hin) as Hk.
    unfold field_cost. change (n_idx (nd it)) with (fst it). pose proof (ok_get k it (kid_ok k rt it (root_ok k) Hk)) as Gt. unfold nav_get in Gt. rewrite Gt.
    cbn [nd mk_full n_parent]. rewrite (kids_parent rt it Hk). cbn [rt fst]. f_equal.
    pose proof (vkids_pos rt j it Ej) as P. destruct (kids_role rt it Hk) as [(j' & A & B)|(j' & A & B)]; [|unfold item in *; congruence].
    unfold idx_in_parent. cbn [nd mk_full n_key_idx n_value_idx]. rewrite B, P. reflexivity. }
  pose proof (fields_sum (map n_idx (map nd (vkids rt))) 0 (field_cost k) PREM) as FS. rewrite !map_length, Lv in FS.
  rewrite <- map_app in G. match type of G with _ <= ?z => set (S0 := z) in * end.
  replace (length m * (2 * 0 + length m + 1)) with (length m * length m + length m) in FS by lia.
  generalize dependent (list_sum (map (field_cost k) (map n_idx rest))). intros r0 G. lia.
Qed.

(** ** flat containers *)
Definition flat (n : nat) : kserd := Kserd None (VCntr (map (fun i => (repeat (ch "a") (S i), Kserd None VUnit)) (seq 0 n))).
Lemma flat_size n : ksize (flat n) = S n.
Proof.
  unfold flat. cbn [ksize]. f_equal. generalize 0 at 1. induction n as [|n IH]; intros i; [reflexivity|]. cbn [seq map list_sum fold_right snd ksize].
  specialize (IH (S i)). unfold list_sum in IH. rewrite IH. lia.
Qed.
Lemma name_before i d : str_cmp (repeat (ch "a") i) (repeat (ch "a") (S (i + d))) = Lt.
Proof. induction i as [|i IH]; [reflexivity|]. cbn [repeat Nat.add str_cmp]. rewrite N.compare_refl. exact IH. Qed.
Lemma flat_sorted n : k_sorted (flat n) = true.
Proof.
  unfold k_sorted, flat. cbn [k_all]. apply andb_true_iff. split.
  - cbn [sorted_node kval]. generalize 0. induction n as [|n IH]; intros i; [reflexivity|]. cbn [seq map strictly_sorted]. rewrite IH, andb_true_r.
    apply forallb_forall. intros e He. apply in_map_iff in He as (j & <- & Hj). apply in_seq in Hj. cbn [fst].
    replace (S j) with (S (S i + (j - S i))) by lia. rewrite name_before. reflexivity.
  - generalize 0. induction n as [|n IH]; intros i; [reflexivity|]. cbn in *. apply IH.
Qed.
Lemma flat_wants n cfg lim : width_limit cfg = Some lim -> lim < 2 * n -> wants cfg 0 (flat n) <> Inline.
Proof.
  intros W Hn. unfold wants. rewrite W. destruct (lim <? 0 + concise_est cfg (flat n)); [discriminate|].
  assert (X : 2 * n <= inline_est cfg (flat n)).
  { unfold inline_est, total, flat. cbn [preorder map list_sum fold_right]. unfold inline_width at 1. cbn [kval]. rewrite !map_length, seq_length. change (length FIELDS_SEPARATOR) with 2. lia. }
  replace (lim <? 0 + inline_est cfg (flat n)) with true by (symmetry; apply Nat.ltb_lt; lia). discriminate.
Qed.
Lemma flat_root n cfg lim fm fm' : width_limit cfg = Some lim -> lim < 2 * n -> reachable (flat n) fm -> apply_config fm cfg = LRet fm' -> line_of fm' 0 <> Some Inline.
Proof.
  intros W Hn R E. pose proof (flat_wants n cfg lim W Hn) as Q.
  assert (L : exists was, line_of fm 0 = Some was).
  { pose proof (reachable_finv _ _ R) as [_ [L _]]. unfold line_of. destruct (nth_error (fm_fmts fm) 0) eqn:G; [cbn; eauto|].
    apply nth_error_None in G. rewrite full_length, flat_size in L. lia. }
  destruct L as [was L]. rewrite (root_becomes (flat n) cfg fm fm' R E was L). unfold becomes.
  assert (KM : kind_max (flat n) = Verbose) by (destruct n; [lia|reflexivity]). rewrite KM. change (seq_or_map (flat n)) with false.
  intros X. injection X as X. destruct (wants cfg 0 (flat n)); [congruence|discriminate|discriminate].
Qed.
Theorem flat_work c cfg lim : width_limit cfg = Some lim -> exists n, ksize (flat n) = S n /\ c * ksize (flat n) < snd (c_layout (flat n) cfg).
Proof.
  intros W. set (n := 4 * c + lim + 1). exists n. split; [apply flat_size|]. rewrite flat_size.
  destruct (fm_new_finv (flat n)) as (fm & E & Fi). assert (R : reachable (flat n) fm) by (exists []; unfold run; rewrite E; reflexivity).
  assert (S0 : solvable (flat n) cfg).
  { left. intros x Hx. unfold flat in Hx. cbn [preorder] in Hx. destruct Hx as [<-|Hx]; [constructor|].
    apply in_flat_map in Hx as (e & He & Hx). apply in_map_iff in He as (i & <- & _). destruct Hx as [<-|[]]. constructor. }
  destruct (config_returns (flat n) fm cfg R S0) as (fm' & E' & _).
  pose proof (fields_work (flat n) fm cfg fm' _ R eq_refl E' (flat_root n cfg lim fm fm' W ltac:(unfold n; lia) R E')) as B. rewrite map_length, seq_length in B.
  unfold c_layout. rewrite (low_bind _ _ fm) by (rewrite e_fm_new; exact E). unfold n in *. nia.
Qed.
