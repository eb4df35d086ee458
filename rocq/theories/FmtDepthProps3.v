From Verif Require Import Base F64 Number BTree Value ValueSpec Nom Parse ParseErr Nav NavSpec NavProps NavProps2 Fmt FmtText FmtProps Formatter FmtSpec FormatterProps FormatterProps2 FormatterProps3 FormatterProps4 FmtDepth DepthSpec DepthProps3 FmtDepthSpec FmtDepthProps FmtDepthProps2.
From Coq Require Import Lia Permutation.
Open Scope nat_scope.

(** ** calls and heights *)
Notation is_list it := (match kval (snd (snd it)) with VSeq _ | VMap _ => True | _ => False end).
Lemma kid_calls fmts it n : calls (D fmts it) <= S n -> forall c, In c (kids_of it) ->
  calls (D fmts c) <= n \/ (~ is_list it /\ calls (D fmts c) <= S n /\ is_list c).
Proof.
  rewrite calls_le, D_unfold. cbn [d_val d_fmt]. intros H c Hc. apply kids_value_or_key in Hc.
  pose proof (vkids_kserds it) as VK. pose proof (kkids_kserds it) as KK. unfold values_of, keys_of in VK, KK.
  assert (NN : forall {A B} (f : A -> B) l x, map f l = [] -> In x l -> False) by (intros A B f [|y l] x E X; [destruct X|discriminate]).
  destruct (kval (snd (snd it))) as [| | | | |tl|cm|sl|mm] eqn:V;
    try (now exfalso; destruct Hc as [Hc|Hc]; [exact (NN _ _ _ _ _ VK Hc)|exact (NN _ _ _ _ _ KK Hc)]).
  - destruct Hc as [Hc|Hc]; [|exfalso; exact (NN _ _ _ _ _ KK Hc)]. left. apply H. now apply in_map.
  - destruct Hc as [Hc|Hc]; [|exfalso; exact (NN _ _ _ _ _ KK Hc)].
    assert (L : length (map fst cm) = length (vkids it)) by (apply (f_equal (@length _)) in VK; rewrite !map_length in VK; now rewrite map_length).
    assert (X : exists nm, In (nm, D fmts c) (combine (map fst cm) (map (D fmts) (vkids it)))).
    { clear -L Hc. revert L Hc. generalize (map fst cm). induction (vkids it) as [|y l IH]; intros [|a m] L Hc; try discriminate; [destruct Hc|].
      cbn [map combine]. destruct Hc as [<-|Hc]; [exists a; now left|]. destruct (IH m ltac:(now injection L) Hc) as [nm X]. exists nm. now right. }
    destruct X as [nm X]. specialize (H _ X). cbn [snd] in H. unfold field_calls in H.
    assert (Y : match d_val (D fmts c) with VSeq _ | VMap _ => is_list c | _ => True end).
    { rewrite D_unfold. cbn [d_val]. now destruct (kval (snd (snd c))). }
    destruct (f_line _); try (left; exact H). destruct (d_line _); try (left; exact H). destruct (d_val _); try (left; exact H); right; repeat split; auto; lia.
  - destruct Hc as [Hc|Hc]; [|exfalso; exact (NN _ _ _ _ _ KK Hc)]. left. apply H. now apply in_map.
  - left. assert (L : length (kkids it) = length (vkids it)).
    { apply (f_equal (@length _)) in VK, KK. rewrite !map_length in VK, KK. congruence. }
    assert (X : exists a b, In (a, b) (combine (map (D fmts) (kkids it)) (map (D fmts) (vkids it))) /\ (a = D fmts c \/ b = D fmts c)).
    { clear -L Hc. revert L Hc. generalize (kkids it). induction (vkids it) as [|y l IH]; intros [|a m] L Hc; try discriminate; [destruct Hc as [[]|[]]|].
      cbn [map combine]. destruct Hc as [[<-|Hc]|[<-|Hc]]; try (exists (D fmts a), (D fmts y); split; [now left|auto]; fail).
      - destruct (IH m ltac:(now injection L) (or_introl Hc)) as (p & q & X & E). exists p, q. split; [now right|exact E].
      - destruct (IH m ltac:(now injection L) (or_intror Hc)) as (p & q & X & E). exists p, q. split; [now right|exact E]. }
    destruct X as (a & b & X & E). specialize (H _ X). cbn [fst snd] in H. destruct E as [<-|<-]; apply H.
Qed.
Lemma calls_height fmts : forall n it, ih it <= n -> calls (D fmts it) <= n.
Proof.
  induction n as [|n IH]; intros it H; [pose proof (height_pos (snd (snd it))); lia|]. rewrite item_height_le in H. rewrite calls_le, D_unfold. cbn [d_val d_fmt].
  assert (V : forall c, In c (vkids it) -> calls (D fmts c) <= n) by (intros c Hc; apply IH, H, kids_value_or_key; auto).
  assert (K : forall c, In c (kkids it) -> calls (D fmts c) <= n) by (intros c Hc; apply IH, H, kids_value_or_key; auto).
  destruct (kval (snd (snd it))); try exact Logic.I.
  - intros x Hx. apply in_map_iff in Hx as (c & <- & Hc). auto.
  - intros [nm x] Hx. apply in_combine_r in Hx. apply in_map_iff in Hx as (c0 & <- & Hc). cbn [snd]. specialize (V c0 Hc). unfold field_calls.
    destruct (f_line _); try exact V. destruct (d_line _); try exact V. destruct (d_val _); try exact V; lia.
  - intros x Hx. apply in_map_iff in Hx as (c & <- & Hc). auto.
  - intros [a b] Hx. pose proof (in_combine_l _ _ _ _ Hx) as A. apply in_combine_r in Hx. apply in_map_iff in A as (c & <- & A), Hx as (c' & <- & B). cbn [fst snd]. auto.
Qed.
Lemma height_calls fmts : forall n it, calls (D fmts it) <= n -> ih it <= 2 * n.
Proof.
  induction n as [|n IH]; intros it H; [destruct (D fmts it); cbn [calls] in H; lia|].
  assert (LL : forall c, is_list c -> calls (D fmts c) <= S n -> ih c <= S (2 * n)).
  { intros c Lc Hc. apply item_height_le. intros x Hx. destruct (kid_calls fmts c n Hc x Hx) as [Y|[Y _]]; [auto|contradiction]. }
  replace (2 * S n) with (S (S (2 * n))) by lia. apply item_height_le. intros c Hc. destruct (kid_calls fmts it n H c Hc) as [Y|(_ & Y & Z)]; [apply IH in Y; lia|auto].
Qed.

(** ** the limited formatter is the formatter, or the stack is full *)
Lemma height_size_le root : height root <= ksize root.
Proof.
  assert (X : forall n (it : item), ksize (snd (snd it)) <= n -> ih it <= n).
  { induction n as [|n IH]; intros it H; [pose proof (ksize_pos (snd (snd it))); lia|]. apply item_height_le. intros c Hc. apply IH. apply kid_size in Hc. lia. }
  exact (X (ksize root) (0, (info_default, root)) (le_n _)).
Qed.
Lemma same_fuel {A} (f : nat -> lres A) h n m : (forall a b, a <= b -> le_res (f a) (f b)) -> (forall a, h <= a -> f a <> LFuel) -> h <= n -> h <= m -> f n = f m.
Proof.
  intros M F Hn Hm. destruct (Nat.le_ge_cases n m) as [L|L].
  - destruct (M _ _ L) as [E|E]; [now apply F in E|exact E].
  - destruct (M _ _ L) as [E|E]; [now apply F in E|now symmetry].
Qed.
Lemma inline_same root cfg limit : height root <= limit -> all_widths (inline_widths_recurse limit (full root) cfg) (full root) = inline_widths (full root) cfg.
Proof.
  intros H. unfold inline_widths, nav_len. rewrite full_length. pose proof (height_size_le root) as HS.
  apply (same_fuel (fun n => all_widths (inline_widths_recurse n (full root) cfg) (full root)) (height root)); auto.
  - intros a b L. apply le_all. now apply le_inline.
  - intros a L. apply all_fuel. intros it Ho. apply inline_fuel; [exact Ho|]. apply item_height_root in Ho. lia.
Qed.
Lemma concise_same root cfg inw limit : height root <= limit -> all_widths (concise_widths_recurse limit (full root) cfg inw) (full root) = concise_widths (full root) cfg inw.
Proof.
  intros H. unfold concise_widths, nav_len. rewrite full_length. pose proof (height_size_le root) as HS.
  apply (same_fuel (fun n => all_widths (concise_widths_recurse n (full root) cfg inw) (full root)) (height root)); auto.
  - intros a b L. apply le_all. now apply le_concise.
  - intros a L. apply all_fuel. intros it Ho. apply concise_fuel; [exact Ho|]. apply item_height_root in Ho. lia.
Qed.
Lemma inline_small root cfg limit : limit < height root -> all_widths (inline_widths_recurse limit (full root) cfg) (full root) = LFuel.
Proof.
  intros H. pose proof (height_size_le root) as HS. pose proof (full_length root) as FL.
  destruct (le_all (full root) (inline_widths_recurse limit (full root) cfg) (inline_widths_recurse (nav_len (full root)) (full root) cfg)) as [E|E].
  - apply le_inline. unfold nav_len. lia.
  - exact E.
  - pose proof (inline_widths_ok root cfg) as OK. unfold inline_widths in OK. rewrite OK in E. apply inline_all_reached in E. lia.
Qed.
Lemma apply_finv limit k fm cfg : finv k fm -> apply_within limit fm cfg = if limit <? height k then LFuel else apply_config fm cfg.
Proof.
  intros [Hn Hi]. destruct fm as [nv fmts]. cbn [fm_nav fm_fmts] in *. subst nv. unfold apply_within, apply_config. cbn [fm_nav fm_fmts].
  destruct (apply_ids_ok k cfg fmts (proj1 Hi)) as (f0 & E0 & _). rewrite E0. cbn [lbind]. rewrite root_nav. cbn [lunwrap lbind].
  destruct (Nat.ltb_spec limit (height k)) as [H|H].
  - now rewrite inline_small.
  - rewrite inline_same by exact H. rewrite inline_widths_ok. cbn [lbind]. now rewrite concise_same.
Qed.
Theorem apply_exact limit k fm cfg : reachable k fm -> apply_within limit fm cfg = if limit <? height k then LFuel else apply_config fm cfg.
Proof. intros R. now apply apply_finv, reachable_finv. Qed.

Lemma write_finv_enough limit k fm buf : finv k fm -> calls (deco (fm_fmts fm) 0 k) <= limit -> write_within limit fm buf = fm_write fm buf.
Proof.
  intros [Hn Hi] H. unfold write_within, fm_write. rewrite Hn, root_nav. cbn [lunwrap lbind]. rewrite full_length.
  change (deco (fm_fmts fm) 0 k) with (D (fm_fmts fm) (0, (info_default, k))) in H.
  assert (HS : calls (D (fm_fmts fm) (0, (info_default, k))) <= ksize k) by (apply calls_height; apply height_size_le).
  apply (same_fuel (fun n => write_node n (full k) (fm_fmts fm) true buf (nd (0, (info_default, k))) 0) (calls (D (fm_fmts fm) (0, (info_default, k))))); auto.
  - intros a b L. now apply le_write.
  - intros a L. apply write_not_fuel; [apply Hi|apply root_ok|exact L].
Qed.
Theorem write_enough limit k fm buf : reachable k fm -> calls (deco (fm_fmts fm) 0 k) <= limit -> write_within limit fm buf = fm_write fm buf.
Proof. intros R. now apply write_finv_enough, reachable_finv. Qed.
Theorem write_needs limit k fm buf t : reachable k fm -> write_within limit fm buf = LRet t -> calls (deco (fm_fmts fm) 0 k) <= limit.
Proof.
  intros R E. apply reachable_finv in R as [Hn Hi]. unfold write_within in E. rewrite Hn, root_nav in E. cbn [lunwrap lbind] in E.
  exact (write_reached k (fm_fmts fm) (proj1 Hi) limit _ (root_ok k) _ _ _ _ E).
Qed.
Theorem write_exact limit k fm buf : reachable k fm -> strings_ok k ->
  write_within limit fm buf = if limit <? calls (deco (fm_fmts fm) 0 k) then LFuel else fm_write fm buf.
Proof.
  intros R G. destruct (Nat.ltb_spec limit (calls (deco (fm_fmts fm) 0 k))) as [H|H]; [|now apply (write_enough limit k)].
  destruct (write_returns k fm buf R G) as [t E]. destruct (write_within limit fm buf) as [t'| |] eqn:W; [| |reflexivity]; exfalso.
  - apply (write_needs limit k) in W; [lia|exact R].
  - pose proof (reachable_finv k fm R) as [Hn Hi].
    assert (X : le_res (write_within limit fm buf) (write_within (limit + calls (deco (fm_fmts fm) 0 k)) fm buf)).
    { unfold write_within. rewrite Hn, root_nav. cbn [lunwrap lbind]. apply le_write. lia. }
    rewrite (write_enough (limit + _) k) in X by (auto; lia). rewrite W, E in X. now destruct X.
Qed.
Theorem calls_bounds k fm : reachable k fm -> calls (deco (fm_fmts fm) 0 k) <= height k <= 2 * calls (deco (fm_fmts fm) 0 k).
Proof.
  intros _. split; [exact (calls_height (fm_fmts fm) _ (0, (info_default, k)) (le_n _))|exact (height_calls (fm_fmts fm) _ (0, (info_default, k)) (le_n _))].
Qed.
Theorem as_str_exact limit k cfg : as_str_within limit k cfg = if limit <? height k then LFuel else as_str_with_config k cfg.
Proof.
  unfold as_str_within, as_str_with_config. destruct (fm_new_finv k) as (fm & E & F). rewrite E. cbn [lbind]. rewrite (apply_finv limit k) by exact F.
  destruct (Nat.ltb_spec limit (height k)) as [H|H]; [reflexivity|].
  destruct (apply_config fm cfg) as [fm'| |] eqn:A; cbn [lbind]; [|reflexivity|reflexivity]. apply (write_finv_enough limit k); [exact (apply_config_finv k fm cfg fm' F A)|].
  pose proof (calls_height (fm_fmts fm') _ (0, (info_default, k)) (le_n _)) as C. cbn [fst snd] in C. unfold D in C. cbn [fst snd] in C. lia.
Qed.
Theorem as_str_parsed t k cfg limit : parse t = ParseOk k -> 2 * (opens t + 2) <= limit -> as_str_within limit k cfg = as_str_with_config k cfg.
Proof. intros P H. rewrite as_str_exact. apply parsed_height in P. destruct (Nat.ltb_spec limit (height k)); [lia|reflexivity]. Qed.
Lemma nest_strings n : strings_ok (nest n).
Proof. induction n as [|n IH]; unfold strings_ok in *; cbn [nest knew preorder flat_map] in *; [repeat constructor|]. rewrite app_nil_r. now constructor. Qed.
Theorem no_limit_writes limit cfg : exists t k out, length t = 2 * limit + 4 /\ parse t = ParseOk k /\ as_str_with_config k cfg = LRet out /\ as_str_within limit k cfg = LFuel.
Proof.
  exists (deep_text (S limit)), (knew (VTuple [nest limit])).
  destruct (as_str_returns (knew (VTuple [nest limit])) cfg) as [out E].
  - pose proof (nest_strings limit) as H. unfold strings_ok in *. cbn [knew preorder flat_map]. rewrite app_nil_r. now constructor.
  - right. left. reflexivity.
  - exists out. split; [rewrite deep_length; lia|]. split; [apply deep_parse|]. split; [exact E|]. rewrite as_str_exact. cbn [knew height fold_right]. rewrite nest_height.
    now rewrite (proj2 (Nat.ltb_lt _ _)) by lia.
Qed.
