(** The layout which counts: each width is worked out once, and the way to the root. *)
From Verif Require Import Base F64 Number BTree Value Base91 Nav Fmt Formatter FmtWork NavSpec NavProps NavProps2 FmtProps FormatterProps FormatterProps2 FmtWorkProps.
Open Scope nat_scope.
Open Scope list_scope.

(** ** what is left to do: the children of the nodes whose width is not known *)
Definition nk (n : node) : nat := length (n_value_children n) + length (n_key_children n).
Fixpoint todo (ws : widths_t) (nv : nav) : nat :=
  match ws, nv with
  | o :: ws, n :: nv => match o with None => nk n | Some _ => 0 end + todo ws nv
  | _, _ => 0
  end.
Lemma todo_set w nv : forall ws i n, nth_error ws i = Some None -> nth_error nv i = Some n -> todo (set_width w ws i) nv + nk n = todo ws nv.
Proof.
  unfold set_width. induction nv as [|m nv IH]; intros [|o ws] [|i] n Hw Hn; try discriminate; cbn [nth_error update todo] in *.
  - injection Hw as ->. injection Hn as ->. lia.
  - specialize (IH ws i n Hw Hn). lia.
Qed.
Lemma todo_repeat nv : todo (repeat None (length nv)) nv = list_sum (map nk nv).
Proof. induction nv as [|n nv IH]; [reflexivity|]. cbn. now rewrite IH. Qed.
Lemma nk_kids it : nk (nd it) = length (kids_of it).
Proof.
  unfold nk, nd, mk_full. cbn [n_value_children n_key_children]. rewrite vc_vkids, kc_kkids, !map_length. unfold vkids, kkids.
  assert (H : forall x, In x (kids_of it) -> one_role (snd x)) by (intros x Hx; exact (kids_role it x Hx)).
  induction (kids_of it) as [|x l IH]; [reflexivity|]. cbn [filter length].
  assert (R : one_role (snd x)) by (apply H; now left). specialize (IH (fun y Hy => H y (or_intror Hy))).
  destruct R as [(j & A & B)|(j & A & B)].
  - assert (HV : has i_value x = true) by (unfold has; now rewrite A). assert (HK : has i_key x = false) by (unfold has; now rewrite B). rewrite HV, HK. cbn [length]. lia.
  - assert (HV : has i_value x = false) by (unfold has; now rewrite A). assert (HK : has i_key x = true) by (unfold has; now rewrite B). rewrite HV, HK. cbn [length]. lia.
Qed.
Lemma all_kids root : forall m it, ksize (snd (snd it)) <= m -> ok_item root it -> S (list_sum (map nk (st root it))) = ksize (snd (snd it)).
Proof.
  induction m as [|m IH]; intros it Hm Ho. { pose proof (ksize_pos (snd (snd it))). lia. }
  rewrite st_unfold by exact Ho. cbn [map list_sum fold_right]. rewrite nk_kids, isz_kids in *. f_equal.
  assert (X : forall c, In c (kids_of it) -> S (list_sum (map nk (st root c))) = ksize (snd (snd c))).
  { intros c Hc. apply IH; [|now apply (kid_ok root it)]. pose proof (kid_size it c Hc) as K. rewrite (isz_kids it) in K. lia. }
  change (fold_right Nat.add 0 (map nk (flat_map (st root) (kids_of it)))) with (list_sum (map nk (flat_map (st root) (kids_of it)))).
  clear Hm. induction (kids_of it) as [|c l IHl]; [reflexivity|]. cbn [flat_map length]. rewrite map_app, list_sum_app, isz_cons.
  rewrite <- (X c (or_introl eq_refl)). specialize (IHl (fun y Hy => X y (or_intror Hy))). lia.
Qed.
Lemma todo_start root : S (todo (repeat None (length (full root))) (full root)) = length (full root).
Proof.
  rewrite todo_repeat. pose proof (all_kids root _ (0, (info_default, root)) (le_n _) (root_ok root)) as H.
  rewrite st_segment in H by apply root_ok. cbn [fst snd] in H. unfold segment in H. cbn [skipn] in H. rewrite <- full_length, firstn_all in H. exact H.
Qed.

(** what a step with the widths does: it looks at no more nodes than [b], and the children of
    the nodes whose width it finds; no width up to [i] changes *)
Definition ws_of (r : lres (nat * widths_t)) : option widths_t := match r with LRet x => Some (snd x) | _ => None end.
Definition step_ok (nv : nav) (ws : widths_t) (i b : nat) (spent : nat) (out : option widths_t) : Prop :=
  match out with
  | None => True
  | Some ws' => spent + todo ws' nv <= todo ws nv + b /\ length ws' = length ws /\ forall j, j < i -> nth_error ws' j = nth_error ws j
  end.
Definition rec_fine (nv : nav) (crec : node -> widths_t -> cl (nat * widths_t)) (it : item) : Prop :=
  forall ws, step_ok nv ws (S (fst it)) (nk (nd it)) (snd (crec (nd it) ws)) (ws_of (fst (crec (nd it) ws))).

Lemma child_fine root crec it ws : ok_item root it -> rec_fine (full root) crec it ->
  step_ok (full root) ws (fst it) 0 (snd (c_child_width crec (nd it) ws)) (ws_of (fst (c_child_width crec (nd it) ws))).
Proof.
  intros Ho R. unfold c_child_width. change (n_idx (nd it)) with (fst it). destruct (nth_error ws (fst it)) as [o|] eqn:E; [|exact I].
  unfold cbind at 1 3. cbn [lunwrap free fst snd]. destruct o as [v|]; cbn [free fst snd ws_of step_ok].
  { split; [lia|]. auto. }
  specialize (R ws). unfold cbind. destruct (crec (nd it) ws) as [[[w ws']| |] c]; cbn [fst snd free ws_of step_ok] in *; try exact I.
  destruct R as (C & L & K). pose proof (ok_get root it Ho) as G. unfold nav_get in G.
  assert (E' : nth_error ws' (fst it) = Some None) by (rewrite K by lia; exact E).
  pose proof (todo_set w (full root) ws' (fst it) (nd it) E' G) as T. split; [lia|]. split; [unfold set_width; now rewrite update_length|].
  intros j Hj. unfold set_width. rewrite update_nth. destruct (Nat.eqb_spec j (fst it)); [lia|]. apply K. lia.
Qed.
(** a loop over children behind [i] *)
Lemma loop_fine {X} nv (f : nat * widths_t -> X -> cl (nat * widths_t)) i b (l : list X) :
  (forall x acc, In x l -> step_ok nv (snd acc) i b (snd (f acc x)) (ws_of (fst (f acc x)))) ->
  forall acc, step_ok nv (snd acc) i (length l * S b) (snd (cfold f l acc)) (ws_of (fst (cfold f l acc))).
Proof.
  induction l as [|x l IH]; intros H acc. { cbn. split; [lia|]. auto. }
  cbn [cfold look length]. specialize (IH (fun y a Hy => H y a (or_intror Hy))). pose proof (H x acc (or_introl eq_refl)) as Hx.
  unfold cbind. destruct (f acc x) as [[acc'| |] c]; cbn [fst snd ws_of step_ok] in *; try exact I.
  specialize (IH acc'). destruct Hx as (C & L & K). destruct (cfold f l acc') as [[acc2| |] c2]; cbn [fst snd ws_of step_ok] in *; try exact I.
  destruct IH as (C2 & L2 & K2). cbn [look fst snd ws_of step_ok]. split; [lia|]. split; [congruence|]. intros j Hj. rewrite K2, K by lia. reflexivity.
Qed.
Lemma step_ret nv ws i b spent r g : step_ok nv ws i b spent (ws_of r) ->
  (forall x, ws_of (g x) = ws_of (LRet x)) ->
  step_ok nv ws i b spent (ws_of (lbind r g)).
Proof. intros H G. destruct r as [x| |]; [cbn [lbind]; rewrite G; exact H|exact I|exact I]. Qed.
Lemma kid_after it c : In c (kids_of it) -> fst it < fst c.
Proof. destruct c as [o e]. intros H. apply offl_in in H as (l1 & l2 & _ & ->). cbn [fst]. lia. Qed.
Lemma inline_fine root cfg : forall fuel it, ok_item root it -> rec_fine (full root) (c_inline_widths_recurse fuel (full root) cfg) it.
Proof.
  induction fuel as [|fuel IH]; intros it Ho ws; [exact I|]. cbn [c_inline_widths_recurse].
  rewrite value_children_items, key_children_items by exact Ho.
  set (add := fun (acc : nat * widths_t) child => dc r <- c_child_width (c_inline_widths_recurse fuel (full root) cfg) child (snd acc) ; free (LRet (fst acc + fst r, snd r))).
  assert (X : forall c acc, In c (kids_of it) -> step_ok (full root) (snd acc) (S (fst it)) 0 (snd (add acc (nd c))) (ws_of (fst (add acc (nd c))))).
  { intros c acc Hc. pose proof (child_fine root (c_inline_widths_recurse fuel (full root) cfg) c (snd acc) (kid_ok root it c Ho Hc) (IH c (kid_ok root it c Ho Hc))) as F.
    pose proof (kid_after it c Hc). unfold add, cbind. destruct (c_child_width _ _ _) as [[x| |] c0]; cbn [fst snd free ws_of step_ok] in *; try exact I.
    destruct F as (A & B & C). split; [lia|]. split; [exact B|]. intros j Hj. apply C. lia. }
  assert (XL : forall l acc, (forall c, In c l -> In c (kids_of it)) ->
    step_ok (full root) (snd acc) (S (fst it)) (length l * 1) (snd (cfold add (map nd l) acc)) (ws_of (fst (cfold add (map nd l) acc)))).
  { intros l acc Hl. rewrite <- (map_length nd l). apply loop_fine. intros x acc' Hx. apply in_map_iff in Hx as (c & <- & Hc). apply X, Hl, Hc. }
  pose proof (XL (vkids it) (inline_width (n_kserd (nd it)) cfg, ws) (vkids_in it)) as V.
  assert (NK : nk (nd it) = length (vkids it) + length (kkids it)) by (unfold nk, nd, mk_full; cbn [n_value_children n_key_children]; now rewrite vc_vkids, kc_kkids, !map_length).
  unfold cbind. destruct (cfold add (map nd (vkids it)) _) as [[acc| |] c1]; cbn [fst snd ws_of step_ok] in *; try exact I.
  pose proof (XL (kkids it) acc (kkids_in it)) as K. destruct (cfold add (map nd (kkids it)) acc) as [[acc2| |] c2]; cbn [fst snd ws_of step_ok] in *; try exact I.
  destruct V as (V1 & V2 & V3), K as (K1 & K2 & K3). split; [lia|]. split; [congruence|]. intros j Hj. rewrite K3, V3 by exact Hj. reflexivity.
Qed.
Lemma concise_fine root cfg inw : forall fuel it, ok_item root it -> rec_fine (full root) (c_concise_widths_recurse fuel (full root) cfg inw) it.
Proof.
  induction fuel as [|fuel IH]; intros it Ho ws; [exact I|]. cbn [c_concise_widths_recurse]. rewrite item_val by exact Ho.
  set (rec := c_concise_widths_recurse fuel (full root) cfg inw) in *.
  assert (F : forall c w, In c (kids_of it) -> match c_child_width rec (nd c) w with
    | (LRet x, n) => n + todo (snd x) (full root) <= todo w (full root) /\ length (snd x) = length w /\ forall j, j < S (fst it) -> nth_error (snd x) j = nth_error w j
    | _ => True end).
  { intros c w Hc. pose proof (child_fine root rec c w (kid_ok root it c Ho Hc) (IH c (kid_ok root it c Ho Hc))) as F.
    pose proof (kid_after it c Hc). destruct (c_child_width rec (nd c) w) as [[x| |] c0]; cbn [fst snd free ws_of step_ok] in *; try exact I.
    destruct F as (A & B & C). split; [lia|]. split; [exact B|]. intros j Hj. apply C. lia. }
  assert (NK : nk (nd it) = length (vkids it) + length (kkids it)) by (unfold nk, nd, mk_full; cbn [n_value_children n_key_children]; now rewrite vc_vkids, kc_kkids, !map_length).
  pose proof (kids_lengths it) as KL.
  assert (weaker : forall b b' n o, b <= b' -> step_ok (full root) ws (S (fst it)) b n o -> step_ok (full root) ws (S (fst it)) b' n o).
  { intros b b' n [w|] Hb; cbn; [|auto]. intros (A & B); split; [lia|exact B]. }
  assert (LIST : forall A (l : list A) (p : A -> node) (e : A -> nat) start, snd start = ws -> length l <= length (vkids it) -> (forall x, In x l -> exists c, In c (vkids it) /\ p x = nd c) ->
    step_ok (full root) ws (S (fst it)) (nk (nd it))
      (snd (cfold (fun acc x => dc r <- c_child_width rec (p x) (snd acc) ; free (LRet (max (fst acc) (e x + fst r), snd r))) l start))
      (ws_of (fst (cfold (fun acc x => dc r <- c_child_width rec (p x) (snd acc) ; free (LRet (max (fst acc) (e x + fst r), snd r))) l start)))).
  { intros A l p e start <- Hl Hp. apply (weaker (length l * 1)); [lia|]. apply loop_fine. intros x acc Hx. destruct (Hp x Hx) as (c & Hc & ->).
    specialize (F c (snd acc) (vkids_in it c Hc)). unfold cbind. destruct (c_child_width rec (nd c) (snd acc)) as [[y| |] n]; cbn [fst snd free ws_of step_ok] in *; try exact I.
    destruct F as (P & Q & R). split; [lia|]. split; [exact Q|exact R]. }
  destruct (kval (snd (snd it))) as [| | | | |l|m|l|m] eqn:Ek; try (cbn [free fst snd ws_of step_ok]; split; [lia|split; [reflexivity|auto]]; fail).
  - apply (LIST node (map nd (vkids it)) (fun x => x) (fun _ => INDENT) (_, ws) eq_refl); [now rewrite map_length|]. intros x Hx. apply in_map_iff in Hx as (c & <- & Hc). eauto.
  - apply (LIST _ _ snd (fun x : str * node => INDENT + length (fst x) + length FIELDS_ASSIGNER + 1) (_, ws) eq_refl).
    + rewrite map_length, combine_length. lia.
    + intros x Hx. apply in_map_iff in Hx as (c & <- & Hc). apply in_comb_r in Hc. cbn [snd]. eauto.
  - apply (LIST node (map nd (vkids it)) (fun x => x) (fun _ => INDENT) (_, ws) eq_refl); [now rewrite map_length|]. intros x Hx. apply in_map_iff in Hx as (c & <- & Hc). eauto.
  - specialize (KL m eq_refl).
    match goal with |- step_ok _ _ _ _ (snd (cfold ?f ?l ?st)) _ => pose proof (loop_fine (full root) f (S (fst it)) 1 l) as LF; set (start := st) end.
    apply (weaker (length (map (fun e : item * item => (nd (fst e), nd (snd e))) (combine (kkids it) (vkids it))) * 2)).
    { rewrite map_length, combine_length. lia. }
    apply (LF). intros x acc Hx. apply in_map_iff in Hx as (c & <- & Hc). apply in_comb_r in Hc. cbn [fst snd].
    specialize (F (snd c) (snd acc) (vkids_in it _ Hc)). unfold cbind. destruct (c_child_width rec (nd (snd c)) (snd acc)) as [[y| |] n]; cbn [fst snd free look ws_of step_ok] in *; try exact I.
    destruct (lunwrap _); cbn [fst snd ws_of step_ok]; try exact I. destruct F as (P & Q & R). split; [lia|]. split; [exact Q|exact R].
Qed.
Lemma all_fine root crec : (forall it, ok_item root it -> rec_fine (full root) crec it) -> (exists l, fst (c_all_widths crec (full root)) = LRet l) ->
  snd (c_all_widths crec (full root)) <= 3 * length (full root).
Proof.
  intros R [out E]. unfold c_all_widths in *. unfold nav_nodes, nav_len in *. destruct (all_items root) as (l & El & Fl).
  match type of E with fst (cbind (cfold ?g _ _) _) = _ => set (f := g) in * end.
  assert (X : forall l, Forall (ok_item root) l -> forall ws, match cfold f (map nd l) ws with
     | (LRet ws', n) => n + todo ws' (full root) <= length l + todo ws (full root) /\ length ws' = length ws | _ => True end).
  { induction 1 as [|it l' Ho _ IH]; intros ws; [cbn; lia|]. cbn [map cfold look].
    assert (S1 : match f ws (nd it) with (LRet ws', n) => n + todo ws' (full root) <= todo ws (full root) /\ length ws' = length ws | _ => True end).
    { pose proof (child_fine root crec it ws Ho (R it Ho)) as F. unfold f. unfold c_child_width in F. destruct (lunwrap (nth_error ws (n_idx (nd it)))) as [[v|]| |]; cbn in *; try lia; try exact I.
      unfold cbind in *. cbn [free fst snd] in *. destruct (crec (nd it) ws) as [[x| |] n]; cbn [fst snd free ws_of step_ok] in *; try exact I. destruct F as (A & B & _). split; [lia|exact B]. }
    unfold cbind. destruct (f ws (nd it)) as [[ws1| |] n1]; cbn [fst snd] in *; try exact I. specialize (IH ws1).
    destruct (cfold f (map nd l') ws1) as [[ws2| |] n2]; cbn [fst snd length] in *; try exact I. split; lia. }
  specialize (X l Fl (repeat None (length (full root)))). rewrite <- El in X. rewrite repeat_length in X.
  assert (LL : length l = length (full root)) by (rewrite El at 1; now rewrite map_length).
  pose proof (todo_start root) as T. unfold cbind in *. destruct (cfold f (full root) _) as [[ws| |] n]; cbn [fst snd] in *; try discriminate.
  pose proof (w_fold (fun (acc : list nat) o => free (dl w <- lunwrap o ; LRet (acc ++ [w]))) 0 ws (fun _ _ _ => le_n 0) []) as W. lia.
Qed.
Lemma w_inline root cfg : snd (c_inline_widths (full root) cfg) <= 3 * length (full root).
Proof.
  apply all_fine; [intros it Ho; now apply inline_fine|]. rewrite (e_all_widths _ _ _ (e_inline_rec _ _ _)). eexists. exact (inline_widths_ok root cfg).
Qed.
Lemma w_concise root cfg inw : inline_widths (full root) cfg = LRet inw -> snd (c_concise_widths (full root) cfg inw) <= 3 * length (full root).
Proof.
  intros E. rewrite inline_widths_ok in E. injection E as <-. apply all_fine; [intros it Ho; now apply concise_fine|].
  rewrite (e_all_widths _ _ _ (e_concise_rec _ _ _ _)). eexists. exact (concise_widths_ok root cfg).
Qed.
