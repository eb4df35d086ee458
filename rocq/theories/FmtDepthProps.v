From Verif Require Import Base F64 Number BTree Value ValueSpec Nav NavProps NavProps2 Fmt FmtText FmtProps Formatter FmtSpec FormatterProps FormatterProps2 NavSpec FmtDepth DepthSpec FmtDepthSpec.
From Coq Require Import Lia.
Open Scope nat_scope.

(** ** more fuel changes no result *)
Definition le_res {A} (a b : lres A) : Prop := a = LFuel \/ a = b.
Lemma le_refl {A} (a : lres A) : le_res a a. Proof. now right. Qed.
Lemma le_bind {A B} (a b : lres A) (f g : A -> lres B) : le_res a b -> (forall x, le_res (f x) (g x)) -> le_res (lbind a f) (lbind b g).
Proof. intros [->| ->] H; [now left|]. destruct b; cbn [lbind]; [apply H|apply le_refl|apply le_refl]. Qed.
Lemma le_fold {A B} (f g : B -> A -> lres B) : (forall a x, le_res (f a x) (g a x)) -> forall l acc, le_res (lfold f l acc) (lfold g l acc).
Proof. intros H. induction l as [|x l IH]; intros acc; [apply le_refl|]. cbn [lfold]. apply le_bind; [apply H|exact IH]. Qed.

Section Mono.
  Variables (nv : nav) (fmts : list fmt).
  Variables rec rec' : bool -> str -> node -> nat -> lres str.
  Hypothesis R : forall b buf n col, le_res (rec b buf n col) (rec' b buf n col).
  Ltac le := repeat first [apply le_refl | apply R | apply le_bind; intros | apply le_fold; intros].
  Lemma le_tuples buf n col l : le_res (tuples_write fmts rec buf n col l) (tuples_write fmts rec' buf n col l).
  Proof. unfold tuples_write, inline_items, concise_items. apply le_bind; [apply le_refl|]. intros f. destruct (f_line f); le. Qed.
  Lemma le_seqs buf n col l o : le_res (seqs_write fmts rec buf n col l o) (seqs_write fmts rec' buf n col l o).
  Proof.
    unfold seqs_write, inline_items, concise_items. apply le_bind; [apply le_refl|]. intros f. destruct (f_line f), o; le.
    all: match goal with |- context [f_line ?x] => destruct (f_line x) end; le.
  Qed.
  Lemma le_maps buf n col l o : le_res (maps_write fmts rec buf n col l o) (maps_write fmts rec' buf n col l o).
  Proof.
    unfold maps_write, key_and_value_concise. apply le_bind; [apply le_refl|]. intros f. destruct (f_line f), o; le.
    all: match goal with x : _ * _ |- _ => destruct x end; le.
    all: match goal with |- context [f_line ?x] => destruct (f_line x) end; le.
  Qed.
  Lemma le_cntr buf n col b l : le_res (cntr_write nv fmts rec buf n col b l) (cntr_write nv fmts rec' buf n col b l).
  Proof.
    unfold cntr_write, field_mapping. apply le_bind; [apply le_refl|]. intros f. destruct (f_line f); le.
    all: match goal with x : _ * _ |- _ => destruct x end; le.
    all: match goal with |- context [f_line ?x] => destruct (f_line x) end; le.
    match goal with |- context [node_val ?x ?y] => destruct (node_val x y) end; try (apply le_bind; [apply le_seqs|intros; apply le_refl]); try apply le_maps; le.
  Qed.
  Lemma le_body b buf n col : le_res (write_body nv fmts rec b buf n col) (write_body nv fmts rec' b buf n col).
  Proof. unfold write_body. destruct (node_val nv n); [apply le_refl|apply le_tuples|apply le_cntr|apply le_seqs|apply le_maps]. Qed.
End Mono.
Lemma le_write nv fmts : forall n m, n <= m -> forall b buf nd col, le_res (write_node n nv fmts b buf nd col) (write_node m nv fmts b buf nd col).
Proof.
  induction n as [|n IH]; intros [|m] H b buf nd col; try lia; [now left|now left|]. cbn [write_node].
  apply le_body. apply IH. lia.
Qed.
Lemma le_child rec rec' c ws : (forall n ws, le_res (rec n ws) (rec' n ws)) -> le_res (child_width rec c ws) (child_width rec' c ws).
Proof. intros R. unfold child_width. apply le_bind; [apply le_refl|]. intros [w|]; [apply le_refl|]. apply le_bind; [apply R|]. intros; apply le_refl. Qed.
Lemma le_inline nv cfg : forall n m, n <= m -> forall nd ws, le_res (inline_widths_recurse n nv cfg nd ws) (inline_widths_recurse m nv cfg nd ws).
Proof.
  induction n as [|n IH]; intros [|m] H nd ws; try lia; [now left|now left|]. cbn [inline_widths_recurse].
  assert (C : forall c ws, le_res (child_width (inline_widths_recurse n nv cfg) c ws) (child_width (inline_widths_recurse m nv cfg) c ws)) by (intros; apply le_child, IH; lia).
  apply le_bind; [|intros]; apply le_fold; intros ? ?; (apply le_bind; [apply C|intros; apply le_refl]).
Qed.
Lemma le_concise nv cfg inw : forall n m, n <= m -> forall nd ws, le_res (concise_widths_recurse n nv cfg inw nd ws) (concise_widths_recurse m nv cfg inw nd ws).
Proof.
  induction n as [|n IH]; intros [|m] H nd ws; try lia; [now left|now left|]. cbn [concise_widths_recurse].
  assert (C : forall c ws, le_res (child_width (concise_widths_recurse n nv cfg inw) c ws) (child_width (concise_widths_recurse m nv cfg inw) c ws)) by (intros; apply le_child, IH; lia).
  destruct (node_val nv nd); [apply le_refl| | | |]; apply le_fold; intros a x; (apply le_bind; [apply C|intros; apply le_refl]).
Qed.
Lemma le_all nv rec rec' : (forall n ws, le_res (rec n ws) (rec' n ws)) -> le_res (all_widths rec nv) (all_widths rec' nv).
Proof.
  intros R. unfold all_widths. apply le_bind; [|intros; apply le_refl]. apply le_fold. intros a x. apply le_bind; [apply le_refl|].
  intros [w|]; [apply le_refl|]. apply le_bind; [apply R|intros; apply le_refl].
Qed.

(** ** when the limit is not reached, and when it is *)
Lemma bind_fuel {A B} (a : lres A) (f : A -> lres B) : a <> LFuel -> (forall x, a = LRet x -> f x <> LFuel) -> lbind a f <> LFuel.
Proof. intros H G. destruct a; cbn [lbind]; [now apply G|discriminate|contradiction]. Qed.
Lemma fold_fuel {A B} (f : B -> A -> lres B) l : (forall x, In x l -> forall a, f a x <> LFuel) -> forall acc, lfold f l acc <> LFuel.
Proof.
  induction l as [|x l IH]; intros H acc; [discriminate|]. cbn [lfold]. apply bind_fuel; [apply H; now left|]. intros a _. apply IH. intros y Hy. apply H. now right.
Qed.
Lemma bind_ret {A B} (a : lres A) (f : A -> lres B) b : lbind a f = LRet b -> exists x, a = LRet x /\ f x = LRet b.
Proof. destruct a; cbn [lbind]; intros H; [eauto|discriminate|discriminate]. Qed.
Lemma fold_ret {A B} (f : B -> A -> lres B) l : forall acc r, lfold f l acc = LRet r -> forall x, In x l -> exists a a', f a x = LRet a'.
Proof.
  induction l as [|x l IH]; intros acc r H y Hy; [destruct Hy|]. cbn [lfold] in H. apply bind_ret in H as (a & H1 & H2).
  destruct Hy as [<-|Hy]; [eauto|exact (IH _ _ H2 y Hy)].
Qed.
Lemma max_le {A} (f : A -> nat) l n : fold_right (fun x m => Nat.max (f x) m) 0 l <= n <-> forall x, In x l -> f x <= n.
Proof.
  induction l as [|x l IH]; cbn [fold_right]; [split; [intros _ y []|lia]|]. rewrite Nat.max_lub_iff, IH. split.
  - intros [H1 H2] y [<-|Hy]; auto.
  - intros H. split; [apply H; now left|]. intros y Hy. apply H. now right.
Qed.
Definition field_calls (f : fmt) (x : dk) : nat :=
  match f_line f, d_line x, d_val x with
  | Verbose, Verbose, (VSeq _ | VMap _) => calls x - 1
  | _, _, _ => calls x
  end.
Lemma calls_le d n : calls d <= S n <->
  match d_val d with
  | VTuple l | VSeq l => forall x, In x l -> calls x <= n
  | VCntr m => forall e, In e m -> field_calls (d_fmt d) (snd e) <= n
  | VMap m => forall e, In e m -> calls (fst e) <= n /\ calls (snd e) <= n
  | _ => True
  end.
Proof.
  destruct d as [f id v]. cbn [calls d_val d_fmt]. rewrite <- Nat.succ_le_mono. destruct v; try (split; [exact (fun _ => Logic.I)|lia]).
  - apply max_le.
  - apply (max_le (fun e => field_calls f (snd e))).
  - apply max_le.
  - rewrite (max_le (fun e => Nat.max (calls (fst e)) (calls (snd e)))). split; intros H e He; specialize (H e He); lia.
Qed.

Lemma unwrap_fuel {A} (o : option A) : lunwrap o <> LFuel.
Proof. destruct o; discriminate. Qed.
Lemma get_fmt_fuel fmts n : get_fmt fmts n <> LFuel.
Proof. apply unwrap_fuel. Qed.
Lemma prims_fuel {K} buf id (v : value K) b : prims_write buf id v b <> LFuel.
Proof. destruct v; try discriminate. cbn [prims_write]. unfold fmt_str. destruct (find _ _); discriminate. Qed.
Section Reach.
  Variables (root : kserd) (fmts : list fmt).
  Hypothesis L : length fmts = length (full root).
  Variable rec : bool -> str -> node -> nat -> lres str.
  Variable n : nat.
  Notation low c := (ok_item root c /\ calls (D fmts c) <= n).

  (** *** not reached *)
  Section Not.
    Hypothesis HF : forall c, low c -> forall b buf col, rec b buf (nd c) col <> LFuel.
    Ltac nf := repeat first [discriminate | apply get_fmt_fuel | apply unwrap_fuel | apply bind_fuel; [|intros ? _] | apply fold_fuel; intros].
    Lemma items_fuel l (P : forall c, In c l -> low c) x : In x (map nd l) -> forall b buf col, rec b buf x col <> LFuel.
    Proof. intros H. apply in_map_iff in H as (c & <- & Hc). apply HF. now apply P. Qed.
    Lemma tuples_fuel buf it col l : (forall c, In c l -> low c) -> tuples_write fmts rec buf it col (map nd l) <> LFuel.
    Proof.
      intros H. unfold tuples_write, inline_items, concise_items. apply bind_fuel; [apply get_fmt_fuel|]. intros f _. destruct (f_line f); nf.
      all: eapply items_fuel; eauto.
    Qed.
    Lemma seqs_fuel buf it col l o : (forall c, In c l -> low c) -> seqs_write fmts rec buf it col (map nd l) o <> LFuel.
    Proof.
      intros H. unfold seqs_write, inline_items, concise_items. apply bind_fuel; [apply get_fmt_fuel|]. intros f _. destruct (f_line f), o; nf.
      all: try match goal with |- context [match f_line ?x with _ => _ end] => destruct (f_line x) end; nf.
      all: eapply items_fuel; eauto.
    Qed.
    Notation lowe e := (low (fst e) /\ low (snd e)).
    Lemma entries_fuel (l : list (item * item)) (P : forall e, In e l -> lowe e) x : In x (map (fun e => (nd (fst e), nd (snd e))) l) ->
      (forall b buf col, rec b buf (fst x) col <> LFuel) /\ forall b buf col, rec b buf (snd x) col <> LFuel.
    Proof. intros H. apply in_map_iff in H as (e & <- & He). cbn [fst snd]. destruct (P e He). split; now apply HF. Qed.
    Lemma maps_fuel buf it col (l : list (item * item)) o : (forall e, In e l -> lowe e) ->
      maps_write fmts rec buf it col (map (fun e => (nd (fst e), nd (snd e))) l) o <> LFuel.
    Proof.
      intros H. unfold maps_write, key_and_value_concise. apply bind_fuel; [apply get_fmt_fuel|]. intros f _. destruct (f_line f), o; nf.
      all: match goal with X : In ?x _ |- _ => destruct (entries_fuel l H x X) as [F1 F2]; destruct x as [? ?]; cbn [fst snd] in *; clear X end; nf; auto.
      all: try match goal with |- context [f_line ?x] => destruct (f_line x); cbn [repr_eqb] end; nf; auto.
      all: try match goal with |- context [f_line ?x] => destruct (f_line x); cbn [repr_eqb] end; nf; auto.
    Qed.
    Lemma body_fuel it b buf col : ok_item root it -> calls (D fmts it) <= S n -> write_body (full root) fmts rec b buf (nd it) col <> LFuel.
    Proof.
      intros Ho C. apply calls_le in C. unfold write_body. rewrite item_val by exact Ho. rewrite D_unfold in C. cbn [d_val d_fmt] in C.
      pose proof (get_fmt_item root fmts it L Ho) as Gf. rewrite D_unfold in Gf. cbn [d_fmt] in Gf.
      assert (K : forall c, In c (vkids it) -> ok_item root c) by (intros c Hc; now apply kid_ok with it; [|apply vkids_in]).
      assert (K' : forall c, In c (kkids it) -> ok_item root c) by (intros c Hc; now apply kid_ok with it; [|apply kkids_in]).
      destruct (kval (snd (snd it))) as [| | | | |l|m|l|m] eqn:Ek; try (apply bind_fuel; [apply get_fmt_fuel|intros; apply prims_fuel]).
      - apply tuples_fuel. intros c Hc. split; [auto|]. apply C. now apply in_map.
      - unfold cntr_write. rewrite Gf. cbn [lbind].
        set (f := nth (fst it) fmts (mkFmt true Inline)) in *.
        assert (LM : length (map fst m) = length (vkids it)).
        { pose proof (vkids_kserds it) as EV. unfold values_of in EV. rewrite Ek in EV. apply (f_equal (@length _)) in EV. rewrite !map_length in *. lia. }
        assert (C' : forall e, In e (combine (map fst m) (vkids it)) -> ok_item root (snd e) /\ field_calls f (D fmts (snd e)) <= n).
        { intros [u c] He. split; [apply K; eapply in_combine_r; exact He|]. specialize (C (u, D fmts c)). apply C.
          rewrite combine_map_r. apply in_map_iff. exists (u, c). auto. }
        clear C.
        destruct (f_line f) eqn:Ef; nf.
        all: match goal with X : In ?x (map _ _) |- _ => apply in_map_iff in X as ([u c] & <- & He); cbn [fst snd] end; destruct (C' _ He) as [Hc Cc]; cbn [snd] in Hc, Cc;
          unfold field_calls in Cc; rewrite Ef in Cc; try (unfold field_mapping; nf; now apply HF).
        rewrite (get_fmt_item root fmts c L Hc). cbn [lbind]. rewrite item_val by exact Hc.
        rewrite D_unfold in Cc |- *. unfold d_line in Cc. cbn [d_fmt d_val] in Cc |- *. set (fc := nth (fst c) fmts (mkFmt true Inline)) in *.
        assert (FM : calls (D fmts c) <= n -> forall b nm, field_mapping rec b nm (nd c) col <> LFuel) by (intros X bb nm; unfold field_mapping; nf; now apply HF).
        rewrite D_unfold in FM. fold fc in FM.
        destruct (f_line fc) eqn:Efc; [now apply FM|now apply FM|].
        destruct (kval (snd (snd c))) as [| | | | |l'|m'|l'|m'] eqn:Ekc; try (now apply FM).
        + apply HF. split; [exact Hc|]. rewrite D_unfold, Ekc. exact Cc.
        + apply bind_fuel; [|discriminate]. apply seqs_fuel. intros c' Hc'. split; [apply kid_ok with c; [exact Hc|now apply vkids_in]|].
          assert (X : calls (DK fc (kid (snd (snd c))) (VSeq (map (D fmts) (vkids c)))) <= S n) by lia. apply calls_le in X. apply X. now apply in_map.
        + apply maps_fuel. intros [c1 c2] He'. pose proof (in_combine_l _ _ _ _ He') as H1. pose proof (in_combine_r _ _ _ _ He') as H2.
          assert (X : calls (DK fc (kid (snd (snd c))) (VMap (combine (map (D fmts) (kkids c)) (map (D fmts) (vkids c))))) <= S n) by lia. apply calls_le in X.
          cbn [d_val] in X. destruct (X (D fmts c1, D fmts c2)) as [X1 X2]. { rewrite combine_map. apply in_map_iff. exists (c1, c2). auto. }
          cbn [fst snd] in *. repeat split; auto; (apply kid_ok with c; [exact Hc|]); [now apply kkids_in|now apply vkids_in].
      - apply seqs_fuel. intros c Hc. split; [auto|]. apply C. now apply in_map.
      - apply maps_fuel. intros [c1 c2] He. pose proof (in_combine_l _ _ _ _ He) as H1. pose proof (in_combine_r _ _ _ _ He) as H2.
        destruct (C (D fmts c1, D fmts c2)) as [X1 X2]. { rewrite combine_map. apply in_map_iff. exists (c1, c2). auto. }
        cbn [fst snd] in *. repeat split; auto.
    Qed.
  End Not.

  (** *** reached *)
  Section Reached.
    Hypothesis HN : forall c, ok_item root c -> forall b buf col t, rec b buf (nd c) col = LRet t -> calls (D fmts c) <= n.
    Ltac br := repeat match goal with H : lbind _ _ = LRet _ |- _ => apply bind_ret in H as (? & ? & ?) end.
    Ltac fr c Hc := match goal with H : lfold _ (map _ _) _ = LRet _ |- _ => apply fold_ret with (1 := H) in Hc as (? & ? & Hc); br; eauto end.
    Lemma tuples_reached buf it col l t : tuples_write fmts rec buf it col (map nd l) = LRet t -> (forall c, In c l -> ok_item root c) -> forall c, In c l -> calls (D fmts c) <= n.
    Proof.
      unfold tuples_write, inline_items, concise_items. intros H O c Hc. pose proof (O c Hc) as Ho. apply (in_map nd) in Hc. br.
      destruct (f_line _); br; [fr c Hc|fr c Hc|discriminate].
    Qed.
    Lemma seqs_reached buf it col l o t : seqs_write fmts rec buf it col (map nd l) o = LRet t -> (forall c, In c l -> ok_item root c) -> forall c, In c l -> calls (D fmts c) <= n.
    Proof.
      unfold seqs_write, inline_items, concise_items. intros H O c Hc. pose proof (O c Hc) as Ho. apply (in_map nd) in Hc. br.
      destruct (f_line _), o; br; fr c Hc. destruct (f_line _); br; eauto.
    Qed.
    Lemma maps_reached buf it col (l : list (item * item)) o t : maps_write fmts rec buf it col (map (fun e => (nd (fst e), nd (snd e))) l) o = LRet t ->
      (forall e, In e l -> ok_item root (fst e) /\ ok_item root (snd e)) -> forall e, In e l -> calls (D fmts (fst e)) <= n /\ calls (D fmts (snd e)) <= n.
    Proof.
      unfold maps_write, key_and_value_concise. intros H O c Hc. destruct (O c Hc) as [Ho1 Ho2]. apply (in_map (fun e => (nd (fst e), nd (snd e)))) in Hc. br.
      destruct (f_line _), o; br; fr c Hc; cbn [fst snd] in *; br; try (destruct (f_line _); br); (split; [eapply HN; [exact Ho1|eassumption]|eapply HN; [exact Ho2|eassumption]]).
    Qed.
    Lemma body_reached it b buf col t : ok_item root it -> write_body (full root) fmts rec b buf (nd it) col = LRet t -> calls (D fmts it) <= S n.
    Proof.
      intros Ho H. apply calls_le. unfold write_body in H. rewrite item_val in H by exact Ho. rewrite D_unfold. cbn [d_val d_fmt].
      pose proof (get_fmt_item root fmts it L Ho) as Gf. rewrite D_unfold in Gf. cbn [d_fmt] in Gf.
      assert (K : forall c, In c (vkids it) -> ok_item root c) by (intros c Hc; now apply kid_ok with it; [|apply vkids_in]).
      assert (K' : forall c, In c (kkids it) -> ok_item root c) by (intros c Hc; now apply kid_ok with it; [|apply kkids_in]).
      destruct (kval (snd (snd it))) as [| | | | |l|m|l|m] eqn:Ek; try exact Logic.I.
      - intros x Hx. apply in_map_iff in Hx as (c & <- & Hc). exact (tuples_reached _ _ _ _ _ H K c Hc).
      - unfold cntr_write in H. rewrite Gf in H. cbn [lbind] in H. intros e He. rewrite combine_map_r in He. apply in_map_iff in He as ([u c] & <- & He). cbn [fst snd].
        assert (Hc : ok_item root c) by (apply K; eapply in_combine_r; exact He).
        set (f := nth (fst it) fmts (mkFmt true Inline)) in *.
        apply (in_map (fun e => (fst e, nd (snd e)))) in He. cbn [fst snd] in He. unfold field_calls.
        destruct (f_line f) eqn:Ef; br.
        + fr c He.
        + unfold field_mapping in *. fr c He.
        + fr c He. clear H.
          rewrite (get_fmt_item root fmts c L Hc) in H0. injection H0 as <-. rewrite item_val in H1 by exact Hc.
          assert (FM : forall b nm z, field_mapping rec b nm (nd c) col = LRet z -> calls (D fmts c) <= n) by (intros bb nm z X; unfold field_mapping in X; br; eauto).
          pose proof (f_equal d_val (D_unfold fmts c)) as V. cbn [d_val] in V. pose proof (proj2 (calls_le (D fmts c) n)) as CL. unfold d_line. rewrite V in *.
          assert (KV : forall c', In c' (vkids c) -> ok_item root c') by (intros c' Hc'; now apply kid_ok with c; [|apply vkids_in]).
          assert (KK : forall c', In c' (kkids c) -> ok_item root c') by (intros c' Hc'; now apply kid_ok with c; [|apply kkids_in]).
          destruct (f_line (d_fmt (D fmts c))); [eauto|eauto|].
          destruct (kval (snd (snd c))) as [| | | | |l'|m'|l'|m']; try (now eauto).
          * br. enough (calls (D fmts c) <= S n) by lia. apply CL. intros x' Hx. apply in_map_iff in Hx as (c' & <- & Hc').
            match goal with X : seqs_write _ _ _ _ _ _ _ = _ |- _ => exact (seqs_reached _ _ _ _ _ _ X KV c' Hc') end.
          * enough (calls (D fmts c) <= S n) by lia. apply CL. intros e He. rewrite combine_map in He. apply in_map_iff in He as ([c1 c2] & <- & He). cbn [fst snd].
            refine (maps_reached _ _ _ _ _ _ H1 _ (c1, c2) He). intros [d1 d2] Hd. cbn [fst snd]. split; [apply KK; eapply in_combine_l; exact Hd|apply KV; eapply in_combine_r; exact Hd].
      - intros x Hx. apply in_map_iff in Hx as (c & <- & Hc). exact (seqs_reached _ _ _ _ _ _ H K c Hc).
      - intros e He. rewrite combine_map in He. apply in_map_iff in He as ([c1 c2] & <- & He). cbn [fst snd].
        refine (maps_reached _ _ _ _ _ _ H _ (c1, c2) He). intros [d1 d2] Hd. cbn [fst snd]. split; [apply K'; eapply in_combine_l; exact Hd|apply K; eapply in_combine_r; exact Hd].
    Qed.
  End Reached.
End Reach.

Lemma write_not_fuel root fmts : length fmts = length (full root) -> forall limit it, ok_item root it -> calls (D fmts it) <= limit ->
  forall b buf col, write_node limit (full root) fmts b buf (nd it) col <> LFuel.
Proof.
  intros L. induction limit as [|n IH]; intros it Ho C b buf col; [destruct (D fmts it); cbn [calls] in C; lia|].
  cbn [write_node]. apply (body_fuel root fmts L _ n); auto. intros c [Hc Cc]. now apply IH.
Qed.
Lemma write_reached root fmts : length fmts = length (full root) -> forall limit it, ok_item root it -> forall b buf col t,
  write_node limit (full root) fmts b buf (nd it) col = LRet t -> calls (D fmts it) <= limit.
Proof.
  intros L. induction limit as [|n IH]; intros it Ho b buf col t E; [discriminate|].
  cbn [write_node] in E. eapply (body_reached root fmts L _ n); [|exact Ho|exact E]. exact IH.
Qed.
