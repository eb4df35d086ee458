(** Proofs about encoding and decoding: what is read back from the text of an
    encoded value still stands for the value. *)
From Verif Require Import Base BaseProps F64 Number NumberSpec NumberProps NumberProps2 NumberProps3 BTree BTreeProps Value ValueSpec ValueProps ValueProps2 Nav Fmt FmtText FmtProps RtSpec RtProps2 RtProps5 RtProps6 VSpec VRtProps2 VRtProps4 TextSpec Encode NameSpec EncodeSpec EncodeProps EncodeProps2 EncodeProps3.
From Coq Require Import Permutation.
Open Scope N_scope.

(** ** numbers *)
Definition num_like (n n' : number) : Prop := (forall k, n = Uint k \/ n = Int k -> n' = Uint k \/ n' = Int k) /\ as_f64 n' = as_f64 n.
Open Scope Z_scope.
Lemma as_f64_finite n sg m e : num_wf n = true -> f_eq (as_f64 n) (FFin sg m e) = true ->
  f64_wf (FFin sg m e) = true -> m <> 0 -> as_f64 n = FFin sg m e.
Proof.
  intros W F WX M. assert (HW : f64_wf (as_f64 n) = true).
  { destruct n as [k|k|x]; cbn [as_f64].
    - apply int_bound_u in W as [_ W]. destruct (f_of_Z_shape k W) as (a & b & -> & H & _). exact H.
    - apply int_bound_i in W as [_ W]. destruct (f_of_Z_shape k W) as (a & b & -> & H & _). exact H.
    - exact W. }
  destruct (as_f64 n) as [|s'|s' m' e']; [discriminate F|destruct s'; discriminate F|].
  assert (V : fval (FFin s' m' e') = fval (FFin sg m e)).
  { unfold f_eq, f_partial_cmp in F. destruct (Z.compare_spec (fval (FFin s' m' e')) (fval (FFin sg m e))); [assumption|discriminate|discriminate]. }
  assert (Z1 : negb (sg && (m =? 0)) = true) by (apply Z.eqb_neq in M; rewrite M, andb_false_r; reflexivity).
  apply fval_inj; auto. destruct (Z.eq_dec m' 0) as [->|M']; [|apply Z.eqb_neq in M'; rewrite M', andb_false_r; reflexivity].
  exfalso. cbn [fval] in V. apply M. assert (P : 0 < 2 ^ (e + 1074)) by (apply Z.pow_pos_nonneg; unfold f64_wf in WX; lia).
  destruct s', sg; nia.
Qed.
Lemma reread_like n : num_wf n = true -> num_kept n = true -> num_like n (reread n).
Proof.
  intros W K. pose proof (text_round_trip n W) as T. unfold reread. destruct n as [k|k|[sg p|sg|sg m e]].
  - rewrite T. split; auto.
  - rewrite T. destruct (k <? 0); split; auto. intros j [H|H]; [discriminate|]. injection H as ->. auto.
  - cbn [num_kept] in K. apply andb_true_iff in K as [K1 K2]. apply negb_true_iff in K1. apply N.eqb_eq in K2. subst.
    change (num_display (Float (FNaN false (2 ^ 51)))) with (s "NaN"). change (num_from_str (s "NaN")) with (Some (Float (FNaN false (2 ^ 51)%N))). split; [|reflexivity]. intros j [H|H]; discriminate.
  - rewrite T. split; [|reflexivity]. intros j [H|H]; discriminate.
  - destruct T as (_ & T2 & _ & T4). split; [intros j [H|H]; discriminate|].
    destruct (num_from_str (num_display (Float (FFin sg m e)))) as [n'|] eqn:E; [|reflexivity].
    destruct (Z.eq_dec m 0) as [->|M].
    + cbn [num_kept] in K. rewrite Z.eqb_refl, andb_true_r in K. apply negb_true_iff in K. subst sg.
      assert (V : fval (FFin false 0 e) = 0 * scale) by reflexivity. specialize (T2 0 V).
      assert (A : Z.abs 0 <= 2 ^ 53) by (apply Z.leb_le; reflexivity). specialize (T2 A). injection T2 as ->. cbn [as_f64].
      apply f_of_Z_of_float; auto.
    + cbn [as_f64]. apply as_f64_finite; auto. eapply num_from_str_wf. exact E.
Qed.
Open Scope N_scope.

(** ** values *)
(** [named]: the ids of containers are the same *)
Inductive like (named : bool) : kserd -> kserd -> Prop :=
| like_unit i j : like named (Kserd i VUnit) (Kserd j VUnit)
| like_bool i j b : like named (Kserd i (VBool b)) (Kserd j (VBool b))
| like_num i j n n' : num_like n n' -> like named (Kserd i (VNum n)) (Kserd j (VNum n'))
| like_str i j t : like named (Kserd i (VStr t)) (Kserd j (VStr t))
| like_barr i j b : like named (Kserd i (VBarr b)) (Kserd j (VBarr b))
| like_tuple i l l' : Forall2 (like named) l l' -> like named (Kserd i (VTuple l)) (Kserd i (VTuple l'))
| like_cntr i j m m' : (named = true -> i = j) -> Forall2 (fun e f => fst e = fst f /\ like named (snd e) (snd f)) m m' -> like named (Kserd i (VCntr m)) (Kserd j (VCntr m'))
| like_seq i j l l' : Forall2 (like named) l l' -> like named (Kserd i (VSeq l)) (Kserd j (VSeq l'))
| like_map i j m m' : Forall2 (fun e f => like named (fst e) (fst f) /\ like named (snd e) (snd f)) m m' -> like named (Kserd i (VMap m)) (Kserd j (VMap m')).

Section Named.
Context (named : bool).
Notation like := (like named).
Lemma Forall2_maps {A B C} (R : B -> C -> Prop) (f : A -> B) (g : A -> C) l : Forall (fun x => R (f x) (g x)) l -> Forall2 R (map f l) (map g l).
Proof. induction 1; constructor; auto. Qed.

Lemma typed_kids f id v : k_typed (undeco (DK f id v)) = true -> typed_node (undeco (DK f id v)) = true /\ Forall (fun c => k_typed (undeco c) = true) (d_children v).
Proof.
  intros K. change (undeco (DK f id v)) with (Kserd id (kval (undeco (DK f id v)))) in *. unfold k_typed in K. apply k_all_children in K as [K KC]. split; [exact K|].
  now rewrite undeco_children, Forall_map in KC.
Qed.
Lemma kept_id f id v : id_kept (DK f id v) = true -> (if f_id f then id else None) = id.
Proof. unfold id_kept. cbn [d_fmt d_id]. destruct (f_id f); [reflexivity|]. destruct id; [discriminate|reflexivity]. Qed.
Lemma kept_name f id v : negb named || id_kept (DK f id v) = true -> named = true -> id = (if f_id f then id else None).
Proof. intros H ->. symmetry. now apply (kept_id f id v). Qed.
(** the keys *)
Lemma keys_same (m : list (dk * dk)) : forallb (fun e => each faithful_node (fst e)) m = true -> Forall (fun e => k_sorted (undeco (fst e)) = true) m ->
  Forall (fun e => same (norm (fst e)) (undeco (fst e))) m.
Proof.
  intros F K. rewrite forallb_forall in F. rewrite Forall_forall in *. intros e He. specialize (F e He). rewrite each_all in F. apply norm_same; auto.
Qed.
Lemma entries_sorted (h : dk -> kserd) (m : list (dk * dk)) : strictly_sorted k_cmp (map (fun e => (undeco (fst e), undeco (snd e))) m) = true ->
  Forall (fun e => same (norm (fst e)) (undeco (fst e))) m ->
  let q := map (fun e => (norm (fst e), h (snd e))) m in map_of q = q /\ bt_inserts k_cmp q = q.
Proof.
  intros K G. assert (A : Forall (fun e => good_key (fst e)) (map (fun e => (norm (fst e), h (snd e))) m)).
  { rewrite Forall_map. eapply Forall_impl; [|exact G]. now intros a (H & _). }
  assert (B : strictly_sorted k_cmp (map (fun e => (norm (fst e), h (snd e))) m) = true).
  { rewrite <- K. apply sorted_map. intros a b Ha Hb. rewrite Forall_forall in G. apply same_cmps; now apply G. }
  split; [now apply map_sorted|now apply inserts_sorted].
Qed.

Definition fair (d : dk) : Prop := d_all (kept_at named) d = true /\ k_sorted (undeco d) = true /\ k_typed (undeco d) = true.
Lemma fair_kids f id v : fair (DK f id v) -> kept_at named (DK f id v) = true /\ sorted_node (undeco (DK f id v)) = true /\ typed_node (undeco (DK f id v)) = true /\ Forall fair (d_children v).
Proof.
  intros (A & B & C). apply d_all_children in A as [A AC]. apply sorted_kids in B as [B BC]. apply typed_kids in C as [C CC]. repeat (split; [assumption|]).
  unfold fair. rewrite Forall_forall in *. auto.
Qed.
Lemma norm_like d : fair d -> like (undeco d) (norm d).
Proof.
  induction d as [f id v IH] using dk_ind'. intros F. apply fair_kids in F as (N & K & T & C).
  assert (G : Forall (fun c => like (undeco c) (norm c)) (d_children v)) by (rewrite Forall_forall in *; auto).
  unfold kept_at in N. cbn [d_val d_id] in N. unfold sorted_node in K. unfold typed_node in T. cbn [undeco kval] in K, T |- *.
  destruct v as [|b|n|t|b|l|m|l|m]; cbn [norm d_children] in *; try (constructor; fail).
  - destruct id; [discriminate|]. constructor.
  - constructor. now apply reread_like.
  - apply andb_true_iff in N as [I N]. apply kept_id in I. destruct l as [|x l].
    + rewrite I. destruct id; [|discriminate]. constructor. constructor.
    + set (q := x :: l) in *. change (match q with [] => _ | _ => _ end) with (Kserd (if f_id f then id else None) (VTuple (map norm q))). rewrite I.
      constructor. now apply Forall2_maps.
  - apply andb_true_iff in N as [I N]. pose proof (kept_name _ _ _ I) as NM. destruct m as [|x m]; [discriminate|]. set (q := x :: m) in *.
    change (match q with [] => _ | _ => _ end) with (Kserd (if f_id f then id else None) (VCntr (fields_of (map (fun e => (fst e, norm (snd e))) q)))).
    rewrite fields_sorted by (rewrite <- K; now apply (sorted_map str_cmp fst fst)). rewrite Forall_map in G.
    constructor; [exact NM|]. apply Forall2_maps. eapply Forall_impl; [|exact G]. intros e He. auto.
  - constructor. now apply Forall2_maps.
  - apply Forall_entries in G, C. assert (KS : Forall (fun e => same (norm (fst e)) (undeco (fst e))) m).
    { apply keys_same; [exact N|]. eapply Forall_impl; [|exact C]. intros a [(_ & H & _) _]. exact H. }
    rewrite (proj1 (entries_sorted norm m K KS)). constructor. apply Forall2_maps. exact G.
Qed.
Definition vlike (d : dk) : Prop := fair d -> like (undeco d) (vnorm d).
Lemma field_like x : vlike x -> Forall vlike (d_children (d_val x)) -> fair x -> like (undeco x) (vfield x).
Proof.
  intros R RC F. pose proof (norm_like x F) as NL. destruct x as [f id v]. pose proof F as F0. apply fair_kids in F0 as (N & K & T & C). cbn [d_val] in RC.
  unfold vfield. destruct (f_line f) eqn:L; [exact NL..|]. unfold sorted_node in K. cbn [undeco kval] in K. destruct v as [| | | | | |m|l|m]; try exact NL.
  - now apply R.
  - cbn [undeco d_children] in *. constructor. apply Forall2_maps. unfold vlike in RC. rewrite Forall_forall in *. auto.
  - cbn [undeco d_children] in *. apply Forall_entries in RC, C. unfold kept_at in N. cbn [d_val] in N.
    assert (KS : Forall (fun e => same (norm (fst e)) (undeco (fst e))) m).
    { apply keys_same; [exact N|]. eapply Forall_impl; [|exact C]. intros a [(_ & H & _) _]. exact H. }
    rewrite (proj2 (entries_sorted vnorm m K KS)). constructor. apply Forall2_maps. unfold vlike in RC. rewrite Forall_forall in *. intros e He. destruct (C e He), (RC e He).
    split; [now apply norm_like|auto].
Qed.
Lemma all_like d : vlike d /\ Forall vlike (d_children (d_val d)).
Proof.
  induction d as [f id v IH] using dk_ind'. split; [|cbn [d_val]; eapply Forall_impl; [|exact IH]; intros a [H _]; exact H].
  intros F. destruct (verbose_cntr (DK f id v)) eqn:C; [|rewrite vnorm_plain by exact C; now apply norm_like].
  unfold verbose_cntr, verbose_line, d_line, cntr_node in C. cbn [d_fmt d_val] in C. apply andb_true_iff in C as [L C].
  destruct v as [| | | | | |m| |]; try discriminate. destruct (f_line f) eqn:EL; try discriminate. clear L C.
  rewrite vnorm_verbose by exact EL. apply fair_kids in F as (N & K & T & C). unfold kept_at in N. cbn [d_val] in N. apply andb_true_iff in N as [N _]. pose proof (kept_name _ _ _ N) as NM.
  unfold sorted_node in K. cbn [undeco kval d_children] in *. rewrite fields_sorted by (rewrite <- K; now apply (sorted_map str_cmp fst fst)). constructor; [exact NM|]. apply Forall2_maps.
  rewrite Forall_map in *. rewrite Forall_forall in *. intros e He. cbn [fst snd]. split; [reflexivity|]. destruct (IH e He) as [A B]. apply field_like; auto.
Qed.
Lemma vnorm_like d : fair d -> like (undeco d) (vnorm d).
Proof. apply all_like. Qed.

(** ** what stands for a value *)
Lemma each3_like (R : ty -> data -> kserd -> Prop) l : Forall (fun d => forall t k k', R t d k -> like k k' -> R t d k') l ->
  forall ts ks ks', each3 R ts l ks -> Forall2 like ks ks' -> each3 R ts l ks'.
Proof.
  induction 1 as [|d l H _ IH]; intros [|t ts] ks ks' A B; destruct ks as [|ka ks]; try easy; inversion B as [|? kb ? ? L LS]; subst; [exact Logic.I|].
  cbn [each3] in *. destruct A as [A1 A2]. split; [eapply H; eauto|eapply IH; eauto].
Qed.
Lemma each3_length (R : ty -> data -> kserd -> Prop) l : forall ts ks, each3 R ts l ks -> length ts = length ks.
Proof. induction l as [|d l IH]; intros [|t ts] [|ka ks] H; try easy. cbn [length]. f_equal. apply IH. apply H. Qed.
Lemma combine_like (names : list str) : forall ks q, length names = length ks -> Forall2 (fun e f => fst e = fst f /\ like (snd e) (snd f)) (combine names ks) q ->
  exists ks', q = combine names ks' /\ Forall2 like ks ks'.
Proof.
  induction names as [|n names IH]; intros [|k ks] q L H; try discriminate; inversion H as [|? f ? q' [E1 E2] H']; subst; [exists []; now split|].
  destruct (IH ks q') as (ks' & -> & F); [now injection L|exact H'|]. exists (snd f :: ks'). split; [|now constructor]. cbn [combine fst] in *. destruct f. cbn [fst snd] in *. now subst.
Qed.
Lemma fields_like (R : ty -> data -> kserd -> Prop) fs l m m' : Forall (fun d => forall t k k', R t d k -> like k k' -> R t d k') l ->
  fields_are R fs l m -> Forall2 (fun e f => fst e = fst f /\ like (snd e) (snd f)) m m' -> fields_are R fs l m'.
Proof.
  intros H (ks & A & P) F. destruct (Permutation_Forall2 P F) as (q & P' & F').
  destruct (combine_like (map fst fs) ks q) as (ks' & -> & L); [|exact F'|].
  - apply each3_length in A. now rewrite !map_length in *.
  - exists ks'. split; [|exact P']. eapply each3_like; eauto.
Qed.

Section Codes.
  Context (E : decls) (F0 : named = false -> no_struct_variant E).
  Definition carries (d : data) : Prop := forall t k k', codes E t d k -> like k k' -> codes E t d k'.
  Definition items (d : data) : Prop := match d with DList l | DRecord l => Forall carries l | DVariant _ d => carries d | _ => True end.
  Lemma codes_like' d : carries d /\ items d.
  Proof.
    induction d as [|b|n|x|x3|c|u|y| |d IHd|l IHl|m IHm|d IHd|l IHl|i d IHd] using data_ind'; cbn [items].
    all: try (assert (IHl' : Forall carries l) by (eapply Forall_impl; [|exact IHl]; intros a [H _]; exact H)).
    all: split; try exact Logic.I; try exact IHl'; try apply IHd.
    all: intros t k k' C L; destruct t as [| |nt| | | | | |t|ts|t|kt vt|nn]; cbn [codes] in C |- *; try contradiction.
    all: try (destruct (E nn) as [name|name t|name ts|name fs|vs] eqn:EN; cbn [codes] in C |- *; try contradiction).
    all: try (inversion L; subst; cbn [kval] in *; try discriminate; first [assumption|congruence]; fail).
    - (* unit struct *) subst k. inversion L as [| | | | |? ? l' F| | |]; subst. now inversion F.
    - (* DInt *) destruct C as [C I]. split; [|exact I]. destruct k as [i v]. cbn [kval] in C. destruct C as [-> | ->]; inversion L as [| |? j ? n' [NL _]| | | | | |]; subst; cbn [kval];
        (destruct (NL n) as [-> | ->]; [auto|left; reflexivity|right; reflexivity]).
    - (* DF64 *) destruct C as (n & C & A). destruct k as [i v]. cbn [kval] in C. subst v. inversion L as [| |? j ? n' [_ NF]| | | | | |]; subst. exists n'. split; [reflexivity|exact NF].
    - (* DF32 *) destruct C as (n & C & A). destruct k as [i v]. cbn [kval] in C. subst v. inversion L as [| |? j ? n' [_ NF]| | | | | |]; subst. exists n'. split; [reflexivity|]. now rewrite NF.
    - (* DNone *) subst k. inversion L as [| | | | |? ? l' F| | |]; subst. now inversion F.
    - (* DSome *) destruct C as (x & -> & C). inversion L as [| | | | |? ? l' F| | |]; subst. inversion F as [|? y ? ? F1 F2]; subst. inversion F2; subst. exists y. split; [reflexivity|]. eapply IHd; eauto.
    - (* tuple *) destruct C as (ks & -> & C). inversion L as [| | | | |? ? l' F| | |]; subst. exists l'. split; [reflexivity|]. eapply each3_like; eauto.
    - (* vec *) destruct C as (ks & C & A). destruct k as [i v]. cbn [kval] in C. subst v. inversion L as [| | | | | | |? j ? l' F|]; subst. exists l'. split; [reflexivity|].
      clear L. revert ks l' A F. induction IHl' as [|d l H _ IH]; intros [|ka ks] l' A F; inversion F; subst; try easy. cbn [all2] in *. destruct A as [A1 A2]. split; [eapply H; eauto|]. eapply IH; eauto. now inversion IHl.
    - (* tuple struct *) destruct C as (ks & -> & C). inversion L as [| | | | |? ? l' F| | |]; subst. exists l'. split; [reflexivity|]. eapply each3_like; eauto.
    - (* map *) destruct C as (es & es' & C & P & A). destruct k as [i v]. cbn [kval] in C. subst v. inversion L as [| | | | | | | |? j ? m' F]; subst. cbn [kval].
      destruct (Permutation_Forall2 P F) as (q & P' & F'). exists m', q. split; [reflexivity|]. split; [exact P'|].
      clear - A F' IHm. revert es' q A F'. induction IHm as [|e m [[H1 _] [H2 _]] _ IH]; intros [|ka es] q A F; inversion F as [|? f ? q' [F1 F2] F3]; subst; try easy. cbn [all2] in *. destruct A as [[A1 A2] A3].
      split; [split; [eapply H1; eauto|eapply H2; eauto]|]. eapply IH; eauto.
    - (* newtype *) destruct C as (x & -> & C). inversion L as [| | | | |? ? l' F| | |]; subst. inversion F as [|? y ? ? F1 F2]; subst. inversion F2; subst. exists y. split; [reflexivity|]. eapply IHd; eauto.
    - (* struct *) destruct C as (m & C & A). destruct k as [i v]. cbn [kval] in C. subst v. inversion L as [| | | | | |? ? ? m' _ F| |]; subst. exists m'. split; [reflexivity|]. eapply fields_like; eauto.
    - (* variant *) destruct IHd as [IHd IHi]. destruct (nth_error vs i) as [[name [|t|ts|fs]]|] eqn:NE; try contradiction.
      + destruct C as [-> ->]. split; [reflexivity|]. inversion L as [| | | | |? ? l' F| | |]; subst. now inversion F.
      + destruct C as (x & -> & C). inversion L as [| | | | |? ? l' F| | |]; subst. inversion F as [|? y ? ? F1 F2]; subst. inversion F2; subst. exists y. split; [reflexivity|]. eapply IHd; eauto.
      + destruct d; try contradiction. destruct C as (ks & -> & C). inversion L as [| | | | |? ? l' F| | |]; subst. exists l'. split; [reflexivity|]. eapply each3_like; eauto.
      + destruct d; try contradiction. destruct C as (m & -> & A). inversion L as [| | | | | |? j ? m' NM F| |]; subst. exists m'.
        assert (NM' : named = true). { destruct named; [reflexivity|]. now destruct (F0 eq_refl nn vs name fs EN (nth_error_In _ _ NE)). } rewrite (NM NM'). split; [reflexivity|]. eapply fields_like; eauto.
  Qed.
  Lemma codes_like d t k k' : codes E t d k -> like k k' -> codes E t d k'.
  Proof. apply codes_like'. Qed.
End Codes.
End Named.
