(** Ends of lines: values. *)
From Verif Require Import Base BaseProps F64 Number BTree BTreeProps Value ValueSpec ValueProps ValueProps2 MapOrder EolSpec EolProps2 TrailSpec TrailProps.
Open Scope N_scope.

(** ** values *)
Definition rk (k k' : kserd) : Prop := k_all one_line_keys k = true \/ k_all one_line_keys k' = true -> trail_k k k'.
Definition rv (v v' : value kserd) : Prop := forall id, rk (Kserd id v) (Kserd id v').
Definition rf (e f : str * kserd) : Prop := fst e = fst f /\ rk (snd e) (snd f).
Definition re (e f : kserd * kserd) : Prop := rk (fst e) (fst f) /\ rk (snd e) (snd f).

Lemma trail_k_flat k : forall k', k_all one_line k = true -> trail_k k k' -> k' = k.
Proof.
  induction k as [id v IH] using kserd_ind'. intros k'. rewrite k_all_children. intros [H C] E. inversion E as [i0 v0 v' EV]; subst.
  rewrite Forall_forall in IH, C. f_equal. inversion EV as [|b|n|t t' Et|b|l l' F|m m' F|l l' F|m m' F]; subst; try reflexivity; f_equal.
  - apply trail_plain; [exact Et|]. unfold one_line in H. cbn [kval] in H. now destruct (mem 10 t).
  - cbn [vchildren] in IH, C. clear - F IH C. induction F; [reflexivity|]. f_equal; [apply IH; [cbn; auto|apply C; cbn; auto|assumption]|]. apply IHF; intros; [apply C; cbn; auto|apply IH; [cbn; auto|assumption|assumption]].
  - cbn [vchildren] in IH, C. clear - F IH C. induction F as [|[n x] [n' x'] l l' [A B] F IHF]; [reflexivity|]. cbn [fst snd map] in *. subst n'.
    f_equal; [f_equal; apply IH; [cbn; auto|apply C; cbn; auto|assumption]|]. apply IHF; intros; [apply C; cbn; auto|apply IH; [cbn; auto|assumption|assumption]].
  - cbn [vchildren] in IH, C. clear - F IH C. induction F; [reflexivity|]. f_equal; [apply IH; [cbn; auto|apply C; cbn; auto|assumption]|]. apply IHF; intros; [apply C; cbn; auto|apply IH; [cbn; auto|assumption|assumption]].
  - cbn [vchildren] in IH, C. clear - F IH C. unfold entry_list in *. induction F as [|[n x] [n' x'] l l' [A B] F IHF]; [reflexivity|].
    cbn [fst snd flat_map app] in *. subst n'. f_equal; [f_equal; apply IH; [cbn; auto|apply C; cbn; auto|assumption]|]. apply IHF; intros; [apply C; cbn; auto|apply IH; [cbn; auto|assumption|assumption]].
Qed.
Lemma trail_k_flat' k : forall k', k_all one_line k' = true -> trail_k k k' -> k' = k.
Proof.
  induction k as [id v IH] using kserd_ind'. intros k' H E. inversion E as [i0 v0 v' EV]; subst. rewrite k_all_children in H. destruct H as [H C].
  rewrite Forall_forall in IH, C. f_equal. inversion EV as [|b|n|t t' Et|b|l l' F|m m' F|l l' F|m m' F]; subst; try reflexivity; f_equal.
  - apply trail_plain'; [exact Et|]. unfold one_line in H. cbn [kval] in H. now destruct (mem 10 t').
  - cbn [vchildren] in IH, C. clear - F IH C. induction F; [reflexivity|]. f_equal; [apply IH; [cbn; auto|apply C; cbn; auto|assumption]|]. apply IHF; intros; [apply IH; [cbn; auto|assumption|assumption]|apply C; cbn; auto].
  - cbn [vchildren] in IH, C. clear - F IH C. induction F as [|[n x] [n' x'] l l' [A B] F IHF]; [reflexivity|]. cbn [fst snd map] in *. subst n'.
    f_equal; [f_equal; apply IH; [cbn; auto|apply C; cbn; auto|assumption]|]. apply IHF; intros; [apply IH; [cbn; auto|assumption|assumption]|apply C; cbn; auto].
  - cbn [vchildren] in IH, C. clear - F IH C. induction F; [reflexivity|]. f_equal; [apply IH; [cbn; auto|apply C; cbn; auto|assumption]|]. apply IHF; intros; [apply IH; [cbn; auto|assumption|assumption]|apply C; cbn; auto].
  - cbn [vchildren] in IH, C. clear - F IH C. unfold entry_list in *. induction F as [|[n x] [n' x'] l l' [A B] F IHF]; [reflexivity|].
    cbn [fst snd flat_map app] in *. subst n'. f_equal; [f_equal; apply IH; [cbn; auto|apply C; cbn; auto|assumption]|]. apply IHF; intros; [apply IH; [cbn; auto|assumption|assumption]|apply C; cbn; auto].
Qed.
Lemma rk_flat k k' : rk k k' -> k_all one_line k = true \/ k_all one_line k' = true -> k' = k.
Proof.
  intros H [F|F]; [apply trail_k_flat|apply trail_k_flat']; try exact F; apply H; [left|right]; now apply flat_one_line.
Qed.

Lemma rv_atom v : match v with VUnit | VBool _ | VNum _ | VBarr _ => True | _ => False end -> rv v v.
Proof. intros H id _. constructor. destruct v; try contradiction; constructor. Qed.
Lemma rv_str t t' : trail t t' -> rv (VStr t) (VStr t').
Proof. intros H id _. constructor. now constructor. Qed.
Lemma rk_list l l' : Forall2 rk l l' -> Forall (fun k => k_all one_line_keys k = true) l \/ Forall (fun k => k_all one_line_keys k = true) l' -> Forall2 trail_k l l'.
Proof. induction 1; intros [F|F]; constructor; inversion F; subst; auto. Qed.
Lemma rv_tuple l l' : Forall2 rk l l' -> rv (VTuple l) (VTuple l').
Proof. intros H id A. rewrite !k_all_children in A. constructor. constructor. apply rk_list; [exact H|]. destruct A as [[_ A]|[_ A]]; auto. Qed.
Lemma rv_seq l l' : Forall2 rk l l' -> rv (VSeq l) (VSeq l').
Proof. intros H id A. rewrite !k_all_children in A. constructor. constructor. apply rk_list; [exact H|]. destruct A as [[_ A]|[_ A]]; auto. Qed.
Lemma rv_cntr m m' : Forall2 rf m m' -> rv (VCntr m) (VCntr m').
Proof.
  intros H id A. rewrite !k_all_children in A. constructor. constructor. cbn [vchildren] in A.
  destruct A as [[_ A]|[_ A]]; induction H as [|[n x] [n' x'] l l' [X Y] F IHF]; constructor; cbn [fst snd map] in *; inversion A; subst; auto.
Qed.

(** *** maps: if the keys of the result are on one line, all keys were *)
Local Notation flat_keys := (keysP (V := kserd) flat).
Definition rm (m m' : list (kserd * kserd)) : Prop := flat_keys m \/ flat_keys m' -> Forall2 (fun e f => fst e = fst f /\ rk (snd e) (snd f)) m m'.
Lemma keys_flat id (m : list (kserd * kserd)) : k_all one_line_keys (Kserd id (VMap m)) = true -> flat_keys m /\ Forall (fun k => k_all one_line_keys k = true) (entry_list m).
Proof.
  intros A. rewrite k_all_children in A. destruct A as [K A]. split; [|exact A]. unfold one_line_keys in K. cbn [kval] in K. rewrite forallb_forall in K.
  apply Forall_forall; intros e He; now apply K.
Qed.
Lemma rv_map m m' : rm m m' -> rv (VMap m) (VMap m').
Proof.
  intros H id A. constructor. constructor.
  assert (FK : flat_keys m \/ flat_keys m') by (destruct A as [A|A]; apply keys_flat in A; tauto).
  assert (A' : Forall (fun k => k_all one_line_keys k = true) (entry_list m) \/ Forall (fun k => k_all one_line_keys k = true) (entry_list m'))
    by (destruct A as [A|A]; apply keys_flat in A; tauto).
  specialize (H FK). clear FK A. unfold entry_list in A'. induction H as [|[n x] [n' x'] l l' [X Y] F IHF]; constructor; cbn [fst snd flat_map app] in *;
    destruct A' as [A|A]; inversion A as [|? ? A1 A2]; inversion A2; subst; auto.
Qed.

Lemma rm_insert k k' v v' m m' : rk k k' -> rk v v' -> rm m m' -> rm (bt_insert k_cmp k v m) (bt_insert k_cmp k' v' m').
Proof.
  intros K V M [F|F]; apply insert_flat in F as [F1 F2]; rewrite (rk_flat _ _ K) by auto; apply insert_same; auto.
Qed.
Lemma map_of_flat l : flat_keys (map_of l) -> flat_keys l.
Proof.
  intros F. unfold map_of, bt_from_list in *. apply dedup_flat in F. eapply (keysP_in flat); [|exact F]. intros x. apply (bt_sort_in k_cmp).
Qed.
Lemma rm_map_of l l' : Forall2 re l l' -> rm (map_of l) (map_of l').
Proof.
  intros H F. assert (FK : flat_keys l \/ flat_keys l') by (destruct F as [F|F]; apply map_of_flat in F; auto).
  clear F. unfold map_of, bt_from_list in *. apply dedup_same, sort_same.
  induction H as [|[a x] [a' x'] l l' [X Y] G IH]; constructor.
  - cbn [fst snd] in *. split; [|exact Y]. symmetry. apply rk_flat; [exact X|]. destruct FK as [F|F]; inversion F; subst; auto.
  - apply IH. destruct FK as [F|F]; inversion F; subst; auto.
Qed.
Lemma rf_fields l l' : Forall2 rf l l' -> Forall2 rf (fields_of l) (fields_of l').
Proof. intros H. unfold fields_of, bt_from_list. apply (dedup_same _ rk), (sort_same _ rk), H. Qed.
