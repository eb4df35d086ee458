(** A change of one value changes its part of the text and nothing else: texts. *)
From Verif Require Import Base BaseProps F64 Number BTree Value ValueProps Base91 Nav NavProps Fmt FmtText FmtProps FmtProps2 Mutate MutateSpec.
Open Scope nat_scope.

Section Texts.
  Variable X Y : str.

  (** [t] has [X] where [t'] has [Y]; at least [n] characters follow *)
  Definition loc (n : nat) (t t' : str) : Prop := exists pre post, n <= length post /\ t = pre ++ X ++ post /\ t' = pre ++ Y ++ post.
  Lemma loc_le n m t t' : m <= n -> loc n t t' -> loc m t t'.
  Proof. intros L (pre & post & H & E & E'). exists pre, post. split; [lia|now split]. Qed.
  Lemma loc_app n a t t' b : loc n t t' -> loc (n + length b) (a ++ t ++ b) (a ++ t' ++ b).
  Proof. intros (pre & post & H & -> & ->). exists (a ++ pre), (post ++ b). rewrite app_length. split; [lia|]. now rewrite <- !app_assoc. Qed.
  Lemma ne_r (a b : str) : b <> [] -> a ++ b <> [].
  Proof. intros H E. apply app_eq_nil in E. tauto. Qed.
  Lemma loc_pop n t t' : loc (S n) t t' -> loc n (pop t) (pop t').
  Proof.
    intros (pre & post & H & -> & ->). assert (N : post <> []) by (intros ->; cbn in H; lia). exists pre, (pop post). rewrite length_pop. split; [lia|].
    rewrite !(pop_app pre) by now apply ne_r. now rewrite !pop_app.
  Qed.
  Lemma loc_pop2 {A} (l l' : list A) n t t' : nonempty l = true -> nonempty l' = true -> loc (S (S n)) t t' -> loc n (pop2 l t) (pop2 l' t').
  Proof. intros N N' L. unfold pop2. rewrite N, N'. now do 2 apply loc_pop. Qed.

  (** steps which leave what was written alone, but for the last [m] characters, and
      leave [n] to the next *)
  Definition shifts {A} (m n : nat) (step : str -> A -> str) : Prop :=
    forall acc e, m <= length acc -> n <= length (step acc e) /\ forall pre, step (pre ++ acc) e = pre ++ step acc e.
  Lemma fold_shift {A} m n (step : str -> A -> str) : shifts m n step -> m <= n -> forall l acc, n <= length acc ->
    n <= length (fold_left step l acc) /\ forall pre, fold_left step l (pre ++ acc) = pre ++ fold_left step l acc.
  Proof.
    intros S MN. induction l as [|e l IH]; intros acc L; [now split|]. cbn [fold_left]. destruct (S acc e ltac:(lia)) as [S1 S2].
    destruct (IH (step acc e) S1) as [I1 I2]. split; [exact I1|]. intros pre. rewrite S2. apply I2.
  Qed.
  Lemma fold_loc {A} m n (step : str -> A -> str) l1 c c' l2 : shifts m n step -> m <= n -> (forall acc, loc n (step acc c) (step acc c')) ->
    forall acc, loc n (fold_left step (l1 ++ c :: l2) acc) (fold_left step (l1 ++ c' :: l2) acc).
  Proof.
    intros S MN C acc. rewrite !fold_left_app. cbn [fold_left]. destruct (C (fold_left step l1 acc)) as (pre & post & L & -> & ->).
    destruct (fold_shift m n step S MN l2 post L) as [F1 F2]. exists pre, (fold_left step l2 post). split; [exact F1|].
    rewrite !app_assoc. now rewrite !F2.
  Qed.

  (** two nodes with the same format; and primitives, or with the same id and kind *)
  Definition kindn (d : dk) : nat := match d_val d with VTuple _ => 1 | VCntr _ => 2 | VSeq _ => 3 | VMap _ => 4 | _ => 0 end.
  Definition heads (d d' : dk) : Prop := d_fmt d = d_fmt d' /\ kindn d = kindn d' /\ (kindn d <> 0 -> d_id d = d_id d').
  Definition texts (d d' : dk) : Prop := heads d d' /\ forall top col, loc 0 (text top d col) (text top d' col).
  Definition parts_loc (d d' : dk) : Prop :=
    match d_val d, d_val d' with
    | VSeq l, VSeq l' => exists l1 c c' l2, l = l1 ++ c :: l2 /\ l' = l1 ++ c' :: l2 /\ texts c c'
    | VMap l, VMap l' => exists l1 k c c' l2, l = l1 ++ (k, c) :: l2 /\ l' = l1 ++ (k, c') :: l2 /\ texts c c'
    | _, _ => True
    end.

  Lemma heads_line d d' : heads d d' -> d_line d = d_line d'.
  Proof. intros [H _]. unfold d_line. now rewrite H. Qed.
  Lemma heads_drops d d' : heads d d' -> drops d = drops d'.
  Proof.
    destruct d as [f id v], d' as [f' id' v']. intros (H1 & H2 & H3). cbn [d_fmt d_id] in *. subst f'. unfold kindn in *. cbn [d_val] in *.
    unfold drops. destruct v, v'; try discriminate H2; try reflexivity; try (now rewrite (H3 ltac:(discriminate))); now destruct id, id'.
  Qed.
  Lemma heads_cut d d' a : heads d d' -> FmtText.cut d a = FmtText.cut d' a.
  Proof. intros H. unfold FmtText.cut. now rewrite (heads_drops d d' H). Qed.

  Lemma nonempty_mid {A} (l1 : list A) c l2 : nonempty (l1 ++ c :: l2) = true.
  Proof. now destruct l1. Qed.
  Lemma some (t : str) : 1 <= length t -> t <> [].
  Proof. intros H ->. cbn in H. lia. Qed.

  (** the steps *)
  Definition st_inline col := fun (acc : str) x => FmtText.cut x acc ++ text true x col ++ s ", ".
  Definition st_concise col := fun (acc : str) x => FmtText.cut x (acc ++ sp (col + 4)) ++ text true x (col + 4) ++ nl.
  Definition st_map col := fun (acc : str) (e : dk * dk) => FmtText.cut (snd e) (FmtText.cut (fst e) acc ++ text true (fst e) col ++ s ": ") ++ text true (snd e) col ++ s ", ".
  Definition st_cmap col := fun (acc : str) (e : dk * dk) =>
                let kt := text true (fst e) (col + 4) in
                let ind := match d_line (fst e) with Inline => length kt + 2 - (if drops (fst e) then 1 else 0) | _ => 3 end in
                FmtText.cut (snd e) (FmtText.cut (fst e) (acc ++ sp (col + 4)) ++ kt ++ s ": ") ++ text true (snd e) (col + 4 + ind) ++ nl.
  Definition st_cntr col := fun (acc : str) (e : str * dk) => FmtText.cut (snd e) (acc ++ fst e ++ s " = ") ++ text true (snd e) col ++ s ", ".
  Definition st_ccntr col := fun (acc : str) (e : str * dk) => FmtText.cut (snd e) (acc ++ sp (col + 4) ++ fst e ++ s " = ") ++ text true (snd e) (col + 4 + (length (fst e) + 3)) ++ nl.
  Definition st_vseq (name : str) col := fun (acc : str) x =>
                             let acc := acc ++ sp col ++ s "[[" ++ name ++ s "]]" ++ nl in
                             match d_line x with
                             | Verbose => FmtText.cut x acc ++ text true x (col + 4) ++ nl
                             | _ => FmtText.cut x (acc ++ sp col) ++ text true x col ++ nl ++ nl
                             end.
  Definition st_vmap (name : str) col := fun (acc : str) (e : dk * dk) =>
                        let acc := acc ++ s "[[" ++ name ++ s "]]" ++ nl in
                        let kt := text true (fst e) col in
                        match d_line (snd e) with
                        | Verbose => FmtText.cut (snd e) (FmtText.cut (fst e) acc ++ kt ++ s ":" ++ nl) ++ text true (snd e) (col + 4) ++ nl
                        | _ =>
                            let ind := match d_line (fst e) with Inline => length kt + 2 - (if drops (fst e) then 1 else 0) | _ => 3 end in
                            FmtText.cut (snd e) (FmtText.cut (fst e) acc ++ kt ++ s ": ") ++ text true (snd e) (col + ind) ++ nl
                        end.
  Definition st_vcntr col := fun (acc : str) (e : str * dk) =>
                match e with (name, DK vf vid vv) =>
                  match f_line vf, vv with
                  | Verbose, VCntr _ =>
                      acc ++ nl ++ sp col ++ s "[" ++ name ++
                      (match f_id vf, vid with true, Some i => s ":" ++ i | _, _ => [] end) ++ s "]" ++ nl
                      ++ text false (snd e) (col + 4)
                  | Verbose, VSeq l => pop (fold_left (st_vseq name col) l (acc ++ nl))
                  | Verbose, VMap m => fold_left (st_vmap name col) m (acc ++ nl)
                  | _, _ => FmtText.cut (snd e) (acc ++ sp col ++ name ++ s " = ") ++ text true (snd e) (col + (length name + 3)) ++ nl
                  end
                end.
  Lemma text_unfold top f id v col : text top (DK f id v) col =
    match v with
    | VTuple l => match f_line f with
        | Inline => pop2 l (fold_left (st_inline col) l (tuple_id f id ++ s "(")) ++ s ")"
        | _ => fold_left (st_concise col) l (tuple_id f id ++ s "(" ++ nl) ++ sp col ++ s ")" end
    | VSeq l => match f_line f with
        | Inline => pop2 l (fold_left (st_inline col) l (nonprim_id f id ++ s "[")) ++ s "]"
        | _ => fold_left (st_concise col) l (nonprim_id f id ++ s "[" ++ nl) ++ sp col ++ s "]" end
    | VMap m => match f_line f with
        | Inline => pop2 m (fold_left (st_map col) m (nonprim_id f id ++ s "{" ++ (if nonempty m then s " " else []))) ++ (if nonempty m then s " " else []) ++ s "}"
        | _ => fold_left (st_cmap col) m (nonprim_id f id ++ s "{" ++ nl) ++ sp col ++ s "}" end
    | VCntr m => match f_line f with
        | Inline => pop2 m (fold_left (st_cntr col) m (nonprim_id f id ++ s "(")) ++ s ")"
        | Concise => fold_left (st_ccntr col) m (nonprim_id f id ++ s "(" ++ nl) ++ sp col ++ s ")"
        | Verbose => fold_left (st_vcntr col) m (match f_id f && top, id with true, Some i => sp col ++ s ":" ++ i ++ nl | _, _ => [] end) end
    | _ => prim_text f id v
    end.
  Proof. destruct v; reflexivity. Qed.

  Ltac len := unfold str, char in *; repeat rewrite app_length; cbn [length]; change (@length N (s ", ")) with 2; change (@length N nl) with 1; try lia.
  Ltac ne := first [assumption | discriminate | (intros EE; apply (f_equal (@length N)) in EE; revert EE; len; cbn; lia)].
  Lemma cut_mid d a b : b <> [] -> FmtText.cut d (a ++ b) = a ++ FmtText.cut d b.
  Proof. apply cut_app. Qed.
  Lemma sh_inline col : shifts 1 2 (st_inline col).
  Proof. intros acc e L. unfold st_inline. split; [len|]. intros pre. rewrite cut_app by now apply some. now rewrite <- !app_assoc. Qed.
  Lemma sp_ne col : sp (col + 4) <> [].
  Proof. rewrite Nat.add_comm. discriminate. Qed.
  Lemma sh_concise col : shifts 0 1 (st_concise col).
  Proof. intros acc e L. unfold st_concise. split; [len|]. intros pre. rewrite <- !app_assoc. rewrite (cut_app _ pre) by (apply ne_r, sp_ne). now rewrite <- !app_assoc. Qed.
  Lemma sh_map col : shifts 1 2 (st_map col).
  Proof.
    intros acc e L. unfold st_map. split; [len|]. intros pre. rewrite (cut_app (fst e)) by now apply some. rewrite <- !app_assoc.
    rewrite (cut_app _ pre) by (do 2 apply ne_r; discriminate). now rewrite <- !app_assoc.
  Qed.
  Lemma sh_cmap col : shifts 0 1 (st_cmap col).
  Proof.
    intros acc e L. unfold st_cmap. cbn zeta. split; [len|]. intros pre. rewrite <- (app_assoc pre), (cut_app (fst e) pre) by (apply ne_r, sp_ne). rewrite <- !app_assoc.
    rewrite (cut_app _ pre) by (do 2 apply ne_r; discriminate). now rewrite <- !app_assoc.
  Qed.
  Lemma sh_cntr col : shifts 0 2 (st_cntr col).
  Proof. intros acc e L. unfold st_cntr. split; [len|]. intros pre. rewrite <- !app_assoc. rewrite (cut_app _ pre) by (do 2 apply ne_r; discriminate). now rewrite <- !app_assoc. Qed.
  Lemma sh_ccntr col : shifts 0 1 (st_ccntr col).
  Proof. intros acc e L. unfold st_ccntr. split; [len|]. intros pre. rewrite <- !app_assoc. rewrite (cut_app _ pre) by (do 3 apply ne_r; discriminate). now rewrite <- !app_assoc. Qed.
  Lemma sh_vseq name col : shifts 0 1 (st_vseq name col).
  Proof.
    intros acc e L. unfold st_vseq. cbn zeta. split; [destruct (d_line e); len|]. intros pre. rewrite <- !app_assoc.
    destruct (d_line e); rewrite (cut_app _ pre) by (do 2 apply ne_r; discriminate); now rewrite <- !app_assoc.
  Qed.
  Lemma sh_vmap name col : shifts 0 1 (st_vmap name col).
  Proof.
    intros acc e L. unfold st_vmap. cbn zeta. split; [destruct (d_line (snd e)); len|]. intros pre. rewrite <- (app_assoc pre), (cut_app (fst e) pre) by (apply ne_r; discriminate).
    destruct (d_line (snd e)); rewrite <- !app_assoc; rewrite (cut_app _ pre) by (do 2 apply ne_r; discriminate); now rewrite <- !app_assoc.
  Qed.
  Lemma sh_vcntr col : shifts 0 0 (st_vcntr col).
  Proof.
    intros acc [name [vf vid vv]] _. split; [lia|]. intros pre. unfold st_vcntr.
    assert (G : FmtText.cut (snd (name, DK vf vid vv)) ((pre ++ acc) ++ sp col ++ name ++ s " = ") ++ text true (snd (name, DK vf vid vv)) (col + (length name + 3)) ++ nl =
      pre ++ FmtText.cut (snd (name, DK vf vid vv)) (acc ++ sp col ++ name ++ s " = ") ++ text true (snd (name, DK vf vid vv)) (col + (length name + 3)) ++ nl).
    { rewrite <- (app_assoc pre), (cut_app _ pre) by (do 3 apply ne_r; discriminate). now rewrite <- !app_assoc. }
    destruct (f_line vf); try exact G. destruct vv as [| | | | | |m|l|m]; try exact G.
    - now rewrite <- !app_assoc.
    - assert (N1 : 1 <= length (acc ++ nl)) by len. destruct (fold_shift 0 1 _ (sh_vseq name col) ltac:(lia) l (acc ++ nl) N1) as [F1 F2].
      rewrite <- (app_assoc pre acc), F2, pop_app; [reflexivity|now apply some].
    - assert (N1 : 1 <= length (acc ++ nl)) by len. destruct (fold_shift 0 1 _ (sh_vmap name col) ltac:(lia) m (acc ++ nl) N1) as [F1 F2].
      now rewrite <- (app_assoc pre acc), F2.
  Qed.

  (** the changed part *)
  Lemma at_inline col c c' : texts c c' -> forall acc, loc 2 (st_inline col acc c) (st_inline col acc c').
  Proof. intros [H T] acc. unfold st_inline. rewrite (heads_cut c c' _ H). apply (loc_app 0 _ _ _ (s ", ")), T. Qed.
  Lemma at_concise col c c' : texts c c' -> forall acc, loc 1 (st_concise col acc c) (st_concise col acc c').
  Proof. intros [H T] acc. unfold st_concise. rewrite (heads_cut c c' _ H). apply (loc_app 0 _ _ _ nl), T. Qed.
  Lemma at_map col k c c' : texts c c' -> forall acc, loc 2 (st_map col acc (k, c)) (st_map col acc (k, c')).
  Proof. intros [H T] acc. unfold st_map. cbn [fst snd]. rewrite (heads_cut c c' _ H). apply (loc_app 0 _ _ _ (s ", ")), T. Qed.
  Lemma at_cmap col k c c' : texts c c' -> forall acc, loc 1 (st_cmap col acc (k, c)) (st_cmap col acc (k, c')).
  Proof. intros [H T] acc. unfold st_cmap. cbn [fst snd]. cbn zeta. rewrite (heads_cut c c' _ H). apply (loc_app 0 _ _ _ nl), T. Qed.
  Lemma at_cntr col k c c' : texts c c' -> forall acc, loc 2 (st_cntr col acc (k, c)) (st_cntr col acc (k, c')).
  Proof. intros [H T] acc. unfold st_cntr. cbn [fst snd]. rewrite (heads_cut c c' _ H). apply (loc_app 0 _ _ _ (s ", ")), T. Qed.
  Lemma at_ccntr col k c c' : texts c c' -> forall acc, loc 1 (st_ccntr col acc (k, c)) (st_ccntr col acc (k, c')).
  Proof. intros [H T] acc. unfold st_ccntr. cbn [fst snd]. rewrite (heads_cut c c' _ H). apply (loc_app 0 _ _ _ nl), T. Qed.
  Lemma at_vseq name col c c' : texts c c' -> forall acc, loc 1 (st_vseq name col acc c) (st_vseq name col acc c').
  Proof.
    intros [H T] acc. unfold st_vseq. cbn zeta. rewrite <- (heads_line c c' H). rewrite !(heads_cut c c' _ H).
    destruct (d_line c); [apply (loc_le 2); [lia|]; apply (loc_app 0 _ _ _ (nl ++ nl)), T|apply (loc_le 2); [lia|]; apply (loc_app 0 _ _ _ (nl ++ nl)), T|apply (loc_app 0 _ _ _ nl), T].
  Qed.
  Lemma at_vmap name col k c c' : texts c c' -> forall acc, loc 1 (st_vmap name col acc (k, c)) (st_vmap name col acc (k, c')).
  Proof.
    intros [H T] acc. unfold st_vmap. cbn [fst snd]. cbn zeta. rewrite <- (heads_line c c' H). rewrite !(heads_cut c c' _ H).
    destruct (d_line c); apply (loc_app 0 _ _ _ nl), T.
  Qed.
  Lemma at_vcntr col name c c' : texts c c' -> parts_loc c c' -> forall acc, loc 0 (st_vcntr col acc (name, c)) (st_vcntr col acc (name, c')).
  Proof.
    intros HT PL acc. pose proof HT as [H T]. destruct c as [f id v], c' as [f' id' v'].
    assert (G : loc 0 (FmtText.cut (DK f id v) (acc ++ sp col ++ name ++ s " = ") ++ text true (DK f id v) (col + (length name + 3)) ++ nl)
                      (FmtText.cut (DK f' id' v') (acc ++ sp col ++ name ++ s " = ") ++ text true (DK f' id' v') (col + (length name + 3)) ++ nl)).
    { rewrite (heads_cut _ _ _ H). apply (loc_le 1); [lia|]. apply (loc_app 0 _ _ _ nl), T. }
    pose proof H as (H1 & H2 & H3). cbn [d_fmt d_id] in H1, H3. subst f'. unfold st_vcntr. unfold kindn in H2, H3. unfold parts_loc in PL. cbn [d_val snd] in *.
    destruct (f_line f) eqn:EL; try exact G.
    destruct v as [| | | | |l|m|l|m], v' as [| | | | |l'|m'|l'|m']; try discriminate H2; try exact G; specialize (H3 ltac:(discriminate)); subst id'.
    - specialize (T false (col + 4)).
      set (a := match f_id f, id with true, Some i => s ":" ++ i | _, _ => [] end) in *.
      pose proof (loc_app 0 (acc ++ nl ++ sp col ++ s "[" ++ name ++ a ++ s "]" ++ nl) _ _ [] T) as L. rewrite !app_nil_r in L. rewrite <- !app_assoc in L. exact L.
    - destruct PL as (l1 & c & c' & l2 & -> & -> & TC). apply loc_pop. apply (fold_loc 0 1 _ l1 c c' l2 (sh_vseq name col) ltac:(lia)). now apply at_vseq.
    - destruct PL as (l1 & k & c & c' & l2 & -> & -> & TC). apply (loc_le 1); [lia|]. apply (fold_loc 0 1 _ l1 (k, c) (k, c') l2 (sh_vmap name col) ltac:(lia)). now apply at_vmap.
  Qed.

  (** a part of a part *)
  Definition both (d d' : dk) : Prop := texts d d' /\ parts_loc d d'.
  Lemma end_loc n t t' b : loc n t t' -> loc 0 (t ++ b) (t' ++ b).
  Proof. intros L. apply (loc_le (n + length b)); [lia|]. apply (loc_app n [] t t' b L). Qed.
  Lemma in_tuple f id l1 c c' l2 : texts c c' -> both (DK f id (VTuple (l1 ++ c :: l2))) (DK f id (VTuple (l1 ++ c' :: l2))).
  Proof.
    intros T. split; [|exact Logic.I]. split; [repeat split|]. intros top col. rewrite !text_unfold. destruct (f_line f).
    - eapply end_loc. apply (loc_pop2 _ _ 0); [apply nonempty_mid|apply nonempty_mid|]. apply (fold_loc 1 2 _ l1 c c' l2 (sh_inline col) ltac:(lia)). now apply at_inline.
    - eapply end_loc. apply (fold_loc 0 1 _ l1 c c' l2 (sh_concise col) ltac:(lia)). now apply at_concise.
    - eapply end_loc. apply (fold_loc 0 1 _ l1 c c' l2 (sh_concise col) ltac:(lia)). now apply at_concise.
  Qed.
  Lemma in_seq f id l1 c c' l2 : texts c c' -> both (DK f id (VSeq (l1 ++ c :: l2))) (DK f id (VSeq (l1 ++ c' :: l2))).
  Proof.
    intros T. split; [|exists l1, c, c', l2; auto]. split; [repeat split|]. intros top col. rewrite !text_unfold. destruct (f_line f).
    - eapply end_loc. apply (loc_pop2 _ _ 0); [apply nonempty_mid|apply nonempty_mid|]. apply (fold_loc 1 2 _ l1 c c' l2 (sh_inline col) ltac:(lia)). now apply at_inline.
    - eapply end_loc. apply (fold_loc 0 1 _ l1 c c' l2 (sh_concise col) ltac:(lia)). now apply at_concise.
    - eapply end_loc. apply (fold_loc 0 1 _ l1 c c' l2 (sh_concise col) ltac:(lia)). now apply at_concise.
  Qed.
  Lemma in_map f id l1 k c c' l2 : texts c c' -> both (DK f id (VMap (l1 ++ (k, c) :: l2))) (DK f id (VMap (l1 ++ (k, c') :: l2))).
  Proof.
    intros T. split; [|exists l1, k, c, c', l2; auto]. split; [repeat split|]. intros top col. rewrite !text_unfold, !nonempty_mid. destruct (f_line f).
    - eapply end_loc. apply (loc_pop2 _ _ 0); [apply nonempty_mid|apply nonempty_mid|]. apply (fold_loc 1 2 _ l1 (k, c) (k, c') l2 (sh_map col) ltac:(lia)). now apply at_map.
    - eapply end_loc. apply (fold_loc 0 1 _ l1 (k, c) (k, c') l2 (sh_cmap col) ltac:(lia)). now apply at_cmap.
    - eapply end_loc. apply (fold_loc 0 1 _ l1 (k, c) (k, c') l2 (sh_cmap col) ltac:(lia)). now apply at_cmap.
  Qed.
  Lemma in_cntr f id l1 k c c' l2 : both c c' -> both (DK f id (VCntr (l1 ++ (k, c) :: l2))) (DK f id (VCntr (l1 ++ (k, c') :: l2))).
  Proof.
    intros [T P]. split; [|exact Logic.I]. split; [repeat split|]. intros top col. rewrite !text_unfold. destruct (f_line f).
    - eapply end_loc. apply (loc_pop2 _ _ 0); [apply nonempty_mid|apply nonempty_mid|]. apply (fold_loc 0 2 _ l1 (k, c) (k, c') l2 (sh_cntr col) ltac:(lia)). now apply at_cntr.
    - eapply end_loc. apply (fold_loc 0 1 _ l1 (k, c) (k, c') l2 (sh_ccntr col) ltac:(lia)). now apply at_ccntr.
    - apply (fold_loc 0 0 _ l1 (k, c) (k, c') l2 (sh_vcntr col) ltac:(lia)). now apply at_vcntr.
  Qed.
End Texts.

(** ** trees *)
Definition primv {A} (v : value A) : bool := match v with VTuple _ | VCntr _ | VSeq _ | VMap _ => false | _ => true end.
Definition dval (v : value kserd) : value dk :=
  match v with VBool b => VBool b | VNum n => VNum n | VStr t => VStr t | VBarr b => VBarr b | _ => VUnit end.
Fixpoint decol fmts i (l : list kserd) : list dk := match l with [] => [] | x :: l => deco fmts i x :: decol fmts (i + ksize x) l end.
Fixpoint decon fmts i (m : list (str * kserd)) : list (str * dk) := match m with [] => [] | e :: m => (fst e, deco fmts i (snd e)) :: decon fmts (i + ksize (snd e)) m end.
Fixpoint decom fmts i (m : list (kserd * kserd)) : list (dk * dk) :=
  match m with [] => [] | e :: m => (deco fmts i (fst e), deco fmts (i + ksize (fst e)) (snd e)) :: decom fmts (i + ksize (fst e) + ksize (snd e)) m end.
Definition ksizes (l : list kserd) : nat := list_sum (map ksize l).
Lemma decol_app fmts l m : forall i, decol fmts i (l ++ m) = decol fmts i l ++ decol fmts (i + ksizes l) m.
Proof. induction l as [|x l IH]; intros i; [cbn; now rewrite Nat.add_0_r|]. cbn [app decol]. rewrite IH. unfold ksizes. cbn [map]. rewrite list_sum_cons, Nat.add_assoc. reflexivity. Qed.
Lemma decon_app fmts l m : forall i, decon fmts i (l ++ m) = decon fmts i l ++ decon fmts (i + ksizes (map snd l)) m.
Proof. induction l as [|x l IH]; intros i; [cbn; now rewrite Nat.add_0_r|]. cbn [app decon]. rewrite IH. unfold ksizes. cbn [map]. rewrite list_sum_cons, Nat.add_assoc. reflexivity. Qed.
Lemma decom_app fmts l m : forall i, decom fmts i (l ++ m) = decom fmts i l ++ decom fmts (i + ksizes (map fst l) + ksizes (map snd l)) m.
Proof.
  induction l as [|x l IH]; intros i; [cbn; now rewrite !Nat.add_0_r|]. cbn [app decom]. rewrite IH. unfold ksizes. cbn [map]. rewrite !list_sum_cons. cbn [app]. do 3 f_equal. lia.
Qed.
