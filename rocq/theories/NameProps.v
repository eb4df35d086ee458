(** Proofs about the ids decoding looks at. *)
From Verif Require Import Base BaseProps F64 Number BTree Value ValueSpec ValueProps Encode NameSpec.
Open Scope nat_scope.

Lemma each_agree (f : ty -> kserd -> option data) l l' : Forall2 (fun k k' => forall t, f t k = f t k') l l' -> forall ts, dec_each f ts l = dec_each f ts l'.
Proof. induction 1 as [|k k' l l' H _ IH]; intros [|t ts]; cbn [dec_each]; try reflexivity. fold (dec_each f). now rewrite H, IH. Qed.
Lemma all_agree {A} (f : kserd -> option A) l l' : Forall2 (fun k k' => f k = f k') l l' -> dec_all f l = dec_all f l'.
Proof. induction 1 as [|k k' l l' H _ IH]; cbn [dec_all]; [reflexivity|]. fold (dec_all f). now rewrite H, IH. Qed.
Lemma entries_agree f g m m' : Forall2 (fun e e' => f (fst e) = f (fst e') /\ g (snd e) = g (snd e')) m m' -> forall acc, dec_entries f g m acc = dec_entries f g m' acc.
Proof.
  induction 1 as [|[k v] [k' v'] m m' [H1 H2] _ IH]; intros acc; cbn [dec_entries]; [reflexivity|]. fold (dec_entries f g). cbn [fst snd] in *. rewrite H1, H2.
  destruct (f k'); [|reflexivity]. destruct (g v'); [|reflexivity]. cbn [opt_bind]. apply IH.
Qed.
Lemma named_agree f g m m' : Forall2 (fun e e' : str * kserd => fst e = fst e' /\ g (snd e) = g (snd e')) m m' -> forall acc, dec_named f g m acc = dec_named f g m' acc.
Proof.
  induction 1 as [|[k v] [k' v'] m m' [H1 H2] _ IH]; intros acc; cbn [dec_named]; [reflexivity|]. fold (dec_named f g). cbn [fst snd] in *. subst k'. rewrite H2.
  destruct (f k); [|reflexivity]. destruct (g v'); [|reflexivity]. cbn [opt_bind]. apply IH.
Qed.
Lemma struct_agree {K} ident (f : ty -> kserd -> option data) (m m' : list (K * kserd)) : Forall2 (fun e e' => ident (fst e) = ident (fst e') /\ forall t, f t (snd e) = f t (snd e')) m m' ->
  dec_struct ident f m = dec_struct ident f m'.
Proof.
  induction 1 as [|[k v] [k' v'] m m' [H1 H2] _ IH]; cbn [dec_struct]; [reflexivity|]. fold (@dec_struct K ident f). cbn [fst snd] in *. rewrite H1, IH.
  destruct (ident k') as [[[i t]|]|]; cbn [opt_bind]; now rewrite ?H2.
Qed.
Lemma position_in {A} n (l : list (str * A)) i a : position n l = Some (i, a) -> In (n, a) l.
Proof.
  revert i. induction l as [|[m b] l IH]; intros i H; cbn [position] in H; [discriminate|]. destruct (str_eqb n m) eqn:X.
  - injection H as <- <-. apply str_eqb_eq in X. subst. now left.
  - destruct (position n l) as [[j c]|]; [|discriminate]. cbn in H. injection H as <- <-. right. now apply (IH j).
Qed.
Lemma f2_impl {A B} (R Q : A -> B -> Prop) l l' : (forall x y, R x y -> Q x y) -> Forall2 R l l' -> Forall2 Q l l'.
Proof. intros I. induction 1; constructor; auto. Qed.
Lemma f2_len {A B} (R : A -> B -> Prop) l l' : Forall2 R l l' -> length l = length l'.
Proof. induction 1; cbn [length]; congruence. Qed.
Lemma f2_in {A} (P : A -> Prop) (R Q : A -> A -> Prop) l l' : Forall P l -> Forall2 R l l' -> (forall x y, P x -> R x y -> Q x y) -> Forall2 Q l l'.
Proof. intros HP F I. revert HP. induction F; intros HP; inversion HP; subst; constructor; auto. Qed.
(** what a visitor is told of a key is told without its id *)
Lemma key_agree E fs k k' : renamed E k k' -> deserialize_any (field_visitor fs) k = deserialize_any (field_visitor fs) k'.
Proof.
  intros R. inversion R as [i j v v' _ V]; subst. destruct V as [| |[]| | |l l' F| | |]; try reflexivity.
  destruct F as [|a b l l' _ F]; cbn [deserialize_any].
  - destruct i as [i|], j as [j|]; repeat match goal with |- context [if ?c then _ else _] => destruct c end; reflexivity.
  - destruct F; [|destruct l; reflexivity]. destruct i as [i|], j as [j|]; repeat match goal with |- context [if ?c then _ else _] => destruct c end; reflexivity.
Qed.

Lemma int_agree E t k k' : renamed E k k' -> deserialize_int t k = deserialize_int t k'.
Proof. intros R. inversion R as [i j v v' _ V]; subst. destruct V; reflexivity. Qed.

Section Names.
  Context (E : decls).
  Definition agrees (k k' : kserd) : Prop := forall t, dec E t k = dec E t k'.
  (** kinds of values whose ids nothing looks at *)
  Definition plain (v : value kserd) : Prop := match v with VUnit | VTuple _ | VCntr _ => False | _ => True end.
  Lemma variant_plain vs i v : plain v -> (opt_bind (variant_id (Kserd i v)) (fun id => opt_bind (position id vs) (fun p =>
            option_map (DVariant (fst p))
              match snd p with
              | ShUnit => if unit_variant (Kserd i v) then Some DUnit else None
              | ShNewtype t => match Kserd i v with Kserd _ (VTuple [x]) => dec E t x | _ => None end
              | ShTuple ts =>
                  match Kserd i v with
                  | Kserd _ (VTuple l) => if Nat.eqb (length l) (length ts) then option_map DList (dec_each (dec E) ts l) else None
                  | _ => None
                  end
              | ShStruct fs =>
                  match Kserd i v with
                  | Kserd _ (VCntr m) => opt_bind (dec_struct (field_name fs) (dec E) m) (dec_record fs)
                  | _ => None
                  end
              end))) = None.
  Proof.
    intros P. unfold variant_id. cbn [kid]. destruct i as [i|]; [|reflexivity]. cbn [opt_bind]. destruct (position i vs) as [[q sh]|]; [|reflexivity]. cbn [opt_bind snd fst].
    destruct sh; destruct v; try destruct P; reflexivity.
  Qed.
  Ltac variants P sh := unfold variant_id; cbn [kid]; match goal with |- context [opt_bind ?i] => destruct i as [?|]; [|reflexivity] end; cbn [opt_bind];
    match goal with |- context [position ?i ?vs] => destruct (position i vs) as [[? sh]|] eqn:P; [|reflexivity] end; cbn [opt_bind snd fst]; apply position_in in P.
  Lemma variant_tuple vs n i l : E n = DefEnum vs -> ~ names_variant E i (tuple_shape (length l)) -> opt_bind (variant_id (Kserd i (VTuple l))) (fun id => opt_bind (position id vs) (fun p =>
            option_map (DVariant (fst p))
              match snd p with
              | ShUnit => if unit_variant (Kserd i (VTuple l)) then Some DUnit else None
              | ShNewtype t => match l with [x] => dec E t x | _ => None end
              | ShTuple ts => if Nat.eqb (length l) (length ts) then option_map DList (dec_each (dec E) ts l) else None
              | ShStruct fs => None
              end)) = None.
  Proof.
    intros EN F. variants P sh. assert (F' : ~ tuple_shape (length l) sh) by (intros X; apply F; do 4 eexists; eauto). clear F. rename F' into F. destruct sh as [|t|ts|fs]; cbn [tuple_shape] in F; try reflexivity.
    - unfold unit_variant. cbn [kval]. destruct l; [now destruct F|reflexivity].
    - destruct l as [|x [|y l]]; try reflexivity. now destruct F.
    - apply Nat.eqb_neq in F. now rewrite F.
  Qed.
  Lemma variant_cntr vs n i m : E n = DefEnum vs -> ~ names_variant E i (fun sh => exists fs, sh = ShStruct fs) -> opt_bind (variant_id (Kserd i (VCntr m))) (fun id => opt_bind (position id vs) (fun p =>
            option_map (DVariant (fst p))
              match snd p with
              | ShUnit => if unit_variant (Kserd i (VCntr m)) then Some DUnit else None
              | ShNewtype t => None
              | ShTuple ts => None
              | ShStruct fs => opt_bind (dec_struct (field_name fs) (dec E) m) (dec_record fs)
              end)) = None.
  Proof. intros EN F. variants P sh. destruct sh as [|t|ts|fs]; try reflexivity. destruct F. do 4 eexists; eauto. Qed.
  Lemma seq_agree (V : visitor data) i j l l' : length l = length l' -> i = j \/ free E (VTuple l) i j -> visit_seq V l = visit_seq V l' ->
    (forall x y, l = [x] -> l' = [y] -> visit_some V x = visit_some V y /\ visit_newtype V x = visit_newtype V y) ->
    deserialize_any V (Kserd i (VTuple l)) = deserialize_any V (Kserd j (VTuple l')).
  Proof.
    intros L F S N. destruct l as [|x [|y l]], l' as [|x' [|y' l']]; try discriminate; cbn [deserialize_any].
    - destruct F as [<-|[_ [A B]]]; [destruct i as [i|]; [destruct (str_eqb i (s "None"))|]; auto|].
      destruct i as [i|], j as [j|]; repeat match goal with |- context [str_eqb ?a ?b] => let X := fresh in destruct (str_eqb a b) eqn:X; [apply str_eqb_eq in X; congruence|] end; auto.
    - destruct (N x x' eq_refl eq_refl) as [N1 N2]. destruct F as [<-|[_ (a & b & -> & -> & A & B)]]; [destruct i as [i|]; [destruct (str_eqb i (s "Some"))|]; auto|].
      repeat match goal with |- context [str_eqb ?a ?b] => let X := fresh in destruct (str_eqb a b) eqn:X; [apply str_eqb_eq in X; congruence|] end; auto.
    - exact S.
  Qed.
  Lemma renamed_dec k : forall k', renamed E k k' -> agrees k k'.
  Proof.
    induction k as [i v IH] using kserd_ind'. intros k' R t. pose proof R as R0. inversion R as [i0 j v0 v' F V]; subst. destruct V as [|b|n|u|b|l l' G|m m' G|l l' G|m m' G].
    - (* unit *) destruct t as [| |nt| | | | | |t|ts|t|kt vt|n]; try reflexivity. cbn [dec]. destruct (E n) as [| | | |vs] eqn:EN; try reflexivity. destruct F as [->|F]; [reflexivity|].
      destruct F as [F F']. assert (X : forall id, i = Some id \/ j = Some id -> opt_bind (position id vs) (fun p => option_map (DVariant (fst p)) match snd p with ShUnit => if unit_variant (Kserd i VUnit) then Some DUnit else None | _ => None end) = None).
      { intros id D. destruct (position id vs) as [[q sh]|] eqn:P; [|reflexivity]. cbn [opt_bind snd fst]. destruct sh; try reflexivity. apply position_in in P. destruct D as [D|D]; [destruct F|destruct F']; do 4 eexists; eauto. }
      unfold variant_id. cbn [kid]. destruct i as [i|], j as [j|]; cbn [opt_bind]; rewrite ?X by auto; reflexivity.
    - destruct t as [| |nt| | | | | |t|ts|t|kt vt|n]; try reflexivity. cbn [dec]. destruct (E n); try reflexivity. rewrite !variant_plain by exact Logic.I. reflexivity.
    - destruct n as [n|n|x]; (destruct t as [| |nt| | | | | |t|ts|t|kt vt|n']; try reflexivity; cbn [dec]; destruct (E n'); try reflexivity; rewrite !variant_plain by exact Logic.I; reflexivity).
    - destruct t as [| |nt| | | | | |t|ts|t|kt vt|n]; try reflexivity. cbn [dec]. destruct (E n); try reflexivity. rewrite !variant_plain by exact Logic.I. reflexivity.
    - destruct t as [| |nt| | | | | |t|ts|t|kt vt|n]; try reflexivity. cbn [dec]. destruct (E n); try reflexivity. rewrite !variant_plain by exact Logic.I. reflexivity.
    - (* tuple *)
      cbn [vchildren] in IH. assert (A : Forall2 agrees l l') by (eapply f2_in; [exact IH|exact G|]; intros x y H; auto). pose proof (f2_len _ _ _ G) as L.
      pose proof (each_agree (dec E) l l' A) as EA. assert (AA : forall t, dec_all (dec E t) l = dec_all (dec E t) l') by (intros u; apply all_agree; eapply f2_impl; [|exact A]; intros x y H; apply H).
      destruct t as [| |nt| | | | | |t|ts|t|kt vt|n]; cbn [dec]; try reflexivity.
      all: try (apply seq_agree; [exact L|exact F|cbn [visit_seq]; rewrite ?EA, ?AA; reflexivity|]; intros x y -> ->; inversion A as [|? ? ? ? H _]; subst; split; cbn [visit_some visit_newtype]; rewrite ?H; reflexivity).
      + assert (IA : dec_all (deserialize_int Tu8) l = dec_all (deserialize_int Tu8) l').
        { apply all_agree. eapply f2_impl; [|exact G]. intros x y H. now apply (int_agree E). }
        apply seq_agree; [exact L|exact F|cbn [visit_seq]; now rewrite IA|]. intros x y -> ->. split; reflexivity.
      + destruct (E n) as [name|name t|name ts|name fs|vs] eqn:EN.
        * unfold deserialize_unit_struct. cbn [kval]. destruct l, l'; try discriminate; reflexivity.
        * apply seq_agree; [exact L|exact F| |]; [cbn [visit_seq]; destruct A as [|x y l l' H A]; [reflexivity|now rewrite H]|]. intros x y -> ->; inversion A as [|? ? ? ? H _]; subst; split; cbn [visit_some visit_newtype]; rewrite ?H; reflexivity.
        * apply seq_agree; [exact L|exact F|cbn [visit_seq]; rewrite ?EA, ?AA; reflexivity|]; intros x y -> ->; inversion A as [|? ? ? ? H _]; subst; split; cbn [visit_some visit_newtype]; rewrite ?H; reflexivity.
        * apply seq_agree; [exact L|exact F|cbn [visit_seq]; rewrite ?EA, ?AA; reflexivity|]; intros x y -> ->; inversion A as [|? ? ? ? H _]; subst; split; cbn [visit_some visit_newtype]; rewrite ?H; reflexivity.
        * destruct F as [<-|[[F F'] _]].
          -- unfold variant_id. cbn [kid]. destruct i as [i|]; [|reflexivity]. cbn [opt_bind]. destruct (position i vs) as [[q sh]|]; [|reflexivity]. cbn [opt_bind snd fst]. f_equal. destruct sh as [|t|ts|fs].
             ++ unfold unit_variant. cbn [kval]. destruct l, l'; try discriminate; reflexivity.
             ++ destruct A as [|x y l l' H A]; [reflexivity|]. destruct A; [apply H|reflexivity].
             ++ now rewrite L, EA.
             ++ reflexivity.
          -- rewrite (variant_tuple vs n i l EN F), (variant_tuple vs n j l' EN); [reflexivity|]. now rewrite <- L.
    - (* container *)
      cbn [vchildren] in IH. assert (A : Forall2 (fun e f => fst e = fst f /\ agrees (snd e) (snd f)) m m').
      { eapply f2_in; [rewrite Forall_map in IH; exact IH|exact G|]. intros x y H [H1 H2]. split; [exact H1|now apply H]. }
      assert (SA : forall fs, dec_struct (field_name fs) (dec E) m = dec_struct (field_name fs) (dec E) m').
      { intros fs. apply struct_agree. eapply f2_impl; [|exact A]. intros x y [H1 H2]. split; [now rewrite H1|exact H2]. }
      destruct t as [| |nt| | | | | |t|ts|t|kt vt|n]; try reflexivity; cbn [dec deserialize_any visit_fields].
      + f_equal. apply named_agree. eapply f2_impl; [|exact A]. intros x y [H1 H2]. split; [exact H1|apply H2].
      + destruct (E n) as [name|name t|name ts|name fs|vs] eqn:EN; try reflexivity.
        * now rewrite SA.
        * destruct F as [<-|[F F']].
          -- unfold variant_id. cbn [kid]. destruct i as [i|]; [|reflexivity]. cbn [opt_bind]. destruct (position i vs) as [[q sh]|]; [|reflexivity]. cbn [opt_bind snd fst]. f_equal. destruct sh as [|t|ts|fs]; try reflexivity. now rewrite SA.
          -- rewrite (variant_cntr vs n i m EN F), (variant_cntr vs n j m' EN F'). reflexivity.
    - (* sequence *)
      cbn [vchildren] in IH. assert (A : Forall2 agrees l l') by (eapply f2_in; [exact IH|exact G|]; intros x y H; auto).
      pose proof (each_agree (dec E) l l' A) as EA. assert (AA : forall t, dec_all (dec E t) l = dec_all (dec E t) l') by (intros u; apply all_agree; eapply f2_impl; [|exact A]; intros x y H; apply H).
      destruct t as [| |nt| | | | | |t|ts|t|kt vt|n]; try reflexivity; cbn [dec deserialize_any visit_seq].
      + f_equal. apply all_agree. eapply f2_impl; [|exact G]. intros x y H. now apply (int_agree E).
      + now rewrite EA.
      + now rewrite AA.
      + destruct (E n) as [name|name t|name ts|name fs|vs] eqn:EN; try reflexivity.
        * cbn [visit_seq]. destruct A as [|x y l l' H A]; [reflexivity|now rewrite H].
        * now rewrite EA.
        * now rewrite EA.
        * rewrite !variant_plain by exact Logic.I. reflexivity.
    - (* map *)
      cbn [vchildren] in IH. apply Forall_entries in IH. assert (A : Forall2 (fun e f => agrees (fst e) (fst f) /\ agrees (snd e) (snd f)) m m').
      { eapply f2_in; [exact IH|exact G|]. intros x y [H1 H2] [R1 R2]. split; [now apply H1|now apply H2]. }
      destruct t as [| |nt| | | | | |t|ts|t|kt vt|n]; try reflexivity; cbn [dec deserialize_any visit_map].
      + f_equal. apply entries_agree. eapply f2_impl; [|exact A]. intros x y [H1 H2]. split; [apply H1|apply H2].
      + destruct (E n) as [name|name t|name ts|name fs|vs] eqn:EN; try reflexivity.
        * f_equal. apply struct_agree. clear - A G. revert A. induction G as [|x y m m' [G1 G2] G IH]; intros A; inversion A as [|? ? ? ? [A1 A2] A3]; subst; constructor; auto. split; [now apply (key_agree E)|exact A2].
        * rewrite !variant_plain by exact Logic.I. reflexivity.
  Qed.
End Names.
