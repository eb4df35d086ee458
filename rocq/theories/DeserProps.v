(** What any [Deserialize] implementation can see of a Kserd. *)
From Verif Require Import Base BaseProps F64 F32 F32Spec Number NumberSpec BTree Value ValueProps Encode Own OwnProps Deser DeserSpec.
Open Scope N_scope.

Lemma F2_length {A B} (R : A -> B -> Prop) l l' : Forall2 R l l' -> length l = length l'.
Proof. induction 1; cbn [length]; congruence. Qed.

(** ** what is alike cannot be told apart *)
Section Forward.
Context {Q U Er : Type} (E : errors Er) (J : impl Q U Er).
Lemma run_seq_ext f l l' : Forall2 (fun x x' => forall q, f q x = f q x') l l' -> forall p, run_seq J f p l = run_seq J f p l'.
Proof.
  induction 1 as [|x x' l l' H HL IH]; intros p; cbn [run_seq]; [reflexivity|].
  destruct (seq_step J p); [reflexivity|]. rewrite H. apply IH.
Qed.
Lemma run_map_ext {K} (g : Q -> K -> dres U Er) f l l' :
  Forall2 (fun e e' => (forall q, g q (fst e) = g q (fst e')) /\ forall q, f q (snd e) = f q (snd e')) l l' -> forall p, run_map J g f p l = run_map J g f p l'.
Proof.
  induction 1 as [|[k x] [k' x'] l l' [H1 H2] HL IH]; intros p; cbn [run_map]; [reflexivity|]. cbn [fst snd] in *.
  destruct (map_step J p); [reflexivity|]. rewrite H1. destruct (value_step J _); [apply IH|]. rewrite H2. apply IH.
Qed.

Lemma Forall2_IH {A B} (P : A -> Prop) (R S : A -> B -> Prop) l l' :
  Forall P l -> (forall x y, P x -> R x y -> S x y) -> Forall2 R l l' -> Forall2 S l l'.
Proof. intros F H. induction 1; constructor; inversion F; subst; auto. Qed.

Lemma alike_run b : (b = true -> forall u u' t, invalid_type E u t = invalid_type E u' t) ->
  forall k k', alike b k k' -> forall q, run E J q k = run E J q k'.
Proof.
  intros HE. induction k as [id v IH] using okserd_ind'. intros k' A q. inversion A as [i i' v0 v' HI HV]; subst. clear A.
  cbn [run decode]. destruct (start J q) as [r|m w post]; [reflexivity|]. f_equal.
  assert (LL : forall l l', Forall (fun k => forall k', alike b k k' -> forall q, run E J q k = run E J q k') l -> Forall2 (alike b) l l' ->
    length l = length l' /\ (forall p, run_seq J (run E J) p l = run_seq J (run E J) p l') /\ Forall2 (fun x x' => forall q, run E J q x = run E J q x') l l').
  { intros l l' F H. assert (G : Forall2 (fun x x' => forall q, run E J q x = run E J q x') l l') by (eapply Forall2_IH; [exact F| |exact H]; auto).
    split; [eapply F2_length; exact H|]. split; [|exact G]. now apply run_seq_ext. }
  inversion HV; subst; cbn [ochildren] in IH.
  - destruct v'; try discriminate; destruct m; try reflexivity; destruct (on_enum J w); try reflexivity; rewrite HI; reflexivity.
  - destruct (LL _ _ IH H) as (L1 & L2 & L3). rewrite HI.
    destruct m; try reflexivity.
    all: try (destruct l as [|x [|y l]]; inversion L3 as [|? x' ? l1 E1 E2]; subst; try (inversion E2; subst); cbn [unexp_err]; try reflexivity;
      try (destruct (option_map cow_get i') as [t|]; [destruct (str_eqb t _)|]; auto; rewrite <- ?L1, ?E1; auto; fail)).
    all: try (rewrite <- ?L1, ?L2; auto; fail).
    all: try (destruct (option_map cow_get i') as [t|]; rewrite <- ?L1, ?L2; auto; fail).
    all: destruct (on_enum J w) as [r|d err next]; [reflexivity|]; destruct (option_map cow_get i') as [t|]; [|reflexivity];
      destruct (on_variant_name J d t) as [e|u]; [reflexivity|]; destruct (next u) as [r|po|d' po|len w' po|w' po]; try reflexivity; f_equal; cbn [length] in *; rewrite <- ?L1, ?L2, ?E1; auto.
  - destruct (LL _ _ IH H) as (L1 & L2 & L3). rewrite HI, <- L1, L2. destruct m; try reflexivity.
  - assert (G : forall p, run_map J (on_field_name J) (run E J) p m0 = run_map J (on_field_name J) (run E J) p m').
    { apply run_map_ext. clear - IH H. induction H as [|[n x] [n' x'] m m' [E1 E2] HM IHM]; [constructor|]. cbn [map snd] in IH. inversion IH; subst. constructor; [|auto]. cbn [fst snd] in *. subst. auto. }
    pose proof (F2_length _ _ _ H) as L. rewrite HI, <- L. destruct m; try (rewrite G; reflexivity); try reflexivity.
    destruct (on_enum J w) as [r|d err next]; [reflexivity|]; destruct (option_map cow_get i') as [t|]; [|reflexivity];
      destruct (on_variant_name J d t) as [e|u]; [reflexivity|]; destruct (next u) as [r|po|d' po|len w' po|w' po]; try reflexivity. now rewrite G.
  - assert (G : forall p, run_map J (run E J) (run E J) p m0 = run_map J (run E J) (run E J) p m').
    { apply run_map_ext. clear - IH H. induction H as [|[n x] [n' x'] m m' [E1 E2] HM IHM]; [constructor|]. cbn [entry_list] in IH. inversion IH as [|? ? I1 I2]; subst. inversion I2; subst. constructor; [|auto]. cbn [fst snd] in *. auto. }
    pose proof (F2_length _ _ _ H) as L. rewrite HI, <- L. destruct m; try (rewrite G; reflexivity); reflexivity.
  - destruct (LL _ _ IH H2) as (L1 & L2 & L3). specialize (HE eq_refl). destruct i' as [c|]; [discriminate|]. cbn [option_map] in *.
    destruct m; try (now rewrite (HE (unexp_err (OTuple l)) (unexp_err (OSeq l')))).
    all: try (destruct l as [|x [|y l]]; rewrite <- L1, L2; reflexivity).
    all: destruct l as [|x l]; [congruence|]; reflexivity || apply (f_equal inl), HE.
  - destruct (LL _ _ IH H2) as (L1 & L2 & L3). specialize (HE eq_refl). destruct i' as [c|]; [discriminate|]. cbn [option_map] in *.
    assert (l' <> []) by (intros ->; inversion H2; congruence).
    destruct m; try (now rewrite (HE (unexp_err (OTuple l')) (unexp_err (OSeq l)))).
    all: try (destruct l' as [|x [|y l']]; rewrite L1, L2; reflexivity).
    all: destruct l' as [|x l']; [congruence|]; reflexivity || apply (f_equal inl), HE.
  - specialize (HE eq_refl). destruct i' as [c|]; [discriminate|]. destruct m; cbn [option_map run_map length]; try reflexivity; try (apply (f_equal inl), HE).
  - specialize (HE eq_refl). destruct i' as [c|]; [discriminate|]. destruct m; cbn [option_map run_map length]; try reflexivity; try (apply (f_equal inl), HE).
Qed.
End Forward.

(** ** observers *)
Inductive probe : Type := PAny | PId | PUnitStruct | PTuple (n : nat) | PStruct | PErr.
Inductive hop : Type := Item (i : nat) | AKey (i : nat) | AVal (i : nat).
Inductive report : Type := RVisit (v : visit) | RSome | RNew | RSeq (n : nat) | RMap (n : nat) | RName (c : cow str) | RId (t : str) | ROk.
Section Obs.
Context {Er : Type} (E : errors Er).
Let er : dres report Er := inl (message E []).
Inductive oq : Type := Go (p : list hop) (pr : probe) | Skip (i : nat) (q : oq) | KeyAt (i : nat) (q : oq) | ValAt (i : nat) (q : oq) | Fetch (q : oq)
| Done (r : dres report Er) | Ignore.
Definition obs : impl oq report Er := mkImpl
  (fun q => match q with
    | Go [] PAny => Call MAny q (fun r => r)
    | Go [] PUnitStruct => Call MUnitStruct q (fun r => r)
    | Go [] PErr => Call (MInt Tu8) q (fun r => r)
    | Go [] _ => Call MEnum q (fun r => r)
    | Go _ _ => Call MAny q (fun r => r)
    | Done r => Return r
    | _ => Return (inr ROk)
    end)
  (fun q v => match q with Go [] _ => inr (RVisit v) | _ => er end)
  (fun q => match q with Go (_ :: p) pr => Go p pr | _ => Done (inr RSome) end)
  (fun q => match q with Go (_ :: p) pr => Go p pr | _ => Done (inr RNew) end)
  (fun q n => match q with Go (Item i :: p) pr => Skip i (Go p pr) | _ => Done (inr (RSeq n)) end)
  (fun q n => match q with Go (AKey i :: p) pr => KeyAt i (Go p pr) | Go (AVal i :: p) pr => ValAt i (Go p pr) | _ => Done (inr (RMap n)) end)
  (fun q => EnumVariant Ignore inl (fun u => match q with
    | Go _ (PTuple n) => VarTuple n (Go [] PAny) (fun r => r)
    | Go _ PStruct => VarStruct (Go [] PAny) (fun r => r)
    | _ => VarReturn (inr u)
    end))
  (fun q => match q with
    | Skip O q => SeqNext q Done er
    | Skip (S i) q => SeqNext Ignore (fun _ => Skip i q) er
    | Done r => SeqReturn r
    | _ => SeqReturn er
    end)
  (fun q => match q with
    | KeyAt O q => MapKey q Done er
    | KeyAt (S i) q => MapKey Ignore (fun _ => KeyAt i q) er
    | ValAt O q => MapKey Ignore (fun _ => Fetch q) er
    | ValAt (S i) q => MapKey Ignore (fun _ => ValAt i q) er
    | Done r => MapReturn r
    | _ => MapReturn er
    end)
  (fun q => match q with Fetch q => ValueNext q Done | q => ValueSkip q end)
  (fun _ t => inr (RId t))
  (fun _ c => inr (RName c)).

Notation see := (run E obs).

Lemma see_done r l : run_seq obs see (Done r) l = r.
Proof. now destruct l. Qed.
Lemma see_mdone {K} (g : oq -> K -> dres report Er) r l : run_map obs g see (Done r) l = r.
Proof. now destruct l. Qed.
Lemma see_item i q : forall l x, nth_error l i = Some x -> run_seq obs see (Skip i q) l = see q x.
Proof.
  induction i as [|i IH]; intros [|y l] x; cbn [nth_error]; try discriminate.
  - intros [= ->]. apply see_done.
  - intros H. cbn [run_seq seq_step obs]. now apply IH.
Qed.
Lemma see_key {K} (g : oq -> K -> dres report Er) i q : forall l e, nth_error l i = Some e -> run_map obs g see (KeyAt i q) l = g q (fst e).
Proof.
  induction i as [|i IH]; intros [|[y z] l] e; cbn [nth_error]; try discriminate.
  - intros [= <-]. cbn [run_map map_step value_step obs]. apply see_mdone.
  - intros H. cbn [run_map map_step value_step obs]. now apply IH.
Qed.
Lemma see_val {K} (g : oq -> K -> dres report Er) i q : forall l e, nth_error l i = Some e -> run_map obs g see (ValAt i q) l = see q (snd e).
Proof.
  induction i as [|i IH]; intros [|[y z] l] e; cbn [nth_error]; try discriminate.
  - intros [= <-]. cbn [run_map map_step value_step obs]. apply see_mdone.
  - intros H. cbn [run_map map_step value_step obs]. now apply IH.
Qed.

(** what the observer of the whole sees *)
Definition report_of (id : option str) (v : ovalue okserd) : report :=
  match v with
  | OUnit => RVisit VisitUnit
  | OBool b => RVisit (VisitBool b)
  | ONum (Uint n) => RVisit (VisitInt (if fits64 false n then Tu64 else Tu128) n)
  | ONum (Int n) => RVisit (VisitInt (if fits64 true n then Ti64 else Ti128) n)
  | ONum (Float x) => RVisit (VisitF64 x)
  | OStr (Borrowed t) => RVisit (VisitBorrowedStr t)
  | OStr (Owned t) => RVisit (VisitString t)
  | OBarr (Borrowed b) => RVisit (VisitBorrowedBytes b)
  | OBarr (Owned b) => RVisit (VisitByteBuf b)
  | OTuple l =>
      match l, id with
      | [], Some i => if str_eqb i (s "None") then RVisit VisitNone else RSeq 0
      | [x], Some i => if str_eqb i (s "Some") then RSome else RNew
      | _, _ => RSeq (length l)
      end
  | OCntr m => RMap (length m)
  | OSeq l => RSeq (length l)
  | OMap m => RMap (length m)
  end.
Lemma see_any id v : see (Go [] PAny) (OKserd id v) = inr (report_of (option_map cow_get id) v).
Proof.
  cbn [run decode start obs].
  destruct v as [|b|[]|[]|[]|[|x [|y l]]|m|l|m]; cbn [report_of on_value on_some on_newtype on_seq on_map obs]; try reflexivity;
    rewrite ?see_done, ?see_mdone; try reflexivity.
  - destruct (option_map cow_get id); [destruct (str_eqb _ _)|]; reflexivity.
  - destruct (option_map cow_get id); [destruct (str_eqb _ _)|]; destruct x as [xi xv]; reflexivity.
Qed.
Lemma see_id id v : see (Go [] PId) (OKserd id v) = match option_map cow_get id with Some t => inr (RId t) | None => inl (message E (s "enum but no identity is present")) end.
Proof. cbn [run decode start obs]. now destruct (option_map cow_get id). Qed.

Definition items (v : ovalue okserd) : option (list okserd) := match v with OTuple l | OSeq l => Some l | _ => None end.
Lemma see_hop id v l i x p pr : items v = Some l -> nth_error l i = Some x -> see (Go (Item i :: p) pr) (OKserd id v) = see (Go p pr) x.
Proof.
  intros HV HI. destruct v as [| | | | |l0|m|l0|m]; try discriminate; injection HV as ->; cbn [run decode start obs on_seq on_some on_newtype].
  - destruct l as [|a [|b l]].
    + now destruct i.
    + assert (x = a) as -> by (destruct i as [|i]; [now injection HI|now destruct i]).
      assert (G : run_seq obs see (Skip i (Go p pr)) [a] = see (Go p pr) a) by (now apply see_item).
      destruct (option_map cow_get id); [destruct (str_eqb _ _); reflexivity|exact G].
    + assert (G : run_seq obs see (Skip i (Go p pr)) (a :: b :: l) = see (Go p pr) x) by (now apply see_item).
      destruct (option_map cow_get id); exact G.
  - now apply see_item.
Qed.

Lemma Forall2_nth {A B} (R : A -> B -> Prop) : forall l l', length l = length l' ->
  (forall i x y, nth_error l i = Some x -> nth_error l' i = Some y -> R x y) -> Forall2 R l l'.
Proof.
  induction l as [|x l IH]; intros [|y l'] L H; try discriminate; constructor.
  - now apply (H O).
  - apply IH; [now injection L|]. intros i. exact (H (S i)).
Qed.

Lemma report_len id l l' : report_of id (OTuple l) = report_of id (OTuple l') -> length l = length l'.
Proof.
  destruct l as [|x [|y l]], l' as [|x' [|y' l']]; cbn [report_of length]; try reflexivity;
    try (destruct id; try discriminate; repeat match goal with |- context [if ?b then _ else _] => destruct b end; try discriminate; congruence).
Qed.

Lemma report_seq id l (l' : list okserd) : report_of id (OTuple l) = RSeq (length l') -> length l = length l'.
Proof.
  destruct l as [|x [|y l]]; cbn [report_of]; destruct id as [i|]; intros H; try destruct (str_eqb i _); try discriminate; injection H as H; exact H.
Qed.

Lemma see_alike b : (b = false -> forall u u' t, invalid_type E u t = invalid_type E u' t -> u = u') ->
  forall k k', (forall p pr, see (Go p pr) k = see (Go p pr) k') -> alike b k k'.
Proof.
  intros HE. induction k as [id v IH] using okserd_ind'. intros [id' v'] H.
  pose proof (H [] PId) as HI. rewrite !see_id in HI.
  assert (I : option_map cow_get id = option_map cow_get id') by (destruct (option_map cow_get id), (option_map cow_get id'); congruence). clear HI.
  constructor; [exact I|].
  pose proof (H [] PAny) as HA. rewrite !see_any, <- I in HA. injection HA as HA.
  assert (IT : forall l l', items v = Some l -> items v' = Some l' -> length l = length l' -> Forall (fun k => forall k', (forall p pr, see (Go p pr) k = see (Go p pr) k') -> alike b k k') l -> Forall2 (alike b) l l').
  { intros l l' V V' L F. apply Forall2_nth; [exact L|]. intros i x y X Y. rewrite Forall_forall in F. apply (F x); [eapply nth_error_In, X|].
    intros p pr. specialize (H (Item i :: p) pr). rewrite (see_hop _ _ _ _ _ _ _ V X), (see_hop _ _ _ _ _ _ _ V' Y) in H. exact H. }
  assert (FITS : forall sg n n', VisitInt (if fits64 sg n then Tu64 else Tu128) n = VisitInt (if fits64 sg n' then Tu64 else Tu128) n' -> n = n') by (intros; congruence).
  destruct v as [|x|[n|n|x]|[t|t]|[x|x]|l|m|l|m], v' as [|x'|[n'|n'|x']|[t'|t']|[x'|x']|l'|m'|l'|m']; cbn [ochildren] in IH;
    try (cbn [report_of] in HA; discriminate); try (cbn [report_of] in HA; injection HA as HA; subst; now apply like_leaf); try (now apply like_leaf).
  all: try (exfalso; cbn [report_of] in HA; destruct l as [|a [|c l]]; destruct (option_map cow_get id) as [j|]; try destruct (str_eqb j _); discriminate).
  all: try (exfalso; cbn [report_of] in HA; destruct l' as [|a [|c l']]; destruct (option_map cow_get id) as [j|]; try destruct (str_eqb j _); discriminate).
  all: try (exfalso; cbn [report_of] in HA; repeat match type of HA with context [if ?c then _ else _] => destruct c end; discriminate).
  all: try (cbn [report_of] in HA; injection HA as _ HA; subst; now apply like_leaf).
  - apply like_tuple. apply IT; auto. eapply report_len, HA.
  - (* tuple, seq *)
    pose proof (report_seq _ _ _ HA) as L.
    destruct (option_map cow_get id) as [j|] eqn:EJ.
    + exfalso. pose proof (H [] (PTuple (length l))) as T. cbn [run decode start obs on_enum on_variant_name on_seq] in T. rewrite <- I, EJ, Nat.eqb_refl, see_done in T. discriminate.
    + destruct id; [discriminate|].
      assert (l <> []). { intros ->. pose proof (H [] PUnitStruct) as T. cbn [run decode start obs on_value] in T. discriminate. }
      destruct b; [apply like_tuple_seq; auto|exfalso].
      pose proof (H [] PErr) as T. cbn [run decode start obs unexp_err] in T. injection T as T. apply HE in T; [discriminate|reflexivity].
  - cbn [report_of] in HA. injection HA as HA. apply like_cntr. apply Forall2_nth; [exact HA|]. intros i e e' N N'.
    pose proof (H [AKey i] PAny) as HK. cbn [run decode start obs on_map] in HK. rewrite (see_key _ _ _ _ _ N), (see_key _ _ _ _ _ N') in HK. cbn [on_field_name obs] in HK. injection HK as HK.
    split; [exact HK|]. rewrite Forall_forall in IH. apply (IH (snd e)); [apply in_map; eapply nth_error_In, N|].
    intros p pr. specialize (H (AVal i :: p) pr). cbn [run decode start obs on_map] in H. now rewrite (see_val _ _ _ _ _ N), (see_val _ _ _ _ _ N') in H.
  - (* container, map *)
    cbn [report_of] in HA. injection HA as HA.
    destruct (option_map cow_get id) as [j|] eqn:EJ.
    { exfalso. pose proof (H [] PStruct) as T. cbn [run decode start obs on_enum on_variant_name on_map] in T. rewrite <- I, EJ, see_mdone in T. discriminate. }
    destruct id; [discriminate|].
    destruct m as [|[n x] m], m' as [|[n' x'] m']; try discriminate.
    { destruct b; [apply like_cntr_map; auto|exfalso]. pose proof (H [] PErr) as T. cbn [run decode start obs unexp_err] in T. injection T as T. apply HE in T; [discriminate|reflexivity]. }
    exfalso. pose proof (H [AKey 0] PAny) as HK. cbn [run decode start obs on_map] in HK. rewrite (see_key _ 0 _ ((n, x) :: m) (n, x) eq_refl), (see_key _ 0 _ ((n', x') :: m') (n', x') eq_refl) in HK.
    cbn [on_field_name obs fst] in HK. destruct n' as [ni nv]. rewrite see_any in HK. injection HK as HK. clear - HK.
    destruct nv as [|z|[]|[]|[]|[|x [|y l]]|m|l|m]; cbn [report_of] in HK; try discriminate; destruct (option_map cow_get ni); try destruct (str_eqb _ _); discriminate.
  - (* seq, tuple *)
    symmetry in HA. pose proof (report_seq _ _ _ HA) as L.
    destruct (option_map cow_get id) as [j|] eqn:EJ.
    + exfalso. pose proof (H [] (PTuple (length l'))) as T. cbn [run decode start obs on_enum on_variant_name on_seq] in T. rewrite <- I, EJ, Nat.eqb_refl, see_done in T. discriminate.
    + destruct id; [discriminate|].
      assert (l <> []). { intros ->. destruct l'; [|discriminate]. pose proof (H [] PUnitStruct) as T. cbn [run decode start obs on_value] in T. discriminate. }
      destruct b; [apply like_seq_tuple; auto|exfalso].
      pose proof (H [] PErr) as T. cbn [run decode start obs unexp_err] in T. injection T as T. apply HE in T; [discriminate|reflexivity].
  - apply like_seq. cbn [report_of] in HA. injection HA as HA. apply IT; auto.
  - (* map, container *)
    cbn [report_of] in HA. injection HA as HA.
    destruct (option_map cow_get id) as [j|] eqn:EJ.
    { exfalso. pose proof (H [] PStruct) as T. cbn [run decode start obs on_enum on_variant_name on_map] in T. rewrite <- I, EJ, see_mdone in T. discriminate. }
    destruct id; [discriminate|].
    destruct m as [|[n x] m], m' as [|[n' x'] m']; try discriminate.
    { destruct b; [apply like_map_cntr; auto|exfalso]. pose proof (H [] PErr) as T. cbn [run decode start obs unexp_err] in T. injection T as T. apply HE in T; [discriminate|reflexivity]. }
    exfalso. pose proof (H [AKey 0] PAny) as HK. cbn [run decode start obs on_map] in HK. rewrite (see_key _ 0 _ ((n, x) :: m) (n, x) eq_refl), (see_key _ 0 _ ((n', x') :: m') (n', x') eq_refl) in HK.
    cbn [on_field_name obs fst] in HK. destruct n as [ni nv]. rewrite see_any in HK. injection HK as HK. clear - HK.
    destruct nv as [|z|[]|[]|[]|[|y [|y0 l]]|m|l|m]; cbn [report_of] in HK; try discriminate; destruct (option_map cow_get ni); try destruct (str_eqb _ _); discriminate.
  - cbn [report_of] in HA. injection HA as HA. apply like_map. apply Forall2_nth; [exact HA|]. intros i e e' N N'.
    rewrite Forall_forall in IH.
    assert (IN : In (fst e) (entry_list m) /\ In (snd e) (entry_list m)).
    { apply nth_error_In in N. clear - N. induction m as [|[a c] m IHm]; [destruct N|]. cbn [entry_list flat_map app In fst snd]. change (flat_map _ m) with (entry_list m). destruct N as [<-|N']; [cbn [fst snd]; tauto|destruct (IHm N'); tauto]. }
    split; [apply (IH (fst e)); [apply IN|]|apply (IH (snd e)); [apply IN|]]; intros p pr.
    + specialize (H (AKey i :: p) pr). cbn [run decode start obs on_map] in H. now rewrite (see_key _ _ _ _ _ N), (see_key _ _ _ _ _ N') in H.
    + specialize (H (AVal i :: p) pr). cbn [run decode start obs on_map] in H. now rewrite (see_val _ _ _ _ _ N), (see_val _ _ _ _ _ N') in H.
Qed.
End Obs.

Theorem serde_sees k k' : (forall Q U (J : impl Q U unit) q, run silent J q k = run silent J q k') <-> alike true k k'.
Proof.
  split.
  - intros H. apply (see_alike silent true); [discriminate|]. intros p pr. apply H.
  - intros A Q U J q. apply (alike_run silent J true); [reflexivity|exact A].
Qed.
Theorem serde_sees_all k k' : (forall Q U (J : impl Q U said) q, run telling J q k = run telling J q k') <-> alike false k k'.
Proof.
  split.
  - intros H. apply (see_alike telling false); [|intros p pr; apply H]. intros _ u u' t T. now injection T.
  - intros A Q U J q. apply (alike_run telling J false); [discriminate|exact A].
Qed.
