(** Property theorem C57. *)
From Verif Require Import Base F64 F32 F32Spec Number NumberSpec BTree Value Encode Own Deser DeserSpec DeserProps DeserProps2 DeserProps3.
Open Scope N_scope.

(** * C57  what implementations of Deserialize can see.  Whatever the
    implementation, two Kserds are decoded alike iff they differ in no more than who
    owns ids, tuples for sequences where there is no id, and an empty map for an empty
    container where there is no id; *)
Theorem C57_serde_sees : forall k k' : okserd,
  (forall Q U (J : impl Q U unit) (q : Q), run silent J q k = run silent J q k') <-> alike true k k'.
Proof. exact serde_sees. Qed.
Print Assumptions C57_serde_sees.
(** and down to the errors iff they differ in no more than who owns ids *)
Theorem C57_serde_sees_all : forall k k' : okserd,
  (forall Q U (J : impl Q U said) (q : Q), run telling J q k = run telling J q k') <-> alike false k k'.
Proof. exact serde_sees_all. Qed.
Print Assumptions C57_serde_sees_all.

(** visitors are called with values of the type of their argument: integers in the
    range of the type, well formed f32 and f64.  What a visitor would do with others
    does not matter. *)
Theorem C57_visits_in_range : forall Q U Er (E : errors Er) (J : impl Q U Er) (f : Q -> visit -> dres U Er),
  (forall q v, visit_ok v = true -> f q v = on_value J q v) ->
  forall (k : okserd) (q : Q), o_nums k = true -> run E (with_values J f) q k = run E J q k.
Proof. exact @visits_in_range. Qed.
Print Assumptions C57_visits_in_range.

(** an implementation which asks for anything, on every level, is told all of the Kserd,
    numbers at the widest type which is needed, and the length of each sequence and map *)
Theorem C57_any : forall Er (E : errors Er) (k : okserd),
  (exists c, run E watch WAny k = inr c) /\ forall c, run E watch WAny k = inr c <-> tells k c.
Proof. exact (fun Er E k => conj (match @watch_any Er E k with ex_intro _ c (conj H _) => ex_intro _ c H end) (@any_tells Er E k)). Qed.
Print Assumptions C57_any.
(** an implementation of an enum succeeds exactly with an id and the kind of value it asks for *)
Theorem C57_enum : forall Er (E : errors Er) (a : asked) (k : okserd) (c : told),
  run E watch (WEnum a) k = inr c <-> tells_variant a k c.
Proof. exact @enum_tells. Qed.
Print Assumptions C57_enum.
(** when a tuple variant has the wrong number of elements the error names both numbers *)
Theorem C57_variant_length : forall i l n, length l <> n ->
  run telling watch (WEnum (ATuple n)) (OKserd (Some i) (OTuple l)) =
  inl (SaidLength (length l) (s "a tuple with " ++ dec_of_N (N.of_nat n) ++ s " element(s) was expected")%list).
Proof. exact variant_length. Qed.
Print Assumptions C57_variant_length.
Example C57_variant_length_case : run telling watch (WEnum (ATuple 3)) (OKserd (Some (Owned (s "B"))) (OTuple [OKserd None OUnit; OKserd None (OBool true)])) =
  inl (SaidLength 2 (s "a tuple with 3 element(s) was expected")).
Proof. vm_compute. reflexivity. Qed.

Theorem C57_newtype_length : forall i l, length l <> 1%nat ->
  run telling watch (WEnum ANewtype) (OKserd (Some i) (OTuple l)) = inl (SaidLength (length l) (s "a tuple with a single element was expected")).
Proof. exact newtype_length. Qed.
Print Assumptions C57_newtype_length.
Example C57_newtype_length_case : run telling watch (WEnum ANewtype) (OKserd (Some (Owned (s "B"))) (OTuple [])) = inl (SaidLength 0 (s "a tuple with a single element was expected")).
Proof. vm_compute. reflexivity. Qed.
(** a value of the wrong kind: the error tells what there is and what was asked for *)
Theorem C57_wrong_kind : forall Q U (J : impl Q U said) (q v : Q) m w k x, start J q = Call m v (fun r => r) ->
  asked_for m (okval k) = Some w -> found (okval k) = Some x -> run telling J q k = inl (SaidType x w).
Proof. exact wrong_kind. Qed.
Print Assumptions C57_wrong_kind.
(** reading a u8 from the text "7", and a char from a list *)
Definition ask (m : method) : impl unit unit said :=
  mkImpl (fun _ => Call m tt (fun r => r)) (fun _ _ => inr tt) (fun _ => tt) (fun _ => tt) (fun _ _ => tt) (fun _ _ => tt) (fun _ => EnumReturn (inr tt))
    (fun _ => SeqReturn (inr tt)) (fun _ => MapReturn (inr tt)) (fun _ => ValueSkip tt) (fun _ _ => inr tt) (fun _ _ => inr tt).
Example C57_wrong_kind_case :
  start (ask (MInt Tu8)) tt = Call (MInt Tu8) tt (fun r => r) /\
  run telling (ask (MInt Tu8)) tt (OKserd None (OStr (Borrowed (s "7")))) = inl (SaidType (XStr (s "7")) (s "u8")) /\
  run telling (ask MChar) tt (OKserd None (OSeq [])) = inl (SaidType XSeq (s "char")).
Proof. repeat split; vm_compute; reflexivity. Qed.

(** derived implementations and those of the standard types, call by call, give what
    the model of C33, C40 and C53 says *)
Theorem C57_derived : forall Er (E : errors Er) (D : odecls) (k : okserd) (t : oty), answer (run E (std E D) (QTy t) k) = odec D t k.
Proof. exact @std_run. Qed.
Print Assumptions C57_derived.

(** the hypotheses are met *)
Definition kb (v : ovalue okserd) : okserd := OKserd None v.
Definition kid (t : string) (v : ovalue okserd) : okserd := OKserd (Some (Borrowed (s t))) v.
Definition tree : okserd :=
  kid "P" (OCntr [(Owned (s "x"), kb (ONum (Uint 300))); (Owned (s "y"), kid "Some" (OTuple [kb (OSeq [kb (OStr (Borrowed (s "a"))); kb (OTuple [])])]))]).
Definition tree' : okserd :=
  OKserd (Some (Owned (s "P"))) (OCntr [(Owned (s "x"), kb (ONum (Uint 300)));
    (Owned (s "y"), OKserd (Some (Owned (s "Some"))) (OTuple [kb (OTuple [kb (OStr (Borrowed (s "a"))); kb (OTuple [])])]))]).
Example C57_alike_case : tree <> tree' /\ alike true tree tree' /\ ~ alike false tree tree'.
Proof.
  split; [discriminate|]. split.
  - constructor; [reflexivity|]. apply like_cntr. repeat constructor; try reflexivity; discriminate.
  - intros A. inversion A as [? ? ? ? _ V]; subst. inversion V as [| | |? ? F| | | | |]; subst; try discriminate. inversion F as [|? ? ? ? _ F1]; subst. inversion F1 as [|? ? ? ? [_ B] _]; subst. cbn [snd] in B.
    inversion B as [? ? ? ? _ V1]; subst. inversion V1 as [|? ? F2| | | | | | |]; subst; try discriminate. inversion F2 as [|? ? ? ? C _]; subst.
    inversion C as [? ? ? ? _ V2]; subst. inversion V2; subst; discriminate.
Qed.
(** a struct with a list of an enum's values, which borrow *)
Definition D0 : odecls := fun n => match n with
  | 0 => OdStruct (s "P") [(s "x", OtInt Tu16); (s "y", OtOption (OtVec (OtNamed 1)))]
  | _ => OdEnum [(s "A", OhUnit); (s "B", OhTuple [OtF32; OtStr])]
  end.
Definition point : okserd :=
  kb (OCntr [(Owned (s "x"), kb (ONum (Float (FFin false (2 ^ 52) (-44)))));
    (Owned (s "y"), kid "Some" (OTuple [kb (OSeq [kid "A" (OTuple []); kid "B" (OTuple [kb (ONum (Int 2)); kb (OStr (Borrowed (s "b")))])])]));
    (Owned (s "z"), kb (OMap [(kb OUnit, kb OUnit)]))]).
Example C57_derived_case : o_nums point = true /\
  answer (run telling (std telling D0) (QTy (OtNamed 0)) point) =
  Some (DRecord [DInt 256; DSome (DList [DVariant 0 DUnit; DVariant 1 (DList [DF32 (GFin false (2 ^ 23) (-22)); DString (s "b")])])]).
Proof. split; vm_compute; reflexivity. Qed.
Example C57_any_case :
  run telling watch WAny point = inr (TMap 3
    [(TField (Owned (s "x")), TVisit (VisitF64 (FFin false (2 ^ 52) (-44))));
     (TField (Owned (s "y")), TSome (TSeq 2 [TSeq 0 []; TSeq 2 [TVisit (VisitInt Ti64 2); TVisit (VisitBorrowedStr (s "b"))]]));
     (TField (Owned (s "z")), TMap 1 [(TVisit VisitUnit, TVisit VisitUnit)])]) /\
  run telling watch (WEnum (ATuple 2)) (kid "B" (OTuple [kb (ONum (Int 2)); kb OUnit])) =
    inr (TVariant (TName (s "B")) (Some (TSeq 2 [TVisit (VisitInt Ti64 2); TVisit VisitUnit]))).
Proof. split; vm_compute; reflexivity. Qed.
(** a visitor for values of any kind, and one which differs from it where it is never called *)
Definition describe : impl unit (list visit) unit :=
  mkImpl (fun _ => Call MAny tt (fun r => r)) (fun _ v => inr [v]) (fun _ => tt) (fun _ => tt) (fun _ _ => tt) (fun _ _ => tt) (fun _ => EnumReturn (inl tt))
    (fun _ => SeqReturn (inl tt)) (fun _ => MapReturn (inl tt)) (fun _ => ValueSkip tt) (fun _ _ => inl tt) (fun _ _ => inl tt).
Definition forgetful (q : unit) (v : visit) : dres (list visit) unit := if visit_ok v then inr [v] else inr [].
Example C57_range_case : (forall q v, visit_ok v = true -> forgetful q v = on_value describe q v) /\
  o_nums (kb (ONum (Uint (2 ^ 64)))) = true /\ run silent describe tt (kb (ONum (Uint (2 ^ 64)))) = inr [VisitInt Tu128 (2 ^ 64)%Z] /\
  run silent describe tt (kb (ONum (Int (-1)))) = inr [VisitInt Ti64 (-1)%Z] /\
  forgetful tt (VisitInt Tu8 256) <> on_value describe tt (VisitInt Tu8 256).
Proof. split; [intros [] v H; unfold forgetful; now rewrite H|]. split; [reflexivity|]. split; [reflexivity|]. split; [reflexivity|discriminate]. Qed.

(** a tuple is not told from a sequence: no implementation can ask for one of them *)
Theorem C57_tuple_or_seq_refuted : exists l l', okval l = OTuple [kb OUnit] /\ okval l' = OSeq [kb OUnit] /\
  forall Q U (J : impl Q U unit) (q : Q), run silent J q l = run silent J q l'.
Proof.
  exists (kb (OTuple [kb OUnit])), (kb (OSeq [kb OUnit])). split; [reflexivity|]. split; [reflexivity|]. apply serde_sees.
  constructor; [reflexivity|]. apply like_tuple_seq; [reflexivity|reflexivity|discriminate|]. repeat constructor.
Qed.
Print Assumptions C57_tuple_or_seq_refuted.
(** errors do not name the number found if it has more than 64 bits: it is called 0 *)
Theorem C57_error_number_refuted : exists n, num_wf (Uint n) = true /\ n <> 0%Z /\
  forall Q U (J : impl Q U said) (q v : Q), start J q = Call MChar v (fun r => r) ->
    run telling J q (kb (ONum (Uint n))) = inl (SaidType (XUnsigned 0) (s "char")).
Proof. exists (2 ^ 64)%Z. split; [reflexivity|]. split; [discriminate|]. intros Q U J q v H. rewrite run_eq, H. reflexivity. Qed.
Print Assumptions C57_error_number_refuted.
(** nor do they say that an f32 or f64 was expected: the type is called "$t" *)
Theorem C57_error_expected_refuted : exists k, forall Q U (J : impl Q U said) (q v : Q) m, m = MF32 \/ m = MF64 -> start J q = Call m v (fun r => r) ->
  run telling J q k = inl (SaidType XUnit (s "$t")).
Proof. exists (kb OUnit). intros Q U J q v m M H. rewrite run_eq, H. destruct M as [-> | ->]; reflexivity. Qed.
Print Assumptions C57_error_expected_refuted.
