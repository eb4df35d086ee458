(** Encoding and decoding: the theorems. *)
From Verif Require Import Base F64 Number NumberSpec BTree Value ValueSpec Encode EncodeSpec EncodeProps2 EncodeProps3 EncodeProps4 EncodeProps5 EncodeProps6 EncodeProps7 EncodeProps10.
Open Scope N_scope.

(** the declarations of the examples:
    struct Point { x: i32, name: String, tag: Option<bool> }
    enum Shape { Empty, Circle(f64), Rect(u8, u8), Poly { pts: Vec<Point>, by: BTreeMap<String, Tree> } }
    struct Meters(u64)      struct Tree { kids: Vec<Tree> }
    enum Colour { Red, Green }      struct Unit;      struct Pair(i8, i8) *)
Definition decls0 : decls := fun n =>
  match n with
  | 0 => DefStruct (s "Point") [(s "x", TyInt Ti32); (s "name", TyString); (s "tag", TyOption TyBool)]
  | 1 => DefEnum [(s "Empty", ShUnit); (s "Circle", ShNewtype TyF64); (s "Rect", ShTuple [TyInt Tu8; TyInt Tu8]);
                  (s "Poly", ShStruct [(s "pts", TyVec (TyNamed 0)); (s "by", TyMap TyString (TyNamed 3))])]
  | 2 => DefNewtype (s "Meters") (TyInt Tu64)
  | 3 => DefStruct (s "Tree") [(s "kids", TyVec (TyNamed 3))]
  | 4 => DefEnum [(s "Red", ShUnit); (s "Green", ShUnit)]
  | 5 => DefUnit (s "Unit")
  | _ => DefTuple (s "Pair") [TyInt Ti8; TyInt Ti8]
  end.
Lemma decls0_good : good_decls decls0.
Proof. intros n. destruct n as [|p]; [reflexivity|]. destruct p as [[[p|p|]|[p|p|]|]|[[p|p|]|[p|p|]|]|]; reflexivity. Qed.
(** Shape::Poly { pts: [Point { x: -7, name: "p", tag: Some(true) }, Point { x: 3, name: "", tag: None }],
    by: {"a": Tree { kids: [Tree { kids: [] }] }, "b": Tree { kids: [] }} } *)
Definition poly : data :=
  DVariant 3 (DRecord [
    DList [DRecord [DInt (-7)%Z; DString (s "p"); DSome (DBool true)]; DRecord [DInt 3%Z; DString []; DNone]];
    DMap [(DString (s "a"), DRecord [DList [DRecord [DList []]]]); (DString (s "b"), DRecord [DList []])]]).

(** * C32  encoding then decoding is the identity *)
Theorem C32_round_trip : forall E t d, good_decls E -> has_type E t d = true -> f32s_kept d -> apart E t d ->
  exists k, enc E t d = inr k /\ dec E t k = Some d.
Proof. exact round_trip. Qed.
Print Assumptions C32_round_trip.
(** keys are apart when no key holds an enum value *)
Theorem C32_no_enum_keys : forall E t d, good_decls E -> has_type E t d = true -> f32s_kept d -> no_enum_keys E t d ->
  exists k, enc E t d = inr k /\ dec E t k = Some d.
Proof. exact (fun E t d W T G N => round_trip E t d W T G (no_enum_apart E W t d T N)). Qed.
Print Assumptions C32_no_enum_keys.
(** and if they are not, entries of the map are lost *)
Theorem C32_lost_entries : forall E kt vt m k, id_decls E -> has_type E (TyMap kt vt) (DMap m) = true -> ~ keys_apart E kt m ->
  enc E (TyMap kt vt) (DMap m) = inr k ->
  (exists es, kval k = VMap es /\ (length es < length m)%nat) /\ dec E (TyMap kt vt) k <> Some (DMap m).
Proof. exact entries_lost. Qed.
Print Assumptions C32_lost_entries.
(** whatever the keys, what was encoded can be decoded, to a value of the type *)
Theorem C32_decodes : forall E t d, good_decls E -> has_type E t d = true ->
  exists k d', enc E t d = inr k /\ dec E t k = Some d' /\ has_type E t d' = true.
Proof. exact decodes. Qed.
Print Assumptions C32_decodes.
(** and it is the value which was encoded exactly when the keys of all maps in
    it are apart and all the f32s in it come back *)
Theorem C32_exact : forall E t d k, good_decls E -> has_type E t d = true -> enc E t d = inr k ->
  (dec E t k = Some d <-> apart E t d /\ Forall f32_same (f32s d)).
Proof. exact round_trip_exact. Qed.
Print Assumptions C32_exact.

Example C32_case : good_decls decls0 /\ has_type decls0 (TyNamed 1) poly = true /\ f32s_kept poly /\ no_enum_keys decls0 (TyNamed 1) poly /\
  enc decls0 (TyNamed 1) poly = inr (Kserd (Some (s "Poly")) (VCntr [
    (s "by", Kserd None (VMap [
       (new_str (s "a"), Kserd (Some (s "Tree")) (VCntr [(s "kids", Kserd None (VSeq [Kserd (Some (s "Tree")) (VCntr [(s "kids", Kserd None (VSeq []))])]))]));
       (new_str (s "b"), Kserd (Some (s "Tree")) (VCntr [(s "kids", Kserd None (VSeq []))]))]));
    (s "pts", Kserd None (VSeq [
       Kserd (Some (s "Point")) (VCntr [(s "name", new_str (s "p")); (s "tag", Kserd (Some (s "Some")) (VTuple [new_bool true])); (s "x", new_int Ti32 (-7)%Z)]);
       Kserd (Some (s "Point")) (VCntr [(s "name", new_str []); (s "tag", Kserd (Some (s "None")) (VTuple [])); (s "x", new_int Ti32 3%Z)])]))])).
Proof.
  split; [exact decls0_good|]. split; [reflexivity|]. split; [constructor|]. split; [|vm_compute; reflexivity].
  intros kt vt m H. vm_compute in H. repeat (destruct H as [H|H]; [try discriminate H; injection H as <- <- <-; repeat constructor|]). destruct H.
Qed.
Example C32_lost_case : id_decls decls0 /\
  has_type decls0 (TyMap (TyNamed 4) TyBool) (DMap [(DVariant 0 DUnit, DBool true); (DVariant 1 DUnit, DBool false)]) = true /\
  ~ keys_apart decls0 (TyNamed 4) [(DVariant 0 DUnit, DBool true); (DVariant 1 DUnit, DBool false)].
Proof.
  split; [exact (good_ids _ decls0_good)|]. split; [reflexivity|]. intros H. inversion H as [|? ? H1 _]; subst. inversion H1 as [|? ? H2 _]; subst.
  now apply (H2 _ _ eq_refl eq_refl).
Qed.

(** Vec<(BTreeMap<Colour, bool>, u8)> *)
Example C32_exact_case : good_decls decls0 /\
  let t := TyVec (TyTuple [TyMap (TyNamed 4) TyBool; TyInt Tu8]) in
  let d := DList [DList [DMap [(DVariant 0 DUnit, DBool true); (DVariant 1 DUnit, DBool false)]; DInt 5%Z]; DList [DMap [(DVariant 1 DUnit, DBool true)]; DInt 6%Z]] in
  has_type decls0 t d = true /\ ~ apart decls0 t d /\ Forall f32_same (f32s d) /\
  exists k, enc decls0 t d = inr k /\
    dec decls0 t k = Some (DList [DList [DMap [(DVariant 0 DUnit, DBool false)]; DInt 5%Z]; DList [DMap [(DVariant 1 DUnit, DBool true)]; DInt 6%Z]]).
Proof.
  split; [exact decls0_good|]. cbv zeta. split; [reflexivity|]. split; [|split; [constructor|eexists; split; [vm_compute; reflexivity|vm_compute; reflexivity]]].
  intros A. destruct C32_lost_case as (_ & _ & N). apply N. apply (A _ TyBool). vm_compute. right; right; left. reflexivity.
Qed.

(** the full statement fails for maps whose keys are enum values: {Red: true, Green: false} comes back as {Red: false} *)
Theorem C32_enum_keys_refuted : exists E t d k, good_decls E /\ has_type E t d = true /\ enc E t d = inr k /\
  dec E t k = Some (DMap [(DVariant 0 DUnit, DBool false)]) /\ d = DMap [(DVariant 0 DUnit, DBool true); (DVariant 1 DUnit, DBool false)].
Proof.
  exists decls0, (TyMap (TyNamed 4) TyBool), (DMap [(DVariant 0 DUnit, DBool true); (DVariant 1 DUnit, DBool false)]). eexists.
  split; [exact decls0_good|]. split; [reflexivity|]. split; [reflexivity|]. split; reflexivity.
Qed.
Print Assumptions C32_enum_keys_refuted.
(** struct Some(u8) and struct None() are encoded but not decoded *)
Theorem C32_names_refuted :
  (exists k, enc (fun _ => DefNewtype (s "Some") (TyInt Tu8)) (TyNamed 0) (DNewtype (DInt 1%Z)) = inr k /\
             dec (fun _ => DefNewtype (s "Some") (TyInt Tu8)) (TyNamed 0) k = None) /\
  (exists k, enc (fun _ => DefTuple (s "None") []) (TyNamed 0) (DList []) = inr k /\
             dec (fun _ => DefTuple (s "None") []) (TyNamed 0) k = None).
Proof. split; eexists; split; reflexivity. Qed.
Print Assumptions C32_names_refuted.

(** * C33  decoding at an integer type never wraps *)
Theorem C33_integers : forall E t i n r, num_wf n = true -> no_saturation t n ->
  (dec E (TyInt t) (Kserd i (VNum n)) = Some (DInt r) <-> int_range t r /\ is_integer t n r).
Proof. exact int_decoding. Qed.
Print Assumptions C33_integers.
Theorem C33_only_numbers : forall E t i v d, (forall n, v <> VNum n) -> dec E (TyInt t) (Kserd i v) = Some d -> False.
Proof. exact int_decoding_other. Qed.
Print Assumptions C33_only_numbers.
Example C33_case : no_saturation Tu8 (Uint 255) /\
  dec decls0 (TyInt Tu8) (new_int Tu8 255) = Some (DInt 255) /\ dec decls0 (TyInt Tu8) (new_int Tu16 256) = None /\
  dec decls0 (TyInt Ti8) (Kserd None (VNum (Int (-128)))) = Some (DInt (-128)) /\ dec decls0 (TyInt Tu64) (Kserd None (VNum (Int (-1)))) = None /\
  dec decls0 (TyInt Tu8) (Kserd None (VNum (Float (FFin false (2 ^ 52) (-52))))) = Some (DInt 1) /\
  dec decls0 (TyInt Tu8) (Kserd None (VNum (Float (FFin false (2 ^ 52) (-53))))) = None.
Proof. split; [left; reflexivity|]. vm_compute. repeat split. Qed.
(** a float beyond the 128 bit types is decoded as their last value: 2^128 is 2^128 - 1 *)
Theorem C33_saturation_refuted : exists E i x r, f64_wf x = true /\
  dec E (TyInt Tu128) (Kserd i (VNum (Float x))) = Some (DInt r) /\ ~ is_integer Tu128 (Float x) r.
Proof.
  exists decls0, None, (FFin false (2 ^ 52)%Z 76), (2 ^ 128 - 1)%Z. split; [reflexivity|]. split; [vm_compute; reflexivity|]. intros (_ & H & _). vm_compute in H. discriminate.
Qed.
Print Assumptions C33_saturation_refuted.

(** * C40  encoding is total, and its result is a Kserd in order *)
Theorem C40_total : forall E t d, id_decls E -> has_type E t d = true ->
  exists k, enc E t d = inr k /\ k_sorted k = true /\ k_typed k = true.
Proof. exact enc_total. Qed.
Print Assumptions C40_total.
(** also for the keys of a map, which Kserds compares *)
Theorem C40_keys_exact : forall E t d k, id_decls E -> has_type E t d = true -> has_ord d = true -> enc E t d = inr k -> k_exact k = true.
Proof. exact enc_exact. Qed.
Print Assumptions C40_keys_exact.
Example C40_case : id_decls decls0 /\ has_type decls0 (TyNamed 1) poly = true /\
  enc (fun _ => DefUnit (s "not a name")) (TyNamed 0) DUnit = inl (EInvalidId (s "not a name")).
Proof. split; [exact (good_ids _ decls0_good)|]. split; reflexivity. Qed.

(** * C41  decoding a struct from a container: by name, in any order; further
    fields are ignored; a missing field is None if it is an Option, an error
    otherwise *)
Theorem C41_struct_fields : forall E q name fs i m l, E q = DefStruct name fs -> distinct (map fst fs) = true -> NoDup (map fst m) ->
  (dec E (TyNamed q) (Kserd i (VCntr m)) = Some (DRecord l) <->
   length l = length fs /\ forall j n t, nth_error fs j = Some (n, t) -> exists d, nth_error l j = Some d /\
     ((exists k, In (n, k) m /\ dec E t k = Some d) \/ (~ In n (map fst m) /\ d = DNone /\ exists u, t = TyOption u))).
Proof. exact struct_iff. Qed.
Print Assumptions C41_struct_fields.
Example C41_case :
  dec decls0 (TyNamed 0) (Kserd (Some (s "Other")) (VCntr [(s "name", new_str (s "p")); (s "unknown", new_unit); (s "x", new_int Tu8 3)])) =
    Some (DRecord [DInt 3%Z; DString (s "p"); DNone]) /\
  dec decls0 (TyNamed 0) (Kserd None (VCntr [(s "name", new_str (s "p"))])) = None.
Proof. split; reflexivity. Qed.

(** * C42  decoding a tuple: element by element *)
Theorem C42_tuple : forall E ts ks l,
  dec E (TyTuple ts) (Kserd None (VTuple ks)) = Some (DList l) <->
  length l = length ts /\ (length ts <= length ks)%nat /\
  forall j t k d, nth_error ts j = Some t -> nth_error ks j = Some k -> nth_error l j = Some d -> dec E t k = Some d.
Proof. exact tuple_iff. Qed.
Print Assumptions C42_tuple.
Theorem C42_tuple_variant : forall E q vs i name ts ks l, E q = DefEnum vs -> distinct (map fst vs) = true -> nth_error vs i = Some (name, ShTuple ts) ->
  (dec E (TyNamed q) (Kserd (Some name) (VTuple ks)) = Some (DVariant i (DList l)) <->
   length l = length ts /\ length ts = length ks /\
   forall j t k d, nth_error ts j = Some t -> nth_error ks j = Some k -> nth_error l j = Some d -> dec E t k = Some d).
Proof. exact tuple_variant_iff. Qed.
Print Assumptions C42_tuple_variant.
Example C42_case :
  dec decls0 (TyTuple [TyInt Tu8; TyBool]) (Kserd None (VTuple [new_int Tu8 3; new_bool true])) = Some (DList [DInt 3%Z; DBool true]) /\
  dec decls0 (TyTuple [TyInt Tu8; TyBool]) (Kserd None (VTuple [new_int Tu8 3])) = None /\
  dec decls0 (TyNamed 1) (Kserd (Some (s "Rect")) (VTuple [new_int Tu8 1; new_int Tu8 2])) = Some (DVariant 2 (DList [DInt 1%Z; DInt 2%Z])) /\
  dec decls0 (TyNamed 1) (Kserd (Some (s "Rect")) (VTuple [new_int Tu8 1; new_int Tu8 2; new_int Tu8 3])) = None.
Proof. repeat split. Qed.
(** a longer tuple is not an error outside enums *)
Theorem C42_arity_refuted : exists E ts ks l, dec E (TyTuple ts) (Kserd None (VTuple ks)) = Some (DList l) /\ length ks <> length ts.
Proof. exists decls0, [TyBool], [new_bool true; new_bool false], [DBool true]. split; [reflexivity|discriminate]. Qed.
Print Assumptions C42_arity_refuted.
