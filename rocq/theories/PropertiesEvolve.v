(** Property C75: data written by an old version of a program, read by a new one. *)
From Verif Require Import Base F64 F32 F32Spec Number NumberSpec BTree Value ValueSpec Nav NavSpec Nom Parse ParseErr Fmt Formatter FmtVectors FmtText FmtSpec RtSpec VSpec TextSpec Encode EncodeSpec EncodeProps4 EncodeProps9 StuckSpec PropertiesRt PropertiesEnc PropertiesText EvolveSpec EvolveProps EvolveProps2.
From Coq Require Import Permutation.
Open Scope N_scope.

(** * C75  a change of the types *)
(** what [enc] makes of a value of the old types [E] is, to the decoder of the new
    types [F], the value it [becomes] *)
Theorem C75_read : forall E F t u d e k, good_decls E -> good_decls F -> has_type E t d = true -> EncodeSpec.apart E t d ->
  becomes E F t u d e -> enc E t d = inr k -> dec F u k = Some e.
Proof. exact evolves. Qed.
Print Assumptions C75_read.
(** through text: any layout, with the conditions of C34_layouts *)
Theorem C75_layouts : forall E F t u d e k fm, good_decls E -> good_decls F -> has_type E t d = true -> EncodeSpec.apart E t d ->
  becomes E F t u d e -> enc E t d = inr k ->
  reachable k fm -> vsafe true 0 (deco (fm_fmts fm) 0 k) = true -> each kept_node (deco (fm_fmts fm) 0 k) = true ->
  exists text k', fm_write fm [] = LRet text /\ parse text = ParseOk k' /\ dec F u k' = Some e.
Proof. exact (fun E F t u d e k fm WE WF => evolves_layouts E F WE WF t u d e k fm). Qed.
Print Assumptions C75_layouts.
(** through text: a configuration, with the conditions of C34_as_str *)
Theorem C75_as_str : forall E F t u d e k cfg, good_decls E -> good_decls F -> has_type E t d = true -> EncodeSpec.apart E t d ->
  becomes E F t u d e -> enc E t d = inr k ->
  readable_tree k = true -> k_all no_neg_zero k = true ->
  (vsimple true k = true /\ ~ stuck cfg k) \/ is_cntr k = false \/ width_limit cfg = None ->
  id_on_tuples cfg = true -> id_on_containers cfg = true ->
  exists text k', as_str_with_config k cfg = LRet text /\ parse text = ParseOk k' /\ dec F u k' = Some e.
Proof. exact (fun E F t u d e k cfg WE WF => evolves_as_str E F WE WF t u d e k cfg). Qed.
Print Assumptions C75_as_str.
(** every value of unchanged types stays what it is: C75 contains C32 and C34 *)
Theorem C75_same : forall E t d, f32s_kept d -> has_type E t d = true -> becomes E E t t d d.
Proof. exact (fun E t d => becomes_same E d t). Qed.
Print Assumptions C75_same.

(** a new field which is not optional: no value of the old struct can be read *)
Theorem C75_required_field : forall E F n n' a b fs gs l k name u, good_decls E -> good_decls F -> E n = DefStruct a fs -> F n' = DefStruct b gs ->
  has_type E (TyNamed n) (DRecord l) = true -> EncodeSpec.apart E (TyNamed n) (DRecord l) -> enc E (TyNamed n) (DRecord l) = inr k ->
  In (name, u) gs -> ~ In name (map fst fs) -> (forall t, u <> TyOption t) -> dec F (TyNamed n') k = None.
Proof. exact struct_missing. Qed.
Print Assumptions C75_required_field.
(** a variant which is no longer there: its values cannot be read *)
Theorem C75_lost_variant : forall E F n n' vs ws i name h d k, good_decls E -> E n = DefEnum vs -> F n' = DefEnum ws -> nth_error vs i = Some (name, h) ->
  has_type E (TyNamed n) (DVariant i d) = true -> EncodeSpec.apart E (TyNamed n) (DVariant i d) -> enc E (TyNamed n) (DVariant i d) = inr k ->
  ~ In name (map fst ws) -> dec F (TyNamed n') k = None.
Proof. exact variant_missing. Qed.
Print Assumptions C75_lost_variant.

(** the new version of the declarations of PropertiesEnc.v:
    struct Dot { name: String, id: Option<u32>, x: i64 }
    enum Shape { Poly { by: BTreeMap<String, Tree>, pts: Vec<Dot> }, Line(Dot, Dot), Empty }
    struct Meters(f64)      struct Tree { label: Option<String>, kids: Vec<Tree> }
    enum Colour { Blue, Green }      struct Unit;
    and four versions of Point *)
Definition decls1 : decls := fun n =>
  match n with
  | 0 => DefStruct (s "Dot") [(s "name", TyString); (s "id", TyOption (TyInt Tu32)); (s "x", TyInt Ti64)]
  | 1 => DefEnum [(s "Poly", ShStruct [(s "by", TyMap TyString (TyNamed 3)); (s "pts", TyVec (TyNamed 0))]); (s "Line", ShTuple [TyNamed 0; TyNamed 0]); (s "Empty", ShUnit)]
  | 2 => DefNewtype (s "Meters") TyF64
  | 3 => DefStruct (s "Tree") [(s "label", TyOption TyString); (s "kids", TyVec (TyNamed 3))]
  | 4 => DefEnum [(s "Blue", ShUnit); (s "Green", ShUnit)]
  | 5 => DefStruct (s "Point") [(s "x", TyInt Ti32); (s "name", TyString); (s "tag", TyOption TyBool); (s "y", TyInt Ti32)]
  | 6 => DefStruct (s "Point") [(s "x", TyOption (TyInt Ti32)); (s "name", TyString); (s "tag", TyOption TyBool)]
  | 7 => DefStruct (s "Point") [(s "x", TyInt Ti32); (s "name", TyString); (s "tag", TyBool)]
  | 8 => DefStruct (s "Point") [(s "x", TyInt Tu8); (s "name", TyString)]
  | _ => DefUnit (s "Unit")
  end.
Lemma decls1_good : good_decls decls1.
Proof. intros n. destruct n as [|p]; [reflexivity|]. destruct p as [[[[p|p|]|[p|p|]|]|[[p|p|]|[p|p|]|]|]|[[[p|p|]|[p|p|]|]|[[p|p|]|[p|p|]|]|]|]; reflexivity. Qed.
(** the value [poly] in the new program *)
Definition poly1 : data :=
  DVariant 0 (DRecord [
    DMap [(DString (s "a"), DRecord [DNone; DList [DRecord [DNone; DList []]]]); (DString (s "b"), DRecord [DNone; DList []])];
    DList [DRecord [DString (s "p"); DNone; DInt (-7)%Z]; DRecord [DString []; DNone; DInt 3%Z]]]).
Ltac old_field j := eapply Ff_old with (i := j); [reflexivity|reflexivity|].
Ltac new_field := apply Ff_new; cbn; intuition discriminate.
Lemma tree_becomes l l' : Forall2 (becomes decls0 decls1 (TyNamed 3) (TyNamed 3)) l l' -> becomes decls0 decls1 (TyNamed 3) (TyNamed 3) (DRecord [DList l]) (DRecord [DNone; DList l']).
Proof.
  intros H. eapply Be_struct; [reflexivity|reflexivity|]. constructor; [new_field|]. constructor; [|constructor]. old_field 0%nat. now constructor.
Qed.
Example C75_case : good_decls decls0 /\ good_decls decls1 /\ has_type decls0 (TyNamed 1) poly = true /\ no_enum_keys decls0 (TyNamed 1) poly /\
  becomes decls0 decls1 (TyNamed 1) (TyNamed 1) poly poly1 /\ has_type decls1 (TyNamed 1) poly1 = true /\
  dec decls1 (TyNamed 1) poly_kserd = Some poly1 /\ match outcome (show poly_kserd (Some 0%nat)) with Some (ParseOk k') => dec decls1 (TyNamed 1) k' | _ => None end = Some poly1.
Proof.
  split; [exact decls0_good|]. split; [exact decls1_good|]. split; [reflexivity|]. split; [apply C32_case|]. split; [|split; [reflexivity|split; [vm_compute; reflexivity|vm_compute; reflexivity]]].
  eapply Be_variant_struct with (name := s "Poly"); [reflexivity|reflexivity|reflexivity|reflexivity|].
  constructor; [old_field 1%nat|constructor; [old_field 0%nat|constructor]].
  - eapply Be_map; [|reflexivity|reflexivity]. repeat (constructor; cbn [fst snd]); apply tree_becomes; repeat constructor. apply tree_becomes. constructor.
  - repeat constructor; (eapply Be_struct; [reflexivity|reflexivity|]); (constructor; [old_field 1%nat; constructor|]); (constructor; [new_field|]); (constructor; [old_field 0%nat; constructor; reflexivity|constructor]).
Qed.
(** integers as floats, shorter tuples, characters as texts *)
Example C75_case_more : becomes decls0 decls1 (TyNamed 2) (TyNamed 2) (DNewtype (DInt 12%Z)) (DNewtype (DF64 (f_of_Z 12))) /\
  becomes decls0 decls1 (TyTuple [TyChar; TyInt Ti8; TyBool]) (TyTuple [TyString; TyInt Tu64]) (DList [DChar 65; DInt 5%Z; DBool true]) (DList [DString (s "A"); DInt 5%Z]) /\
  becomes decls0 decls1 (TyNamed 4) (TyNamed 4) (DVariant 1 DUnit) (DVariant 1 DUnit).
Proof.
  split; [eapply Be_newtype; [reflexivity|reflexivity|constructor]|]. split; [apply Be_tuple; repeat constructor|]. eapply Be_variant_unit with (name := s "Green"); reflexivity.
Qed.

(** the hypotheses of C75_required_field and C75_lost_variant *)
Definition dot : data := DRecord [DInt (-7)%Z; DString (s "p"); DSome (DBool true)].
Definition dot_kserd : kserd := match enc decls0 (TyNamed 0) dot with inr k => k | _ => new_unit end.
Example C75_dot : has_type decls0 (TyNamed 0) dot = true /\ enc decls0 (TyNamed 0) dot = inr dot_kserd /\
  dec decls1 (TyNamed 0) dot_kserd = Some (DRecord [DString (s "p"); DNone; DInt (-7)%Z]) /\ dec decls1 (TyNamed 5) dot_kserd = None /\
  has_type decls0 (TyNamed 4) (DVariant 0 DUnit) = true /\ enc decls0 (TyNamed 4) (DVariant 0 DUnit) = inr (Kserd (Some (s "Red")) (VTuple [])) /\ dec decls1 (TyNamed 4) (Kserd (Some (s "Red")) (VTuple [])) = None.
Proof. repeat split; vm_compute; reflexivity. Qed.
(** a field that is made optional, or is no longer optional, makes the old values
    unreadable: the encoder writes Some(_) around an optional value *)
Theorem C75_option_refuted : exists E F n n' a b fs gs d k, good_decls E /\ good_decls F /\ E n = DefStruct a fs /\ F n' = DefStruct b gs /\ map fst fs = map fst gs /\
  Forall2 (fun f g => snd f = snd g \/ snd g = TyOption (snd f)) fs gs /\ has_type E (TyNamed n) d = true /\ EncodeSpec.apart E (TyNamed n) d /\ enc E (TyNamed n) d = inr k /\ dec F (TyNamed n') k = None.
Proof.
  exists decls0, decls1, 0, 6, (s "Point"), (s "Point"), [(s "x", TyInt Ti32); (s "name", TyString); (s "tag", TyOption TyBool)], [(s "x", TyOption (TyInt Ti32)); (s "name", TyString); (s "tag", TyOption TyBool)], dot, dot_kserd.
  split; [exact decls0_good|]. split; [exact decls1_good|]. do 3 (split; [reflexivity|]). split; [repeat (apply Forall2_cons; [cbn [snd]; auto|]); constructor|]. split; [reflexivity|].
  split; [|split; vm_compute; reflexivity]. apply no_enum_apart; [exact decls0_good|reflexivity|]. unfold no_enum_keys. cbn. intuition congruence.
Qed.
Print Assumptions C75_option_refuted.
Theorem C75_no_option_refuted : exists E F n n' a b fs gs d k, good_decls E /\ good_decls F /\ E n = DefStruct a fs /\ F n' = DefStruct b gs /\ map fst fs = map fst gs /\
  Forall2 (fun f g => snd f = snd g \/ snd f = TyOption (snd g)) fs gs /\ has_type E (TyNamed n) d = true /\ EncodeSpec.apart E (TyNamed n) d /\ enc E (TyNamed n) d = inr k /\ dec F (TyNamed n') k = None.
Proof.
  exists decls0, decls1, 0, 7, (s "Point"), (s "Point"), [(s "x", TyInt Ti32); (s "name", TyString); (s "tag", TyOption TyBool)], [(s "x", TyInt Ti32); (s "name", TyString); (s "tag", TyBool)], dot, dot_kserd.
  split; [exact decls0_good|]. split; [exact decls1_good|]. do 3 (split; [reflexivity|]). split; [repeat (apply Forall2_cons; [cbn [snd]; auto|]); constructor|]. split; [reflexivity|].
  split; [|split; vm_compute; reflexivity]. apply no_enum_apart; [exact decls0_good|reflexivity|]. unfold no_enum_keys. cbn. intuition congruence.
Qed.
Print Assumptions C75_no_option_refuted.
(** a narrower integer type: a value outside it is not readable *)
Theorem C75_narrow_refuted : exists E F t u n k, good_decls E /\ good_decls F /\ has_type E (TyInt t) (DInt n) = true /\ enc E (TyInt t) (DInt n) = inr k /\ dec F (TyInt u) k = None.
Proof. exists decls0, decls1, Ti32, Tu8, (-7)%Z, (Kserd (Some (s "i32")) (VNum (Int (-7)%Z))). split; [exact decls0_good|]. split; [exact decls1_good|]. repeat split; vm_compute; reflexivity. Qed.
Print Assumptions C75_narrow_refuted.
