(** Property theorem C52. *)
From Verif Require Import Base F64 F32 F32Spec Number NumberSpec BTree Value ValueSpec ToKserd Encode EncodeSpec ConvSpec ConvProps PropertiesF32.
Open Scope N_scope.

(** * C52  the provided conversions agree with serde.  A value that holds no Some
    is converted to a Kserd which decodes, at the type serde sees, to the value.
    An f32 must be one that f32 arithmetic keeps (C33). *)
Theorem C52_decode : forall (E : decls) (v : rval) (y : rty) (t : ty),
  of_type y v = true -> serde_ty E y t -> no_some v = true -> f32s_kept (data_of v) ->
  exists k, into_kserd v = inr k /\ dec E t k = Some (data_of v).
Proof. exact conv_reads. Qed.
Print Assumptions C52_decode.

(** without arrays too, the encoder gives the same Kserd but for ids *)
Theorem C52_encode : forall (E : decls) (v : rval) (y : rty) (t : ty),
  of_type y v = true -> serde_ty E y t -> no_some v = true -> no_array v = true ->
  exists k k', into_kserd v = inr k /\ enc E t (data_of v) = inr k' /\ erase k = erase k'.
Proof. exact conv_agrees. Qed.
Print Assumptions C52_encode.

(** Some is lost: whatever it holds, decoding never gives Some back *)
Theorem C52_some : forall (E : decls) (t : ty) (v : rval) (k : kserd) (d : data),
  no_kserd v = true -> into_kserd (RSome v) = inr k -> dec E (TyOption t) k = Some d -> d = DNone.
Proof. exact some_lost. Qed.
Print Assumptions C52_some.

(** ** the conditions are met: a tuple with a number, an array, a Vec
    of Results, a boxed char, None and an f32 *)
Definition E_ex : decls := fun _ => DefEnum [(s "Ok", ShNewtype (TyVec TyF64)); (s "Err", ShNewtype TyString)].
Definition y_ex : rty := YTuple [YInt Ti32; YArray 2 (YInt Tu8); YVec (YResult (YVec YF64) YStr); YBox YChar; YOption YUnit; YF32].
Definition v_ex : rval := RTuple [RInt Ti32 (-5)%Z; RArray [RInt Tu8 1%Z; RInt Tu8 255%Z];
  RVec [ROk (RVec [RF64 (FFin false (2 ^ 52) (-52))]); RErr (RStr (s "no"))]; RBox (RChar 955); RNone; RF32 (GFin false 13170115 (-22))].
Definition t_ex : ty := TyTuple [TyInt Ti32; TyTuple [TyInt Tu8; TyInt Tu8]; TyVec (TyNamed 0); TyChar; TyOption TyUnit; TyF32].

Example C52_case : of_type y_ex v_ex = true /\ serde_ty E_ex y_ex t_ex /\ no_some v_ex = true /\ f32s_kept (data_of v_ex) /\
  data_of v_ex = DList [DInt (-5)%Z; DList [DInt 1%Z; DInt 255%Z];
    DList [DVariant 0 (DList [DF64 (FFin false (2 ^ 52) (-52))]); DVariant 1 (DString (s "no"))]; DChar 955; DNone; DF32 (GFin false 13170115 (-22))].
Proof.
  split; [vm_compute; reflexivity|]. split.
  { constructor. repeat (constructor; [|]); try constructor.
    - exact (s_array _ 2 (YInt Tu8) (TyInt Tu8) (s_int _ _)).
    - eapply s_result; [apply s_vec, s_f64|apply s_str|reflexivity].
    - apply s_char.
    - apply s_unit. }
  split; [reflexivity|]. split; [|reflexivity].
  unfold f32s_kept. vm_compute EncodeSpec.f32s. constructor; [|constructor]. exact (proj2 (proj2 (proj2 (proj2 (proj2 C43_case))))).
Qed.
Definition v_ex' : rval := RTuple [RInt Tusize 7%Z; RVec [ROk (RVec [RF64 (FFin false (2 ^ 52) (-52))]); RErr (RStr (s "no"))]; RBox (RChar 955); RNone].
Example C52_encode_case : let y := YTuple [YInt Tusize; YVec (YResult (YVec YF64) YStr); YBox YChar; YOption YUnit] in
  let t := TyTuple [TyInt Tusize; TyVec (TyNamed 0); TyChar; TyOption TyUnit] in
  of_type y v_ex' = true /\ serde_ty E_ex y t /\ no_some v_ex' = true /\ no_array v_ex' = true /\
  exists k k', into_kserd v_ex' = inr k /\ enc E_ex t (data_of v_ex') = inr k' /\ k <> k' /\ k_eqb k k' = true.
Proof.
  cbn zeta. split; [vm_compute; reflexivity|]. split.
  { constructor. repeat (constructor; [|]); try constructor.
    - eapply s_result; [apply s_vec, s_f64|apply s_str|reflexivity].
    - apply s_char.
    - apply s_unit. }
  split; [reflexivity|]. split; [reflexivity|]. do 2 eexists. split; [vm_compute; reflexivity|]. split; [vm_compute; reflexivity|].
  split; [discriminate|]. vm_compute. reflexivity.
Qed.

(** ** where they part *)
(** Some(x) is converted as x, which decodes as None or not at all *)
Theorem C52_some_refuted : exists k k', into_kserd (RSome RUnit) = inr k /\ dec E_ex (TyOption TyUnit) k = Some DNone /\
  into_kserd (RSome (RInt Tu8 5)) = inr k' /\ dec E_ex (TyOption (TyInt Tu8)) k' = None.
Proof. do 2 eexists. split; [reflexivity|]. split; [vm_compute; reflexivity|]. split; [reflexivity|]. vm_compute. reflexivity. Qed.
Print Assumptions C52_some_refuted.
(** an array is a sequence to the conversions and a tuple to the encoder *)
Theorem C52_array_refuted : exists v y t k k', of_type y v = true /\ serde_ty E_ex y t /\ no_some v = true /\
  into_kserd v = inr k /\ enc E_ex t (data_of v) = inr k' /\ k_eqb k k' = false.
Proof.
  exists (RArray [RBool true]), (YArray 1 YBool), (TyTuple (repeat TyBool 1)). do 2 eexists. split; [reflexivity|]. split; [apply s_array, s_bool|].
  split; [reflexivity|]. split; [reflexivity|]. split; [reflexivity|]. vm_compute. reflexivity.
Qed.
Print Assumptions C52_array_refuted.
