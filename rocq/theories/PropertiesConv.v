(** Property theorems C15 (codec part) and C35. *)
From Verif Require Import Base F64 F32 Number NumberSpec BTree Value ToKserd ToKserdProps ConvSpec ConvProps Base91 Base91Props.
Open Scope N_scope.

(** * C15  base91: decoding the encoding gives the bytes; only alphabet
    characters are used.  The [b91'...'] literal is C15_literal in PropertiesFmt. *)
Theorem C15_round_trip : forall bytes : list N,
  Forall (fun x => x < 256) bytes -> b91_decode (b91_encode bytes) = bytes.
Proof. exact b91_round_trip. Qed.
Print Assumptions C15_round_trip.

Theorem C15_alphabet : forall bytes : list N,
  Forall (fun x => x < 256) bytes -> Forall (fun c => In c b91_alphabet) (b91_encode bytes).
Proof. exact b91_encode_alphabet. Qed.
Print Assumptions C15_alphabet.

(** no quote, whitespace, control or non-ASCII character in the alphabet *)
Example C15_alphabet_case : forallb (fun c => (33 <=? c) && (c <=? 126) && negb (c =? 39)) b91_alphabet = true
  /\ length b91_alphabet = 91%nat.
Proof. vm_compute. auto. Qed.
Example C15_case : b91_decode (b91_encode [255; 0; 88; 89; 90; 91]) = [255; 0; 88; 89; 90; 91]
  /\ b91_encode [255; 0; 88; 89; 90; 91] <> [].
Proof. vm_compute. split; [reflexivity|discriminate]. Qed.

(** * C35  ToKserd conversions. *)
Theorem C35_never_fails : forall (t : rty) (v : rval), of_type t v = true -> exists k, into_kserd v = inr k.
Proof. exact typed_ok. Qed.
Print Assumptions C35_never_fails.

(** what each conversion contains, read with the accessors of C36 *)
Theorem C35_content :
  (forall t n, in_ntype t n = true -> exists k m, into_kserd (RInt t n) = inr k /\ v_num (kval k) = Some m /\
     num_val m = XFin (n * scale)%Z /\ num_wf m = true) /\
  (forall x, exists k, into_kserd (RF64 x) = inr k /\ v_num (kval k) = Some (Float x)) /\
  (forall x, f32_wf x = true -> exists k y, into_kserd (RF32 x) = inr k /\ v_num (kval k) = Some (Float y) /\ f_display y = g_display x) /\
  (exists k, into_kserd RUnit = inr k /\ v_unit (kval k) = true) /\
  (forall b, exists k, into_kserd (RBool b) = inr k /\ v_bool (kval k) = Some b) /\
  (forall c, exists k, into_kserd (RChar c) = inr k /\ v_ch (kval k) = Some c) /\
  (forall t, exists k, into_kserd (RString t) = inr k /\ v_str (kval k) = Some t) /\
  (forall t, exists k, into_kserd (RStr t) = inr k /\ v_str (kval k) = Some t) /\
  (forall t l, of_type t (RTuple l) = true -> exists k ks, into_kserd (RTuple l) = inr k /\ v_tuple (kval k) = Some ks /\
     Forall2 (fun v k => into_kserd v = inr k) l ks) /\
  (forall t l, of_type t (RArray l) = true -> exists k ks, into_kserd (RArray l) = inr k /\ v_seq (kval k) = Some ks /\
     Forall2 (fun v k => into_kserd v = inr k) l ks) /\
  (forall t l, of_type t (RVec l) = true -> exists k ks, into_kserd (RVec l) = inr k /\ v_seq (kval k) = Some ks /\
     Forall2 (fun v k => into_kserd v = inr k) l ks) /\
  (forall v, into_kserd (RBox v) = into_kserd v) /\
  (forall v, into_kserd (RSome v) = into_kserd v) /\
  (exists k, into_kserd RNone = inr k /\ kid k = Some (s "None") /\ v_tuple (kval k) = Some []) /\
  (forall t v, of_type t v = true -> exists k k', into_kserd v = inr k' /\ into_kserd (ROk v) = inr k /\ kid k = Some (s "Ok") /\ v_tuple (kval k) = Some [k']) /\
  (forall t v, of_type t v = true -> exists k k', into_kserd v = inr k' /\ into_kserd (RErr v) = inr k /\ kid k = Some (s "Err") /\ v_tuple (kval k) = Some [k']) /\
  (forall k, into_kserd (RKserd k) = inr k).
Proof. exact into_kserd_content. Qed.
Print Assumptions C35_content.

(** the id names the type: of a number, a bool, a char, a string, an array or a Vec its own,
    of an Option that of its content or None, of a Result the variant; a tuple and ()
    have none *)
Theorem C35_ids : forall t v k, of_type t v = true -> into_kserd v = inr k -> names_type t (kid k).
Proof. exact into_kserd_ids. Qed.
Print Assumptions C35_ids.

(** no information is lost: values of one type with the same Kserd are the same,
    for types without Option<T> where T is itself Option or Kserd, and apart from
    the bits of an f32 NaN *)
Theorem C35_injective : forall (t : rty) (v v' : rval) (k : kserd),
  of_type t v = true -> of_type t v' = true -> unambiguous t = true -> f32s not_nan v = true ->
  into_kserd v = inr k -> into_kserd v' = inr k -> v = v'.
Proof. exact (fun t v v' k T T' U NN => into_kserd_inj v NN t v' k T T' U). Qed.
Print Assumptions C35_injective.

Example C35_case :
  let t := YResult (YVec (YTuple [YInt Tusize; YOption YString])) YUnit in
  let v := ROk (RVec [RTuple [RInt Tusize 3; RSome (RString (s "x"))]; RTuple [RInt Tusize 0; RNone]]) in
  of_type t v = true /\ unambiguous t = true /\
  into_kserd v = inr (Kserd (Some (s "Ok")) (VTuple [Kserd (Some (s "Vec")) (VSeq
    [knew (VTuple [Kserd (Some (s "usize")) (VNum (Uint 3)); Kserd (Some (s "String")) (VStr (s "x"))]);
     knew (VTuple [Kserd (Some (s "usize")) (VNum (Uint 0)); Kserd (Some (s "None")) (VTuple [])])])])).
Proof. vm_compute. auto. Qed.

Example C35_case_f32 : let v := RTuple [RF32 (GFin false 13421773 (-27)); RF32 (GInf true)] in
  of_type (YTuple [YF32; YF32]) v = true /\ f32s not_nan v = true /\
  into_kserd v = inr (knew (VTuple [Kserd (Some (s "f32")) (VNum (Float (FFin false 7205759403792794 (-56)))); Kserd (Some (s "f32")) (VNum (Float (FInf true)))])).
Proof. vm_compute. auto. Qed.

(** Some(None) and None of Option<Option<T>> become the same Kserd *)
Theorem C35_nested_option_refuted : exists t v v' k,
  of_type t v = true /\ of_type t v' = true /\ into_kserd v = inr k /\ into_kserd v' = inr k /\ v <> v'.
Proof.
  exists (YOption (YOption YUnit)), (RSome RNone), RNone. eexists.
  repeat split. discriminate.
Qed.
Print Assumptions C35_nested_option_refuted.

(** Ok(x) and Err(x) become Kserds which are == (ids are not compared) *)
Theorem C35_result_equality_refuted : exists t v v' k k',
  of_type t v = true /\ of_type t v' = true /\ unambiguous t = true /\
  into_kserd v = inr k /\ into_kserd v' = inr k' /\ v <> v' /\ k_eqb k k' = true.
Proof.
  exists (YResult YUnit YUnit), (ROk RUnit), (RErr RUnit). eexists. eexists.
  repeat split. discriminate.
Qed.
Print Assumptions C35_result_equality_refuted.
