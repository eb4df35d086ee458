(** Property C76: what the text of a decoding error says. *)
From Verif Require Import Base F64 F32 Number BTree Value Encode Own Deser DeserSpec Debug DeserText DeserTextSpec DeserTextProps.
Open Scope N_scope.

(** * C76  a value of the wrong kind *)
(** the text names what there is and what was wanted *)
Theorem C76_kind : forall plain f_text r k w, wants r = Some w -> has_name r k = true -> right_kind r k = false ->
  failure plain f_text r k = Some (s "custom error: invalid type: " ++ called plain f_text k ++ s ", expected " ++ w).
Proof. exact fails_kind. Qed.
Print Assumptions C76_kind.
(** so it tells values and wishes apart, whatever text is inside the text *)
Theorem C76_tells : forall plain f_text, no_tick f_text -> forall r r' k k' w w' t,
  wants r = Some w -> has_name r k = true -> right_kind r k = false -> failure plain f_text r k = Some t ->
  wants r' = Some w' -> has_name r' k' = true -> right_kind r' k' = false -> failure plain f_text r' k' = Some t ->
  w = w' /\ tells_same f_text k k'.
Proof. exact fails_tell. Qed.
Print Assumptions C76_tells.
(** the texts [Display] gives to floats are such texts *)
Theorem C76_floats : no_tick f_display.
Proof. exact display_no_tick. Qed.
Print Assumptions C76_floats.
(** an enum from a Kserd without an id, and from a tuple of the wrong length *)
Theorem C76_name : forall plain f_text a v, failure plain f_text (AskVariant a) (OKserd None v) = Some (s "custom error: enum but no identity is present").
Proof. exact fails_name. Qed.
Print Assumptions C76_name.
Theorem C76_length : forall plain f_text i l,
  (length l <> 1%nat -> failure plain f_text (AskVariant ANewtype) (OKserd (Some i) (OTuple l)) =
    Some (s "custom error: invalid length " ++ dec_of_N (N.of_nat (length l)) ++ s ", expected a tuple with a single element was expected")) /\
  (forall n, length l <> n -> failure plain f_text (AskVariant (ATuple n)) (OKserd (Some i) (OTuple l)) =
    Some (s "custom error: invalid length " ++ dec_of_N (N.of_nat (length l)) ++ s ", expected a tuple with " ++ dec_of_N (N.of_nat n) ++ s " element(s) was expected")).
Proof. exact (fun plain f_text i l => conj (fails_newtype plain f_text i l) (fun n => fails_tuple plain f_text i l n)). Qed.
Print Assumptions C76_length.
(** an integer from a number: no integer of 128 bits, or none of the type *)
Theorem C76_integer : forall plain f_text t i n, failure plain f_text (Ask (MInt t)) (OKserd i (ONum n)) =
  match (if ntype_signed t then as_i128 n else as_u128 n) with
  | None => Some (s "custom error: original number is outside integers range")
  | Some x => if in_ntype t x then None else Some (s "custom error: out of range integral type conversion attempted")
  end.
Proof. exact fails_int. Qed.
Print Assumptions C76_integer.

(** the tests of decoder.rs 573-720 *)
Definition ascii (c : char) : bool := (32 <=? c) && (c <? 127).
Definition one_1_01 : f64 := match num_from_str (s "1.01") with Some (Float x) => x | _ => FInf false end.
Definition fails := failure ascii f_display.
Definition kb (v : ovalue okserd) : okserd := OKserd None v.
Definition kt (v : ovalue okserd) : okserd := OKserd (Some (Borrowed (s "Test"))) v.
Example C76_char : fails (Ask MChar) (kb (OStr (Borrowed []))) = Some (s "custom error: invalid type: string """", expected char") /\
  fails (Ask MChar) (kb (ONum (Float one_1_01))) = Some (s "custom error: invalid type: floating point `1.01`, expected char").
Proof. split; vm_compute; reflexivity. Qed.
(** the tests call the methods of VariantAccess directly, so an id plays no part there *)
Example C76_variants :
  fails (AskVariant AUnit) (kt OUnit) = None /\
  fails (AskVariant AUnit) (kt (ONum (Int 3))) = Some (s "custom error: invalid type: integer `3`, expected unit enum variant") /\
  fails (AskVariant ANewtype) (kt (OTuple [kb OUnit; kb OUnit])) = Some (s "custom error: invalid length 2, expected a tuple with a single element was expected") /\
  fails (AskVariant ANewtype) (kt (ONum (Int 3))) = Some (s "custom error: invalid type: integer `3`, expected newtype enum variant") /\
  fails (AskVariant (ATuple 1)) (kt (OTuple [kb OUnit; kb OUnit])) = Some (s "custom error: invalid length 2, expected a tuple with 1 element(s) was expected") /\
  fails (AskVariant (ATuple 1)) (kt (ONum (Int 3))) = Some (s "custom error: invalid type: integer `3`, expected tuple enum variant") /\
  fails (AskVariant AStruct) (kt (ONum (Int 3))) = Some (s "custom error: invalid type: integer `3`, expected struct enum variant").
Proof. vm_compute. repeat split. Qed.
Example C76_kinds : Forall (fun e => has_name (AskVariant (ATuple 1)) (kt (fst e)) = true /\ right_kind (AskVariant (ATuple 1)) (kt (fst e)) = false /\
    fails (AskVariant (ATuple 1)) (kt (fst e)) = Some (s "custom error: invalid type: " ++ s (snd e) ++ s ", expected tuple enum variant"))
  [(OUnit, "unit value"); (OBool true, "boolean `true`"); (ONum (Uint 123), "integer `123`"); (ONum (Int (-123)), "integer `-123`"); (ONum (Float one_1_01), "floating point `1.01`");
   (OStr (Borrowed (s "Hello")), "string ""Hello"""); (OBarr (Borrowed [0; 1; 2]), "byte array"); (OCntr [(Borrowed (s "a"), kb OUnit)], "container"); (OSeq [], "sequence"); (OMap [], "map")]%string.
Proof. repeat (apply Forall_cons; [vm_compute; auto|]). apply Forall_nil. Qed.
(** a text which looks like the rest of an error is no problem *)
Example C76_quoted : fails (Ask (MInt Tu8)) (kb (OStr (Owned (s "a"", expected char")))) = Some (s "custom error: invalid type: string ""a\"", expected char"", expected u8") /\
  fails (Ask (MInt Tu8)) (kb (ONum (Uint 256))) = Some (s "custom error: out of range integral type conversion attempted") /\
  fails (Ask (MInt Tu8)) (kb (ONum (Float one_1_01))) = Some (s "custom error: original number is outside integers range").
Proof. vm_compute. repeat split. Qed.
(** integers over 64 bits are all called 0, and f32 and f64 both "$t" *)
Theorem C76_large_refuted : exists n n' : Z, n <> n' /\ forall plain f_text,
  failure plain f_text (Ask MChar) (kb (ONum (Uint n))) = failure plain f_text (Ask MChar) (kb (ONum (Uint n'))) /\ failure plain f_text (Ask MChar) (kb (ONum (Uint n))) <> None.
Proof. exists (2 ^ 64)%Z, 0%Z. split; [discriminate|]. intros plain f_text. split; [reflexivity|discriminate]. Qed.
Print Assumptions C76_large_refuted.
Theorem C76_float_refuted : forall plain f_text k, right_kind (Ask MF32) k = false -> failure plain f_text (Ask MF32) k = failure plain f_text (Ask MF64) k /\
  exists t, failure plain f_text (Ask MF32) k = Some (t ++ s ", expected $t").
Proof.
  intros plain f_text k K. rewrite (fails_kind plain f_text (Ask MF32) k (s "$t") eq_refl); [|now destruct k as [[]]|exact K].
  rewrite (fails_kind plain f_text (Ask MF64) k (s "$t") eq_refl); [|now destruct k as [[]]|exact K]. split; [reflexivity|].
  exists (s "custom error: invalid type: " ++ called plain f_text k). now rewrite <- !app_assoc.
Qed.
Print Assumptions C76_float_refuted.
