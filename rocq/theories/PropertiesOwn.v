(** Property theorem C53. *)
From Verif Require Import Base F64 F32 F32Spec Number NumberSpec BTree Value ValueSpec Parse ParseErr Encode EncodeSpec EncodeProps5 Own OwnSpec OwnProps OwnProps2 ValueProps2 OwnProps3.
Open Scope N_scope.

(** * C53  owned and borrowed data.  into_owned gives the same Kserd with
    everything owned, mk_brw the same with everything borrowed, and clone the
    same with the same ownership. *)
Theorem C53_into_owned : forall k : okserd, k_sorted (content k) = true -> content (o_into_owned k) = content k /\ all_owned (o_into_owned k) = true.
Proof. exact into_owned_same. Qed.
Print Assumptions C53_into_owned.
Theorem C53_mk_brw : forall k : okserd, k_sorted (content k) = true -> content (o_mk_brw k) = content k /\ all_brwed (o_mk_brw k) = true.
Proof. exact mk_brw_same. Qed.
Print Assumptions C53_mk_brw.
Theorem C53_clone : forall k : okserd, o_clone k = k.
Proof. exact o_clone_id. Qed.
Print Assumptions C53_clone.
(** to_mut and into_owned of a text or of bytes own it; to_mut changes it as told *)
Theorem C53_to_mut : forall (A : Type) (f : A -> A) (c : cow A),
  cow_get (cow_to_mut f c) = f (cow_get c) /\ is_owned (cow_to_mut f c) = true /\
  cow_get (cow_into_owned c) = cow_get c /\ is_owned (cow_into_owned c) = true.
Proof. exact @to_mut_spec. Qed.
Print Assumptions C53_to_mut.
(** encoding copies texts and bytes, and borrows the names of fields; reading
    borrows texts and names from the input and owns bytes *)
Theorem C53_encoded : forall (E : decls) (t : ty) (d : data) (k : okserd), enc_kserd E t d = Some k ->
  enc E t d = inr (content k) /\ parts_are is_brwed is_owned is_owned k = true.
Proof. exact encoded_parts. Qed.
Print Assumptions C53_encoded.
Theorem C53_read : forall (txt : str) (k : okserd), parse_owned txt = Some k ->
  parse txt = ParseOk (content k) /\ parts_are is_brwed is_brwed is_owned k = true.
Proof. exact read_parts. Qed.
Print Assumptions C53_read.

(** decoding to a type without references does not depend on who owns what *)
Theorem C53_owned_types : forall (E : odecls) (t : oty) (k k' : okserd),
  no_refs E t -> content k = content k' -> odec E t k = odec E t k' /\ odec E t k = dec (own_decls E) (own_ty t) (content k).
Proof. exact owned_types. Qed.
Print Assumptions C53_owned_types.
(** decoding to a type with references gives nothing else than the same type
    without references would *)
Theorem C53_sound : forall (E : odecls) (t : oty) (k : okserd) (d : data),
  odec E t k = Some d -> dec (own_decls E) (own_ty t) (content k) = Some d.
Proof. exact odec_sound. Qed.
Print Assumptions C53_sound.
(** and gives the same if all texts and bytes are borrowed and the references are
    &str, but not as the keys of maps *)
Theorem C53_borrowed : forall (E : odecls) (t : oty) (k : okserd),
  text_refs E t -> data_brwed k = true -> odec E t k = dec (own_decls E) (own_ty t) (content k).
Proof. exact odec_borrowed. Qed.
Print Assumptions C53_borrowed.
(** so after mk_brw, *)
Theorem C53_mk_brw_decodes : forall (E : odecls) (t : oty) (k : okserd),
  text_refs E t -> k_sorted (content k) = true -> odec E t (o_mk_brw k) = dec (own_decls E) (own_ty t) (content k).
Proof. exact mk_brw_decodes. Qed.
Print Assumptions C53_mk_brw_decodes.
(** for a text which has been read, unless it has byte arrays, *)
Theorem C53_parsed : forall (E : odecls) (t : oty) (txt : str) (k : okserd),
  parse_owned txt = Some k -> no_bytes (content k) = true -> text_refs E t -> odec E t k = dec (own_decls E) (own_ty t) (content k).
Proof. exact parsed_decodes. Qed.
Print Assumptions C53_parsed.
(** and for encoded values: encode, mk_brw, decode gives the value back *)
Theorem C53_round_trip : forall (E : odecls) (t : oty) (d : data),
  text_refs E t -> good_decls (own_decls E) -> has_type (own_decls E) (own_ty t) d = true -> f32s_kept d -> EncodeSpec.apart (own_decls E) (own_ty t) d ->
  exists k, enc_kserd (own_decls E) (own_ty t) d = Some k /\ odec E t (o_mk_brw k) = Some d.
Proof. exact borrowed_round_trip. Qed.
Print Assumptions C53_round_trip.

(** what can be decoded as &str and as &[u8] *)
Theorem C53_str : forall (E : odecls) (k : okserd) (d : data), odec E OtStr k = Some d <->
  (exists t, okval k = OStr (Borrowed t) /\ d = DString t) \/
  (exists b t, okval k = OBarr (Borrowed b) /\ from_utf8 b = Some t /\ d = DString t).
Proof. exact str_exact. Qed.
Print Assumptions C53_str.
Theorem C53_slice : forall (E : odecls) (k : okserd) (d : data), odec E OtSlice k = Some d <->
  (exists t, okval k = OStr (Borrowed t) /\ d = DBytes (utf8 t)) \/
  (exists b, okval k = OBarr (Borrowed b) /\ d = DBytes b).
Proof. exact slice_exact. Qed.
Print Assumptions C53_slice.

(** ** the conditions are met: a struct with a &str, a list of enum values which
    hold &str, and a map from String to &str *)
Definition E_own : odecls := fun n => if n =? 0
  then OdStruct (s "S") [(s "name", OtStr); (s "tags", OtVec (OtNamed 1)); (s "more", OtMap OtString OtStr)]
  else OdEnum [(s "A", OhUnit); (s "B", OhNewtype OtStr); (s "C", OhStruct [(s "x", OtOption OtStr)])].
Definition d_own : data := DRecord [DString (s "n"); DList [DVariant 0 DUnit; DVariant 1 (DString (s "b")); DVariant 2 (DRecord [DSome (DString [])])];
  DMap [(DString (s "k"), DString (s "v"))]].
Definition E_none : odecls := fun n => OdStruct (s "S") [(s "name", OtString); (s "rest", OtVec (OtNamed n))].
Example C53_case : text_refs E_own (OtNamed 0) /\ good_decls (own_decls E_own) /\ has_type (own_decls E_own) (TyNamed 0) d_own = true /\ f32s_kept d_own /\
  no_refs E_none (OtNamed 7) /\
  exists k, enc_kserd (own_decls E_own) (TyNamed 0) d_own = Some k /\ k_sorted (content k) = true /\ data_brwed k = false /\ odec E_own (OtNamed 0) k = None /\
    odec E_own (OtNamed 0) (o_mk_brw k) = Some d_own /\ all_owned k = false.
Proof.
  split; [split; [reflexivity|]; intros n; unfold E_own; now destruct (n =? 0)|]. split; [intros n; unfold own_decls, E_own; now destruct (n =? 0)|].
  split; [vm_compute; reflexivity|]. split; [exact (Forall_nil _)|]. split; [split; [reflexivity|]; intros n; reflexivity|].
  eexists. split; [vm_compute; reflexivity|]. split; [vm_compute; reflexivity|]. split; [vm_compute; reflexivity|]. split; [vm_compute; reflexivity|].
  split; vm_compute; reflexivity.
Qed.
Example C53_parsed_case : exists k, parse_owned (s "S (name = ""yes"", a = 1)") = Some k /\ no_bytes (content k) = true /\
  odec (fun _ => OdStruct (s "S") [(s "name", OtStr)]) (OtNamed 0) k = Some (DRecord [DString (s "yes")]).
Proof. eexists. split; [vm_compute; reflexivity|]. split; vm_compute; reflexivity. Qed.

(** ** where borrowing fails *)
(** a text which was encoded is owned, and is not decoded as &str without mk_brw *)
Theorem C53_owned_refuted : forall (E : odecls) (t : str),
  exists k, enc_kserd (own_decls E) TyString (DString t) = Some k /\ odec E OtString k = Some (DString t) /\ odec E OtStr k = None.
Proof. exact owned_text. Qed.
Print Assumptions C53_owned_refuted.
(** the names of a container are not decoded as &str, even after mk_brw *)
Theorem C53_names_refuted : forall (E : odecls) (k : okserd) (m : list (str * kserd)) (vt : oty),
  kval (content k) = VCntr m -> m <> [] -> odec E (OtMap OtStr vt) (o_mk_brw k) = None.
Proof. exact names_lost. Qed.
Print Assumptions C53_names_refuted.
Example C53_names_case : let k := Kserd None (VCntr [(s "a", new_str (s "x"))]) in
  dec (fun _ => DefUnit []) (TyMap TyString TyString) k = Some (DMap [(DString (s "a"), DString (s "x"))]) /\
  kval (content (enc_owned k)) = VCntr [(s "a", new_str (s "x"))] /\ k_sorted k = true.
Proof. vm_compute. auto. Qed.
(** bytes which were read are owned, and are not decoded as &[u8] *)
Theorem C53_bytes_refuted : exists txt k b, parse_owned txt = Some k /\ odec (fun _ => OdUnit []) OtBytes k = Some (DBytes b) /\ odec (fun _ => OdUnit []) OtSlice k = None.
Proof. exists (s "b91'fPNKd'"). do 2 eexists. split; [vm_compute; reflexivity|]. split; reflexivity. Qed.
Print Assumptions C53_bytes_refuted.
