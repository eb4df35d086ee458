(** The Encoder under any [Serialize] implementation (C55).  [typed], [gave],
    [gave_map], [gave_fields], [holds] and [paired] are in SerSpec.v. *)
From Verif Require Import Base F64 F32 Number NumberSpec BTree Value ValueSpec Encode EncodeSpec Ser SerSpec SerProps PropertiesEnc.
Open Scope N_scope.

(** a result is a valid Kserd: every id is one [with_id] accepts, numbers and bytes
    are in range, containers are sorted, and maps are if their keys order *)
Theorem C55_valid : forall p k, typed p -> run p = SOk k ->
  k_all id_node k = true /\ k_all typed_node k = true /\ k_all cntr_node k = true /\ k_all map_node k = true.
Proof. exact run_valid. Qed.
Print Assumptions C55_valid.
(** no sequence of calls makes the Encoder panic *)
Theorem C55_no_panic : forall p, typed p -> run p <> SPanic.
Proof. exact run_no_panic. Qed.
Print Assumptions C55_no_panic.

(** the calls which give one value: collect_str gives what serialize_str gives, and
    an Option or unit gives its tuple or the unit *)
Theorem C55_single :
  (forall b, run (SBool b) = SOk (Kserd (Some (s "bool")) (VBool b))) /\
  (forall t n, run (SInt t n) = SOk (Kserd (Some (int_type_name t)) (VNum (int_value t n)))) /\
  (forall x, run (SF64 x) = SOk (Kserd (Some (s "f64")) (VNum (Float x)))) /\
  (forall c, run (SChar c) = SOk (Kserd (Some (s "char")) (VStr [c]))) /\
  (forall t, run (SStr t) = SOk (Kserd (Some (s "str")) (VStr t)) /\ run (SCollectStr t) = run (SStr t)) /\
  (forall b, run (SBytes b) = SOk (Kserd (Some (s "barr")) (VBarr b))) /\
  run SUnit = SOk (Kserd None VUnit) /\ run SNone = SOk (Kserd (Some (s "None")) (VTuple [])) /\
  (forall p k, run (SSome p) = SOk k <-> exists x, run p = SOk x /\ k = Kserd (Some (s "Some")) (VTuple [x])) /\
  (forall p e, run (SSome p) = SErr e <-> run p = SErr e).
Proof. exact single_calls. Qed.
Print Assumptions C55_single.
(** unit structs and variants: an empty tuple with the name, if it can be an id *)
Theorem C55_unit : forall p n, p = SUnitStruct n \/ p = SUnitVariant n ->
  run p = if id_name n then SOk (Kserd (Some n) (VTuple [])) else SErr (InvalidId n).
Proof. exact unit_calls. Qed.
Print Assumptions C55_unit.

(** sequences and tuples: the values which were serialised, in order; an element
    which failed leaves no trace *)
Theorem C55_seq : forall c,
  (forall k, run (SSeq c) = SOk k <-> exists ks, gave c ks None /\ k = Kserd None (VSeq ks)) /\
  (forall e, run (SSeq c) = SErr e <-> exists ks, gave c ks (Some e)).
Proof. exact (fun c => conj (seq_ok c) (seq_err c)). Qed.
Print Assumptions C55_seq.
Theorem C55_tuple : forall c,
  (forall k, run (STuple c) = SOk k <-> exists ks, gave c ks None /\ k = Kserd None (VTuple ks)) /\
  (forall e, run (STuple c) = SErr e <-> exists ks, gave c ks (Some e)).
Proof. exact (fun c => conj (tuple_ok c) (tuple_err c)). Qed.
Print Assumptions C55_tuple.
(** tuple structs and variants: the name is checked before anything is serialised *)
Theorem C55_named_tuple : forall p n c, p = STupleStruct n c \/ p = STupleVariant n c ->
  (forall k, run p = SOk k <-> id_name n = true /\ exists ks, gave c ks None /\ k = Kserd (Some n) (VTuple ks)) /\
  (forall e, run p = SErr e <-> (id_name n = false /\ e = InvalidId n) \/ (id_name n = true /\ exists ks, gave c ks (Some e))).
Proof. exact (fun p n c H => conj (fun k => named_tuple_ok p n c k H) (fun e => named_tuple_err p n c e H)). Qed.
Print Assumptions C55_named_tuple.
(** newtype structs and variants: it is checked after *)
Theorem C55_newtype : forall p n q, p = SNewtypeStruct n q \/ p = SNewtypeVariant n q ->
  (forall k, run p = SOk k <-> id_name n = true /\ exists x, run q = SOk x /\ k = Kserd (Some n) (VTuple [x])) /\
  (forall e, run p = SErr e <-> run q = SErr e \/ (succeeds q /\ id_name n = false /\ e = InvalidId n)).
Proof. exact (fun p n q H => conj (fun k => newtype_ok p n q k H) (fun e => newtype_err p n q e H)). Qed.
Print Assumptions C55_newtype.
(** structs: each field has the last value given under its name *)
Theorem C55_struct : forall p n c, p = SStruct n c \/ p = SStructVariant n c ->
  (forall k, run p = SOk k <-> id_name n = true /\ exists fs m, gave_fields c fs None /\ k = Kserd (Some n) (VCntr m) /\ holds str_cmp m fs) /\
  (forall e, run p = SErr e <-> (id_name n = false /\ e = InvalidId n) \/ (id_name n = true /\ exists fs, gave_fields c fs (Some e))).
Proof. exact (fun p n c H => conj (fun k => struct_iff' p n c k H) (fun e => struct_err p n c e H)). Qed.
Print Assumptions C55_struct.
(** maps: each key has the last value given for an equal key *)
Theorem C55_map : forall c k, (forall es, gave_map None c es None -> Forall (fun e => k_ordinary (fst e) = true) es) ->
  (run (SMap c) = SOk k <-> exists es m, gave_map None c es None /\ k = Kserd None (VMap m) /\ holds k_cmp m es).
Proof. exact map_iff. Qed.
Print Assumptions C55_map.
Theorem C55_map_error : forall c e, run (SMap c) = SErr e <-> exists es, gave_map None c es (Some e).
Proof. exact map_err. Qed.
Print Assumptions C55_map_error.
(** an implementation which stops at the first error, and whose keys and values can
    all be serialised, fails iff it gives a value without a key *)
Theorem C55_no_key : forall l, Forall succeeds (flat_map map_call_args l) ->
  (paired false l = true -> succeeds (SMap (all_entries l))) /\
  (paired false l = false -> run (SMap (all_entries l)) = SErr NoKeyAvailable).
Proof. exact (fun l H => conj (paired_ok l H) (paired_err l H)). Qed.
Print Assumptions C55_no_key.

(** derived implementations and those of the standard types, call by call, give what
    the model of C32 and C40 says *)
Theorem C55_derived : forall E t d, has_type E t d = true -> run (derive E t d) = as_sres (enc E t d).
Proof. exact derived. Qed.
Print Assumptions C55_derived.

(** the hypotheses are met *)
Definition str_of (t : string) : ser := SStr (s t).
(** an implementation which skips the elements that fail *)
Definition lenient : ser := SSeq (ElCall (SBool true) (fun _ => ElCall (SUnitStruct (s "a b")) (fun r => match r with Some _ => ElCall (SInt Tu8 7%Z) (fun _ => ElEnd) | None => ElEnd end))).
Example C55_seq_case : typed lenient /\ run lenient = SOk (Kserd None (VSeq [new_bool true; new_int Tu8 7])).
Proof. split; [cbn; repeat (split || intros [] || intros); exact Logic.I|vm_compute; reflexivity]. Qed.
Definition fields_case : ser := SStruct (s "P") (all_fields [(s "y", SInt Ti32 1%Z); (s "x", SUnit); (s "y", SInt Ti32 2%Z)]).
Example C55_struct_case : run fields_case = SOk (Kserd (Some (s "P")) (VCntr [(s "x", new_unit); (s "y", new_int Ti32 2)])) /\
  run (SStruct (s "P,") (all_fields [(s "x", SCustom (s "no"))])) = SErr (InvalidId (s "P,")) /\
  run (SNewtypeStruct (s "P,") (SCustom (s "no"))) = SErr (Message (s "no")).
Proof. vm_compute. repeat split. Qed.
Definition calls_case : list map_call := [Key (str_of "b"); Entry (str_of "a") SUnit; Val (SBool true)].
Example C55_map_case : Forall succeeds (flat_map map_call_args calls_case) /\ paired false calls_case = true /\
  run (SMap (all_entries calls_case)) = SOk (Kserd None (VMap [(new_str (s "a"), new_unit); (new_str (s "b"), new_bool true)])) /\
  run (SMap (all_entries (calls_case ++ [Val SUnit]))) = SErr NoKeyAvailable.
Proof. split; [repeat constructor; eexists; reflexivity|]. vm_compute. repeat split. Qed.
Example C55_derived_case : has_type decls0 (TyNamed 1) poly = true /\ exists k, run (derive decls0 (TyNamed 1) poly) = SOk k /\ dec decls0 (TyNamed 1) k = Some poly.
Proof. split; [reflexivity|]. eexists. split; [vm_compute; reflexivity|]. vm_compute. reflexivity. Qed.

(** a key without a value is not an error: it is dropped *)
Theorem C55_dropped_key_refuted : exists p q v, q <> p /\ succeeds p /\
  run (SMap (all_entries [Key p; Key q; Val v])) = run (SMap (all_entries [Key q; Val v])) /\
  run (SMap (all_entries [Key p])) = SOk (Kserd None (VMap [])).
Proof. exists (str_of "a"), (str_of "b"), SUnit. split; [discriminate|]. split; [eexists; reflexivity|]. split; reflexivity. Qed.
Print Assumptions C55_dropped_key_refuted.
(** when the value fails its key is lost: the value cannot be given again *)
Theorem C55_retry_refuted : exists k v f, succeeds k /\ succeeds v /\ (forall e, f (Some e) <> EnRaise e) /\
  run (SMap (EnKey k (fun _ => EnValue (SCustom (s "busy")) f))) = SErr NoKeyAvailable /\
  f (Some (Message (s "busy"))) = EnValue v (fun r => match r with None => EnEnd | Some e => EnRaise e end).
Proof.
  exists (str_of "a"), SUnit, (fun r => EnValue SUnit (fun r => match r with None => EnEnd | Some e => EnRaise e end)).
  split; [eexists; reflexivity|]. split; [eexists; reflexivity|]. split; [discriminate|]. split; reflexivity.
Qed.
Print Assumptions C55_retry_refuted.
(** field names are not checked: the container has a name which [new_cntr] refuses *)
Theorem C55_field_names_refuted : exists p k m, run p = SOk k /\ kval k = VCntr m /\ forallb (fun e => good_name (fst e)) m = false /\ (exists c, new_cntr m = inl c).
Proof. exists (SStruct (s "P") (all_fields [(s "a b", SUnit)])). do 2 eexists. split; [vm_compute; reflexivity|]. split; [reflexivity|]. split; [reflexivity|]. eexists. vm_compute. reflexivity. Qed.
Print Assumptions C55_field_names_refuted.
