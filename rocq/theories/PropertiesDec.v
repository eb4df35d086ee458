(** Property C44: what each type is decoded from. *)
From Verif Require Import Base F64 F32 Number BTree Value Encode EncodeSpec PropertiesEnc DecodeSpec DecodeProps DecodeProps2.
Open Scope N_scope.

(** * C44  for every type, exactly the Kserds of its rule are decoded, to the value
    of the rule; whatever the rule does not have is an error *)
Theorem C44_rules : forall E t k d, dec E t k = Some d <-> rule E (fun t k d => dec E t k = Some d) t k d.
Proof. exact dec_rules. Qed.
Print Assumptions C44_rules.
(** the rules determine decoding: nothing else follows them *)
Theorem C44_only : forall E (R : ty -> kserd -> data -> Prop), (forall t k d, R t k d <-> rule E R t k d) ->
  forall k t d, dec E t k = Some d <-> R t k d.
Proof. exact dec_only. Qed.
Print Assumptions C44_only.
(** a text for a Vec<u8> gives its UTF-8; bytes for a String have to be UTF-8 *)
Theorem C44_utf8 : forall t, forallb scalar t = true -> utf8_text t (utf8 t).
Proof. exact utf8_encodes. Qed.
Print Assumptions C44_utf8.
Theorem C44_from_utf8 : forall E i b t, dec E TyString (Kserd i (VBarr b)) = Some (DString t) <-> utf8_text t b.
Proof.
  intros E i b t. rewrite dec_rules. cbn [rule kval]. split.
  - intros (u & [= <-] & [V|(c & [= <-] & U)]); [discriminate V|exact U].
  - intros U. exists t. split; [reflexivity|]. right. exists b. auto.
Qed.
Print Assumptions C44_from_utf8.

(** accepted and rejected, for the types of the examples *)
Example C44_case :
  dec decls0 TyChar (new_str [120]) = Some (DChar 120) /\ dec decls0 TyChar (new_str (s "xy")) = None /\ dec decls0 TyChar (new_str []) = None /\
  dec decls0 (TyVec TyBool) (Kserd None (VSeq [new_bool true; new_unit; new_bool false])) = None /\
  dec decls0 (TyVec TyBool) (Kserd None (VTuple [new_bool true; new_bool false])) = Some (DList [DBool true; DBool false]) /\
  dec decls0 (TyNamed 1) (Kserd (Some (s "Empty")) VUnit) = Some (DVariant 0 DUnit) /\
  dec decls0 (TyNamed 1) (Kserd (Some (s "Empty")) (VTuple [new_unit])) = None /\
  dec decls0 (TyNamed 1) (Kserd None VUnit) = None /\
  dec decls0 (TyNamed 5) (Kserd None VUnit) = None /\ dec decls0 (TyNamed 5) (Kserd None (VTuple [])) = Some DUnit /\
  dec decls0 (TyOption TyBool) new_unit = Some DNone /\ dec decls0 (TyOption TyBool) (new_bool true) = None /\
  dec decls0 (TyNamed 3) (Kserd None (VMap [(new_int Tu64 (2 ^ 64 - 1), new_unit); (new_int Tu8 0, Kserd None (VSeq []))])) = Some (DRecord [DList []]) /\
  dec decls0 (TyNamed 3) (Kserd None (VMap [(new_int Tu128 (2 ^ 64), new_unit); (new_int Tu8 0, Kserd None (VSeq []))])) = None /\
  dec decls0 TyBytes (new_str [8364; 97]) = Some (DBytes [226; 130; 172; 97]) /\
  dec decls0 TyString (Kserd None (VBarr [226; 130; 172; 97])) = Some (DString [8364; 97]) /\
  dec decls0 TyString (Kserd None (VBarr [226; 130])) = None /\ dec decls0 TyString (Kserd None (VBarr [192; 128])) = None.
Proof. vm_compute. repeat split. Qed.
