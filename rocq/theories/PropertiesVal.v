(** Property theorems C09-C14 and C36: Kserd and Value
    (/repo/src/ds/kserd.rs, /repo/src/ds/val.rs).
    Specification vocabulary: ValueSpec.v, NumberSpec.v, OrdSpec.v. *)
From Verif Require Import Base F64 Number NumberSpec BTree Value ValueSpec ValueProps ValueProps2 OrdSpec OrdProps.
Open Scope N_scope.

Definition num (z : Z) : kserd := knew (VNum (Int z)).
Definition text (t : str) : kserd := knew (VStr t).
Definition ex_tree : kserd :=
  Kserd (Some (s "Foo")) (VCntr [(s "a", Kserd (Some (s "Vec")) (VSeq [num 1; num (-2)]));
                                 (s "b", knew (VMap [(text (s "k"), knew (VTuple []))]))]).

(** * C09  ids at any depth influence neither == nor cmp: two trees that agree
    after erasing all ids are interchangeable. *)
Theorem C09_ids_ignored : forall a a' b b' : kserd,
  erase a = erase a' -> erase b = erase b' ->
  k_eqb a b = k_eqb a' b' /\ k_cmp a b = k_cmp a' b'.
Proof. exact ids_ignored. Qed.
Print Assumptions C09_ids_ignored.

Theorem C09_erased_tree_equal : forall a : kserd, k_eqb a (erase a) = true /\ k_cmp a (erase a) = Eq.
Proof.
  exact (fun a => conj (eq_trans (eq_sym (proj1 (ids_ignored a a a (erase a) eq_refl (eq_sym (erase_erase a))))) (k_eqb_refl a))
                       (eq_trans (eq_sym (proj2 (ids_ignored a a a (erase a) eq_refl (eq_sym (erase_erase a))))) (k_cmp_refl a))).
Qed.
Print Assumptions C09_erased_tree_equal.

Example C09_case : erase ex_tree <> ex_tree /\ k_cmp ex_tree (num 1) = Gt.
Proof. vm_compute. split; [discriminate|reflexivity]. Qed.

(** * C10  cmp is reflexive and antisymmetric on all trees and transitive on
    trees whose numbers are ordinary. *)
Theorem C10_cmp_reflexive_antisymmetric : forall a b : kserd,
  k_cmp a a = Eq /\ k_cmp b a = CompOpp (k_cmp a b).
Proof. exact (fun a b => conj (k_cmp_refl a) (k_cmp_anti a b)). Qed.
Print Assumptions C10_cmp_reflexive_antisymmetric.

Theorem C10_cmp_transitive : forall a b c : kserd,
  k_ordinary a = true -> k_ordinary b = true -> k_ordinary c = true ->
  k_cmp a b <> Gt -> k_cmp b c <> Gt ->
  k_cmp a c <> Gt /\ (k_cmp a c = Eq -> k_cmp a b = Eq /\ k_cmp b c = Eq).
Proof. exact k_tr. Qed.
Print Assumptions C10_cmp_transitive.

Example C10_case : k_ordinary ex_tree = true /\ k_ordinary (num 5) = true.
Proof. vm_compute. auto. Qed.

(** which order it is: kinds, then the first difference (OrdSpec.v) *)
Theorem C10_order : forall a b : kserd,
  (k_cmp a b = Lt <-> before a b) /\ (k_cmp a b = Eq <-> alike a b).
Proof. exact order_spec. Qed.
Print Assumptions C10_order.

(** a list comes before its extensions, a container with a smaller name first *)
Example C10_order_case :
  before (knew (VSeq [num 1])) (knew (VSeq [num 1; num (-2)])) /\
  before (knew (VCntr [(s "a", num 9); (s "b", num 9)])) (Kserd (Some (s "I")) (VCntr [(s "ab", num 1)])) /\
  before (text (s "z")) (knew (VTuple [])) /\ alike ex_tree ex_tree.
Proof.
  split; [|split; [|split]].
  - eapply b_seq; [reflexivity|reflexivity|]. apply lex_later; [eapply a_num; reflexivity|constructor].
  - eapply b_cntr; [reflexivity|reflexivity|]. apply lex_now. left. apply lex_later; [reflexivity|constructor].
  - apply b_kind. unfold kind. cbn [kval text knew]. repeat constructor.
  - apply C10_order. vm_compute. reflexivity.
Qed.

Theorem C10_transitive_refuted : exists a b c : kserd,
  k_typed a = true /\ k_typed b = true /\ k_typed c = true /\
  k_cmp a b = Eq /\ k_cmp b c = Eq /\ k_cmp a c = Lt.
Proof.
  exists (knew (VSeq [knew (VNum (Float (FFin false (2 ^ 52) 76)))])),
         (knew (VSeq [knew (VNum (Uint u128_max))])),
         (knew (VSeq [knew (VNum (Float (FFin false (2 ^ 52) 900)))])).
  vm_compute. repeat split.
Qed.
Print Assumptions C10_transitive_refuted.

(** * C11  == is reflexive on all trees; on exact data it is the equivalence
    "cmp is Equal once empty containers count as empty tuples". *)
Theorem C11_equality_reflexive : forall a : kserd, k_eqb a a = true.
Proof. exact k_eqb_refl. Qed.
Print Assumptions C11_equality_reflexive.

Theorem C11_equality_is_cmp : forall a b : kserd,
  k_exact a = true -> k_exact b = true -> no_empty_cntr a = true -> no_empty_cntr b = true ->
  (k_eqb a b = true <-> k_cmp a b = Eq).
Proof. exact k_eqb_cmp_eq. Qed.
Print Assumptions C11_equality_is_cmp.

Theorem C11_equality_general : forall a b : kserd,
  k_exact a = true -> k_exact b = true ->
  (k_eqb a b = true <-> k_cmp (unify_empty a) (unify_empty b) = Eq).
Proof. exact k_eqb_unify. Qed.
Print Assumptions C11_equality_general.

Theorem C11_equality_equivalence : forall a b c : kserd,
  k_exact a = true -> k_exact b = true -> k_exact c = true ->
  k_eqb a b = k_eqb b a /\ (k_eqb a b = true -> k_eqb b c = true -> k_eqb a c = true).
Proof. exact (fun a b c A B C => conj (k_eqb_sym a b A B) (k_eqb_trans a b c A B C)). Qed.
Print Assumptions C11_equality_equivalence.

Example C11_case : k_exact ex_tree = true /\ no_empty_cntr ex_tree = true /\ k_eqb ex_tree (erase ex_tree) = true
  /\ k_eqb ex_tree (num 1) = false.
Proof. vm_compute. auto. Qed.

Theorem C11_empty_refuted : exists a b : kserd,
  k_exact a = true /\ k_exact b = true /\ k_eqb a b = true /\ k_cmp a b = Lt.
Proof. exists (knew (VTuple [])), (knew (VCntr [])). vm_compute. repeat split. Qed.
Print Assumptions C11_empty_refuted.

(** * C12  new_map and new_cntr: strictly sorted, last binding wins, nothing else. *)
Theorem C12_new_map : forall l : list (kserd * kserd),
  (forall e, In e l -> k_exact (fst e) = true /\ no_empty_cntr (fst e) = true) ->
  exists m, new_map l = VMap m /\ strictly_sorted k_cmp m = true /\
    (forall e, In e m -> In e l) /\
    (forall k, k_exact k = true /\ no_empty_cntr k = true -> bt_get k_cmp k m = last_value k_cmp k l).
Proof. exact (fun l H => map_of_spec l (proj2 (Forall_forall _ l) H)). Qed.
Print Assumptions C12_new_map.

Theorem C12_new_cntr_valid : forall l : list (str * kserd),
  forallb (fun e => good_name (fst e)) l = true ->
  exists m, new_cntr l = inr (VCntr m) /\ strictly_sorted str_cmp m = true /\
    (forall e, In e m -> In e l) /\
    (forall name, bt_get str_cmp name m = last_value str_cmp name l).
Proof. exact new_cntr_ok. Qed.
Print Assumptions C12_new_cntr_valid.

Theorem C12_new_cntr_invalid : forall l : list (str * kserd),
  forallb (fun e => good_name (fst e)) l = false -> exists e, new_cntr l = inl e.
Proof. exact new_cntr_err. Qed.
Print Assumptions C12_new_cntr_invalid.

Example C12_case :
  new_cntr [(s "b", num 1); (s "a", num 2); (s "b", num 3)] = inr (VCntr [(s "a", num 2); (s "b", num 3)])
  /\ new_map [(num 2, num 0); (num 1, num 5); (num 2, num 7)] = VMap [(num 1, num 5); (num 2, num 7)]
  /\ k_exact (num 2) = true /\ no_empty_cntr (num 2) = true
  /\ new_cntr [(s "a", num 1); (s "9a", num 2)] = inl NameDigit.
Proof. vm_compute. repeat split. Qed.

(** without the exclusion of empty containers among the keys a binding is lost:
    from_iter drops entries by ==, lookups use cmp *)
Theorem C12_empty_key_refuted : exists l k,
  k_exact k = true /\ (forall e, In e l -> k_exact (fst e) = true) /\
  exists m, new_map l = VMap m /\ last_value k_cmp k l <> None /\ bt_get k_cmp k m = None.
Proof.
  exists [(knew (VTuple []), num 1); (knew (VCntr []), num 2)], (knew (VTuple [])).
  split; [reflexivity|]. split; [intros e [<-|[<-|[]]]; reflexivity|].
  eexists. split; [reflexivity|]. vm_compute. split; [discriminate|reflexivity].
Qed.
Print Assumptions C12_empty_key_refuted.

(** * C13  with_id accepts exactly the ids without reserved characters. *)
Theorem C13_with_id : forall (id : str) (v : value kserd),
  with_id id v = if forallb (fun c => negb (mem c reserved)) id then inr (Kserd (Some id) v) else inl id.
Proof. exact with_id_spec. Qed.
Print Assumptions C13_with_id.

(** the constructors give the name of the Rust type as the id, and keep the value *)
Theorem C13_constructor_ids :
  (forall t n, new_int t n = Kserd (Some (int_type_name t)) (VNum (int_value t n))) /\
  (forall x, new_f64 x = Kserd (Some (s "f64")) (VNum (Float x))) /\
  (forall b, new_bool b = Kserd (Some (s "bool")) (VBool b)) /\
  (forall t, new_str t = Kserd (Some (s "str")) (VStr t) /\ new_string t = Kserd (Some (s "String")) (VStr t)) /\
  (forall b, new_barr b = Kserd (Some (s "barr")) (VBarr b) /\ new_barrv b = Kserd (Some (s "ByteVec")) (VBarr b)) /\
  new_unit = Kserd None VUnit.
Proof. exact constructor_ids. Qed.
Print Assumptions C13_constructor_ids.
(** these ids are ones which with_id takes, and those of integer types are all different *)
Theorem C13_constructor_ids_valid : forall t v,
  Forall (fun i => with_id i v = inr (Kserd (Some i) v)) [int_type_name t; s "f64"; s "f32"; s "bool"; s "str"; s "String"; s "barr"; s "ByteVec"]
  /\ forall u, int_type_name t = int_type_name u -> t = u.
Proof. exact (fun t v => conj (constructor_ids_valid t v) (int_names_apart t)). Qed.
Print Assumptions C13_constructor_ids_valid.
Example C13_names : int_type_name Tu128 = s "u128" /\ int_type_name Tisize = s "isize" /\ int_type_name Ti8 = s "i8".
Proof. vm_compute. auto. Qed.

Example C13_case : reserved = s "(){}[]<> ,./\=" /\ with_id (s "a-b:c") VUnit = inr (Kserd (Some (s "a-b:c")) VUnit)
  /\ with_id (s "a=") VUnit = inl (s "a=").
Proof. vm_compute. auto. Qed.

(** * C14  clone, into_owned and mk_brw change nothing. *)
Theorem C14_clone : forall k : kserd, k_clone k = k.
Proof. exact k_clone_id. Qed.
Print Assumptions C14_clone.
Theorem C14_into_owned_mk_brw : forall k : kserd, k_sorted k = true -> into_owned k = k /\ mk_brw k = k.
Proof. exact (fun k H => conj (into_owned_id k H) (mk_brw_id k H)). Qed.
Print Assumptions C14_into_owned_mk_brw.
Example C14_case : k_sorted ex_tree = true.
Proof. reflexivity. Qed.

(** * C36  accessors answer by kind. *)
Theorem C36_accessors : forall v : value kserd,
  (v_unit v = true <-> v = VUnit) /\
  (forall x, v_bool v = Some x <-> v = VBool x) /\
  (forall x, v_ch v = Some x <-> v = VStr [x]) /\
  (forall x, v_uint v = Some x <-> exists n, v = VNum n /\ as_u128 n = Some x) /\
  (forall x, v_int v = Some x <-> exists n, v = VNum n /\ as_i128 n = Some x) /\
  (forall x, v_float v = Some x <-> exists n, v = VNum n /\ as_f64 n = x) /\
  (forall x, v_num v = Some x <-> v = VNum x) /\
  (forall x, v_str v = Some x <-> v = VStr x) /\
  (forall x, v_barr v = Some x <-> v = VBarr x) /\
  (forall x, v_tuple v = Some x <-> v = VTuple x) /\
  (forall x, v_cntr v = Some x <-> v = VCntr x) /\
  (forall x, v_seq v = Some x <-> v = VSeq x) /\
  (forall x, v_tuple_or_seq v = Some x <-> v = VTuple x \/ v = VSeq x) /\
  (forall x, v_map v = Some x <-> v = VMap x).
Proof. exact accessors_by_kind. Qed.
Print Assumptions C36_accessors.

Theorem C36_field_lookup : forall (m : list (str * kserd)) (name : str),
  strictly_sorted str_cmp m = true ->
  (get_unit m name = Some tt <-> exists k, In (name, k) m /\ kval k = VUnit) /\
  (forall x, get_bool m name = Some x <-> exists k, In (name, k) m /\ kval k = VBool x) /\
  (forall x, get_num m name = Some x <-> exists k, In (name, k) m /\ kval k = VNum x) /\
  (forall x, get_str m name = Some x <-> exists k, In (name, k) m /\ kval k = VStr x) /\
  (forall x, get_barr m name = Some x <-> exists k, In (name, k) m /\ kval k = VBarr x) /\
  (forall x, get_tuple m name = Some x <-> exists k, In (name, k) m /\ kval k = VTuple x) /\
  (forall x, get_seq m name = Some x <-> exists k, In (name, k) m /\ kval k = VSeq x) /\
  (forall x, get_tuple_or_seq m name = Some x <-> exists k, In (name, k) m /\ (kval k = VTuple x \/ kval k = VSeq x)) /\
  (forall x, get_cntr m name = Some x <-> exists k, In (name, k) m /\ kval k = VCntr x) /\
  (forall x, get_map m name = Some x <-> exists k, In (name, k) m /\ kval k = VMap x).
Proof. exact field_lookup. Qed.
Print Assumptions C36_field_lookup.

Example C36_case :
  let m := [(s "a", knew (VStr (s "x"))); (s "b", num 2)] in
  strictly_sorted str_cmp m = true /\ get_str m (s "a") = Some (s "x") /\ get_num m (s "a") = None
  /\ get_num m (s "b") = Some (Int 2) /\ get_num m (s "c") = None.
Proof. vm_compute. repeat split. Qed.
