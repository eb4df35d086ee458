(** Property C73: encoded values are ordered as the values. *)
From Verif Require Import Base F64 Number BTree Value Encode EncodeSpec EncOrdSpec EncodeProps EncOrdProps.
Open Scope N_scope.

(** for values without enums and floats, and structs whose fields are declared in the
    order of their names: comparing the Kserds of two values gives what the derived
    [Ord] says about the values *)
Theorem C73_order : forall E t d d' a b, alphabetical E ->
  has_type E t d = true -> has_type E t d' = true -> has_ord d = true -> has_ord d' = true -> no_variant d = true -> no_variant d' = true ->
  enc E t d = inr a -> enc E t d' = inr b -> k_cmp a b = d_cmp d d'.
Proof. exact (fun E t d d' a b AL T T' O O' V V' => order_kept E AL t d d' a b (conj T (conj O V)) (conj T' (conj O' V'))). Qed.
Print Assumptions C73_order.
(** hence different values are never taken to be equal *)
Theorem C73_equal : forall E t d d' a b, alphabetical E ->
  has_type E t d = true -> has_type E t d' = true -> has_ord d = true -> has_ord d' = true -> no_variant d = true -> no_variant d' = true ->
  enc E t d = inr a -> enc E t d' = inr b -> (k_cmp a b = Eq <-> d = d').
Proof.
  exact (fun E t d d' a b AL T T' O O' V V' A B =>
    let K := order_kept E AL t d d' a b (conj T (conj O V)) (conj T' (conj O' V')) A B in
    conj (fun Q => d_cmp_same d d' O (eq_trans (eq_sym K) Q))
         (fun Q => eq_trans K (eq_ind d (fun x => d_cmp d x = Eq) (d_cmp_refl d) d' Q))).
Qed.
Print Assumptions C73_equal.
(** and the entries of a map stay in the order of the BTreeMap, none is lost; the values
    of the entries can be of any type *)
Theorem C73_map : forall E kt vt m k, alphabetical E ->
  has_type E (TyMap kt vt) (DMap m) = true -> forallb no_variant (map fst m) = true -> enc E (TyMap kt vt) (DMap m) = inr k ->
  exists es, kval k = VMap es /\ Forall2 (fun e f => enc E kt (fst e) = inr (fst f) /\ enc E vt (snd e) = inr (snd f)) m es.
Proof. exact (fun E kt vt m k AL => map_kept E AL kt vt m k). Qed.
Print Assumptions C73_map.

(** the cases *)
Definition shelf : decls := fun n =>
  match n with
  | 0 => DefStruct (s "Book") [(s "author", TyOption TyString); (s "title", TyString); (s "year", TyInt Ti16)]
  | 1 => DefTuple (s "Place") [TyInt Tu8; TyVec (TyNamed 0)]
  | _ => DefNewtype (s "Shelf") (TyMap (TyNamed 0) TyF64)
  end.
Definition book (a : option string) (t : string) (y : Z) : data := DRecord [match a with Some a => DSome (DString (s a)) | None => DNone end; DString (s t); DInt y].
Definition order_of (t : ty) (d d' : data) : option comparison :=
  match enc shelf t d, enc shelf t d' with inr a, inr b => Some (k_cmp a b) | _, _ => None end.
Example C73_case :
  alphabetical shelf /\
  has_type shelf (TyNamed 1) (DList [DInt 3%Z; DList [book None "z" (-5); book (Some "Q"%string) "a" 7]]) = true /\
  map (fun '(d, d') => (order_of (TyNamed 1) d d', d_cmp d d'))
    [(DList [DInt 3%Z; DList [book None "z" (-5)]], DList [DInt 3%Z; DList [book (Some "Q"%string) "a" 7]]);
     (DList [DInt 3%Z; DList [book (Some "Q"%string) "b" 7]], DList [DInt 3%Z; DList [book (Some "Q"%string) "a" 7; book None "" 0]]);
     (DList [DInt 3%Z; DList [book (Some "Q"%string) "a" 7]], DList [DInt 3%Z; DList [book (Some "Q"%string) "a" 7]])] =
    [(Some Lt, Lt); (Some Gt, Gt); (Some Eq, Eq)] /\
  has_type shelf (TyMap (TyNamed 0) TyUnit) (DMap [(book None "z" (-5), DUnit); (book (Some "Q"%string) "a" 7, DUnit)]) = true.
Proof.
  split; [|vm_compute; repeat split; reflexivity].
  intros n name fs H. destruct n as [|[p|p|]]; try discriminate H. injection H as _ <-. reflexivity.
Qed.

(** a struct whose fields are declared in another order: the values and the Kserds are
    ordered differently *)
Theorem C73_fields_refuted : exists E d d' a b,
  has_type E (TyNamed 0) d = true /\ has_type E (TyNamed 0) d' = true /\ no_variant d = true /\ no_variant d' = true /\ has_ord d = true /\ has_ord d' = true /\
  enc E (TyNamed 0) d = inr a /\ enc E (TyNamed 0) d' = inr b /\ d_cmp d d' = Lt /\ k_cmp a b = Gt.
Proof.
  exists (fun _ => DefStruct (s "Version") [(s "major", TyInt Tu8); (s "build", TyInt Tu8)]), (DRecord [DInt 1%Z; DInt 9%Z]), (DRecord [DInt 2%Z; DInt 3%Z]).
  do 2 eexists. repeat split; vm_compute; reflexivity.
Qed.
Print Assumptions C73_fields_refuted.
(** enums: ids are not compared, so the contents of the variants decide *)
Theorem C73_enum_refuted : exists E d d' a b,
  has_type E (TyNamed 0) d = true /\ has_type E (TyNamed 0) d' = true /\ has_ord d = true /\ has_ord d' = true /\
  enc E (TyNamed 0) d = inr a /\ enc E (TyNamed 0) d' = inr b /\ d_cmp d d' = Lt /\ k_cmp a b = Gt.
Proof.
  exists (fun _ => DefEnum [(s "Minutes", ShNewtype (TyInt Tu8)); (s "Hours", ShNewtype (TyInt Tu8))]), (DVariant 0 (DInt 30%Z)), (DVariant 1 (DInt 2%Z)).
  do 2 eexists. repeat split; vm_compute; reflexivity.
Qed.
Print Assumptions C73_enum_refuted.
