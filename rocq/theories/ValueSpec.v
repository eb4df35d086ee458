(** What the properties of values are stated against. *)
From Verif Require Import Base F64 Number NumberSpec BTree Value.
Open Scope N_scope.

(** a test holds at every node of the tree (map keys included) *)
Fixpoint k_all (p : kserd -> bool) (k : kserd) : bool :=
  p k &&
  match k with
  | Kserd _ v =>
      match v with
      | VTuple l | VSeq l => forallb (k_all p) l
      | VCntr m => forallb (fun e => k_all p (snd e)) m
      | VMap m => forallb (fun e => k_all p (fst e) && k_all p (snd e)) m
      | _ => true
      end
  end.

(** the tree with every id removed *)
Fixpoint erase (k : kserd) : kserd :=
  match k with
  | Kserd _ v =>
      Kserd None (match v with
        | VTuple l => VTuple (map erase l)
        | VCntr m => VCntr (map (fun e => (fst e, erase (snd e))) m)
        | VSeq l => VSeq (map erase l)
        | VMap m => VMap (map (fun e => (erase (fst e), erase (snd e))) m)
        | VUnit => VUnit | VBool b => VBool b | VNum n => VNum n | VStr t => VStr t | VBarr b => VBarr b
        end)
  end.

(** every number of the tree is ordinary / exact (NumberSpec.v) *)
Definition num_node (p : number -> bool) (k : kserd) : bool :=
  match kval k with VNum n => p n | _ => true end.
Definition k_ordinary : kserd -> bool := k_all (num_node ordinary).
Definition k_exact : kserd -> bool := k_all (num_node exact).

(** the tree with every empty container replaced by an empty tuple *)
Fixpoint unify_empty (k : kserd) : kserd :=
  match k with
  | Kserd id v =>
      Kserd id (match v with
        | VTuple l => VTuple (map unify_empty l)
        | VCntr [] => VTuple []
        | VCntr m => VCntr (map (fun e => (fst e, unify_empty (snd e))) m)
        | VSeq l => VSeq (map unify_empty l)
        | VMap m => VMap (map (fun e => (unify_empty (fst e), unify_empty (snd e))) m)
        | VUnit => VUnit | VBool b => VBool b | VNum n => VNum n | VStr t => VStr t | VBarr b => VBarr b
        end)
  end.
Definition not_empty_cntr (k : kserd) : bool := match kval k with VCntr [] => false | _ => true end.
Definition no_empty_cntr : kserd -> bool := k_all not_empty_cntr.

(** every earlier key is less than every later key *)
Fixpoint strictly_sorted {K V} (cmp : K -> K -> comparison) (m : list (K * V)) : bool :=
  match m with
  | [] => true
  | e :: m' =>
      forallb (fun e' => match cmp (fst e) (fst e') with Lt => true | _ => false end) m' && strictly_sorted cmp m'
  end.

(** the value bound to [k] by the last entry whose key equals it *)
Definition last_value {K V} (cmp : K -> K -> comparison) (k : K) (l : list (K * V)) : option V :=
  option_map snd (find (fun e => match cmp k (fst e) with Eq => true | _ => false end) (rev l)).

(** what a Rust BTreeMap guarantees: keys strictly ascending *)
Definition sorted_node (k : kserd) : bool :=
  match kval k with
  | VCntr m => strictly_sorted str_cmp m
  | VMap m => strictly_sorted k_cmp m
  | _ => true
  end.
Definition k_sorted : kserd -> bool := k_all sorted_node.

(** what the Rust types guarantee *)
Definition typed_node (k : kserd) : bool :=
  match kval k with
  | VNum n => num_wf n
  | VBarr b => forallb (fun x => x <? 256) b
  | _ => true
  end.
Definition k_typed : kserd -> bool := k_all typed_node.

(** a name new_cntr accepts *)
Definition good_name (t : str) : bool :=
  match t with
  | [] => false
  | c :: _ => negb (is_digit c)
  end
  && forallb (fun c => negb (mem c [32; 47; 92; 34; 9; 39])) t.

(** the characters with_id refuses, by code *)
Definition reserved : str := [40; 41; 123; 125; 91; 93; 60; 62; 32; 44; 46; 47; 92; 61].

(** the numbers in the keys of maps are exact; so they are when there are no
    floats in keys, as in Kserds of Rust values *)
Definition keys_exact (k : kserd) : bool := match kval k with VMap m => forallb (fun e => k_exact (fst e)) m | _ => true end.
Definition key_numbers (k : kserd) : bool := k_all keys_exact k.

(** the name of a Rust integer type: i or u, then size or the bits in decimal *)
Definition int_type_name (t : ntype) : str :=
  (if (ntype_min t <? 0)%Z then s "i" else s "u")
  ++ match t with
     | Tusize | Tisize => s "size"
     | _ => dec_of_N (Z.to_N (Z.log2 (ntype_max t - ntype_min t + 1)))
     end.
(** the value a Rust integer becomes: Int for the signed types *)
Definition int_value (t : ntype) (n : Z) : number := if (ntype_min t <? 0)%Z then Int n else Uint n.
