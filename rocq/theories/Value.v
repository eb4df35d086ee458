(** Model of /repo/src/ds/val.rs and /repo/src/ds/kserd.rs.

    Lifetimes and Cow are erased: owned and borrowed text are the same text. *)
From Verif Require Import Base F64 Number BTree.
Open Scope N_scope.

(** ds/val.rs 39-81.  List = Vec<Kserd>, Fields = BTreeMap<Kstr, Kserd>,
    Map = BTreeMap<Kserd, Kserd> (ds/mod.rs). The type of the children is a
    parameter so that the tree is one inductive type. *)
Inductive value (K : Type) : Type :=
| VUnit
| VBool (b : bool)
| VNum (n : number)
| VStr (t : str)
| VBarr (bs : list N)
| VTuple (l : list K)
| VCntr (m : list (str * K))
| VSeq (l : list K)
| VMap (m : list (K * K)).
Arguments VUnit {K}.
Arguments VBool {K} b.
Arguments VNum {K} n.
Arguments VStr {K} t.
Arguments VBarr {K} bs.
Arguments VTuple {K} l.
Arguments VCntr {K} m.
Arguments VSeq {K} l.
Arguments VMap {K} m.

(** ds/kserd.rs 44-57 *)
Inductive kserd : Type := Kserd (id : option str) (val : value kserd).
(** ds/kserd.rs 278-280 *)
Definition kid (k : kserd) : option str := let 'Kserd i _ := k in i.
(** ds/kserd.rs 56, the public field, and deref 285-287 *)
Definition kval (k : kserd) : value kserd := let 'Kserd _ v := k in v.

(** children in data order: map keys before their values *)
Definition entry_list {A} (m : list (A * A)) : list A := flat_map (fun e => [fst e; snd e]) m.
(** the Kserds directly inside a value: ds/val.rs 40-81 *)
Definition vchildren (v : value kserd) : list kserd :=
  match v with
  | VTuple l | VSeq l => l
  | VCntr m => map snd m
  | VMap m => entry_list m
  | _ => []
  end.

(** ** Equality and order *)

(** [Vec == Vec] and [BTreeMap == BTreeMap]: same length and element-wise equal *)
Definition list_eqb {A} (f : A -> A -> bool) : list A -> list A -> bool :=
  fix go a b := match a, b with
    | [], [] => true
    | x :: a', y :: b' => f x y && go a' b'
    | _, _ => false
    end.
(** [Vec::cmp], [BTreeMap::cmp]: lexicographic *)
Definition list_cmp {A} (f : A -> A -> comparison) : list A -> list A -> comparison :=
  fix go a b := match a, b with
    | [], [] => Eq
    | [], _ :: _ => Lt
    | _ :: _, [] => Gt
    | x :: a', y :: b' => match f x y with Eq => go a' b' | c => c end
    end.
(** [Barr] equality (derived, ds/barr.rs 11-15) *)
Definition bytes_eqb : list N -> list N -> bool := list_eqb N.eqb.
(** [Barr] order (derived, ds/barr.rs 11-15) *)
Definition bytes_cmp : list N -> list N -> comparison := list_cmp N.compare.
(** [bool::cmp] (Rust standard library) *)
Definition bool_cmp (a b : bool) : comparison :=
  match a, b with false, true => Lt | true, false => Gt | _, _ => Eq end.

(** ds/val.rs 93-111 and kserd.rs 332-336 (ids ignored) *)
Fixpoint k_eqb (a b : kserd) {struct a} : bool :=
  match kval a, kval b with
  | VTuple [], VCntr [] => true
  | VCntr [], VTuple [] => true
  | VUnit, VUnit => true
  | VBool x, VBool y => Bool.eqb x y
  | VNum x, VNum y => num_eqb x y
  | VStr x, VStr y => str_eqb x y
  | VBarr x, VBarr y => bytes_eqb x y
  | VTuple x, VTuple y => list_eqb k_eqb x y
  | VCntr x, VCntr y => list_eqb (fun e f => str_eqb (fst e) (fst f) && k_eqb (snd e) (snd f)) x y
  | VSeq x, VSeq y => list_eqb k_eqb x y
  | VMap x, VMap y => list_eqb (fun e f => k_eqb (fst e) (fst f) && k_eqb (snd e) (snd f)) x y
  | _, _ => false
  end.

(** variant index, for the derived Ord *)
Definition vtag {K} (v : value K) : N :=
  match v with
  | VUnit => 0 | VBool _ => 1 | VNum _ => 2 | VStr _ => 3 | VBarr _ => 4
  | VTuple _ => 5 | VCntr _ => 6 | VSeq _ => 7 | VMap _ => 8
  end.

(** ds/val.rs 39 (derived Ord) and kserd.rs 346-350; partial_cmp 340-344 is its Some *)
Fixpoint k_cmp (a b : kserd) {struct a} : comparison :=
  match kval a, kval b with
  | VUnit, VUnit => Eq
  | VBool x, VBool y => bool_cmp x y
  | VNum x, VNum y => num_cmp x y
  | VStr x, VStr y => str_cmp x y
  | VBarr x, VBarr y => bytes_cmp x y
  | VTuple x, VTuple y => list_cmp k_cmp x y
  | VCntr x, VCntr y =>
      list_cmp (fun e f => match str_cmp (fst e) (fst f) with Eq => k_cmp (snd e) (snd f) | c => c end) x y
  | VSeq x, VSeq y => list_cmp k_cmp x y
  | VMap x, VMap y =>
      list_cmp (fun e f => match k_cmp (fst e) (fst f) with Eq => k_cmp (snd e) (snd f) | c => c end) x y
  | v, w => N.compare (vtag v) (vtag w)
  end.

(** ** Constructors *)

(** ds/val.rs 117-137; the error text is the constructor's argument *)
Inductive name_error : Type :=
| NameEmpty
| NameDigit
| NameChar (c : char).
(** ds/val.rs 118-137 *)
Definition name_invalid_chars : str := s " /\""" ++ [9] ++ s "'".
(** ds/val.rs 118-137 *)
Definition validate_name (t : str) : option name_error :=
  match t with
  | [] => Some NameEmpty
  | c :: _ =>
      if is_digit c then Some NameDigit
      else option_map NameChar (find (fun c => mem c name_invalid_chars) t)
  end.

(** the first failing [validate] of the [for] loop at val.rs 242-244 *)
Fixpoint validate_all {A} (m : list (str * A)) : option name_error :=
  match m with
  | [] => None
  | (k, _) :: m' => match validate_name k with Some e => Some e | None => validate_all m' end
  end.

(** BTreeMap<Kstr, Kserd> and BTreeMap<Kserd, Kserd> from an iterator *)
Definition fields_of {V} (l : list (str * V)) : list (str * V) := bt_from_list str_cmp str_eqb l.
(** BTreeMap<Kserd, Kserd> from an iterator, as in ds/val.rs 258-264 *)
Definition map_of {V} (l : list (kserd * V)) : list (kserd * V) := bt_from_list k_cmp k_eqb l.

(** ds/val.rs 236-247 *)
Definition new_cntr (l : list (str * kserd)) : name_error + value kserd :=
  let m := fields_of l in
  match validate_all m with
  | Some e => inl e
  | None => inr (VCntr m)
  end.
(** ds/val.rs 258-264 *)
Definition new_map (l : list (kserd * kserd)) : value kserd := VMap (map_of l).

(** ds/kserd.rs 7 *)
Definition id_invalid_chars : str := s "(){}[]<> ,./\=".
(** ds/kserd.rs 183-194 *)
Definition with_id (id : str) (v : value kserd) : str + kserd :=
  if existsb (fun c => mem c id_invalid_chars) id then inl id
  else inr (Kserd (Some id) v).
(** ds/kserd.rs 197-202 *)
Definition with_id_unchk (id : str) (v : value kserd) : kserd := Kserd (Some id) v.
(** ds/kserd.rs 153-158 *)
Definition knew (v : value kserd) : kserd := Kserd None v.
(** ds/kserd.rs 72-134, 213-228, 244-266; the constructors of Value they call are the
    variants, val.rs 165-220 *)
Definition new_unit : kserd := knew VUnit.
(** ds/kserd.rs 85-87 *)
Definition new_bool (b : bool) : kserd := with_id_unchk (s "bool") (VBool b).
(** ds/kserd.rs 104-106 at an integer type *)
Definition new_int (t : ntype) (n : Z) : kserd := with_id_unchk (ntype_name t) (VNum (num_of_int t n)).
(** ds/kserd.rs 104-106 at f64 *)
Definition new_f64 (x : f64) : kserd := with_id_unchk (s "f64") (VNum (Float x)).
(** ds/kserd.rs 118-120 *)
Definition new_string (t : str) : kserd := with_id_unchk (s "String") (VStr t).
(** ds/kserd.rs 213-215 *)
Definition new_str (t : str) : kserd := with_id_unchk (s "str") (VStr t).
(** ds/kserd.rs 132-134 *)
Definition new_barrv (b : list N) : kserd := with_id_unchk (s "ByteVec") (VBarr b).
(** ds/kserd.rs 226-228 *)
Definition new_barr (b : list N) : kserd := with_id_unchk (s "barr") (VBarr b).

(** ** Conversions (kserd.rs 299-329, val.rs 657-764) *)

(** ds/val.rs 657-693 with kserd.rs 299-307.  The text copies are the identity
    here; maps are rebuilt by repeated insertion. *)
Fixpoint into_owned (k : kserd) : kserd :=
  match k with
  | Kserd id v =>
      Kserd id (match v with
        | VTuple l => VTuple (map into_owned l)
        | VCntr m => VCntr (bt_inserts str_cmp (map (fun e => (fst e, into_owned (snd e))) m))
        | VSeq l => VSeq (map into_owned l)
        | VMap m => VMap (bt_inserts k_cmp (map (fun e => (into_owned (fst e), into_owned (snd e))) m))
        | VUnit => VUnit | VBool b => VBool b | VNum n => VNum n | VStr t => VStr t | VBarr b => VBarr b
        end)
  end.
(** ds/val.rs 711-747 with kserd.rs 325-329: the same traversal *)
Fixpoint mk_brw (k : kserd) : kserd :=
  match k with
  | Kserd id v =>
      Kserd id (match v with
        | VTuple l => VTuple (map mk_brw l)
        | VCntr m => VCntr (bt_inserts str_cmp (map (fun e => (fst e, mk_brw (snd e))) m))
        | VSeq l => VSeq (map mk_brw l)
        | VMap m => VMap (bt_inserts k_cmp (map (fun e => (mk_brw (fst e), mk_brw (snd e))) m))
        | VUnit => VUnit | VBool b => VBool b | VNum n => VNum n | VStr t => VStr t | VBarr b => VBarr b
        end)
  end.
(** ds/val.rs 750-764 with kserd.rs 352-360: BTreeMap::clone copies the tree node by
    node, without comparisons *)
Fixpoint k_clone (k : kserd) : kserd :=
  match k with
  | Kserd id v =>
      Kserd id (match v with
        | VTuple l => VTuple (map k_clone l)
        | VCntr m => VCntr (map (fun e => (fst e, k_clone (snd e))) m)
        | VSeq l => VSeq (map k_clone l)
        | VMap m => VMap (map (fun e => (k_clone (fst e), k_clone (snd e))) m)
        | VUnit => VUnit | VBool b => VBool b | VNum n => VNum n | VStr t => VStr t | VBarr b => VBarr b
        end)
  end.

(** ** Accessors (val.rs 277-651).  The [_mut] variants are in Mutate.v. *)
Definition v_unit (v : value kserd) : bool := match v with VUnit => true | _ => false end.
(** ds/val.rs 289-294 *)
Definition v_bool (v : value kserd) : option bool := match v with VBool b => Some b | _ => None end.
(** ds/val.rs 323-328 *)
Definition v_ch (v : value kserd) : option char :=
  match v with
  | VStr t => if (length t =? 1)%nat then hd_error t else None
  | _ => None
  end.
(** ds/val.rs 338-343 *)
Definition v_uint (v : value kserd) : option Z := match v with VNum n => as_u128 n | _ => None end.
(** ds/val.rs 354-359 *)
Definition v_int (v : value kserd) : option Z := match v with VNum n => as_i128 n | _ => None end.
(** ds/val.rs 370-375 *)
Definition v_float (v : value kserd) : option f64 := match v with VNum n => Some (as_f64 n) | _ => None end.
(** num_mut, val.rs 386-391, and the match in get_num, val.rs 863-872 *)
Definition v_num (v : value kserd) : option number := match v with VNum n => Some n | _ => None end.
(** ds/val.rs 401-406 *)
Definition v_str (v : value kserd) : option str := match v with VStr t => Some t | _ => None end.
(** ds/val.rs 434-439 *)
Definition v_barr (v : value kserd) : option (list N) := match v with VBarr b => Some b | _ => None end.
(** ds/val.rs 467-472 *)
Definition v_tuple (v : value kserd) : option (list kserd) := match v with VTuple l => Some l | _ => None end.
(** ds/val.rs 505-510 *)
Definition v_cntr (v : value kserd) : option (list (str * kserd)) := match v with VCntr m => Some m | _ => None end.
(** ds/val.rs 540-545 *)
Definition v_seq (v : value kserd) : option (list kserd) := match v with VSeq l => Some l | _ => None end.
(** ds/val.rs 576-581 *)
Definition v_tuple_or_seq (v : value kserd) : option (list kserd) :=
  match v with VTuple l | VSeq l => Some l | _ => None end.
(** ds/val.rs 618-623 *)
Definition v_map (v : value kserd) : option (list (kserd * kserd)) := match v with VMap m => Some m | _ => None end.

(** Accessor::get_* (val.rs 844-937): look the field up, then the accessor *)
Definition get_with {A} (f : value kserd -> option A) (m : list (str * kserd)) (name : str) : option A :=
  opt_bind (bt_get str_cmp name m) (fun k => f (kval k)).
(** ds/val.rs 844-851 *)
Definition get_unit := get_with (fun v => if v_unit v then Some tt else None).
(** ds/val.rs 854-860 *)
Definition get_bool := get_with v_bool.
(** ds/val.rs 863-872 *)
Definition get_num := get_with v_num.
(** ds/val.rs 875-882 *)
Definition get_str := get_with v_str.
(** ds/val.rs 885-892 *)
Definition get_barr := get_with v_barr.
(** ds/val.rs 895-901 *)
Definition get_tuple := get_with v_tuple.
(** ds/val.rs 904-910 *)
Definition get_seq := get_with v_seq.
(** ds/val.rs 913-919 *)
Definition get_tuple_or_seq := get_with v_tuple_or_seq.
(** ds/val.rs 922-928 *)
Definition get_cntr := get_with v_cntr.
(** ds/val.rs 931-937 *)
Definition get_map := get_with v_map.
