(** Model of the texts which [{:?}] and [{:#?}] give for a Kserd and for a node of a
    Navigator: /repo/src/ds/kserd.rs 361-381, ds/val.rs 766-792, ds/kstr.rs 113-117,
    ds/barr.rs 102-106, the derived Debug of Number (ds/num.rs 97) and nav/node.rs
    295-319.

    The builders debug_struct, debug_tuple, debug_list and debug_map and the Debug of
    str, u8, bool, usize and Option are those of the Rust standard library.  Two things
    of it are left open, as parameters: which characters are printed as they are
    ([plain]: char::escape_debug asks tables of Unicode), and the digits of an f64 (they
    depend on the version of Rust). *)
From Verif Require Import Base F64 Number BTree Value Nav.
Open Scope N_scope.

Section Debug.
Variable plain : char -> bool.
Variable f_debug : f64 -> str.
(** [true]: [{:#?}], [false]: [{:?}] *)
Variable alt : bool.

(** ** the builders (Rust standard library) *)
(** PadAdapter: four spaces at the start of each line *)
Fixpoint pad_from (start : bool) (t : str) : str :=
  match t with
  | [] => []
  | c :: r => (if start then s "    " else []) ++ c :: pad_from (c =? 10) r
  end.
(** one entry of a pretty text: on lines of its own, with a comma *)
Definition pretty_entry (t : str) : str := pad_from true (t ++ s "," ++ [10]).
(** the entries between two delimiters: what follows the opening one *)
Fixpoint joined_with (sep : str) (l : list str) : str :=
  match l with
  | [] => []
  | [t] => t
  | t :: r => t ++ sep ++ joined_with sep r
  end.
(** the fields or entries between the brackets, as DebugInner writes them (Rust standard library) *)
Definition entries_text (l : list str) : str :=
  if alt then [10] ++ concat (map pretty_entry l) else joined_with (s ", ") l.
(** DebugStruct::{field, finish} *)
Definition debug_struct (name : str) (fields : list (str * str)) : str :=
  name ++ match fields with
          | [] => []
          | _ => (if alt then s " {" else s " { ") ++ entries_text (map (fun e => fst e ++ s ": " ++ snd e) fields) ++ (if alt then s "}" else s " }")
          end.
(** DebugTuple::{field, finish}, with a name *)
Definition debug_tuple (name : str) (fields : list str) : str :=
  name ++ match fields with [] => [] | _ => s "(" ++ entries_text fields ++ s ")" end.
(** DebugList::{entries, finish} *)
Definition debug_list (l : list str) : str := s "[" ++ match l with [] => [] | _ => entries_text l end ++ s "]".
(** DebugMap::{entries, finish} *)
Definition debug_map (l : list (str * str)) : str :=
  s "{" ++ match l with [] => [] | _ => entries_text (map (fun e => fst e ++ s ": " ++ snd e) l) end ++ s "}".

(** ** texts and numbers *)
(** the hexadecimal digits of a number (Rust standard library: [{:x}]) *)
Definition hex_digit (n : N) : char := if n <? 10 then 48 + n else 87 + n.
(** [{:x}] of a number, digit by digit from the end *)
Fixpoint hex_digits (fuel : nat) (n : N) (acc : str) : str :=
  match fuel with
  | O => acc
  | S f => let acc' := hex_digit (n mod 16) :: acc in if n <? 16 then acc' else hex_digits f (n / 16) acc'
  end.
(** [{:x}] of a number (Rust standard library) *)
Definition hex_of_N (n : N) : str := hex_digits (S (N.size_nat n)) n [].
(** char::escape_debug_ext as Debug of str calls it (Rust standard library): a single
    quote is not escaped *)
Definition escape_debug (c : char) : str :=
  if c =? 0 then s "\0" else if c =? 9 then s "\t" else if c =? 13 then s "\r" else if c =? 10 then s "\n"
  else if c =? 34 then [92; 34] else if c =? 92 then s "\\"
  else if plain c then [c] else s "\u{" ++ hex_of_N c ++ s "}".
(** Debug of str (Rust standard library) and of Kstr: ds/kstr.rs 113-117 *)
Definition debug_str (t : str) : str := [34] ++ flat_map escape_debug t ++ [34].
(** Debug of Barr: ds/barr.rs 102-106, never over several lines because write! of val.rs 773
    begins a text of its own *)
Definition debug_bytes (b : list N) : str := s "[" ++ joined_with (s ", ") (map dec_of_N b) ++ s "]".
(** Debug of Number (derived, ds/num.rs 97), within write! of val.rs 771 *)
Definition debug_num (n : number) : str :=
  match n with
  | Uint x => s "Uint(" ++ Z_display x ++ s ")"
  | Int x => s "Int(" ++ Z_display x ++ s ")"
  | Float x => s "Float(" ++ f_debug x ++ s ")"
  end.
(** Debug of bool (Rust standard library) *)
Definition debug_bool (b : bool) : str := if b then s "true" else s "false".
(** ds/kserd.rs 364-376: the id, within write! *)
Definition debug_id (i : option str) : str :=
  match i with Some t => s "Some(" ++ debug_str t ++ s ")" | None => s "None" end.

(** ** Kserd *)
(** ds/val.rs 766-792, given the texts of the parts *)
Definition debug_value {K} (d : K -> str) (v : value K) : str :=
  match v with
  | VUnit => s "Unit"
  | VBool b => s "Bool(" ++ debug_bool b ++ s ")"
  | VNum n => s "Num(" ++ debug_num n ++ s ")"
  | VStr t => s "Str(" ++ debug_str t ++ s ")"
  | VBarr b => s "Barr(" ++ debug_bytes b ++ s ")"
  | VTuple l => debug_tuple (s "Tuple") (map d l)
  | VCntr m => debug_struct (s "Cntr") (map (fun e => (fst e, d (snd e))) m)
  | VSeq l => debug_list (map d l)
  | VMap m => debug_map (map (fun e => (d (fst e), d (snd e))) m)
  end.
(** ds/kserd.rs 361-381 *)
Fixpoint debug (k : kserd) : str :=
  let 'Kserd i v := k in
  debug_struct (s "Kserd") [(s "id", debug_id i); (s "val", debug_value debug v)].

(** ** nodes *)
(** Debug of Option (derived, Rust standard library) *)
Definition debug_option (o : option str) : str :=
  match o with Some t => debug_tuple (s "Some") [t] | None => s "None" end.
(** nav/value.rs 3-31, nav/node.rs 131-133: the kinds of NodeValue by name *)
Definition node_kind (v : value kserd) : str :=
  match v with
  | VTuple _ => s "Tuple"
  | VCntr _ => s "Cntr"
  | VSeq _ => s "Seq"
  | VMap _ => s "Map"
  | _ => s "Primitive"
  end.
(** Debug of usize (Rust standard library) *)
Definition debug_usize (n : nat) : str := dec_of_N (N.of_nat n).
(** nav/node.rs 295-319 *)
Definition debug_node (nv : nav) (n : node) : str :=
  let v := kval (n_kserd n) in
  debug_struct (s "Node")
    ([(s "id", debug_option (option_map debug_str (kid (n_kserd n))));
      (s "value-type", debug_str (node_kind v))] ++
     (if str_eqb (node_kind v) (s "Primitive") then [(s "value", debug_value debug v)] else []) ++
     [(s "index", debug_usize (n_idx n));
      (s "parent", debug_option (option_map (fun p => debug_usize (n_idx p)) (node_parent nv n)));
      (s "is_key", debug_bool (is_key n));
      (s "idx_in_parent", debug_usize (idx_in_parent n))]).
End Debug.

(** Debug of f64 before Rust 1.58: as [{}], with ".0" after an integer *)
Definition old_debug (x : f64) : str :=
  let t := f_display x in
  if f_is_finite x && negb (existsb (fun c => c =? 46) t) then t ++ s ".0" else t.
(** the characters of ASCII which are not controls *)
Definition ascii_plain (c : char) : bool := (32 <=? c) && (c <=? 126).

(** nav/node.rs 334-351, the test of the repository *)
Example debug_node_test : exists nv n, nav_new (Kserd None VUnit) = LRet nv /\ nav_get nv 0 = Some n /\
  debug_node ascii_plain old_debug true nv n = s "Node {
    id: None,
    value-type: ""Primitive"",
    value: Unit,
    index: 0,
    parent: None,
    is_key: false,
    idx_in_parent: 0,
}".
Proof. eexists. eexists. split; [vm_compute; reflexivity|]. split; [vm_compute; reflexivity|]. vm_compute. reflexivity. Qed.
Example debug_case : let k := Kserd (Some (s "P")) (VCntr [(s "a", Kserd None (VNum (Float (f_of_Z 3)))); (s "b", Kserd None (VTuple [])); (s "c", Kserd None (VMap [(Kserd None (VBool true), Kserd None (VSeq [Kserd None (VStr [97; 34; 10; 233]); Kserd None (VBarr [1; 255])]))]))]) in
  debug ascii_plain old_debug false k = s "Kserd { id: Some(""P""), val: Cntr { a: Kserd { id: None, val: Num(Float(3.0)) }, b: Kserd { id: None, val: Tuple }, c: Kserd { id: None, val: {Kserd { id: None, val: Bool(true) }: Kserd { id: None, val: [Kserd { id: None, val: Str(""a\""\n\u{e9}"") }, Kserd { id: None, val: Barr([1, 255]) }] }} } } }" /\
  debug ascii_plain old_debug true (Kserd None (VTuple [Kserd (Some (s "x")) (VSeq []); Kserd None (VTuple [])])) = s "Kserd {
    id: None,
    val: Tuple(
        Kserd {
            id: Some(""x""),
            val: [],
        },
        Kserd {
            id: None,
            val: Tuple,
        },
    ),
}".
Proof. split; vm_compute; reflexivity. Qed.
