(** Specification for C76: what the text of a decoding error says. *)
From Verif Require Import Base F64 F32 Number BTree Value Encode Own Deser DeserSpec Debug DeserText.
Open Scope N_scope.

(** what is asked of the Decoder: one of its methods, or an enum with one of the kinds of variants *)
Inductive request : Type := Ask (m : method) | AskVariant (a : asked).
(** an implementation which calls a method, takes whatever there is, and returns the error if there is one *)
Definition asks {Er} (m : method) : impl unit unit Er :=
  mkImpl (fun _ => Call m tt (fun r => r)) (fun _ _ => inr tt) (fun _ => tt) (fun _ => tt) (fun _ _ => tt) (fun _ _ => tt) (fun _ => EnumReturn (inr tt))
    (fun _ => SeqReturn (inr tt)) (fun _ => MapReturn (inr tt)) (fun _ => ValueSkip tt) (fun _ _ => inr tt) (fun _ _ => inr tt).
(** the text of the error of a request, if it fails *)
Definition failure (plain : char -> bool) (f_text : f64 -> str) (r : request) (k : okserd) : option str :=
  option_map decode_error_text
    match r with
    | Ask m => match run (texts plain f_text) (asks m) tt k with inl e => Some e | inr _ => None end
    | AskVariant a => match run (texts plain f_text) watch (WEnum a) k with inl e => Some e | inr _ => None end
    end.

(** the kinds of value *)
Inductive kind : Type := KUnit | KBool | KNum | KStr | KBytes | KTuple | KCntr | KSeq | KMap.
Definition kind_of (k : okserd) : kind :=
  match okval k with
  | OUnit => KUnit | OBool _ => KBool | ONum _ => KNum | OStr _ => KStr | OBarr _ => KBytes
  | OTuple _ => KTuple | OCntr _ => KCntr | OSeq _ => KSeq | OMap _ => KMap
  end.
(** the request is for one kind of value, and [wants] is what the code calls it *)
Definition wants (r : request) : option str :=
  match r with
  | Ask (MInt t) => Some (ntype_name t)
  | Ask (MF32 | MF64) => Some (s "$t")
  | Ask MChar => Some (s "char")
  | Ask MUnitStruct => Some (s "unit struct")
  | AskVariant AUnit => Some (s "unit enum variant")
  | AskVariant ANewtype => Some (s "newtype enum variant")
  | AskVariant (ATuple _) => Some (s "tuple enum variant")
  | AskVariant AStruct => Some (s "struct enum variant")
  | _ => None
  end.
(** the value is of the kind: any number for a number, a text of one character, a tuple with no
    elements where nothing is to be read *)
Definition right_kind (r : request) (k : okserd) : bool :=
  match r, okval k with
  | Ask (MInt _ | MF32 | MF64), ONum _ => true
  | Ask MChar, OStr t => Nat.eqb (length (cow_get t)) 1
  | Ask MUnitStruct, OTuple l => Nat.eqb (length l) 0
  | AskVariant AUnit, OUnit => true
  | AskVariant AUnit, OTuple l => Nat.eqb (length l) 0
  | AskVariant (ANewtype | ATuple _), OTuple _ => true
  | AskVariant AStruct, OCntr _ => true
  | _, _ => false
  end.
(** there is an id where one is needed *)
Definition has_name (r : request) (k : okserd) : bool :=
  match r, k with AskVariant _, OKserd None _ => false | _, _ => true end.
(** what the value is called *)
Definition small (n : number) : bool :=
  match n with Uint x => ((0 <=? x) && (x <? 2 ^ 64))%Z | Int x => ((- 2 ^ 63 <=? x) && (x <? 2 ^ 63))%Z | Float _ => true end.
Definition called (plain : char -> bool) (f_text : f64 -> str) (k : okserd) : str :=
  match okval k with
  | OUnit => s "unit value"
  | OBool true => s "boolean `true`"
  | OBool false => s "boolean `false`"
  | ONum (Float x) => s "floating point `" ++ f_text x ++ s "`"
  | ONum (Uint n) => if small (Uint n) then s "integer `" ++ Z_display n ++ s "`" else s "integer `0`"
  | ONum (Int n) => if small (Int n) then s "integer `" ++ Z_display n ++ s "`" else s "integer `0`"
  | OStr t => s "string " ++ debug_str plain (cow_get t)
  | OBarr _ => s "byte array"
  | OTuple _ => s "tuple"
  | OCntr _ => s "container"
  | OSeq _ => s "sequence"
  | OMap _ => s "map"
  end.
(** the texts of floats have no backtick *)
Definition no_tick (f_text : f64 -> str) : Prop := forall x, forallb (fun c => negb (c =? 96)) (f_text x) = true.
(** the same kind of value; the same boolean or text; an integer or a float again, the same
    integer if both have at most 64 bits *)
Definition tells_same (f_text : f64 -> str) (k k' : okserd) : Prop :=
  kind_of k = kind_of k' /\
  match okval k, okval k' with
  | OBool b, OBool b' => b = b'
  | OStr t, OStr t' => cow_get t = cow_get t'
  | ONum (Float x), ONum y => exists x', y = Float x' /\ f_text x = f_text x'
  | ONum ((Uint a | Int a) as n), ONum n' => match n' with Float _ => False | Uint b | Int b => small n = true -> small n' = true -> a = b end
  | _, _ => True
  end.
