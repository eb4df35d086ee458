(** Model of the texts of the Decoder's errors: /repo/src/encode/decoder.rs 371-389.

    serde makes the text of invalid_type and invalid_length and hands it to
    [de::Error::custom] (crate serde: de::Error, Unexpected); the tests of
    decoder.rs 573-720 pin all of it.  Two things are left open, as parameters: which
    characters [{:?}] of str prints as they are (as in Debug.v), and the digits of an f64
    (they depend on the version of serde). *)
From Verif Require Import Base F64 F32 Number BTree Value Encode Own Deser Debug.
Open Scope N_scope.

Section Texts.
Variable plain : char -> bool.
Variable f_text : f64 -> str.
(** Display of Unexpected (crate serde) *)
Definition unexp_text (u : unexp) : str :=
  match u with
  | XBool b => s "boolean `" ++ debug_bool b ++ s "`"
  | XUnsigned n | XSigned n => s "integer `" ++ Z_display n ++ s "`"
  | XFloat x => s "floating point `" ++ f_text x ++ s "`"
  | XStr t => s "string " ++ debug_str plain t
  | XBytes _ => s "byte array"
  | XUnit => s "unit value"
  | XSeq => s "sequence"
  | XMap => s "map"
  | XOther t => t
  end.
(** Error::Message, and [custom] with what serde gives it: encode/decoder.rs 371-379 *)
Definition texts : errors str := mkErrors str (fun t => t)
  (fun u w => s "invalid type: " ++ unexp_text u ++ s ", expected " ++ w)
  (fun n w => s "invalid length " ++ dec_of_N (N.of_nat n) ++ s ", expected " ++ w).
End Texts.
(** Display of Error: encode/decoder.rs 383-389 *)
Definition decode_error_text (e : str) : str := s "custom error: " ++ e.
