(** The texts ([Display]) of the errors. *)
From Verif Require Import Base F64 Number BTree Value Fmt Formatter Ser.
Open Scope string_scope.
Open Scope N_scope.

(** InvalidId, ds/kserd.rs 388-396 *)
Definition id_error_text (id : str) : str :=
  (s "identity '" ++ id ++ s "' contains invalid characters. Invalid characters: '" ++ id_invalid_chars ++ s "'")%list.

(** the text inside of an InvalidFieldName: ds/val.rs 118-137 *)
Definition name_error_text (name : str) (e : name_error) : str :=
  match e with
  | NameEmpty => s "name is empty"
  | NameDigit => s "name can not begin with digit"
  | NameChar c => (s "invalid character '" ++ [c] ++ s "' exists in name '" ++ name ++ s "'")%list
  end.
(** InvalidFieldName, ds/val.rs 142-146 *)
Definition field_error_text (inner : str) : str := (s "invalid field name: " ++ inner)%list.
(** the loop at ds/val.rs 242-244 with the text of the error it returns *)
Fixpoint validate_all_text {A} (m : list (str * A)) : option str :=
  match m with
  | [] => None
  | (k, _) :: m' => match validate_name k with Some e => Some (name_error_text k e) | None => validate_all_text m' end
  end.
(** [Value::new_cntr(..).unwrap_err().to_string()]: ds/val.rs 236-247 *)
Definition new_cntr_error (l : list (str * kserd)) : option str :=
  option_map field_error_text (validate_all_text (fields_of l)).

(** ToKserdErr, to_kserd.rs 93-109: it holds the id or the text inside of the InvalidFieldName *)
Inductive to_kserd_err : Type := TkInvalidId (id : str) | TkInvalidFieldName (inner : str).
(** to_kserd.rs 102-109 *)
Definition to_kserd_err_text (e : to_kserd_err) : str :=
  match e with
  | TkInvalidId id => id_error_text id
  | TkInvalidFieldName t => field_error_text t
  end.

(** fmt/formatter.rs 467-477 *)
Definition repr_name (r : repr) : str :=
  match r with Inline => s "inline" | Concise => s "concise" | Verbose => s "verbose" end.
(** FmtError, fmt/formatter.rs 481-506 *)
Definition fmt_error_text (e : fmt_error) : str :=
  match e with
  | IdxOutOfBounds => s "the requested item index is outside the range of the formatter"
  | ParentIsInline => s "parent is 'inline', child must be formatted as 'inline'"
  | ParentIsConcise => s "parent is 'concise', child must be formatted as 'inline' or 'concise'"
  | RequestTooHigh max req =>
      (s "requested format '" ++ repr_name req ++ s "' is higher than the value maximally allows '" ++ repr_name max ++ s "'")%list
  | SeqMapAtRoot => s "requested to format root as verbose but the root is a sequence or a map"
  end.

(** the encoder's Error, encode/encoder.rs 264-274 *)
Definition ser_err_text (e : ser_err) : str :=
  match e with
  | NoKeyAvailable => s "no key was available when trying to serialize map value"
  | InvalidId id => id_error_text id
  | Message m => (s "custom error: " ++ m)%list
  end.
(** the decoder's Error, encode/decoder.rs 383-389 *)
Definition de_err_text (m : str) : str := (s "custom error: " ++ m)%list.

(** IntoIntError, ds/num.rs 110-114 *)
Definition into_int_text : str := s "original number is outside integers range".
(** IntoNumberErr, ds/num.rs 265-275 *)
Definition into_number_text : str := s "could not parse input string as a number".
