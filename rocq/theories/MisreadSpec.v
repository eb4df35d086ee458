(** Which trees have texts that are either refused or read as what they show:
    used to say that nothing is taken for another value. *)
From Verif Require Import Base F64 Number NumberSpec BTree Value Nav Fmt FmtText Grammar RtSpec.
Open Scope N_scope.

(** the delimiter of a string cannot be taken for the end of the word [str] before it:
    not for a letter, a digit, a bracket, an '=' or a colon *)
Definition clear_delim (d : char) : bool := plain_delim d && negb (mem d (s "=:")).
Definition clear_string (id : option str) (t : str) : bool :=
  match delimiter t with Some d => is_some id || clear_delim d | None => false end.
(** ids and names are words, strings leave a clear delimiter free or have their id
    shown; a tuple whose id is not shown does not stand right behind an opening bracket.
    Nothing is asked of numbers, of neighbours, of what strings contain, nor of
    how the text begins. *)
Definition clear_node (d : dk) : bool :=
  let id := shown_id d in
  match d_val d with
  | VUnit => match d_id d with None | Some [] => true | Some i => is_id_plain i end
  | VBool _ | VNum _ => opt_ok is_id id
  | VStr t => opt_ok is_id id && clear_string id t
  | VBarr b => opt_ok is_id id && forallb (fun x => x <? 256) b
  | VTuple l | VSeq l => opt_ok is_id_plain id && match d_line d with Inline => first_shown l | _ => true end
  | VCntr m => opt_ok is_id_plain id && forallb (fun e => match fst e with [] => false | n => forallb name_char n end) m
  | VMap _ => opt_ok is_id_plain id
  end.
Definition clear (d : dk) : bool := each clear_node d.

(** the same of the value alone, whatever ids are shown *)
Definition clear_value (k : kserd) : bool :=
  opt_ok is_id_plain (kid k) &&
  match kval k with
  | VStr t => clear_string None t
  | VBarr b => forallb (fun x => x <? 256) b
  | VCntr m => forallb (fun e => match fst e with [] => false | n => forallb name_char n end) m
  | _ => true
  end.

(** the kinds of value whose text stands for another value are absent: a unit with an
    id, an empty tuple without one, an empty container and numbers which are rounded
    when they are read *)
Definition whole_value (k : kserd) : bool :=
  match kval k with
  | VUnit => negb (is_some (kid k))
  | VNum n => exact n
  | VTuple [] => is_some (kid k)
  | VCntr [] => false
  | _ => true
  end.

(** what is directly inside is primitive, a tuple or empty *)
Definition flat_field (k : kserd) : bool := match kval k with VCntr (_ :: _) | VSeq (_ :: _) | VMap (_ :: _) => false | _ => true end.
Definition flat_record (k : kserd) : bool := forallb flat_field (vchildren (kval k)).
