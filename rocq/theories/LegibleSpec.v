(** Exactly which texts can be read: used for the decision of what is refused. *)
From Verif Require Import Base F64 Number NumberSpec BTree Value Nav Fmt FmtText Grammar RtSpec VSpec.
Open Scope N_scope.

(** the first of the characters which tell a container from a tuple, brackets
    other than square ones, quotes, line ends and '=': is it '='? *)
Fixpoint first_sign (t : str) : option bool :=
  match t with
  | [] => None
  | c :: t => if c =? ch "=" then Some true else if mem c (s "<>(){}'""" ++ [13; 10]) then Some false else first_sign t
  end.
Fixpoint first_some {A} (l : list (option A)) : option A :=
  match l with [] => None | Some a :: _ => Some a | None :: l => first_some l end.
(** the same of the text of a tree: booleans and numbers without an id have no such
    character, the text of a string is searched when there is no id, a sequence in
    one line is searched element by element, anything else stops the search *)
Fixpoint sign (d : dk) : option bool :=
  match d with
  | DK f id v =>
      let plain o := match (if f_id f then id else None) with Some _ => Some false | None => o end in
      match v with
      | VBool _ | VNum _ => plain None
      | VStr t => plain (first_sign (str_text t))
      | VSeq l => match f_line f with Inline => first_some (map sign l) | _ => Some false end
      | _ => Some false
      end
  end.
Definition is_assign (o : option bool) : bool := match o with Some true => true | _ => false end.

(** the text of a number is a number; the search for '=' behind the bracket of
    a tuple does not end in one; where elements stand on lines of their own
    no bracket follows a bare [inf] or [NaN] *)
Definition legible_node (d : dk) : bool :=
  match d_val d with
  | VNum n => is_some (num_from_str (num_display n))
  | VTuple l =>
      match d_line d with
      | Inline => negb (is_assign (first_some (map sign l)))
      | _ => chain apart l && negb (is_assign (first_some (map sign (firstn 1 l))))
      end
  | VSeq l => match d_line d with Inline => true | _ => chain apart l end
  | VMap m => match d_line d with Inline => true | _ => chain (fun e e' => apart (snd e) (fst e')) m end
  | _ => true
  end.
(** the document does not look verbose *)
Definition legible_root (d : dk) : bool := safe_root d && negb (is_assign (sign d)).
Definition legible (d : dk) : bool := each legible_node d && legible_root d.
(** a container with a line for each field is always seen to be one *)
Definition vlegible (d : dk) : bool := each legible_node d && (verbose_cntr d || legible_root d).
