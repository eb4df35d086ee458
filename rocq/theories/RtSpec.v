(** What the round trips are stated against: which trees have texts which can
    be read back, and what is read back. *)
From Verif Require Import Base F64 Number NumberSpec BTree Value ValueSpec Nav Fmt FmtText Grammar.
Open Scope N_scope.

(** every node of a tree with formats satisfies [p] *)
Fixpoint each (p : dk -> bool) (d : dk) {struct d} : bool :=
  p d &&
  match d with
  | DK _ _ v =>
      match v with
      | VTuple l | VSeq l => forallb (each p) l
      | VCntr m => forallb (fun e => each p (snd e)) m
      | VMap m => forallb (fun e => each p (fst e) && each p (snd e)) m
      | _ => true
      end
  end.

(** the id in the text *)
Definition shown_id (d : dk) : option str := if f_id (d_fmt d) then d_id d else None.
(** what reading the text of a number gives *)
Definition reread (n : number) : number :=
  match num_from_str (num_display n) with Some n' => n' | None => n end.

(** ** what is read back: ids which are not shown are lost, a unit with an id
    becomes an empty tuple, empty tuples and containers become an empty tuple
    when their id is shown and a unit otherwise, numbers are read anew, the
    entries of containers and maps are collected anew *)
Fixpoint norm (d : dk) : kserd :=
  match d with
  | DK f id v =>
      let sid := if f_id f then id else None in
      let empty := match sid with Some _ => Kserd sid (VTuple []) | None => Kserd None VUnit end in
      match v with
      | VUnit => match id with Some (_ :: _) => Kserd id (VTuple []) | _ => Kserd None VUnit end
      | VBool b => Kserd sid (VBool b)
      | VNum n => Kserd sid (VNum (reread n))
      | VStr t => Kserd sid (VStr t)
      | VBarr b => Kserd sid (VBarr b)
      | VTuple [] => empty
      | VTuple l => Kserd sid (VTuple (map norm l))
      | VCntr [] => empty
      | VCntr m => Kserd sid (VCntr (fields_of (map (fun e => (fst e, norm (snd e))) m)))
      | VSeq l => Kserd sid (VSeq (map norm l))
      | VMap m => Kserd sid (VMap (map_of (map (fun e => (norm (fst e), norm (snd e))) m)))
      end
  end.

(** ** texts which can be read back *)
Definition opt_ok (p : str -> bool) (o : option str) : bool := match o with Some i => p i | None => true end.
Definition is_some {A} (o : option A) : bool := match o with Some _ => true | None => false end.
(** [inf] and [NaN] without an id *)
Definition bare_number (d : dk) : bool :=
  match d_val d, shown_id d with VNum (Float (FInf false | FNaN _ _)), None => true | _, _ => false end.
(** the text starts with an opening bracket *)
Definition bracket_first (d : dk) : bool :=
  match d_val d with
  | VUnit => match d_id d with None | Some [] => true | _ => false end
  | VTuple _ | VCntr _ | VSeq _ | VMap _ => negb (is_some (shown_id d))
  | _ => false
  end.
Definition apart (x y : dk) : bool := negb (bare_number x && bracket_first y).
(** [r] holds between neighbours *)
Fixpoint chain {A} (r : A -> A -> bool) (l : list A) : bool :=
  match l with
  | x :: ((y :: _) as l') => r x y && chain r l'
  | _ => true
  end.
(** a tuple with an id which is not shown does not stand right behind the
    opening bracket *)
Definition first_shown (l : list dk) : bool := match l with [] => true | x :: _ => negb (drops x) end.
(** the string leaves a delimiter free; without an id the delimiter can follow
    [str], and among the characters which tell a container from a tuple the
    first one is not '=' *)
Definition safe_string (id : option str) (t : str) : bool :=
  match delimiter t with
  | Some d => is_some id || (negb (assigns (d :: t)) && plain_delim d)
  | None => false
  end.
Definition safe_node (d : dk) : bool :=
  let id := shown_id d in
  match d_val d with
  | VUnit => match d_id d with None | Some [] => true | Some i => is_id_plain i end
  | VBool _ => opt_ok is_id id
  | VNum n => opt_ok is_id id && is_some (num_from_str (num_display n))
  | VStr t => opt_ok is_id id && safe_string id t
  | VBarr b => opt_ok is_id id && forallb (fun x => x <? 256) b
  | VTuple l | VSeq l =>
      opt_ok is_id_plain id &&
      match d_line d with Inline => first_shown l | _ => chain apart l end
  | VCntr m => opt_ok is_id_plain id && forallb (fun e => match fst e with [] => false | n => forallb name_char n end) m
  | VMap m => opt_ok is_id_plain id && match d_line d with Inline => true | _ => chain (fun e e' => apart (snd e) (fst e')) m end
  end.
(** a layout without verbose containers: what stands in an inline node is
    inline, primitives and empty lists are inline *)
Definition nonempty_list {K} (v : value K) : bool :=
  match v with VTuple (_ :: _) | VSeq (_ :: _) | VCntr (_ :: _) | VMap (_ :: _) => true | _ => false end.
Definition flat_node (d : dk) : bool :=
  match d_line d with
  | Inline => forallb (fun c => repr_eqb (d_line c) Inline) (d_children (d_val d))
  | Concise => nonempty_list (d_val d)
  | Verbose => match d_val d with VCntr _ => false | v => nonempty_list v end
  end.
(** the text of a whole document must not look like the verbose layout: no
    [[[ and no [ word ] at its start *)
Definition word_only (d : dk) : bool :=
  negb (is_some (shown_id d)) && match d_val d with VBool _ => true | _ => bare_number d end.
Definition safe_root (d : dk) : bool :=
  match d_val d, d_line d, shown_id d with
  | VSeq (x :: l), Inline, None =>
      negb (bracket_first x && match d_val x with VSeq _ => true | _ => false end)
      && negb (word_only x && match l with [] => true | _ => false end)
  | _, _, _ => true
  end.
Definition text_safe (d : dk) : bool := each safe_node d && safe_root d.

(** ** what is read back equals what was written *)
Definition faithful_node (d : dk) : bool :=
  match d_val d with
  | VUnit => negb (is_some (d_id d))
  | VNum n => exact n
  | VTuple [] => is_some (shown_id d)
  | VCntr [] => false
  | _ => true
  end.
(** and is the very same: ids are shown and numbers are of the kind their text
    is read as *)
Definition literal_node (d : dk) : bool :=
  (f_id (d_fmt d) || negb (is_some (d_id d))) &&
  match d_val d with
  | VNum (Int k) => (k <? 0)%Z
  | VNum (Float (FFin sg m e)) => negb (fval (FFin sg m e) mod scale =? 0)%Z
  | VNum (Float (FNaN _ _)) => false
  | _ => true
  end.

(** ** a condition on the value alone which is enough for every choice of id
    flags and layouts: ids and names are words, units have no id, numbers are
    finite and their text is a number (it is unless they are floats from 2^127
    on), strings are safe without an id, containers are not empty and tuples
    neither, unless they have an id *)
Definition readable_node (k : kserd) : bool :=
  opt_ok is_id_plain (kid k) &&
  match kval k with
  | VUnit => negb (is_some (kid k))
  | VNum n => is_some (num_from_str (num_display n)) && match n with Float (FInf _ | FNaN _ _) => false | _ => true end
  | VStr t => safe_string None t
  | VBarr b => forallb (fun x => x <? 256) b
  | VTuple l => match l with [] => is_some (kid k) | _ => true end
  | VCntr m => match m with [] => false | _ => forallb (fun e => match fst e with [] => false | n => forallb name_char n end) m end
  | _ => true
  end.
(** as a document, a sequence does not start with a sequence, nor is it a
    single boolean *)
Definition simple_root (k : kserd) : bool :=
  match kval k with
  | VSeq (x :: l) => match kval x, l with VSeq _, _ => false | VBool _, [] => false | _, _ => true end
  | _ => true
  end.
Definition readable_tree (k : kserd) : bool := k_all readable_node k && simple_root k.
(** for equality: numbers are also exact *)
Definition simple_tree (k : kserd) : bool := readable_tree k && k_exact k.
(** the ids of tuples are shown *)
Definition tuple_ids_shown (d : dk) : bool := each (fun x => negb (drops x)) d.
