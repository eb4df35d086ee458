(** What the round trip through the verbose layout is stated against: which
    trees have verbose texts which can be read back, and what is read back. *)
From Verif Require Import Base F64 Number BTree Value Nav Fmt FmtText Grammar RtSpec.
Open Scope N_scope.

Definition verbose_line (d : dk) : bool := repr_eqb (d_line d) Verbose.
Definition cntr_node (d : dk) : bool := match d_val d with VCntr _ => true | _ => false end.
(** a container with a line for each field *)
Definition verbose_cntr (d : dk) : bool := verbose_line d && cntr_node d.
(** a field which stands below a title: [[name]] for containers, [[[name]]] for
    the elements of sequences and the entries of maps *)
Definition titled (d : dk) : bool :=
  verbose_line d && match d_val d with VCntr _ | VSeq _ | VMap _ => true | _ => false end.

(** ** what is read back: as [norm], but the ids of sequences and maps which
    stand below titles are not in the text, and such maps are collected entry by
    entry *)
Fixpoint vnorm (d : dk) : kserd :=
  match d with
  | DK f id v =>
      match f_line f, v with
      | Verbose, VCntr m =>
          Kserd (if f_id f then id else None)
            (VCntr (fields_of (map (fun e => (fst e,
               match snd e with DK xf _ xv =>
                 match f_line xf, xv with
                 | Verbose, VCntr _ => vnorm (snd e)
                 | Verbose, VSeq l => Kserd None (VSeq (map vnorm l))
                 | Verbose, VMap l => Kserd None (VMap (bt_inserts k_cmp (map (fun p => (norm (fst p), vnorm (snd p))) l)))
                 | _, _ => norm (snd e)
                 end
               end)) m)))
      | _, _ => norm d
      end
  end.

(** ** the last thing in the text is a bare [inf] or [NaN] *)
Fixpoint ends_bare (d : dk) : bool :=
  match d with
  | DK f id v =>
      match f_line f, v with
      | Verbose, VCntr m =>
          last (map (fun e =>
            match snd e with DK xf _ xv =>
              match f_line xf, xv with
              | Verbose, VSeq l => last (map ends_bare l) false
              | Verbose, VMap l => last (map (fun p => ends_bare (snd p)) l) false
              | _, _ => ends_bare (snd e)
              end
            end) m) false
      | _, _ => bare_number d
      end
  end.
Definition field_ends_bare (x : dk) : bool :=
  match x with DK xf _ xv =>
    match f_line xf, xv with
    | Verbose, VSeq l => last (map ends_bare l) false
    | Verbose, VMap l => last (map (fun p => ends_bare (snd p)) l) false
    | _, _ => ends_bare x
    end
  end.

(** ** verbose texts which can be read back *)
Definition plain_safe (d : dk) : bool := each safe_node d && each flat_node d.
Definition name_ok (name : str) : bool := match name with [] => false | _ => forallb name_char name end.
(** the first line shows that this is the verbose layout: [[name]] does so only
    without an id and for a name which is a word *)
Definition seen_first (m : list (str * dk)) : bool :=
  match m with
  | (name, x) :: _ => negb (verbose_cntr x) || (negb (is_some (shown_id x)) && is_id name)
  | [] => false
  end.
(** the first line cannot be taken for the key of a map: it does not start with
    a name like [string] *)
Definition keyless_first (d : dk) : bool :=
  match d_val d with
  | VCntr ((name, x) :: _) => negb (verbose_line d) || is_some (shown_id d) || titled x || negb (starts_with (s "str") name)
  | _ => true
  end.
(** [vsafe top n d]: [d] at [n] indents.  A verbose container has fields and
    words as names, and can be recognised by its first line ([top]: its id is in
    a line of its own).  A bare number is not followed by a title.  Below a title,
    a verbose element is a container and cannot be taken for an entry; a tuple
    with an id which is not shown does not follow the title at once.  Maps stand
    below titles only in the outermost container, with inline keys. *)
Fixpoint vsafe (top : bool) (n : nat) (d : dk) {struct d} : bool :=
  match d with
  | DK f id v =>
      match f_line f, v with
      | Verbose, VCntr m =>
          let sid := if f_id f then id else None in
          opt_ok is_id sid && nonempty m && (top && is_some sid || seen_first m) &&
          chain (fun e e' => negb (field_ends_bare (snd e) && titled (snd e'))) m &&
          forallb (fun e => name_ok (fst e) &&
            match snd e with DK xf _ xv =>
              match f_line xf, xv with
              | Verbose, VCntr _ => vsafe false (S n) (snd e)
              | Verbose, VSeq l =>
                  nonempty l && chain (fun y _ => negb (ends_bare y)) l &&
                  forallb (fun y => vsafe true (S n) y && keyless_first y && (verbose_cntr y || negb (verbose_line y)) &&
                                    (negb (drops y) || Nat.ltb 0 n)) l
              | Verbose, VMap l =>
                  Nat.eqb n 0 && nonempty l && chain (fun p _ => negb (ends_bare (snd p))) l &&
                  forallb (fun p => plain_safe (fst p) && repr_eqb (d_line (fst p)) Inline && negb (drops (fst p)) &&
                                    (if verbose_line (snd p) then vsafe true (S n) (snd p) && negb (drops (snd p)) else plain_safe (snd p))) l
              | _, _ => plain_safe (snd e)
              end
            end) m
      | _, _ => plain_safe d && safe_root d
      end
  end.
(** what is read back is the very same: as [literal_node], and sequences and maps
    in the verbose layout have no id *)
Definition vliteral_node (d : dk) : bool :=
  literal_node d && negb (verbose_line d && match d_val d with VSeq _ | VMap _ => is_some (d_id d) | _ => false end).

(** ** a condition on the value alone which, together with [simple_tree], is
    enough for every layout: the first field of a container is not a container
    with an id; there are no sequences or maps directly in a sequence of a container's field,
    and the containers there do not start with a name like [string]; maps are
    fields of the outermost container only, their keys are primitive and a value
    of theirs is a container or has none that could be verbose.  When the ids of
    containers are shown ([ids]), a container with an id can start in any way if
    it is outermost, or an element or an entry ([top]). *)
Definition kempty (k : kserd) : bool := match kval k with VSeq [] | VMap [] => true | VSeq _ | VMap _ => false | _ => true end.
Definition first_simple (m : list (str * kserd)) : bool :=
  match m with
  | (name, x) :: _ => match kval x with VCntr _ => negb (is_some (kid x)) && is_id name | _ => true end
  | [] => true
  end.
Definition elem_simple (ids : bool) (y : kserd) : bool :=
  match kval y with
  | VCntr ((name, _) :: _) => ids && is_some (kid y) || negb (starts_with (s "str") name)
  | _ => kempty y
  end.
Definition key_simple (x : kserd) : bool := match kval x with VTuple [] | VCntr [] | VSeq [] | VMap [] => true | VTuple _ | VCntr _ | VSeq _ | VMap _ => false | _ => true end.
Fixpoint calm (k : kserd) : bool :=
  match k with
  | Kserd _ v =>
      match v with
      | VCntr _ => false
      | VSeq l => forallb calm l
      | VMap l => forallb (fun p => calm (fst p) && calm (snd p)) l
      | _ => true
      end
  end.
Fixpoint vshape (ids top outer : bool) (k : kserd) {struct k} : bool :=
  match k with
  | Kserd id v =>
      match v with
      | VCntr m =>
          (ids && top && is_some id || first_simple m) &&
          forallb (fun e => match snd e with Kserd _ xv =>
            match xv with
            | VCntr _ => vshape ids false false (snd e)
            | VSeq l => forallb (fun y => vshape ids true false y && elem_simple ids y) l
            | VMap l =>
                (outer || match l with [] => true | _ => false end) &&
                forallb (fun p => key_simple (fst p) && (if match kval (snd p) with VCntr _ => true | _ => false end then vshape ids true false (snd p) else calm (snd p))) l
            | _ => true
            end
          end) m
      | _ => true
      end
  end.
Definition vsimple (ids : bool) (k : kserd) : bool := vshape ids true true k.
(** the ids of containers are shown *)
Definition cntr_ids_shown (d : dk) : bool :=
  each (fun x => match d_val x with VCntr _ => f_id (d_fmt x) || negb (is_some (d_id x)) | _ => true end) d.
