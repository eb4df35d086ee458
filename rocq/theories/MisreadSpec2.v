(** Which trees with titled fields have texts that are either refused or read as
    what they show. *)
From Verif Require Import Base F64 Number NumberSpec BTree Value Nav Fmt FmtText Grammar RtSpec VSpec LegibleSpec.
Open Scope N_scope.

(** an element in a line of its own below a title: no list, and the search for
    '=' in its first line does not end in one *)
Definition plain_elem (y : dk) : bool :=
  negb (verbose_line y) && match d_val y with VSeq _ => false | _ => true end && negb (is_assign (sign y)).
(** As [vsafe], but nothing is asked of numbers and strings, nor of neighbours:
    a container with a line for each field has fields and can be recognised by its
    first line; an element below a title is such a container which cannot be taken
    for an entry, or stands in a line of its own, and is no tuple whose id is
    hidden.  Maps stand below titles only in the outermost container ([outer]), with inline keys
    which can be read, and their values are such containers or stand behind their keys.  Anything else
    holds no such container. *)
Fixpoint vclear (top outer : bool) (d : dk) {struct d} : bool :=
  match d with
  | DK f id v =>
      match f_line f, v with
      | Verbose, VCntr m =>
          nonempty m && (top && is_some (if f_id f then id else None) || seen_first m) &&
          forallb (fun e =>
            match snd e with DK xf _ xv =>
              match f_line xf, xv with
              | Verbose, VCntr _ => vclear false false (snd e)
              | Verbose, VSeq l =>
                  nonempty l && forallb (fun y => negb (drops y) && (if verbose_cntr y then vclear true false y && keyless_first y else plain_elem y)) l
              | Verbose, VMap l =>
                  outer && nonempty l &&
                  forallb (fun p => each legible_node (fst p) && repr_eqb (d_line (fst p)) Inline && negb (drops (fst p)) &&
                                    (if verbose_line (snd p) then verbose_cntr (snd p) && vclear true false (snd p) else true)) l
              | _, _ => true
              end
            end) m
      | _, _ => each flat_node d
      end
  end.

(** ** a condition on the value alone which is enough for every layout *)
(** as [vshape] (VSpec.v), with nothing asked of what stands beside what *)
Definition elem_quiet (y : kserd) : bool :=
  match kval y with VStr t => negb (is_assign (first_sign (str_text t))) | VSeq _ => false | _ => true end.
Definition key_quiet (x : kserd) : bool := match kval x with VNum n => is_some (num_from_str (num_display n)) | _ => true end.
Fixpoint tshape (ids top outer : bool) (k : kserd) {struct k} : bool :=
  match k with
  | Kserd id v =>
      match v with
      | VCntr m =>
          (ids && top && is_some id || first_simple m) &&
          forallb (fun e => match snd e with Kserd _ xv =>
            match xv with
            | VCntr _ => tshape ids false false (snd e)
            | VSeq l => forallb (fun y => tshape ids true false y && elem_simple ids y && elem_quiet y) l
            | VMap l =>
                (outer || match l with [] => true | _ => false end) &&
                forallb (fun p => key_simple (fst p) && key_quiet (fst p) && (if match kval (snd p) with VCntr _ => true | _ => false end then tshape ids true false (snd p) else kempty (snd p))) l
            | _ => true
            end
          end) m
      | _ => true
      end
  end.
(** [ids]: the ids of containers are shown *)
Definition told_apart (ids : bool) (k : kserd) : bool := tshape ids true true k.
