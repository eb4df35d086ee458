(** How much work the parser does: the number of times [kserd_delimited]
    (/repo/src/parse/mod.rs 68-82), through [kserd_inline] or [kserd_concise], starts to read a value.  Beside each
    parser [p] of Parse.v which may read values stands a function which says, along the results of
    the parsers themselves, how many readings a call of [p] makes.  Parsers of names, blanks,
    primitives and the heuristics make none; each of them goes over the text a
    bounded number of times. *)
From Verif Require Import Base F64 Number BTree Value Nom Parse.
Open Scope nat_scope.

(** ** nom *)
(** [q] after [p]: sequence::preceded, terminated, separated_pair and [?] (nom 7) *)
Definition r_then {A} (rp : nat) (p : pres A) (rq : str -> A -> nat) : nat :=
  rp + match p with POk i a => rq i a | _ => 0 end.
(** branch::alt of two (nom 7) *)
Definition r_alt2 {A} (rp rq : str -> nat) (p : parser A) (i : str) : nat :=
  rp i + match p i with PErr _ => rq i | _ => 0 end.
(** parse/wsp.rs 17-27 *)
Definition r_ignore_ws (rp : str -> nat) (i : str) : nat := r_then 0 (opt inline_whitespace i) (fun i _ => rp i).
(** multi::separated_list0 (nom 7); the separators of /repo read no values *)
Fixpoint r_sep_loop {A B} (fuel : nat) (sep : parser B) (p : parser A) (rp : str -> nat) (i : str) : nat :=
  match fuel with
  | O => 0
  | S fuel =>
      match sep i with
      | POk i1 _ =>
          if Nat.eqb (length i1) (length i) then 0
          else rp i1 + match p i1 with POk i2 _ => r_sep_loop fuel sep p rp i2 | _ => 0 end
      | _ => 0
      end
  end.
(** multi::separated_list0 (nom 7) *)
Definition r_separated_list0 {A B} (sep : parser B) (p : parser A) (rp : str -> nat) (i : str) : nat :=
  r_then (rp i) (p i) (fun i1 _ => r_sep_loop (S (length i1)) sep p rp i1).
(** multi::many0 (nom 7) *)
Fixpoint r_many0_loop {A} (fuel : nat) (p : parser A) (rp : str -> nat) (i : str) : nat :=
  match fuel with
  | O => 0
  | S fuel =>
      rp i + match p i with
             | POk i1 _ => if Nat.eqb (length i1) (length i) then 0 else r_many0_loop fuel p rp i1
             | _ => 0
             end
  end.

(** ** delimited forms; [inl] and [con] are the parsers of the elements, [rinl] and [rcon] say how
    many readings they make *)
Section Delimited.
  Variables inl con : parser kserd.
  Variables rinl rcon : str -> nat.
  (** parse/list.rs 3-11 *)
  Definition r_inline_list : str -> nat := r_separated_list0 (ignore_ws (pchar (ch ","))) (ignore_ws inl) (r_ignore_ws rinl).
  (** parse/list.rs 18-26 *)
  Definition r_concise_list (i : str) : nat :=
    r_then 0 (multiline_whitespace i) (fun i _ => r_separated_list0 multiline_whitespace con rcon i).
  (** parse/list.rs 31-63 *)
  Definition r_tuple (b : bool) (i : str) : nat :=
    r_then 0 (opt (ident false) i) (fun i _ => r_then 0 (ignore_ws (pchar (ch "(")) i) (fun i _ =>
      if recognise_concise i && negb b then r_concise_list i else r_inline_list i)).
  (** parse/list.rs 68-100 *)
  Definition r_seq (b : bool) (i : str) : nat :=
    r_then 0 (opt (ident false) i) (fun i _ => r_then 0 (ignore_ws (pchar (ch "[")) i) (fun i _ =>
      if recognise_concise i && negb b then r_concise_list i else r_inline_list i)).
  (** parse/cntr.rs 4-19 *)
  Definition r_kvp_field (b : bool) (i : str) : nat :=
    r_then 0 (field_name i) (fun i _ => r_then 0 (ignore_ws (pchar (ch "=")) i) (fun i _ => r_ignore_ws (if b then rinl else rcon) i)).
  (** parse/cntr.rs 22-32 *)
  Definition r_inline_cntr : str -> nat :=
    r_separated_list0 (ignore_ws (pchar (ch ","))) (ignore_ws (kvp_field inl con true)) (r_ignore_ws (r_kvp_field true)).
  (** parse/cntr.rs 35-48 *)
  Definition r_concise_cntr (i : str) : nat :=
    r_then 0 (multiline_whitespace i) (fun i _ => r_separated_list0 multiline_whitespace (kvp_field inl con false) (r_kvp_field false) i).
  (** parse/cntr.rs 50-79 *)
  Definition r_cntr (b : bool) (i : str) : nat :=
    r_then 0 (opt (ident false) i) (fun i _ => r_then 0 (ignore_ws (pchar (ch "(")) i) (fun i _ =>
      if recognise_concise i && negb b then r_concise_cntr i else r_inline_cntr i)).
  (** parse/map.rs 4-23 *)
  Definition r_kvp_kserd (b : bool) (i : str) : nat :=
    r_then (r_alt2 rcon rinl con i) (alt2 con inl i) (fun i _ =>
      r_then 0 (ignore_ws (pchar (ch ":")) i) (fun i _ => r_ignore_ws (if b then rinl else rcon) i)).
  (** parse/map.rs 26-36 *)
  Definition r_inline_map : str -> nat :=
    r_separated_list0 (ignore_ws (pchar (ch ","))) (ignore_ws (kvp_kserd inl con true)) (r_ignore_ws (r_kvp_kserd true)).
  (** parse/map.rs 39-52 *)
  Definition r_concise_map (i : str) : nat :=
    r_then 0 (multiline_whitespace i) (fun i _ => r_separated_list0 multiline_whitespace (kvp_kserd inl con false) (r_kvp_kserd false) i).
  (** parse/map.rs 57-82 *)
  Definition r_map (b : bool) (i : str) : nat :=
    r_then 0 (opt (ident false) i) (fun i _ => r_then 0 (ignore_ws (pchar (ch "{")) i) (fun i _ =>
      if recognise_concise i && negb b then r_concise_map i else r_inline_map i)).
  (** parse/mod.rs 68-82, one level *)
  Definition r_body (b : bool) (i : str) : nat :=
    r_then 0 (pattern_match_delimited i) (fun i pat =>
      match pat with
      | NpTuple => r_tuple b i
      | NpCntr => r_cntr b i
      | NpSeq => r_seq b i
      | NpMap => r_map b i
      | NpNone => 0
      end).
End Delimited.
(** parse/mod.rs 68-82: a reading, and those of the parts *)
Fixpoint readings (fuel : nat) (b : bool) (i : str) : nat :=
  match fuel with
  | O => 0
  | S fuel => S (r_body (kserd_delimited fuel true) (kserd_delimited fuel false) (readings fuel true) (readings fuel false) b i)
  end.

(** ** verbose containers *)
Section Verbose.
  Variables inl con nested : parser kserd.
  Variables rinl rcon rnested : str -> nat.
  (** parse/cntr.rs 180-288 *)
  Definition r_verbose_cntr_field (indents : nat) (i : str) : nat :=
    r_then 0 (skip_lines (S (length i)) i) (fun i _ => r_then 0 (expect_indents indents i) (fun i _ => r_then 0 (inline_whitespace i) (fun i _ =>
      if match i with [] => true | _ => false end || is_ok (ignore_ws line_ending i) then 0
      else if starts_with (s ":") i then 0
      else if starts_with (s "[[") i then
        r_then 0 (preceded (tag (s "[[")) (terminated verbose_field_name_and_identity (ignore_ws (tag (s "]]")))) i) (fun i _ =>
        r_then 0 (ignore_ws line_ending i) (fun i _ =>
        r_then (r_ignore_ws rinl i) (opt (terminated (ignore_ws (uncut inl)) (ignore_ws (pchar (ch ":")))) i) (fun i key =>
          match key with
          | Some _ => r_alt2 (r_ignore_ws rcon) (fun i => r_then 0 (ignore_ws line_ending i) (fun i _ => rnested i)) (ignore_ws con) i
          | None => rnested i
          end)))
      else if starts_with (s "[") i then
        r_then 0 (preceded (tag (s "[")) (terminated verbose_field_name_and_identity (ignore_ws (tag (s "]")))) i) (fun i _ =>
        r_then 0 (ignore_ws line_ending i) (fun i _ => rnested i))
      else r_kvp_field rinl rcon false i))).
End Verbose.
(** parse/cntr.rs 97-158 and parse/mod.rs 92-104 *)
Fixpoint r_nested (fuel dfuel : nat) (indents : nat) (i : str) {struct fuel} : nat :=
  match fuel with
  | O => 0
  | S fuel =>
      r_then 0 (pattern_match_verbose i) (fun i verbose =>
        if verbose then
          r_many0_loop (S (length i)) (verbose_cntr_field (kserd_inline dfuel) (kserd_concise dfuel) (kserd_nested fuel dfuel (S indents)) indents)
            (r_verbose_cntr_field (kserd_inline dfuel) (kserd_concise dfuel) (readings dfuel true) (readings dfuel false) (r_nested fuel dfuel (S indents)) indents) i
        else r_ignore_ws (readings dfuel false) i)
  end.
(** parse/mod.rs 106-114 and 210-219 *)
Definition parse_readings (src : str) : nat :=
  match src with [] => 0 | _ => r_nested (S (length src)) (S (length src)) 0 src end.
