(** The text format in its verbose layout, as a grammar: which texts stand for
    which containers.  Written from the documentation and the tests of
    /repo/src/parse/cntr.rs, not from the parser's functions. *)
From Verif Require Import Base F64 Number BTree Value Grammar.
Open Scope N_scope.

(** ** lines *)
Definition eol (e : str) : Prop := e = [10] \/ e = [13; 10].
(** lines of blanks only *)
Inductive blank_lines : str -> Prop :=
| BL_none : blank_lines []
| BL_line w e r : blanks w -> eol e -> blank_lines r -> blank_lines (w ++ e ++ r).
(** [n] indents, each of four spaces or a tab *)
Inductive indents : nat -> str -> Prop :=
| In_none : indents O []
| In_spaces n w : indents n w -> indents (S n) (s "    " ++ w)
| In_tab n w : indents n w -> indents (S n) (9 :: w).
(** what stands before an item of a container which is indented [n] times *)
Inductive lead (n : nat) : str -> Prop :=
| Lead a b c : blank_lines a -> indents n b -> blanks c -> lead n (a ++ b ++ c).
(** the line ends here, but for blanks *)
Definition at_eol (t : str) : bool := match t with [] => true | 10 :: _ => true | 13 :: 10 :: _ => true | _ => false end.
Definition line_ends (t : str) : bool := at_eol (skip_blanks t).
(** the first line which is not blank *)
Fixpoint first_line (start t : str) : str :=
  match t with
  | c :: t' =>
      if blank c then first_line start t'
      else if c =? 10 then first_line t' t'
      else if c =? 13 then match t' with c' :: t'' => if c' =? 10 then first_line t'' t'' else start | [] => start end
      else start
  | [] => start
  end.
Definition next_line (t : str) : str := first_line t t.
Fixpoint indented (n : nat) (t : str) : bool :=
  match n with
  | O => true
  | S n => if starts_with (s "    ") t then indented n (skipn 4 t)
           else match t with c :: t' => (c =? 9) && indented n t' | [] => false end
  end.
(** a container which is indented [n] times ends here: nothing but blanks
    follows, or the next line is indented less *)
Definition closes (n : nat) (t : str) : bool := forallb blank (next_line t) || negb (indented n (next_line t)).

(** ** items of a container *)
Inductive item : Type :=
| It_id (id : str)                                     (* :id *)
| It_field (name : str) (v : kserd)                    (* name = v, [name] v *)
| It_elem (id : option str) (name : str) (v : kserd)   (* [[name]] v *)
| It_entry (id : option str) (name : str) (k v : kserd). (* [[name]] k: v *)

(** what a list of items stands for: the last id; under each name the map of
    its entries if there are any, else the sequence of its elements if there are
    any, else the last value *)
Definition names (l : list item) : list str :=
  flat_map (fun i => match i with It_id _ => [] | It_field n _ | It_elem _ n _ | It_entry _ n _ _ => [n] end) l.
Definition last_some {A} (l : list (option A)) : option A :=
  fold_left (fun acc o => match o with Some _ => o | None => acc end) l None.
Definition elems_of (name : str) (l : list item) : list (option str * kserd) :=
  flat_map (fun i => match i with It_elem id n v => if str_eqb n name then [(id, v)] else [] | _ => [] end) l.
Definition entries_of (name : str) (l : list item) : list (option str * (kserd * kserd)) :=
  flat_map (fun i => match i with It_entry id n k v => if str_eqb n name then [(id, (k, v))] else [] | _ => [] end) l.
Definition direct_of (name : str) (l : list item) : list (option kserd) :=
  flat_map (fun i => match i with It_field n v => if str_eqb n name then [Some v] else [] | _ => [] end) l.
Definition value_of (name : str) (l : list item) : kserd :=
  match entries_of name l, elems_of name l with
  | [], [] => match last_some (direct_of name l) with Some v => v | None => Kserd None VUnit end
  | [], es => Kserd (last_some (map fst es)) (VSeq (map snd es))
  | es, _ => Kserd (last_some (map fst es)) (VMap (bt_inserts k_cmp (map snd es)))
  end.
Definition container (l : list item) : kserd :=
  Kserd (last_some (map (fun i => match i with It_id id => Some id | _ => None end) l))
        (VCntr (fields_of (map (fun n => (n, value_of n l)) (names l)))).

(** ** the layout *)
(** [ name ] and [ name : id ], without the brackets *)
Inductive title : str -> str -> option str -> Prop :=
| Title w1 name w2 : blanks w1 -> name <> [] -> forallb name_char name = true -> blanks w2 -> title (w1 ++ name ++ w2) name None
| Title_id w1 name w2 w3 id w4 : blanks w1 -> name <> [] -> forallb name_char name = true -> blanks w2 -> blanks w3 ->
    is_id id = true -> blanks w4 -> title (w1 ++ name ++ w2 ++ s ":" ++ w3 ++ id ++ w4) name (Some id).
Definition default_id (id : option str) (v : kserd) : kserd :=
  Kserd (match kid v with Some i => Some i | None => id end) (kval v).
(** the text can be seen not to start with a key: a blank line, [:id] or [name =]
    where [name] does not start with [str] *)
Definition keyless (t : str) : bool :=
  match skip_blanks t with
  | [] => false
  | (c :: _) as u =>
      mem c [10; 13; ch ":"] ||
      (let (name, r) := take_while name_char u in
       negb (str_eqb name []) && negb (starts_with (s "str") name) && starts_with (s "=") (skip_blanks r))
  end.
(** the first line of a container *)
Definition verbose_first (t : str) : bool := starts_with (s ":") (trim t) || verbose_start (trim t).

(** [vitem n t i b c]: [t] is an item of a container which is indented [n]
    times; [b] says that it ends in a bare number, [c] that it ends in a verbose
    container (indented [n + 1] times).
    [body n t v b c]: the value below a title.
    [vlist n t l b]: the items of a container. *)
Inductive vitem : nat -> str -> item -> bool -> bool -> Prop :=
| I_id n w id : blanks w -> is_id id = true -> vitem n (s ":" ++ w ++ id) (It_id id) false false
| I_field n t name v b : field_of (reads false) t (name, v) b -> vitem n t (It_field name v) b false
| I_cntr n h name id w e t v b c : title h name id -> blanks w -> eol e -> body (S n) t v b c ->
    vitem n (s "[" ++ h ++ s "]" ++ w ++ e ++ t) (It_field name (default_id id v)) b c
| I_elem n h name id w e t v b c : title h name id -> blanks w -> eol e -> body (S n) t v b c ->
    (c = true -> keyless t = true) ->
    vitem n (s "[[" ++ h ++ s "]]" ++ w ++ e ++ t) (It_elem id name v) b c
| I_entry n h name id w e w1 tk k bk w2 w3 t v b : title h name id -> blanks w -> eol e ->
    blanks w1 -> reads true tk k bk -> blanks w2 -> blanks w3 -> reads false t v b ->
    vitem n (s "[[" ++ h ++ s "]]" ++ w ++ e ++ w1 ++ tk ++ w2 ++ s ":" ++ w3 ++ t) (It_entry id name k v) b false
| I_entry_below n h name id w e w1 tk k bk w2 w3 e' t v b c : title h name id -> blanks w -> eol e ->
    blanks w1 -> reads true tk k bk -> blanks w2 -> blanks w3 -> eol e' -> body (S n) t v b c ->
    vitem n (s "[[" ++ h ++ s "]]" ++ w ++ e ++ w1 ++ tk ++ w2 ++ s ":" ++ w3 ++ e' ++ t) (It_entry id name k v) b c
with body : nat -> str -> kserd -> bool -> bool -> Prop :=
| B_plain n w t v b : blanks w -> reads false t v b -> (forall r, line_ends r = true -> verbose_start (t ++ r) = false) ->
    body n (w ++ t) v b false
| B_cntr n t l b : vlist n t l b -> verbose_first t = true -> body n t (container l) b true
with vlist : nat -> str -> list item -> bool -> Prop :=
| V_last n w t i b c : lead n w -> vitem n t i b c -> vlist n (w ++ t) [i] b
| V_next n w t i b c r l b' : lead n w -> vitem n t i b c -> vlist n r l b' ->
    line_ends r = true -> (b = true -> opens r = false) -> (c = true -> closes (S n) r = true) ->
    vlist n (w ++ t ++ r) (i :: l) b'.

(** whole documents in the verbose layout *)
Inductive vdocument : str -> kserd -> Prop :=
| VDocument t l b r w : vlist O t l b -> verbose_first t = true -> blank_lines r -> blanks w -> line_ends (r ++ w) = true ->
    vdocument (t ++ r ++ w) (container l).
