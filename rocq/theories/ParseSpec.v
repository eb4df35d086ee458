(** What the properties of the parser are stated against. *)
From Verif Require Import Base F64 Number NumberSpec BTree Value ValueSpec Nom ParseErr Encode.
Open Scope N_scope.

(** the text ends in [r] *)
Definition suffix (r i : str) : Prop := exists p, i = p ++ r.

(** a letter, digit, '-' or '_' *)
Definition word_char (c : char) : bool :=
  ((65 <=? c) && (c <=? 90)) || ((97 <=? c) && (c <=? 122)) || ((48 <=? c) && (c <=? 57)) || (c =? 45) || (c =? 95).
(** a non-empty word starting with a letter or '_' *)
Definition parsed_id (t : str) : bool :=
  match t with
  | [] => false
  | c :: _ => negb ((48 <=? c) && (c <=? 57)) && negb (c =? 45)
  end && forallb word_char t.

(** no node of the tree is a number *)
Definition no_numbers : kserd -> bool := k_all (fun k => match kval k with VNum _ => false | _ => true end).

(** what the grammar promises about one node *)
Definition parsed_node (k : kserd) : bool :=
  match kid k with Some id => parsed_id id | None => true end
  && match kval k with
     | VCntr m => strictly_sorted str_cmp m && forallb (fun e => forallb word_char (fst e)) m
     | VNum n => num_wf n
     | VBarr b => forallb (fun x => x <? 256) b
     | VMap m => implb (forallb (fun e => no_numbers (fst e)) m) (strictly_sorted k_cmp m)
     | _ => true
     end.
Definition k_parsed : kserd -> bool := k_all parsed_node.

(** the node has this id; the node is a container with this field *)
Definition has_id (id : str) (k : kserd) : bool := match kid k with Some i => str_eqb i id | None => false end.
Definition has_field (name : str) (k : kserd) : bool :=
  match kval k with VCntr m => existsb (fun e => str_eqb (fst e) name) m | _ => false end.

(** ** positions *)
(** [src] contains the line [l] after the lines [before]; [after] is empty or
    starts with the line feed ending [l] *)
Definition is_line (src before l after : str) : Prop :=
  src = before ++ l ++ after /\
  (before = [] \/ exists b, before = b ++ [10]) /\
  ~ In 10 l /\
  (after = [] \/ exists a, after = 10 :: a) /\
  l ++ after <> [].
(** the line as it is shown: a carriage return in front of the line feed
    belongs to the line ending *)
Definition line_text (l after text : str) : Prop :=
  match after with
  | [] => text = l
  | _ => l = text ++ [13] \/ (text = l /\ ~ exists x, l = x ++ [13])
  end.
(** the length of a text in bytes of UTF-8 *)
Definition bytes (t : str) : nat := length (utf8 t).
(** the place after the first [length p] characters of [src] is in line [line]
    (counted from one), [col - 1] bytes into it, and the line reads [text].
    The end of a text which ends with a line feed is counted to the last line. *)
Definition located (src p : str) (line col : nat) (text : str) : Prop :=
  exists before l after q,
    is_line src before l after /\ line_text l after text /\
    line = S (length (filter (N.eqb 10) before)) /\
    p = before ++ q /\ col = S (bytes q) /\
    ((exists q', l = q ++ q') \/ (p = src /\ after = [10])).
(** the character of the line at the place *)
Definition found_char (col : nat) (text : str) (x : option char) : Prop :=
  match x with
  | Some c => exists q r, text = q ++ c :: r /\ col = S (bytes q)
  | None => (bytes text < col)%nat
  end.
(** the message, as a function of what was expected and what is there *)
Definition message (k : ekind) (x : option char) : str :=
  match k with
  | EChar c => s "expected '" ++ [c] ++
               match x with
               | Some x => s "', found '" ++ [x] ++ s "'"
               | None => s "', reached end of line or end of file first"
               end
  | EContext t => s "in " ++ t
  | ENom n => s "in " ++ nom_kind_name n
  end.

(** a trace of the error describes the place after [p] and what was expected there *)
Definition describes (src p : str) (k : ekind) (t : trace) : Prop :=
  match src with
  | [] => t_line t = 0%nat /\ t_col t = 0%nat /\ t_linestr t = [] /\
          t_msg t = match k with EChar c => s "expected '" ++ [c] ++ s "'" | _ => message k None end ++ s ", got empty input"
  | _ => located src p (t_line t) (t_col t) (t_linestr t) /\
         exists x, found_char (t_col t) (t_linestr t) x /\ t_msg t = message k x
  end.

(** what a document with this opening bracket can be said to be *)
Definition enclosing (c : char) : list str :=
  if c =? ch "(" then [s "multi-line (concise) tuple"; s "inline tuple"; s "concise container"; s "inline container"]
  else [s "concise map"; s "inline map"].

(** ** the text of an error *)
(** a trace: the place and the message, the line, and a caret under it *)
Definition shown (i : nat) (t : trace) : str :=
  s "#" ++ dec_of_N (N.of_nat i) ++ s ": at " ++ dec_of_N (N.of_nat (t_line t)) ++ s ":" ++ dec_of_N (N.of_nat (t_col t)) ++ s " :: " ++ t_msg t ++ [10] ++
  t_linestr t ++ [10] ++
  match t_col t with O => [] | S n => repeat 32 n ++ s "^" end.
(** texts with an empty line between them *)
Fixpoint paragraphs (l : list str) : str :=
  match l with
  | [] => []
  | [t] => t
  | t :: l => t ++ [10; 10] ++ paragraphs l
  end.
(** numbered from [i] on *)
Fixpoint numbered (i : nat) (l : list trace) : list str :=
  match l with [] => [] | t :: l => shown i t :: numbered (S i) l end.
