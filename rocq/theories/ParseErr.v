(** Parse errors: /repo/src/parse/err.rs and /repo/src/parse/mod.rs 33-58, 210-219. *)
From Verif Require Import Base F64 Number BTree Value Nom Parse.
Open Scope nat_scope.

(** std [str::lines]: pieces ended by a line feed, without the ending "\n" or
    "\r\n"; no piece for an empty rest *)
Definition strip_cr (t : str) : str :=
  match rev t with 13%N :: r => rev r | _ => t end.
(** [str::lines] (Rust standard library), used in parse/err.rs 149-154 *)
Fixpoint raw_lines (cur : str) (t : str) : list (str * bool) :=
  match t with
  | [] => match cur with [] => [] | _ => [(cur, false)] end
  | c :: t' => if (c =? 10)%N then (cur, true) :: raw_lines [] t' else raw_lines (cur ++ [c]) t'
  end.
(** parse/err.rs 149-154 with [offset] 133-135: byte offset of each line, its
    one-based number and its text.  (A last piece without "\n" keeps a
    trailing "\r".) *)
Fixpoint number_lines (off idx : nat) (l : list (str * bool)) : list (nat * (nat * str)) :=
  match l with
  | [] => []
  | (t, nl) :: l' =>
      (off, (S idx, if nl then strip_cr t else t))
        :: number_lines (off + byte_len t + (if nl then 1 else 0)) (S idx) l'
  end.
(** parse/err.rs 149-154 *)
Definition lines_to_map (src : str) : list (nat * (nat * str)) := number_lines 0 0 (raw_lines [] src).

(** parse/mod.rs 39-45 *)
Record error : Type := mkError {
  errs : list (nat * ekind);
  e_lines : list (nat * (nat * str));
  empty_input : bool
}.
(** parse/mod.rs 47-58 *)
Record trace : Type := mkTrace { t_line : nat; t_col : nat; t_linestr : str; t_msg : str }.

(** parse/err.rs 133-135: [sub] is a suffix of [src] *)
Definition offset (src sub : str) : nat := byte_len src - byte_len sub.
(** parse/err.rs 7-17 *)
Definition error_new (src : str) (e : perr) : error :=
  mkError (map (fun x => (offset src (fst x), snd x)) e) (lines_to_map src)
    (match src with [] => true | _ => false end).

(** parse/err.rs 138-146: the last line starting at or before the offset *)
Fixpoint get_line (l : list (nat * (nat * str))) (off : nat) : option (nat * (nat * str)) :=
  match l with
  | [] => None
  | e :: l' => if fst e <=? off then match get_line l' off with Some x => Some x | None => Some e end else None
  end.
(** parse/err.rs 156-170 *)
Definition make_empty_trace (k : ekind) : trace :=
  mkTrace 0 0 []
    (match k with
     | EChar c => s "expected '" ++ [c] ++ s "', got empty input"
     | EContext t => s "in " ++ t ++ s ", got empty input"
     | ENom n => s "in " ++ nom_kind_name n ++ s ", got empty input"
     end).
(** parse/err.rs 172-192 *)
Definition make_trace_msg (linestr : str) (col : nat) (k : ekind) : res str :=
  match k with
  | EChar c =>
      if byte_len linestr <=? col then
        Ret (s "expected '" ++ [c] ++ s "', reached end of line or end of file first")
      else
        match byte_drop col linestr with
        | Some (x :: _) => Ret (s "expected '" ++ [c] ++ s "', found '" ++ [x] ++ s "'")
        | _ => Panic (s "slice or missing character")
        end
  | EContext t => Ret (s "in " ++ t)
  | ENom n => Ret (s "in " ++ nom_kind_name n)
  end.
(** parse/err.rs 22-42 *)
Definition e_get (e : error) (index : nat) : res (option trace) :=
  match nth_error (errs e) index with
  | None => Ret None
  | Some (off, k) =>
      if empty_input e then Ret (Some (make_empty_trace k))
      else
        match get_line (e_lines e) off with
        | None => Panic (s "not empty input")
        | Some (line_offset, (line, linestr)) =>
            let col := off - line_offset in
            do msg <- make_trace_msg linestr col k ;
            Ret (Some (mkTrace line (col + 1) linestr msg))
        end
  end.
(** parse/err.rs 50-57 *)
Definition e_len (e : error) : nat := length (errs e).
(** parse/err.rs 45-47 *)
Fixpoint e_iter_from (n i : nat) (e : error) : res (list trace) :=
  match n with
  | O => Ret []
  | S n =>
      do t <- e_get e i ;
      do r <- e_iter_from n (S i) e ;
      Ret (match t with Some t => t :: r | None => r end)
  end.
(** parse/err.rs 45-47 *)
Definition e_iter (e : error) : res (list trace) := e_iter_from (e_len e) 0 e.

(** parse/err.rs 118-131 *)
Definition nat_display (n : nat) : str := dec_of_N (N.of_nat n).
(** parse/err.rs 118-131 *)
Definition trace_display (t : trace) : str :=
  s "at " ++ nat_display (t_line t) ++ s ":" ++ nat_display (t_col t) ++ s " :: " ++ t_msg t ++ [10%N] ++
  t_linestr t ++ [10%N] ++
  (if 0 <? t_col t then repeat 32%N (t_col t - 1) ++ s "^" else []).
(** parse/err.rs 91-109 *)
Fixpoint backtrace_from (idx last : nat) (l : list trace) : str :=
  match l with
  | [] => []
  | t :: l' =>
      s "#" ++ nat_display idx ++ s ": " ++ trace_display t ++
      (if idx =? last then [] else [10%N; 10%N]) ++ backtrace_from (S idx) last l'
  end.
(** parse/err.rs 91-109; also its Debug, 112-116 *)
Definition backtrace (e : error) : res str :=
  do l <- e_iter e ; Ret (backtrace_from 0 (e_len e - 1) l).

(** parse/mod.rs 210-219 *)
Inductive parse_result : Type :=
| ParseOk (k : kserd)
| ParseErr (e : error)
| ParsePanic
| ParseFuel.
(** parse/mod.rs 210-219 *)
Definition parse (src : str) : parse_result :=
  match kserd_root src with
  | POk _ k => ParseOk k
  | PErr e | PFail e => ParseErr (error_new src e)
  | PPanic => ParsePanic
  | PFuel => ParseFuel
  end.
