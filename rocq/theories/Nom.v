(** The parts of the nom 7 crate used by /repo/src/parse: parsers over text
    with accumulated errors.  nom is not in /repo: this follows its published
    source (version 7), listed in DESIGN.md as trusted. *)
From Verif Require Import Base.
Open Scope N_scope.

(** nom::error::ErrorKind, the kinds which occur; printed with their Debug
    name *)
Inductive nom_kind : Type :=
| NkTag | NkAlt | NkAlpha | NkTakeWhile1 | NkCrLf | NkEof | NkFail | NkMany0 | NkSeparatedList.
(** the derived Debug of nom::error::ErrorKind (nom 7) *)
Definition nom_kind_name (k : nom_kind) : str :=
  match k with
  | NkTag => s "Tag" | NkAlt => s "Alt" | NkAlpha => s "Alpha" | NkTakeWhile1 => s "TakeWhile1"
  | NkCrLf => s "CrLf" | NkEof => s "Eof" | NkFail => s "Fail" | NkMany0 => s "Many0"
  | NkSeparatedList => s "SeparatedList"
  end.
(** nom::error::VerboseErrorKind *)
Inductive ekind : Type := EChar (c : char) | EContext (t : str) | ENom (k : nom_kind).

(** nom::error::VerboseError: where (the text remaining at that place) and
    what, innermost first *)
Definition perr := list (str * ekind).

(** nom::IResult, with panics and running out of fuel made explicit.
    [PErr] = Err::Error, [PFail] = Err::Failure. *)
Inductive pres (A : Type) : Type :=
| POk (rest : str) (a : A)
| PErr (e : perr)
| PFail (e : perr)
| PPanic
| PFuel.
Arguments POk {A} _ _. Arguments PErr {A} _. Arguments PFail {A} _. Arguments PPanic {A}. Arguments PFuel {A}.

(** Fn(&str) -> IResult (nom 7) *)
Definition parser (A : Type) := str -> pres A.

(** the [?] operator *)
Definition pbind {A B} (r : pres A) (f : str -> A -> pres B) : pres B :=
  match r with
  | POk i a => f i a
  | PErr e => PErr e
  | PFail e => PFail e
  | PPanic => PPanic
  | PFuel => PFuel
  end.
Notation "'let?' ( i , a ) := e 'in' f" := (pbind e (fun i a => f)) (at level 200, i name, a pattern, e at level 200, f at level 200).

(** [.is_ok()] *)
Definition is_ok {A} (r : pres A) : bool := match r with POk _ _ => true | _ => false end.

(** combinator::map *)
Definition pmap {A B} (p : parser A) (f : A -> B) : parser B := fun i => pbind (p i) (fun r a => POk r (f a)).
(** sequence::preceded, terminated, separated_pair *)
Definition preceded {A B} (p : parser A) (q : parser B) : parser B := fun i => let? (i, _) := p i in q i.
(** sequence::terminated (nom 7) *)
Definition terminated {A B} (p : parser A) (q : parser B) : parser A :=
  fun i => let? (i, a) := p i in let? (i, _) := q i in POk i a.
(** sequence::separated_pair (nom 7) *)
Definition separated_pair {A B C} (p : parser A) (sep : parser B) (q : parser C) : parser (A * C) :=
  fun i => let? (i, a) := p i in let? (i, _) := sep i in let? (i, c) := q i in POk i (a, c).
(** combinator::opt *)
Definition opt {A} (p : parser A) : parser (option A) :=
  fun i => match p i with
           | POk r a => POk r (Some a)
           | PErr _ => POk i None
           | PFail e => PFail e
           | PPanic => PPanic
           | PFuel => PFuel
           end.
(** combinator::cut *)
Definition cut {A} (p : parser A) : parser A := fun i => match p i with PErr e => PFail e | r => r end.
(** error::context *)
Definition context {A} (t : str) (p : parser A) : parser A :=
  fun i => match p i with
           | PErr e => PErr (e ++ [(i, EContext t)])
           | PFail e => PFail (e ++ [(i, EContext t)])
           | r => r
           end.
(** branch::alt: the error of the last alternative is kept *)
Definition alt2 {A} (p q : parser A) : parser A :=
  fun i => match p i with
           | PErr _ => match q i with PErr e => PErr (e ++ [(i, ENom NkAlt)]) | r => r end
           | r => r
           end.
(** branch::alt of five (nom 7) *)
Definition alt5 {A} (p1 p2 p3 p4 p5 : parser A) : parser A :=
  fun i =>
    match p1 i with PErr _ =>
      match p2 i with PErr _ =>
        match p3 i with PErr _ =>
          match p4 i with PErr _ =>
            match p5 i with PErr e => PErr (e ++ [(i, ENom NkAlt)]) | r => r end
          | r => r end
        | r => r end
      | r => r end
    | r => r end.
(** character::complete::char *)
Definition pchar (c : char) : parser char :=
  fun i => match i with
           | x :: r => if x =? c then POk r c else PErr [(i, EChar c)]
           | [] => PErr [(i, EChar c)]
           end.
(** bytes::complete::tag *)
Definition tag (t : str) : parser str :=
  fun i => if starts_with t i then POk (skipn (length t) i) t else PErr [(i, ENom NkTag)].
(** bytes::complete::take_while, take_till, take_while1 *)
Definition ptake_while (f : char -> bool) : parser str := fun i => let (a, r) := take_while f i in POk r a.
(** bytes::complete::take_till (nom 7) *)
Definition ptake_till (f : char -> bool) : parser str := ptake_while (fun c => negb (f c)).
(** bytes::complete::take_while1 (nom 7) *)
Definition ptake_while1 (f : char -> bool) : parser str :=
  fun i => let (a, r) := take_while f i in
           match a with [] => PErr [(i, ENom NkTakeWhile1)] | _ => POk r a end.
(** character::complete::alpha1 (ASCII) *)
Definition alpha1 : parser str :=
  fun i => let (a, r) := take_while is_alpha i in
           match a with [] => PErr [(i, ENom NkAlpha)] | _ => POk r a end.
(** character::complete::line_ending *)
Definition line_ending : parser str :=
  fun i => match i with
           | 10 :: r => POk r [10]
           | 13 :: 10 :: r => POk r [13; 10]
           | _ => PErr [(i, ENom NkCrLf)]
           end.
(** combinator::all_consuming *)
Definition all_consuming {A} (p : parser A) : parser A :=
  fun i => let? (i, a) := p i in match i with [] => POk i a | _ => PErr [(i, ENom NkEof)] end.

(** multi::many0; [fuel] bounds the number of rounds *)
Fixpoint many0_loop {A} (fuel : nat) (p : parser A) (acc : list A) (i : str) : pres (list A) :=
  match fuel with
  | O => PFuel
  | S fuel =>
      match p i with
      | PErr _ => POk i acc
      | PFail e => PFail e
      | PPanic => PPanic
      | PFuel => PFuel
      | POk i1 a =>
          if Nat.eqb (length i1) (length i) then PErr [(i, ENom NkMany0)]
          else many0_loop fuel p (acc ++ [a]) i1
      end
  end.
(** multi::many0 (nom 7) *)
Definition many0 {A} (p : parser A) : parser (list A) := fun i => many0_loop (S (length i)) p [] i.

(** multi::separated_list0 *)
Fixpoint sep_loop {A B} (fuel : nat) (sep : parser B) (p : parser A) (acc : list A) (i : str) : pres (list A) :=
  match fuel with
  | O => PFuel
  | S fuel =>
      match sep i with
      | PErr _ => POk i acc
      | PFail e => PFail e
      | PPanic => PPanic
      | PFuel => PFuel
      | POk i1 _ =>
          if Nat.eqb (length i1) (length i) then PErr [(i1, ENom NkSeparatedList)]
          else
            match p i1 with
            | PErr _ => POk i acc
            | PFail e => PFail e
            | PPanic => PPanic
            | PFuel => PFuel
            | POk i2 a => sep_loop fuel sep p (acc ++ [a]) i2
            end
      end
  end.
(** multi::separated_list0 (nom 7) *)
Definition separated_list0 {A B} (sep : parser B) (p : parser A) : parser (list A) :=
  fun i => match p i with
           | PErr _ => POk i []
           | PFail e => PFail e
           | PPanic => PPanic
           | PFuel => PFuel
           | POk i1 a => sep_loop (S (length i1)) sep p [a] i1
           end.
