(** Text and small list helpers shared by the whole model. *)
From Coq Require Export Ascii String.
From Coq Require Export NArith ZArith List Bool Lia.
From Coq Require Export ZifyBool ZifyNat ZifyN.
Export ListNotations.
#[global] Open Scope N_scope.
#[global] Open Scope list_scope.
#[global] Arguments N.add : simpl never.
#[global] Arguments N.mul : simpl never.
#[global] Arguments N.sub : simpl never.
#[global] Arguments N.eqb : simpl never.
#[global] Arguments N.leb : simpl never.
#[global] Arguments N.ltb : simpl never.
#[global] Arguments N.compare : simpl never.
#[global] Arguments Z.add : simpl never.
#[global] Arguments Z.mul : simpl never.
#[global] Arguments Z.sub : simpl never.
#[global] Arguments Z.pow : simpl never.
#[global] Arguments Z.div : simpl never.
#[global] Arguments Z.modulo : simpl never.
#[global] Arguments N.div : simpl never.
#[global] Arguments N.modulo : simpl never.
#[global] Arguments N.pow : simpl never.

(** Rust [char]: a Unicode scalar value, as its code point. *)
Definition char := N.

(** Rust [str]/[String]: the sequence of its scalar values.  (Kstr of
    /repo/src/ds/kstr.rs 11-73 wraps Cow<str>; owned and borrowed text are the
    same text here.) *)
Definition str := list char.

(** ASCII literals. *)
Definition ch (a : ascii) : char := N_of_ascii a.
(** a literal of the source as a text; not in /repo *)
Definition s (x : string) : str := map N_of_ascii (list_ascii_of_string x).

(** Rust [Ordering] is Coq's [comparison]: Less = Lt, Equal = Eq, Greater = Gt. *)

(** [char::is_ascii_digit] *)
Definition is_digit (c : char) : bool := (48 <=? c) && (c <=? 57).
(** [char::is_ascii_alphabetic] *)
Definition is_alpha (c : char) : bool :=
  ((65 <=? c) && (c <=? 90)) || ((97 <=? c) && (c <=? 122)).
(** [char::is_ascii_alphanumeric] *)
Definition is_alnum (c : char) : bool := is_alpha c || is_digit c.

(** [str::contains(char)] *)
Definition mem (c : char) (l : str) : bool := existsb (N.eqb c) l.

(** [str == str] *)
Fixpoint str_eqb (a b : str) : bool :=
  match a, b with
  | [], [] => true
  | x :: a', y :: b' => (x =? y) && str_eqb a' b'
  | _, _ => false
  end.

(** [str::cmp]: Rust compares the UTF-8 bytes lexicographically, which orders
    texts by their scalars lexicographically. *)
Fixpoint str_cmp (a b : str) : comparison :=
  match a, b with
  | [], [] => Eq
  | [], _ :: _ => Lt
  | _ :: _, [] => Gt
  | x :: a', y :: b' =>
      match N.compare x y with
      | Eq => str_cmp a' b'
      | c => c
      end
  end.

(** [str::starts_with] *)
Fixpoint starts_with (p t : str) : bool :=
  match p, t with
  | [], _ => true
  | x :: p', y :: t' => (x =? y) && starts_with p' t'
  | _ :: _, [] => false
  end.

(** longest prefix of characters satisfying [f], and the rest *)
Fixpoint take_while (f : char -> bool) (t : str) : str * str :=
  match t with
  | [] => ([], [])
  | c :: t' => if f c then let (a, b) := take_while f t' in (c :: a, b) else ([], t)
  end.

(** [char::len_utf8] *)
Definition utf8_len (c : char) : nat :=
  if c <? 128 then 1%nat else if c <? 2048 then 2%nat else if c <? 65536 then 3%nat else 4%nat.
(** [str::len] in bytes *)
Definition byte_len (t : str) : nat := fold_right (fun c n => (utf8_len c + n)%nat) 0%nat t.

(** [&t[n..]]: None (a panic) unless at a character boundary inside the text *)
Fixpoint byte_drop (n : nat) (t : str) : option str :=
  match n with
  | O => Some t
  | _ =>
      match t with
      | [] => None
      | c :: t' => if Nat.leb (utf8_len c) n then byte_drop (n - utf8_len c)%nat t' else None
      end
  end.
(** [String::pop], dropping the popped character *)
Definition pop (t : str) : str := removelast t.

(** decimal digits of a natural number, [n.to_string()] *)
Fixpoint dec_digits (fuel : nat) (n : N) (acc : str) : str :=
  match fuel with
  | O => acc
  | S f =>
      let acc' := (48 + n mod 10) :: acc in
      if n <? 10 then acc' else dec_digits f (n / 10) acc'
  end.
(** [n.to_string()] (Rust standard library) *)
Definition dec_of_N (n : N) : str := dec_digits (S (N.size_nat n)) n [].

(** value of a digit string (no check) *)
Definition N_of_dec (t : str) : N := fold_left (fun a c => a * 10 + (c - 48)) t 0.

(** [Option::and_then] (Rust standard library) *)
Definition opt_bind {A B} (o : option A) (f : A -> option B) : option B :=
  match o with Some a => f a | None => None end.

(** [result]-like monad for code which can panic. *)
Inductive res (A : Type) : Type :=
| Ret : A -> res A
| Panic : str -> res A.
Arguments Ret {A} _.
Arguments Panic {A} _.
(** sequencing of code which may panic; not in /repo *)
Definition rbind {A B} (r : res A) (f : A -> res B) : res B :=
  match r with Ret a => f a | Panic m => Panic m end.
Notation "'do' x <- e ; f" := (rbind e (fun x => f)) (at level 60, x pattern, e at level 55, f at level 60, right associativity).
