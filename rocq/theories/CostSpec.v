(** How much work reading a document takes, said without the parser. *)
From Verif Require Import Base.
Open Scope nat_scope.

(** the opening braces of a text *)
Definition braces (t : str) : nat := length (filter (N.eqb (ch "{")) t).
(** two opening brackets one after the other *)
Definition doubled (t : str) : Prop := exists p q, t = p ++ s "[[" ++ q.
