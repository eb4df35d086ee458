(** What the properties about texts put together from others are stated against. *)
From Verif Require Import Base F64 Number BTree Value Nom Parse ParseErr Grammar VGrammar.
Open Scope N_scope.

(** the text stands for the value, is not in the verbose layout and does not end in a space or line break *)
Definition tidy (t : str) : Prop := exists z c, t = z ++ [c] /\ space c = false.
Definition stands (t : str) (k : kserd) : Prop := parse t = ParseOk k /\ verbose_first t = false /\ tidy t.
(** each on a line of its own *)
Definition lines (ts : list str) : str := flat_map (fun t => t ++ [10]) ts.
Definition field_lines (fs : list (str * str)) : str := lines (map (fun e => fst e ++ s " = " ++ snd e) fs).
Definition entry_lines (es : list (str * str)) : str := lines (map (fun e => fst e ++ s ": " ++ snd e) es).
(** [id], or nothing, an opening bracket, lines and a closing bracket *)
Definition block (id : option str) (o : string) (body : str) (c : string) : str :=
  match id with Some i => i ++ s " " | None => [] end ++ s o ++ [10] ++ body ++ s c.
Definition id_fits (id : option str) : Prop := match id with Some i => is_id_plain i = true | None => True end.
(** [inf] and the like *)
Definition bare_word (t : str) : bool := is_id (trim t).
Definition opens_bracket (t : str) : bool := match trim t with c :: _ => mem c (s "([{") | [] => false end.
(** how each line starts and ends: no word at the end is followed by a line which
    starts with a bracket *)
Fixpoint apart (ls : list (str * str)) : bool :=
  match ls with
  | e :: ((e' :: _) as ls') => negb (bare_word (snd e) && opens_bracket (fst e')) && apart ls'
  | _ => true
  end.
Definition a_name (n : str) : Prop := n <> [] /\ forallb name_char n = true.
(** names and texts, and the fields they stand for; the same for entries of a map *)
Definition fields_stand (fs : list (str * str)) (ks : list (str * kserd)) : Prop :=
  Forall2 (fun f k => a_name (fst f) /\ fst f = fst k /\ stands (snd f) (snd k)) fs ks.
Definition entries_stand (es : list (str * str)) (ks : list (kserd * kserd)) : Prop :=
  Forall2 (fun e k => stands (fst e) (fst k) /\ stands (snd e) (snd k)) es ks.
(** a document without brackets *)
Definition id_line (id : option str) : str := match id with Some i => s ":" ++ i ++ [10] | None => [] end.
Definition id_reads (id : option str) : Prop := match id with Some i => is_id i = true | None => True end.
