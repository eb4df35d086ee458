(** Lists, containers and maps which have been begun: what stands between the opening bracket and
    the place where the closing one belongs. *)
From Verif Require Import Base F64 Number BTree Value Grammar.
Open Scope N_scope.

(** [begun x o cl what t]: with the text [x] behind it, the text [t] behind the opening bracket [o]
    is read as the elements of what [what] names, for which [cl] is the closing bracket *)
Inductive begun (x : str) : char -> char -> str -> str -> Prop :=
| B_seq t l : inline_list (reads true) t l -> begun x (ch "[") (ch "]") (s "inline sequence") t
| B_tuple t l : inline_list (reads true) t l -> assigns (trim (t ++ x)) = false -> begun x (ch "(") (ch ")") (s "inline tuple") t
| B_cntr t l : inline_list (field_of (reads true)) t l -> l <> [] -> begun x (ch "(") (ch ")") (s "inline container") t
| B_map t l : inline_list (entry_of (reads false) (reads true)) t l -> begun x (ch "{") (ch "}") (s "inline map") t
| B_cseq t l : concise_list (reads false) t l -> begun x (ch "[") (ch "]") (s "multi-line (concise) sequence") t
| B_ctuple t l : concise_list (reads false) t l -> assigns (trim (t ++ x)) = false -> begun x (ch "(") (ch ")") (s "multi-line (concise) tuple") t
| B_ccntr t l : concise_list (field_of (reads false)) t l -> l <> [] -> begun x (ch "(") (ch ")") (s "concise container") t
| B_cmap t l : concise_list (entry_of (reads false) (reads false)) t l -> begun x (ch "{") (ch "}") (s "concise map") t.
