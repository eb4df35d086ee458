(** The parser model run on texts from /repo's tests and documentation. *)
From Verif Require Import Base F64 Number BTree Value Nom Parse ParseErr.
Open Scope N_scope.

Definition u (n : Z) : kserd := knew (VNum (Uint n)).
Definition st (x : string) : kserd := knew (VStr (s x)).
Definition parses (t : str) (k : kserd) : bool :=
  match parse t with ParseOk r => k_eqb r k | _ => false end.
Definition parses_exact (t : str) (k : kserd) : Prop := parse t = ParseOk k.
Definition bt (t : str) : str :=
  match parse t with ParseErr e => match backtrace e with Ret b => b | _ => s "PANIC" end | _ => s "NOT AN ERROR" end.

(** parse/mod.rs 143-159 *)
Example pv1 : parses (s "
words = ""Hello, world!""
pi = 3.14
a-list = [0, 1, 2]
") (knew (VCntr [(s "a-list", knew (VSeq [u 0; u 1; u 2])); (s "pi", knew (VNum (Float (match f_parse (s "3.14") with Some x => x | None => FInf false end))));
   (s "words", st "Hello, world!")])) = true.
Proof. vm_compute. reflexivity. Qed.
(** 168-183 *)
Example pv2 : bt (s "(wrong]") = s "#0: at 1:2 :: expected ')', found 'w'
(wrong]
 ^

#1: at 1:2 :: in inline tuple
(wrong]
 ^".
Proof. vm_compute. reflexivity. Qed.
(** 193-205 *)
Example pv3 : parses_exact (s """Normal delimiters""") (st "Normal delimiters").
Proof. vm_compute. reflexivity. Qed.
Example pv4 : parses_exact (s "str'Quote delimiters to use ""double quotes""'") (st "Quote delimiters to use ""double quotes""").
Proof. vm_compute. reflexivity. Qed.
(** err.rs 63-90 *)
Example pv5 : bt (s "
list = [
           (0,1)
           (2,3]
       ]
") = s "#0: at 4:16 :: expected ')', found ']'
           (2,3]
               ^

#1: at 4:13 :: in inline tuple
           (2,3]
            ^

#2: at 2:9 :: in multi-line (concise) sequence
list = [
        ^

#3: at 2:1 :: in name-kserd key value pair
list = [
^".
Proof. vm_compute. reflexivity. Qed.
(** tests/parsing.rs 50-70 *)
Example pv6 : parses_exact (s "a = 101
" ++ [9]) (knew (VCntr [(s "a", u 101)])).
Proof. vm_compute. reflexivity. Qed.
Example pv7 : parses_exact (s "a = 101
" ++ [9; 9] ++ s "
b = 202") (knew (VCntr [(s "a", u 101); (s "b", u 202)])).
Proof. vm_compute. reflexivity. Qed.
(** tests/parsing.rs 72-112 *)
Example pv8 : parses_exact (s "[[list]]
""Hello, world!""

[[list]]
""This is a list""

[[list]]
""as entries""

[key]
    inner-item = ""This is a container""
    num = 101
    another = ""more words to write stuff""
    byte-array = b91'fdsaljfjdsa'
" ++ [9])
  (knew (VCntr
    [(s "key", knew (VCntr [(s "another", st "more words to write stuff");
                            (s "byte-array", knew (VBarr [110; 74; 45; 89; 50; 72; 22; 252; 52]));
                            (s "inner-item", st "This is a container"); (s "num", u 101)]));
     (s "list", knew (VSeq [st "Hello, world!"; st "This is a list"; st "as entries"]))])).
Proof. vm_compute. reflexivity. Qed.
(** err.rs str_parse *)
Example pv9 : match parse (s "<str> ""Hello, world!") with
  | ParseErr e => (e_len e, e_get e 0, e_get e 3) | _ => (0%nat, Ret None, Ret None) end =
  (4%nat,
   Ret (Some (mkTrace 1 21 (s "<str> ""Hello, world!") (s "expected '""', reached end of line or end of file first"))),
   Ret (Some (mkTrace 1 1 (s "<str> ""Hello, world!") (s "in primitive")))).
Proof. vm_compute. reflexivity. Qed.
(** err.rs test_parse_err_get *)
Example pv10 : match parse (s "
[[a-map]]
(""key, 1):
    [1,2,3,,4]
") with ParseErr e => e_get e 0 | _ => Ret None end =
  Ret (Some (mkTrace 4 16 (s "    [1,2,3,,4]") (s "expected '""', reached end of line or end of file first"))).
Proof. vm_compute. reflexivity. Qed.
(** err.rs test_get_line, test_lines_to_map *)
Definition crlf_src : str := s "Hello
A" ++ [13; 10] ++ s "Brave" ++ [13; 10] ++ s "World".
Example pv11 : lines_to_map crlf_src =
  [(0%nat, (1%nat, s "Hello")); (6%nat, (2%nat, s "A")); (9%nat, (3%nat, s "Brave")); (16%nat, (4%nat, s "World"))].
Proof. vm_compute. reflexivity. Qed.
Example pv12 : map (fun n => option_map fst (get_line (lines_to_map crlf_src) n)) [5; 6; 8; 9; 15; 16; 24]%nat =
  map Some [0; 6; 6; 9; 9; 16; 16]%nat.
Proof. vm_compute. reflexivity. Qed.
Example pv13 : match parse [] with ParseErr e => (e_len e, e_get e 0, e_get e 1) | _ => (0%nat, Ret None, Ret None) end =
  (2%nat, Ret (Some (mkTrace 0 0 [] (s "in Eof, got empty input"))),
   Ret (Some (mkTrace 0 0 [] (s "in empty input, got empty input")))).
Proof. vm_compute. reflexivity. Qed.
(** tests/parsing.rs, mod err *)
Example pv14 : bt (s "field name = [0, 1]") = s "#0: at 1:7 :: expected '=', found 'n'
field name = [0, 1]
      ^

#1: at 1:1 :: in name-kserd key value pair
field name = [0, 1]
^".
Proof. vm_compute. reflexivity. Qed.
Example pv15 : bt (s "[[field name]]") = s "#0: at 1:9 :: in Tag
[[field name]]
        ^

#1: at 1:1 :: in field name. expecting 'field_name[:identity]'
[[field name]]
^".
Proof. vm_compute. reflexivity. Qed.
Example pv16 : bt (s "a = 101

        b = 202
        c
        d = 404") = s "#0: at 4:10 :: expected '=', reached end of line or end of file first
        c
         ^

#1: at 4:9 :: in name-kserd key value pair
        c
        ^".
Proof. vm_compute. reflexivity. Qed.
Example pv17 : bt (s "imgs = [
    Image ( src = """" )
    Image (
        src = """",
        title = """"
    )
]") = s "#0: at 4:17 :: in SeparatedList
        src = """",
                ^

#1: at 3:12 :: in newline separated (concise) kserdstr-kserd pair
    Image (
           ^

#2: at 3:12 :: in concise container
    Image (
           ^

#3: at 1:9 :: in multi-line (concise) sequence
imgs = [
        ^

#4: at 1:1 :: in name-kserd key value pair
imgs = [
^".
Proof. vm_compute. reflexivity. Qed.
(** tests/parsing.rs bug_2 *)
Example pv18 : parses (s ":ScatterPlot
data = ""./zog.csv""

use_gl = false

[[fmts]]
""foo"":
    colour = ""BurlyWood""
[[fmts]]
""bar"":
    colour = ""DimGray""
") (knew (VCntr [(s "data", st "./zog.csv");
                 (s "fmts", knew (VMap [(st "bar", knew (VCntr [(s "colour", st "DimGray")])); (st "foo", knew (VCntr [(s "colour", st "BurlyWood")]))]));
                 (s "use_gl", knew (VBool false))])) = true.
Proof. vm_compute. reflexivity. Qed.
(** tests/parsing.rs tuples *)
Example pv19 : parses_exact (s "A-Name (    <something>  		 123456789  	,   255 		 )")
  (Kserd (Some (s "A-Name")) (VTuple [Kserd (Some (s "something")) (VNum (Uint 123456789)); u 255])).
Proof. vm_compute. reflexivity. Qed.
Example pv20 : parses_exact (s "  Some-Name    (
<something> 123456789
255
<last> 100
)") (Kserd (Some (s "Some-Name")) (VTuple [Kserd (Some (s "something")) (VNum (Uint 123456789)); u 255; Kserd (Some (s "last")) (VNum (Uint 100))])).
Proof. vm_compute. reflexivity. Qed.
Example pv21 : match parse (s "(
<something> 123456789
255
<last> 100)") with ParseErr _ => true | _ => false end = true.
Proof. vm_compute. reflexivity. Qed.
