(** The model run on the cases of /repo's unit tests which are not in the other files of vectors.
    The definitions below are shorthand for writing the values of the tests (not in /repo). *)
From Verif Require Import Base F64 F32 Number BTree Value Base91 Nav Nom Parse ParseErr Fmt Formatter Errors Mutate FmtVectors.
Open Scope nat_scope.
Open Scope string_scope.
Open Scope list_scope.

(** fmt/formatter.rs 515-526 *)
Example wv1 : map (fun x => validate_request_repr (fst (fst x)) (snd (fst x)) (snd x))
    [(Inline, None, Inline); (Inline, None, Concise); (Concise, Some Inline, Concise); (Verbose, Some Concise, Verbose); (Verbose, Some Verbose, Concise)] =
  [LRet (inl Inline); LRet (inr (RequestTooHigh Inline Concise)); LRet (inr ParentIsInline); LRet (inr ParentIsConcise); LRet (inl Concise)].
Proof. vm_compute. reflexivity. Qed.
(** fmt/formatter.rs 606-677, 680-764 *)
Definition wv_tree : kserd :=
  cn [("a", sq [i32 0; i32 1]); ("b", tup [i32 1; st "Hello"]); ("c", mp [(tup [new_unit], new_unit); (sq [new_unit], new_unit)]); ("d", st "asdf")].
Example wv2 : lines wv_tree = LRet [Verbose; Verbose; Inline; Inline; Concise; Inline; Inline; Verbose; Concise; Inline; Inline; Concise; Inline; Inline; Inline] /\
  lines_after wv_tree [(Concise, 1)] = LRet ([Verbose; Concise; Inline; Inline; Concise; Inline; Inline; Verbose; Concise; Inline; Inline; Concise; Inline; Inline; Inline], [None]) /\
  lines_after wv_tree [(Concise, 1); (Concise, 0)] =
    LRet ([Concise; Concise; Inline; Inline; Concise; Inline; Inline; Concise; Concise; Inline; Inline; Concise; Inline; Inline; Inline], [None; None]).
Proof. vm_compute. auto. Qed.
Example wv3 : lines_after wv_tree [(Inline, 0)] = LRet (repeat Inline 15, [None]) /\
  lines_after wv_tree [(Inline, 0); (Concise, 0)] = LRet (Concise :: repeat Inline 14, [None; None]) /\
  lines_after wv_tree [(Inline, 0); (Concise, 0); (Concise, 1)] = LRet (Concise :: Concise :: repeat Inline 13, [None; None; None]) /\
  lines_after wv_tree [(Inline, 0); (Concise, 0); (Concise, 1); (Verbose, 0)] = LRet (Verbose :: Concise :: repeat Inline 13, [None; None; None; None]).
Proof. vm_compute. auto. Qed.

(** the columns of the nodes after some requests, with the widths of a configuration *)
Definition columns (k : kserd) (cfg : config) (l : list (repr * nat)) (idx : list nat) : lres (list nat) :=
  dl f <- fm_new k ; dl inw <- inline_widths (fm_nav f) cfg ; dl x <- requests l f ;
  lfold (fun acc i => dl n <- lunwrap (nav_get (fm_nav f) i) ; dl c <- calculate_offset (fm_nav f) n (fm_fmts (fst x)) inw ; LRet (acc ++ [c])) idx [].
(** fmt/solver.rs 477-508 *)
Example wv4 : columns (cn [("field-name", mp [(i32 1234, i32 1234567)])]) (mkConfig false true false false false (Some 120))
    [(Concise, 0); (Concise, 1); (Inline, 2); (Inline, 3)] [0; 1; 2; 3] = LRet [0; 17; 21; 27].
Proof. vm_compute. reflexivity. Qed.
(** fmt/solver.rs 511-569 *)
Example wv5 : columns (cn [("mapping", mp [(tup [i32 1; i32 2], cn [("a", i32 100); ("b", tup [i32 0; i32 1]); ("c", sq [i32 2; i32 3])])])])
    (mkConfig false false false false false (Some 120)) [(Verbose, 0); (Verbose, 1); (Inline, 2)] [0; 1; 2; 3; 4; 5; 6; 7; 10] = LRet [0; 10; 0; 0; 0; 8; 8; 8; 8].
Proof. vm_compute. reflexivity. Qed.
(** fmt/solver.rs 572-613 *)
Definition wv_nested : kserd := cn [("un", cn [("dos", cn [("treis", cn [("quattro", new_unit)])])])].
Example wv6 : columns wv_nested (mkConfig false false false false false (Some 120)) [] [0; 1; 2; 3; 4] = LRet [0; 5; 10; 16; 22].
Proof. vm_compute. reflexivity. Qed.
(** fmt/solver.rs 616-629 *)
Example wv7 : columns (mp [(i32 1234, i32 123456)]) config_default [(Concise, 0)] [0; 1; 2] = LRet [0; 4; 10].
Proof. vm_compute. reflexivity. Qed.
(** fmt/cntr.rs 201-213 *)
Example wv8 : (dl f <- fm_new (cn [("a", i32 1); ("b", i32 2)]) ; dl g <- fm_verbose f 0 ; fm_write (fst (fm_id (fst (fm_id (fst g) 1 false)) 2 false)) []) = LRet (s "a = 1
b = 2
").
Proof. vm_compute. reflexivity. Qed.
(** fmt/cntr.rs 216-248 *)
Example wv9 : as_str_with_config wv_nested (mkConfig (id_on_primitives config_default) (id_on_tuples config_default) (id_on_containers config_default)
    (id_on_seqs config_default) (id_on_maps config_default) (Some 0)) = LRet (s "
[un]

    [dos]

        [treis]
            quattro = ()
").
Proof. vm_compute. reflexivity. Qed.
(** fmt/maps.rs 179-203 *)
Example wv10 : (dl f <- fm_new (mp [(tup [i32 0; i32 1], tup [i32 2; i32 3])]) ; fm_write f []) = LRet (s "{
    (
        <i32> 0
        <i32> 1
    ): (
           <i32> 2
           <i32> 3
       )
}").
Proof. vm_compute. reflexivity. Qed.

(** parse/err.rs 199-209 *)
Example wv11 : map (offset (s "Hello, world!")) [s ", world!"; s "Hello, world!"] = [5; 0].
Proof. vm_compute. reflexivity. Qed.
(** parse/err.rs 212-221, 225-260 *)
Definition wv_lines : str := s "Hello" ++ [10%N] ++ s "A" ++ [13%N; 10%N] ++ s "Brave" ++ [13%N; 10%N] ++ s "World".
Example wv12 : lines_to_map wv_lines = [(0, (1, s "Hello")); (6, (2, s "A")); (9, (3, s "Brave")); (16, (4, s "World"))].
Proof. vm_compute. reflexivity. Qed.
Example wv13 : map (get_line (lines_to_map [])) [0; 1] = [None; None] /\
  map (get_line (lines_to_map wv_lines)) (seq 0 25) =
    repeat (Some (0, (1, s "Hello"))) 6 ++ repeat (Some (6, (2, s "A"))) 3 ++ repeat (Some (9, (3, s "Brave"))) 7 ++ repeat (Some (16, (4, s "World"))) 9.
Proof. vm_compute. auto. Qed.
(** parse/err.rs 348-376 *)
Example wv14 : map make_empty_trace [EChar (ch "x"); EContext (s "some-context"); ENom NkAlt] =
  [mkTrace 0 0 [] (s "expected 'x', got empty input"); mkTrace 0 0 [] (s "in some-context, got empty input"); mkTrace 0 0 [] (s "in Alt, got empty input")].
Proof. vm_compute. reflexivity. Qed.
(** parse/err.rs 379-400 *)
Example wv15 : map (make_trace_msg (s "a line string") 5) [EChar (ch "x"); EContext (s "some-context"); ENom NkAlt] =
  [Ret (s "expected 'x', found 'e'"); Ret (s "in some-context"); Ret (s "in Alt")].
Proof. vm_compute. reflexivity. Qed.
(** parse/err.rs 331-339 *)
Example wv16 : match parse [] with ParseErr e => e_iter e | _ => Ret [] end = Ret (map make_empty_trace match parse [] with ParseErr e => map snd (errs e) | _ => [] end).
Proof. vm_compute. reflexivity. Qed.
(** the backtrace of an error *)
Definition trace_of (t : str) : option str := match parse t with ParseErr e => match backtrace e with Ret b => Some b | _ => None end | _ => None end.
(** parse/err.rs 403-432 *)
Example wv17 : trace_of (s "
list = [
    (0,1)
    (2,3]
]") = Some (s "#0: at 4:9 :: expected ')', found ']'
    (2,3]
        ^

#1: at 4:6 :: in inline tuple
    (2,3]
     ^

#2: at 2:9 :: in multi-line (concise) sequence
list = [
        ^

#3: at 2:1 :: in name-kserd key value pair
list = [
^").
Proof. vm_compute. reflexivity. Qed.
(** tests/parsing.rs 947-978 *)
Example wv18 : map trace_of [s "field name = [0, 1]"; s "field!name = <str> [0,1]"; s "field-name = [0, 1]
what the = 101"] = [Some (s "#0: at 1:7 :: expected '=', found 'n'
field name = [0, 1]
      ^

#1: at 1:1 :: in name-kserd key value pair
field name = [0, 1]
^"); Some (s "#0: at 1:6 :: expected '=', found '!'
field!name = <str> [0,1]
     ^

#1: at 1:1 :: in name-kserd key value pair
field!name = <str> [0,1]
^"); Some (s "#0: at 2:6 :: expected '=', found 't'
what the = 101
     ^

#1: at 2:1 :: in name-kserd key value pair
what the = 101
^")].
Proof. vm_compute. reflexivity. Qed.
(** tests/parsing.rs 981-991 *)
Example wv19 : trace_of (s "[[field name]]") = Some (s "#0: at 1:9 :: in Tag
[[field name]]
        ^

#1: at 1:1 :: in field name. expecting 'field_name[:identity]'
[[field name]]
^").
Proof. vm_compute. reflexivity. Qed.
(** tests/parsing.rs 994-1008 *)
Example wv20 : trace_of (s "a = 101

        b = 202
        c
        d = 404") = Some (s "#0: at 4:10 :: expected '=', reached end of line or end of file first
        c
         ^

#1: at 4:9 :: in name-kserd key value pair
        c
        ^").
Proof. vm_compute. reflexivity. Qed.
(** tests/parsing.rs 1011-1039 *)
Example wv21 : trace_of (s "imgs = [
    Image ( src = """" )
    Image (
        src = """",
        title = """"
    )
]") = Some (s "#0: at 4:17 :: in SeparatedList
        src = """",
                ^

#1: at 3:12 :: in newline separated (concise) kserdstr-kserd pair
    Image (
           ^

#2: at 3:12 :: in concise container
    Image (
           ^

#3: at 1:9 :: in multi-line (concise) sequence
imgs = [
        ^

#4: at 1:1 :: in name-kserd key value pair
imgs = [
^").
Proof. vm_compute. reflexivity. Qed.
(** parse/cntr.rs 334-367 *)
Example wv22 : match parse (s "
[[map-1]]
""a"":
100

[[map-1]]
""b"":
200

[[map-2]]
(1,2):
(
    3
    4
)

[[map-2]]
(5,6):
(7,8)
") with ParseOk k => k_eqb k (cn [("map-1", mp [(st "a", i32 100); (st "b", i32 200)]); ("map-2", mp [(tup [i32 1; i32 2], tup [i32 3; i32 4]); (tup [i32 5; i32 6], tup [i32 7; i32 8])])]) | _ => false end = true.
Proof. vm_compute. reflexivity. Qed.

(** change what a reference refers to *)
Definition change {S A} (r : option (mref S A)) (f : A -> A) : option S := match r with Some r => Some (after r (f (shows r))) | None => None end.
Definition absent {A} (o : option A) : bool := match o with None => true | Some _ => false end.
(** ds/val.rs 1076-1114 *)
Example wv23 : change (v_bool_mut (VBool true)) (fun _ => false) = Some (VBool false) /\ absent (v_num_mut (VBool true)) = true /\
  change (v_num_mut (VNum (num_of_int Ti32 123))) (fun _ => Float (match f_parse (s "3.14") with Some f => f | None => FInf true end)) = Some (kval (fl "3.14")) /\
  (let x := kval (fl "3.14") in absent (v_bool_mut x) && absent (v_str_mut x) && absent (v_barr_mut x))%bool = true /\
  change (v_str_mut (VStr (s "Hello"))) (fun x => x ++ s ", world!") = Some (VStr (s "Hello, world!")) /\
  change (v_barr_mut (VBarr [0; 1; 2]%N)) (fun x => x ++ [3%N]) = Some (VBarr [0; 1; 2; 3]%N) /\
  (absent (v_tuple_or_seq (@VBarr kserd [0; 1; 2; 3]%N)) && absent (v_tuple_or_seq_mut (VBarr [0; 1; 2; 3]%N)))%bool = true /\
  change (v_tuple_mut (VTuple [st "a"; st "b"])) (fun x => x ++ [st "c"]) = Some (VTuple [st "a"; st "b"; st "c"]) /\
  (let x := VTuple [st "a"; st "b"; st "c"] in absent (v_seq x) && absent (v_seq_mut x))%bool = true /\ v_tuple_or_seq (VTuple [st "a"; st "b"; st "c"]) = Some [st "a"; st "b"; st "c"] /\
  change (v_seq_mut (VSeq [st "a"; st "b"])) (fun x => x ++ [st "c"]) = Some (VSeq [st "a"; st "b"; st "c"]) /\
  (let x := VSeq [st "a"; st "b"; st "c"] in absent (v_tuple x) && absent (v_tuple_mut x) && absent (v_map x) && absent (v_map_mut x))%bool = true /\
  v_tuple_or_seq (VSeq [st "a"; st "b"; st "c"]) = Some [st "a"; st "b"; st "c"].
Proof. vm_compute. repeat split. Qed.
(** ds/val.rs 1264-1295 *)
Definition wv_cntr : list (str * kserd) :=
  match kval (cn [("a", new_unit); ("b", new_bool false); ("c", i32 101); ("d", st "hello"); ("e", new_barr [0%N]); ("f", tup [i32 1]); ("g", sq [i32 2]); ("h", cn [("a", new_unit)]); ("i", mp [(new_unit, i32 2)])])
  with VCntr m => m | _ => [] end.
Definition seen {S A} (r : option (mref S A)) : option A := option_map shows r.
Example wv24 : absent (v_cntr (kval (i32 101))) = true /\ absent (v_cntr_mut (kval (i32 101))) = true /\ seen (get_num_mut wv_cntr (s "a")) = None /\ seen (get_bool_mut wv_cntr (s "b")) = Some false /\
  seen (get_num_mut wv_cntr (s "c")) = Some (Int 101) /\ seen (get_str_mut wv_cntr (s "d")) = Some (s "hello") /\ seen (get_barr_mut wv_cntr (s "e")) = Some [0%N] /\
  seen (get_tuple_mut wv_cntr (s "f")) = Some [i32 1] /\ seen (get_seq_mut wv_cntr (s "g")) = Some [i32 2] /\ seen (get_tuple_or_seq_mut wv_cntr (s "f")) = Some [i32 1] /\
  seen (get_tuple_or_seq_mut wv_cntr (s "g")) = Some [i32 2] /\ absent (get_cntr_mut wv_cntr (s "h")) = false /\ absent (get_map_mut wv_cntr (s "i")) = false.
Proof. vm_compute. repeat split. Qed.
(** ds/val.rs 1298-1308 *)
Example wv25 : match change (get_str_mut [(s "a", st "Hello")] (s "a")) (fun x => x ++ s ", world!") with Some m => get_str m (s "a") | None => None end = Some (s "Hello, world!").
Proof. vm_compute. reflexivity. Qed.
(** ds/val.rs 1117-1184 *)
Example wv26 : let l := [tup [st "Hello"; fl "3.14"]; cn [("a", new_unit)]; sq [st "Hello"; fl "3.14"]; mp [(new_unit, i32 0)]; new_unit; new_bool true; fl "3.14"; st "What!?"; new_barr [0; 1]%N] in
  (forallb (fun k => k_eqb (into_owned k) (k_clone k)) l && forallb (fun k => k_eqb (mk_brw k) k) l)%bool = true.
Proof. vm_compute. reflexivity. Qed.
