(** The model run on the cases of /repo/tests. The definitions below are shorthand for writing the values of the tests (not in /repo). *)
From Verif Require Import Base F64 F32 Number BTree Value Base91 Nav Nom Parse ParseErr Fmt Formatter Encode FmtVectors.
Open Scope N_scope.
Open Scope list_scope.

(** parse(text) == kserd (tests/parsing.rs 9-28) *)
Definition reads (t : str) (k : kserd) : bool := match parse t with ParseOk r => k_eqb r k | _ => false end.
(** parse(text).is_err() (tests/parsing.rs 254) *)
Definition refuses (t : str) : bool := match parse t with ParseErr _ => true | _ => false end.
(** parse(as_str_with_config(kserd)) == kserd (tests/parsing.rs 152-157) *)
Definition comes_back (k : kserd) (c : config) : bool := match as_str_with_config k c with LRet t => reads t k | _ => false end.
(** Kserd::enc(value).unwrap() (tests/parsing.rs 40-42) *)
Definition as_kserd (E : decls) (t : ty) (d : data) : kserd := match enc E t d with inr k => k | inl _ => new_unit end.
(** encode, write, read, decode (tests/decoding.rs 268-312) *)
Definition round (E : decls) (t : ty) (d : data) (c : config) : bool :=
  match enc E t d with
  | inr k => match as_str_with_config k c with
    | LRet x => match parse x with
      | ParseOk r => k_eqb r k && match dec E t r with Some e => match enc E t e with inr k' => k_eqb k' k | inl _ => false end | None => false end
      | _ => false
      end
    | _ => false
    end
  | inl _ => false
  end.
(** encode and decode (tests/decoding.rs 17-265) *)
Definition there_and_back (E : decls) (t : ty) (d : data) : option data := match enc E t d with inr k => dec E t k | inl _ => None end.
Definition f64_of (x : string) : f64 := match f_parse (s x) with Some f => f | None => FInf true end.
Definition f32_of (x : string) : f32 := f64_to_f32 (f64_of x).
(** no declarations; a function of names (not in /repo) *)
Definition none : decls := fun _ => DefUnit [].
Definition num (n : Z) : kserd := i32 n.
Definition named (id : string) (k : kserd) : kserd := Kserd (Some (s id)) (kval k).
Definition cfg (p sq mp : bool) (w : option nat) : config := mkConfig p true true sq mp w.
Definition bare_cfg (w : option nat) : config := mkConfig false false false false false w.
Definition with_containers (w : option nat) : config := mkConfig false false true false false w.
(** tests/parsing.rs 48-71 *)
Example rv1 : reads ((s "a = 101
" ++ [9])) (cn [("a"%string, num 101)]) = true.
Proof. vm_compute. reflexivity. Qed.
Example rv2 : reads ((s "a = 101
" ++ [9; 9])) (cn [("a"%string, num 101)]) = true.
Proof. vm_compute. reflexivity. Qed.
Example rv3 : reads ((s "a = 101
" ++ [9; 9] ++ s "
b = 202")) (cn [("a"%string, num 101); ("b"%string, num 202)]) = true.
Proof. vm_compute. reflexivity. Qed.
(** tests/parsing.rs 73-108 *)
Example rv4 : reads ((s "[[list]]
""Hello, world!""

[[list]]
""This is a list""

[[list]]
""as entries""

[key]
    inner-item = ""This is a container""
    num = 101
    another = ""more words to write stuff""
    byte-array = b91'fdsaljfjdsa'
" ++ [9])) (cn [("list"%string, sq [st "Hello, world!"; st "This is a list"; st "as entries"]); ("key"%string, cn [("inner-item"%string, st "This is a container"); ("num"%string, num 101); ("another"%string, st "more words to write stuff"); ("byte-array"%string, new_barr [110; 74; 45; 89; 50; 72; 22; 252; 52])])]) = true.
Proof. vm_compute. reflexivity. Qed.
(** tests/parsing.rs 152-173 *)
Example rv5 : reads (match as_str (new_int Tu128 (2 ^ 128 - 1)) with LRet t => t | _ => [] end) (new_int Tu128 (2 ^ 128 - 1)) = true.
Proof. vm_compute. reflexivity. Qed.
Example rv6 : reads (s "<something> 123456789") (named "something" (num 123456789)) = true.
Proof. vm_compute. reflexivity. Qed.
Example rv7 : reads ((s "<something>   " ++ [9; 9; 9] ++ s "  123456789")) (named "something" (num 123456789)) = true.
Proof. vm_compute. reflexivity. Qed.
Example rv8 : reads (s "<something>123456789") (named "something" (num 123456789)) = true.
Proof. vm_compute. reflexivity. Qed.
Example rv9 : reads (s "<u8> 0") (new_int Tu8 0) = true.
Proof. vm_compute. reflexivity. Qed.
(** tests/parsing.rs 176-213 *)
Example rv10 : reads (match as_str (new_int Ti128 (2 ^ 127 - 1)) with LRet t => t | _ => [] end) (new_int Tu128 (2 ^ 127 - 1)) = true.
Proof. vm_compute. reflexivity. Qed.
Example rv11 : reads (match as_str (new_int Ti128 (- 2 ^ 127)) with LRet t => t | _ => [] end) (new_int Ti128 (- 2 ^ 127)) = true.
Proof. vm_compute. reflexivity. Qed.
Example rv12 : reads (s "<something> -123456789") (named "something" (num (-123456789))) = true.
Proof. vm_compute. reflexivity. Qed.
Example rv13 : reads ((s "<something>   " ++ [9; 9; 9] ++ s "  -123456789")) (named "something" (num (-123456789))) = true.
Proof. vm_compute. reflexivity. Qed.
Example rv14 : reads (s "<something>-123456789") (named "something" (num (-123456789))) = true.
Proof. vm_compute. reflexivity. Qed.
(** tests/parsing.rs 221-234 *)
Example rv15 : reads (s "(<something> 123456789, 255)") (tup [named "something" (num 123456789); num 255]) = true.
Proof. vm_compute. reflexivity. Qed.
Example rv16 : reads ((s "(    <something>  " ++ [9; 9] ++ s " 123456789  " ++ [9] ++ s ",   255 " ++ [9; 9] ++ s " )")) (tup [named "something" (num 123456789); num 255]) = true.
Proof. vm_compute. reflexivity. Qed.
Example rv17 : reads ((s "A-Name (    <something>  " ++ [9; 9] ++ s " 123456789  " ++ [9] ++ s ",   255 " ++ [9; 9] ++ s " )")) (tup [named "something" (num 123456789); num 255]) = true.
Proof. vm_compute. reflexivity. Qed.
(** tests/parsing.rs 236-288 *)
Example rv18 : reads (s "(
<something> 123456789
255
<last> 100
)") (tup [named "something" (num 123456789); num 255; named "last" (num 100)]) = true.
Proof. vm_compute. reflexivity. Qed.
Example rv19 : refuses (s "(
<something> 123456789
255
<last> 100)") = true.
Proof. vm_compute. reflexivity. Qed.
Example rv20 : reads ((s "(
" ++ [9; 9; 9; 9; 9] ++ s "<something>    123456789   
" ++ [9; 9; 9; 9; 9] ++ s "255   
" ++ [9; 9; 9; 9; 9] ++ s "<last>    100   
)")) (tup [named "something" (num 123456789); num 255; named "last" (num 100)]) = true.
Proof. vm_compute. reflexivity. Qed.
Example rv21 : reads ((s "(



" ++ [9; 9; 9; 9; 9] ++ s "<something>    123456789   



" ++ [9; 9; 9; 9; 9] ++ s "255   



" ++ [9; 9; 9; 9; 9] ++ s "<last>    100   



)")) (tup [named "something" (num 123456789); num 255; named "last" (num 100)]) = true.
Proof. vm_compute. reflexivity. Qed.
Example rv22 : reads (s "  Some-Name    (
<something> 123456789
255
<last> 100
)") (tup [named "something" (num 123456789); num 255; named "last" (num 100)]) = true.
Proof. vm_compute. reflexivity. Qed.
(** tests/parsing.rs 316-376 *)
Example rv23 : reads (s "(a=1)") (cn [("a"%string, num 1)]) = true.
Proof. vm_compute. reflexivity. Qed.
Example rv24 : reads ((s "(a=1  " ++ [9] ++ s ", b " ++ [9] ++ s " = " ++ [9] ++ s " 2)")) (cn [("a"%string, num 1); ("b"%string, num 2)]) = true.
Proof. vm_compute. reflexivity. Qed.
Example rv25 : reads ((s "(a   =  ()  " ++ [9] ++ s ", b " ++ [9] ++ s " = " ++ [9] ++ s " 2)")) (cn [("a"%string, new_unit); ("b"%string, num 2)]) = true.
Proof. vm_compute. reflexivity. Qed.
Example rv26 : reads ((s "Some-Name(a   =  ()  " ++ [9] ++ s ", b " ++ [9] ++ s " = " ++ [9] ++ s " 2)")) (cn [("a"%string, new_unit); ("b"%string, num 2)]) = true.
Proof. vm_compute. reflexivity. Qed.
(** tests/parsing.rs 294-315 *)
Definition prims_decl : decls := fun _ => DefStruct (s "Primitives") [(s "a", TyUnit); (s "bc", TyBool); (s "def", TyChar); (s "ghij", TyInt Tu8); (s "klmno", TyInt Ti8); (s "pqrstu", TyF32); (s "v", TyString); (s "wx", TyBytes)].
Definition prims : data := DRecord [DUnit; DBool true; DChar (ch "c"); DInt 100; DInt (-100); DF32 (f32_of "3.14"); DString (s "Hello," ++ [13; 10] ++ s "world!"); DBytes [0; 1; 2; 5; 10; 20; 50; 100]].
Definition prims_k : kserd := as_kserd prims_decl (TyNamed 0) prims.
Example rv27 : comes_back (prims_k) (cfg false false false None) = true.
Proof. vm_compute. reflexivity. Qed.
Example rv28 : comes_back (prims_k) (cfg true false false None) = true.
Proof. vm_compute. reflexivity. Qed.
(** tests/parsing.rs 379-415 *)
Example rv29 : comes_back (prims_k) (cfg true false false (Some 80%nat)) = true.
Proof. vm_compute. reflexivity. Qed.
Example rv30 : comes_back (prims_k) (cfg true false false (Some 60%nat)) = true.
Proof. vm_compute. reflexivity. Qed.
Example rv31 : reads (s "A-Name (
        a = 1
        b = 2
        )") (cn [("a"%string, num 1); ("b"%string, num 2)]) = true.
Proof. vm_compute. reflexivity. Qed.
(** tests/parsing.rs 418-441; the text ends in one line feed, which trim_end removes *)
Example rv32 : match as_str_with_config prims_k (cfg true false false (Some 0%nat)) with LRet t => reads (rev (match rev t with c :: r => if (c =? 10)%N then r else c :: r | [] => [] end)) prims_k | _ => false end = true.
Proof. vm_compute. reflexivity. Qed.
(** tests/parsing.rs 444-482 *)
Definition test2_decl : decls := fun n => if n =? 0 then DefStruct (s "Test") [(s "items", TyVec (TyNamed 1)); (s "items2", TyVec (TyTuple [TyInt Tu8; TyInt Ti64]))] else DefStruct (s "Test2") [(s "a_string", TyString); (s "a_number", TyF64)].
Definition test2 : data := DRecord [DList [DRecord [DString (s "Hello, world!"); DF64 (f64_of "3.14")]]; DList (map (fun n => DList [DInt n; DInt (- n)]) [0; 1; 2; 3]%Z)].
Example rv33 : comes_back (as_kserd test2_decl (TyNamed 0) test2) (cfg true true false (Some 0%nat)) = true.
Proof. vm_compute. reflexivity. Qed.
(** tests/parsing.rs 485-598 *)
Definition test3_decl : decls := fun n => if n =? 0 then DefStruct (s "Test") [(s "items", TyVec (TyNamed 1))] else DefStruct (s "Test2") [(s "a_string", TyString); (s "a_number", TyF64); (s "inner_test_items", TyVec (TyNamed 0))].
Definition test3 : data := DRecord [DList [DRecord [DString (s "Hello, world!"); DF64 (f64_of "3.14"); DList [
  DRecord [DList [DRecord [DString (s "Hello,"); DF64 (f64_of "3.00"); DList []]]];
  DRecord [DList [DRecord [DString (s "world!"); DF64 (f64_of "0.14"); DList []]]]]]]].
Definition test3_ans : kserd := cn [("items"%string, sq [cn [("a_number"%string, fl "3.14"); ("a_string"%string, st "Hello, world!"); ("inner_test_items"%string, sq [
  cn [("items"%string, sq [cn [("a_number"%string, fl "3.0"); ("a_string"%string, st "Hello,"); ("inner_test_items"%string, sq [])]])];
  cn [("items"%string, sq [cn [("a_number"%string, fl "0.14"); ("a_string"%string, st "world!"); ("inner_test_items"%string, sq [])]])]])]])].
Example rv34 : match as_str_with_config (as_kserd test3_decl (TyNamed 0) test3) (cfg true true false (Some 0%nat)) with LRet t => reads t test3_ans | _ => false end = true.
Proof. vm_compute. reflexivity. Qed.
(** tests/parsing.rs 601-633 *)
Definition test4_decl : decls := fun n => if n =? 0 then DefStruct (s "Test2") [(s "a_string", TyString); (s "a_number", TyF64); (s "inner_test_numbers", TyNamed 1)] else DefStruct (s "Test") [(s "items", TyVec (TyInt Tu8))].
Definition test4 : data := DRecord [DString (s "Hello, world!"); DF64 (f64_of "3.14"); DRecord [DList (map DInt [0; 2; 4; 6; 8]%Z)]].
Example rv35 : comes_back (as_kserd test4_decl (TyNamed 0) test4) (cfg true true false (Some 0%nat)) = true.
Proof. vm_compute. reflexivity. Qed.
(** tests/parsing.rs 636-641 *)
Example rv36 : reads (s "a = 1") (cn [("a"%string, num 1)]) = true.
Proof. vm_compute. reflexivity. Qed.
(** tests/parsing.rs 643-654 *)
Example rv37 : reads (s "a = 101
        
        b = 202") (cn [("a"%string, num 101); ("b"%string, num 202)]) = true.
Proof. vm_compute. reflexivity. Qed.
(** tests/named-verbose.kserd, tests/parsing.rs 656-685 *)
Definition named_verbose : str := (s ":container-name
a = <A> ()
b = <B> true
c = <C> 101
d = <D> ""Hello""
e = <E> b91''
f = F (0, 1)
g = G [1, 0]
h = H {0:1, 1: 0}
i = I ( aa = 1, bb = 2)

[[  list  :   list-name]]
1

[[list   ]]
2

[[list]]
3

[[map]]
""a"": 3

[[map]]
""b"": 2

[[   map :map-name   ]]
""c"":
    1

[[map]]
""d"":
" ++ [9] ++ s ":a-name
" ++ [9] ++ s "a = 1

[cntr : cntr1-name]
    aaa = 101
    bbb = 202

[   cntr2 ]
    :  cntr2name
    aaa = 111
    bbb = 222

    [nest]
" ++ [9; 9] ++ s ":cntr-nested
" ++ [9; 9] ++ s "ccc = 333
" ++ [9; 9] ++ s "ddd = 444

" ++ [9; 9]).
Definition id_at (name : string) (k : kserd) : option str := match v_cntr (kval k) with Some m => match bt_get str_cmp (s name) m with Some c => kid c | None => None end | None => None end.
Example rv38 : match parse named_verbose with ParseOk k => Some (kid k, map (fun n => id_at n k) ["a"; "b"; "c"; "d"; "e"; "f"; "g"; "h"; "i"; "list"; "map"; "cntr"; "cntr2"]%string) | _ => None end = Some (Some (s "container-name"), map (fun n => Some (s n)) ["A"; "B"; "C"; "D"; "E"; "F"; "G"; "H"; "I"; "list-name"; "map-name"; "cntr1-name"; "cntr2name"]%string).
Proof. vm_compute. reflexivity. Qed.
Example rv39 : match parse named_verbose with ParseOk k => match v_cntr (kval k) with Some m => match get_cntr m (s "cntr2"), get_map m (s "map") with Some c, Some e => (id_at "nest" (knew (VCntr c)), match bt_get k_cmp (st "d") e with Some x => kid x | None => None end) | _, _ => (None, None) end | None => (None, None) end | _ => (None, None) end = (Some (s "cntr-nested"), Some (s "a-name")).
Proof. vm_compute. reflexivity. Qed.
(** tests/parsing.rs 687-713 *)
Example rv40 : reads (s "[[map]]
            <foo>   0   :    <bar>   1  

        [[map]]
    <foo>2:<bar>4") (cn [("map"%string, mp [(num 0, num 1); (num 2, num 4)])]) = true.
Proof. vm_compute. reflexivity. Qed.
Example rv41 : match parse (s "[[map]]
            <foo>   0   :    <bar>   1  

        [[map]]
    <foo>2:<bar>4") with ParseOk k => match v_cntr (kval k) with Some m => match get_map m (s "map") with Some e => map (fun x => (kid (fst x), kid (snd x))) e | None => [] end | None => [] end | _ => [] end = [(Some (s "foo"), Some (s "bar")); (Some (s "foo"), Some (s "bar"))].
Proof. vm_compute. reflexivity. Qed.
(** tests/parsing.rs 719-767 *)
Example rv42 : reads (s "[-5,-2,-1,0,1,2,5]") (sq (map num [-5; -2; -1; 0; 1; 2; 5]%Z)) = true.
Proof. vm_compute. reflexivity. Qed.
Example rv43 : comes_back (named "list" (sq (map num [-5; -2; -1]%Z ++ map (new_int Tu8) [0; 1; 2; 5]%Z))) (cfg true true false None) = true.
Proof. vm_compute. reflexivity. Qed.
Example rv44 : reads (s "Some-name[-5,-2,-1,0,1,2,5]") (sq (map num [-5; -2; -1; 0; 1; 2; 5]%Z)) = true.
Proof. vm_compute. reflexivity. Qed.
(** tests/parsing.rs 769-808 *)
Example rv45 : comes_back (named "list" (sq (map num [-5; -2; -1]%Z ++ map (new_int Tu8) [0; 1; 2; 5]%Z))) (cfg true true false (Some 0%nat)) = true.
Proof. vm_compute. reflexivity. Qed.
(** tests/parsing.rs 820-861 *)
Example rv46 : reads (s "{0:1,2:3,4:5}") (mp [(num 0, num 1); (num 2, num 3); (num 4, num 5)]) = true.
Proof. vm_compute. reflexivity. Qed.
Example rv47 : reads ((s "{   " ++ [9; 9] ++ s " 0  " ++ [9; 9] ++ s " :  " ++ [9] ++ s " 1  ,  " ++ [9] ++ s " 2 :   " ++ [9] ++ s " 3 " ++ [9; 9] ++ s " , 4 " ++ [9; 9] ++ s " :" ++ [9] ++ s "5" ++ [9; 9] ++ s "}")) (mp [(num 0, num 1); (num 2, num 3); (num 4, num 5)]) = true.
Proof. vm_compute. reflexivity. Qed.
Example rv48 : comes_back (named "map" (mp [(num 0, num 1); (num 2, num 3); (num 4, num 5)])) (cfg true false true None) = true.
Proof. vm_compute. reflexivity. Qed.
Example rv49 : reads (s "A-Crazy-Map {0:1,2:3,4:5}") (mp [(num 0, num 1); (num 2, num 3); (num 4, num 5)]) = true.
Proof. vm_compute. reflexivity. Qed.
(** tests/parsing.rs 863-912 *)
Example rv50 : reads ((s "{
" ++ [9; 9; 9] ++ s "0: 1
" ++ [9; 9; 9] ++ s "2: 3
" ++ [9; 9; 9] ++ s "4: 5
" ++ [9; 9] ++ s "}")) (mp [(num 0, num 1); (num 2, num 3); (num 4, num 5)]) = true.
Proof. vm_compute. reflexivity. Qed.
Example rv51 : comes_back (named "map" (mp [(num 0, num 1); (num 2, num 3); (num 4, num 5)])) (cfg true false true (Some 0%nat)) = true.
Proof. vm_compute. reflexivity. Qed.
Example rv52 : comes_back (named "map" (as_kserd none (TyMap (TyTuple [TyChar; TyChar]) (TyTuple [TyF64; TyString])) (DMap [(DList [DChar (ch "a"); DChar (ch "a")], DList [DF64 (f64_of "1.1"); DString (s "aa")])]))) (mkConfig true true true false true (Some 0%nat)) = true.
Proof. vm_compute. reflexivity. Qed.
(** tests/formatting.rs 20-69 *)
Example rv53 : as_str_with_config (units) (cfg false false false None) = LRet (s "Units (uenum = EnumVariant(), ustruct = AStruct(), uvalue = ())").
Proof. vm_compute. reflexivity. Qed.
Example rv54 : as_str_with_config (units) (cfg false false false (Some 25%nat)) = LRet (s "Units (
    uenum = EnumVariant()
    ustruct = AStruct()
    uvalue = ()
)").
Proof. vm_compute. reflexivity. Qed.
Example rv55 : as_str_with_config (units) (cfg false false false (Some 0%nat)) = LRet (s ":Units
uenum = EnumVariant()
ustruct = AStruct()
uvalue = ()
").
Proof. vm_compute. reflexivity. Qed.
(** tests/formatting.rs 71-105 *)
Example rv56 : as_str_with_config (as_kserd none TyBool (DBool true)) (cfg false false false (Some 60%nat)) = LRet (s "true").
Proof. vm_compute. reflexivity. Qed.
Example rv57 : as_str_with_config (as_kserd none TyBool (DBool true)) (cfg true false false (Some 60%nat)) = LRet (s "<bool> true").
Proof. vm_compute. reflexivity. Qed.
Example rv58 : as_str_with_config (as_kserd none TyBool (DBool false)) (cfg false false false (Some 60%nat)) = LRet (s "false").
Proof. vm_compute. reflexivity. Qed.
Example rv59 : as_str_with_config (as_kserd none TyBool (DBool false)) (cfg true false false (Some 60%nat)) = LRet (s "<bool> false").
Proof. vm_compute. reflexivity. Qed.
(** tests/formatting.rs 108-128 *)
Example rv60 : as_str_with_config (as_kserd none TyChar (DChar (ch "a"))) (cfg false false false (Some 60%nat)) = LRet (s """a""").
Proof. vm_compute. reflexivity. Qed.
Example rv61 : as_str_with_config (as_kserd none TyChar (DChar (ch "a"))) (cfg true false false (Some 60%nat)) = LRet (s "<char> ""a""").
Proof. vm_compute. reflexivity. Qed.
Example rv62 : as_str_with_config (as_kserd none TyChar (DChar 13066)) (cfg false false false (Some 60%nat)) = LRet ((s """" ++ [13066] ++ s """")).
Proof. vm_compute. reflexivity. Qed.
Example rv63 : as_str_with_config (as_kserd none TyChar (DChar 13066)) (cfg true false false (Some 60%nat)) = LRet ((s "<char> """ ++ [13066] ++ s """")).
Proof. vm_compute. reflexivity. Qed.
(** tests/formatting.rs 131-159 *)
Example rv64 : as_str_with_config (as_kserd none TyF32 (DF32 (f32_of "3.14"))) (cfg false false false (Some 60%nat)) = LRet (s "3.14").
Proof. vm_compute. reflexivity. Qed.
Example rv65 : as_str_with_config (as_kserd none TyF32 (DF32 (f32_of "3.14"))) (cfg true false false (Some 60%nat)) = LRet (s "<f32> 3.14").
Proof. vm_compute. reflexivity. Qed.
Example rv66 : as_str_with_config (as_kserd none TyF32 (DF32 (GInf false))) (cfg false false false (Some 60%nat)) = LRet (s "inf").
Proof. vm_compute. reflexivity. Qed.
Example rv67 : as_str_with_config (as_kserd none TyF32 (DF32 (GInf false))) (cfg true false false (Some 60%nat)) = LRet (s "<f32> inf").
Proof. vm_compute. reflexivity. Qed.
Example rv68 : as_str_with_config (as_kserd none TyF32 (DF32 (GInf true))) (cfg false false false (Some 60%nat)) = LRet (s "-inf").
Proof. vm_compute. reflexivity. Qed.
Example rv69 : as_str_with_config (as_kserd none TyF32 (DF32 (GInf true))) (cfg true false false (Some 60%nat)) = LRet (s "<f32> -inf").
Proof. vm_compute. reflexivity. Qed.
Example rv70 : as_str_with_config (as_kserd none TyF32 (DF32 (GNaN false (2 ^ 22)))) (cfg false false false (Some 60%nat)) = LRet (s "NaN").
Proof. vm_compute. reflexivity. Qed.
Example rv71 : as_str_with_config (as_kserd none TyF32 (DF32 (GNaN false (2 ^ 22)))) (cfg true false false (Some 60%nat)) = LRet (s "<f32> NaN").
Proof. vm_compute. reflexivity. Qed.
(** tests/formatting.rs 162-185 *)
Example rv72 : as_str_with_config (as_kserd none TyString (DString (s "My " ++ [10084] ++ s " ""beats"",
on a 'new' line!"))) (cfg false false false (Some 60%nat)) = LRet ((s "str#My " ++ [10084] ++ s " ""beats"",
on a 'new' line!#")).
Proof. vm_compute. reflexivity. Qed.
Example rv73 : as_str_with_config (as_kserd none TyString (DString (s "My " ++ [10084] ++ s " ""beats"",
on a 'new' line!"))) (cfg true false false (Some 60%nat)) = LRet ((s "<str> str#My " ++ [10084] ++ s " ""beats"",
on a 'new' line!#")).
Proof. vm_compute. reflexivity. Qed.
(** tests/formatting.rs 188-212 *)
Example rv74 : as_str_with_config (as_kserd none TyString (DString (s "My " ++ [10084] ++ s " beats,
on a new line!"))) (cfg false false false (Some 60%nat)) = LRet ((s """My " ++ [10084] ++ s " beats,
on a new line!""")).
Proof. vm_compute. reflexivity. Qed.
Example rv75 : as_str_with_config (as_kserd none TyString (DString (s "My " ++ [10084] ++ s " beats,
on a new line!"))) (cfg true false false (Some 60%nat)) = LRet ((s "<str> ""My " ++ [10084] ++ s " beats,
on a new line!""")).
Proof. vm_compute. reflexivity. Qed.
(** tests/formatting.rs 215-221 *)
Example rv76 : as_str (knew (VBarr [0; 1; 2; 5; 10; 20; 50; 100; 150; 200; 255])) = LRet (s "b91':C!WEH#L4RHMWL'").
Proof. vm_compute. reflexivity. Qed.
(** tests/formatting.rs 224-261 *)
Example rv77 : as_str_with_config (as_kserd none (TyTuple [TyInt Ti32; TyInt Ti32; TyString]) (DList [DInt 100; DInt (-101); DString (s "Hello, world!")])) (mkConfig false false true false false None) = LRet (s "(100, -101, ""Hello, world!"")").
Proof. vm_compute. reflexivity. Qed.
Example rv78 : as_str_with_config (as_kserd none (TyTuple [TyInt Ti32; TyInt Ti32; TyString]) (DList [DInt 100; DInt (-101); DString (s "Hello, world!")])) (mkConfig false false true false false (Some 10%nat)) = LRet (s "(
    100
    -101
    ""Hello, world!""
)").
Proof. vm_compute. reflexivity. Qed.
Example rv79 : as_str_with_config (as_kserd none (TyTuple [TyTuple [TyInt Ti32; TyInt Ti32]; TyString]) (DList [DList [DInt 100; DInt (-101)]; DString (s "Hello, world!")])) (mkConfig false false true false false (Some 10%nat)) = LRet (s "(
    (
        100
        -101
    )
    ""Hello, world!""
)").
Proof. vm_compute. reflexivity. Qed.
(** tests/formatting.rs 264-304 *)
Example rv80 : as_str_with_config (as_kserd none (TyVec (TyInt Ti32)) (DList (map DInt [100; -101; 102; -103]%Z))) (mkConfig false false true false false None) = LRet (s "[100, -101, 102, -103]").
Proof. vm_compute. reflexivity. Qed.
Example rv81 : as_str_with_config (as_kserd none (TyVec (TyInt Ti32)) (DList (map DInt [100; -101; 102; -103]%Z))) (mkConfig false false true false false (Some 16%nat)) = LRet (s "[
    100
    -101
    102
    -103
]").
Proof. vm_compute. reflexivity. Qed.
Example rv82 : as_str_with_config (as_kserd none (TyVec (TyInt Ti32)) (DList (map DInt [100; -101; 102; -103]%Z))) (mkConfig false false true false false (Some 0%nat)) = LRet (s "[
    100
    -101
    102
    -103
]").
Proof. vm_compute. reflexivity. Qed.
(** tests/formatting.rs 306-311, 362-364 and 434-438 *)
Definition simple_decl : decls := fun n =>
  if n =? 0 then DefStruct (s "Simple") [(s "a", TyInt Tu8); (s "b", TyTuple [TyInt Ti32; TyInt Ti32]); (s "c", TyVec (TyInt Tu8))]
  else if n =? 1 then DefStruct (s "Seq") [(s "inner", TyVec (TyNamed 0))]
  else DefStruct (s "SimpleMap") [(s "name", TyString); (s "mapping", TyMap (TyTuple [TyInt Tu8; TyInt Tu8]) (TyNamed 0))].
Definition simple_d (a x y : Z) (l : list Z) : data := DRecord [DInt a; DList [DInt x; DInt y]; DList (map DInt l)].
(** tests/formatting.rs 313-359 *)
Example rv83 : as_str_with_config (as_kserd simple_decl (TyNamed 0) (simple_d 100 (-1) (-2) [100; 101; 102; 103]%Z)) (mkConfig false false true false false None) = LRet (s "Simple (a = 100, b = (-1, -2), c = [100, 101, 102, 103])").
Proof. vm_compute. reflexivity. Qed.
Example rv84 : as_str_with_config (as_kserd simple_decl (TyNamed 0) (simple_d 100 (-1) (-2) [100; 101; 102; 103]%Z)) (mkConfig false false true false false (Some 50%nat)) = LRet (s "Simple (
    a = 100
    b = (-1, -2)
    c = [100, 101, 102, 103]
)").
Proof. vm_compute. reflexivity. Qed.
Example rv85 : as_str_with_config (as_kserd simple_decl (TyNamed 0) (simple_d 100 (-1) (-2) [100; 101; 102; 103]%Z)) (mkConfig false false true false false (Some 0%nat)) = LRet (s ":Simple
a = 100
b = (
        -1
        -2
    )

[[c]]
100

[[c]]
101

[[c]]
102

[[c]]
103
").
Proof. vm_compute. reflexivity. Qed.
(** tests/formatting.rs 361-429 *)
Example rv86 : as_str_with_config (as_kserd simple_decl (TyNamed 1) (DRecord [DList [simple_d 100 0 1 [2; 3]%Z; simple_d 101 1 2 [4; 5]%Z; simple_d 103 2 3 [6; 7]%Z]])) (bare_cfg (Some 16%nat)) = LRet (s "
[[inner]]
    a = 100
    b = (0, 1)
    c = [2, 3]

[[inner]]
    a = 101
    b = (1, 2)
    c = [4, 5]

[[inner]]
    a = 103
    b = (2, 3)
    c = [6, 7]
").
Proof. vm_compute. reflexivity. Qed.
(** tests/formatting.rs 441-479 *)
Definition simple_map : kserd := as_kserd simple_decl (TyNamed 2) (DRecord [DString (s "A simple mapping"); DMap [
  (DList [DInt 1; DInt 2], simple_d 100 0 1 [2; 3]%Z); (DList [DInt 2; DInt 3], simple_d 101 1 2 [4; 5]%Z); (DList [DInt 3; DInt 4], simple_d 103 2 3 [6; 7]%Z)]]).
(** tests/formatting.rs 481-592 *)
Example rv87 : as_str_with_config (simple_map) (bare_cfg None) = LRet (s "(mapping = { (1, 2): (a = 100, b = (0, 1), c = [2, 3]), (2, 3): (a = 101, b = (1, 2), c = [4, 5]), (3, 4): (a = 103, b = (2, 3), c = [6, 7]) }, name = ""A simple mapping"")").
Proof. vm_compute. reflexivity. Qed.
Example rv88 : as_str_with_config (simple_map) (bare_cfg (Some 80%nat)) = LRet (s "(
    mapping = {
                  (1, 2): (a = 100, b = (0, 1), c = [2, 3])
                  (2, 3): (a = 101, b = (1, 2), c = [4, 5])
                  (3, 4): (a = 103, b = (2, 3), c = [6, 7])
              }
    name = ""A simple mapping""
)").
Proof. vm_compute. reflexivity. Qed.
Example rv89 : as_str_with_config (simple_map) (bare_cfg (Some 50%nat)) = LRet (s "(
    mapping = {
                  (1, 2): (
                              a = 100
                              b = (0, 1)
                              c = [2, 3]
                          )
                  (2, 3): (
                              a = 101
                              b = (1, 2)
                              c = [4, 5]
                          )
                  (3, 4): (
                              a = 103
                              b = (2, 3)
                              c = [6, 7]
                          )
              }
    name = ""A simple mapping""
)").
Proof. vm_compute. reflexivity. Qed.
Example rv90 : as_str_with_config (simple_map) (bare_cfg (Some 35%nat)) = LRet (s "mapping = {
              (1, 2): (
                          a = 100
                          b = (0, 1)
                          c = [2, 3]
                      )
              (2, 3): (
                          a = 101
                          b = (1, 2)
                          c = [4, 5]
                      )
              (3, 4): (
                          a = 103
                          b = (2, 3)
                          c = [6, 7]
                      )
          }
name = ""A simple mapping""
").
Proof. vm_compute. reflexivity. Qed.
Example rv91 : as_str_with_config (simple_map) (with_containers (Some 14%nat)) = LRet (s ":SimpleMap

[[mapping]]
(1, 2):
    :Simple
    a = 100
    b = (0, 1)
    c = [2, 3]

[[mapping]]
(2, 3):
    :Simple
    a = 101
    b = (1, 2)
    c = [4, 5]

[[mapping]]
(3, 4):
    :Simple
    a = 103
    b = (2, 3)
    c = [6, 7]

name = ""A simple mapping""
").
Proof. vm_compute. reflexivity. Qed.
(** tests/formatting.rs 595-624 *)
Example rv92 : as_str_with_config (mp (map (fun e => (st (fst e), num (snd e))) [("hello"%string, 1%Z); ("world"%string, 2%Z); ("whats"%string, 3%Z); ("up"%string, 4%Z)])) (bare_cfg None) = LRet (s "{ ""hello"": 1, ""up"": 4, ""whats"": 3, ""world"": 2 }").
Proof. vm_compute. reflexivity. Qed.
Example rv93 : as_str_with_config (mp (map (fun e => (st (fst e), num (snd e))) [("hello"%string, 1%Z); ("world"%string, 2%Z); ("whats"%string, 3%Z); ("up"%string, 4%Z)])) (bare_cfg (Some 0%nat)) = LRet (s "{
    ""hello"": 1
    ""up"": 4
    ""whats"": 3
    ""world"": 2
}").
Proof. vm_compute. reflexivity. Qed.
(** tests/formatting.rs 627-656 *)
Example rv94 : as_str_with_config (named "map" (as_kserd none (TyMap (TyTuple [TyChar; TyChar]) (TyTuple [TyF64; TyString])) (DMap [(DList [DChar (ch "a"); DChar (ch "a")], DList [DF64 (f64_of "1.1"); DString (s "aa")]); (DList [DChar (ch "c"); DChar (ch "c")], DList [DF64 (f64_of "3.3"); DString (s "cc")])]))) (cfg false false false (Some 22%nat)) = LRet (s "{
    (""a"", ""a""): (
                    1.1
                    ""aa""
                )
    (""c"", ""c""): (
                    3.3
                    ""cc""
                )
}").
Proof. vm_compute. reflexivity. Qed.
(** tests/formatting.rs 659-675 *)
Example rv95 : match as_str_with_config (cn [("seq"%string, sq [sq [num 0]; mp [(num 1, num 2)]])]) (cfg false false false (Some 0%nat)) with LRet _ => true | _ => false end = true.
Proof. vm_compute. reflexivity. Qed.
(** tests/formatting.rs 678-696; the test only checks that there is no panic *)
Example rv96 : match parse (s "render-as = ""table""
header = [ ""Case"",""Expr"",""Desc"" ]
data = [
    [1, ""benchmark open foo-quals.csv"", ""Cloning in Table (6 MB)""]
    [2, ""benchmark open bar.csv"", ""Cloning in Table (922 MB)""]
    [3, ""open diamonds.csv | benchmark filter { get carat | > 0.3 }"", ""Filtering _out_ 10% rows""]
    [4, ""open diamonds.csv | benchmark filter { get carat | <= 0.3 }"", ""Filtering _to_ 10% rows""]
]") with ParseOk k => match as_str k with LRet t => reads t k | _ => false end | _ => false end = true.
Proof. vm_compute. reflexivity. Qed.
(** tests/decoding.rs 11-15, 52-56, 88-104 and 160-167 *)
Definition Its : ty := TyTuple [TyOption TyString; TyInt Ti32; TyF64; TyString].
Definition dd : decls := fun n =>
  if n =? 0 then DefUnit (s "UnitStruct")
  else if n =? 1 then DefTuple (s "TupleStruct") [TyInt Tu8; TyString; TyF32]
  else if n =? 2 then DefTuple (s "EmptyStruct") []
  else if n =? 3 then DefStruct (s "EmptyStruct2") []
  else if n =? 4 then DefStruct (s "SomeStruct") [(s "n", TyInt Ti32); (s "f", TyF64); (s "s", TyString); (s "ns", TyOption (TyNamed 4)); (s "u", TyUnit); (s "un", TyNamed 0);
    (s "rs", TyNamed 6); (s "en", TyNamed 5); (s "its", Its); (s "itsv", TyVec Its); (s "ens", TyVec (TyNamed 5)); (s "map", TyMap TyString (TyNamed 0))]
  else if n =? 5 then DefEnum [(s "One", ShUnit); (s "Two", ShUnit); (s "NType", ShNewtype (TyInt Tu8)); (s "Tuple", ShTuple [TyInt Tu8; TyInt Ti16; TyF64]);
    (s "Struct", ShStruct [(s "a", TyInt Tu8); (s "b", TyString); (s "c", TyF64)])]
  else DefEnum [(s "Ok", ShNewtype (TyNamed 4)); (s "Err", ShNewtype (TyNamed 0))].
Definition one : data := DVariant 0 DUnit.
Definition two : data := DVariant 1 DUnit.
Definition ntype_ (n : Z) : data := DVariant 2 (DInt n).
Definition tuple_ (a b : Z) (x : f64) : data := DVariant 3 (DList [DInt a; DInt b; DF64 x]).
Definition struct_ (a : Z) (b : str) (x : f64) : data := DVariant 4 (DRecord [DInt a; DString b; DF64 x]).
Definition err_unit : data := DVariant 1 DUnit.
Definition pi64 : f64 := f64_of "3.14159265358979323846264338327950288".
Definition pi32 : f32 := f32_of "3.14159265358979323846264338327950288".
Definition neg64 (x : f64) : f64 := match x with FFin b m e => FFin (negb b) m e | y => y end.
Definition neg32 (x : f32) : f32 := match x with GFin b m e => GFin (negb b) m e | y => y end.
(** tests/decoding.rs 17-48 *)
Example rv97 : there_and_back dd (TyChar) (DChar (ch "a")) = Some (DChar (ch "a")).
Proof. vm_compute. reflexivity. Qed.
Example rv98 : (dec none TyString (mk_brw (st "Hello, world!")), dec none TyString (st "Hello, world!")) = (Some (DString (s "Hello, world!")), Some (DString (s "Hello, world!"))).
Proof. vm_compute. reflexivity. Qed.
Example rv99 : there_and_back dd (TyOption (TyInt Tu8)) (DNone) = Some (DNone).
Proof. vm_compute. reflexivity. Qed.
Example rv100 : there_and_back dd (TyOption (TyInt Tu8)) (DSome (DInt 8)) = Some (DSome (DInt 8)).
Proof. vm_compute. reflexivity. Qed.
Example rv101 : there_and_back dd (TyNamed 0) (DUnit) = Some (DUnit).
Proof. vm_compute. reflexivity. Qed.
(** tests/decoding.rs 57-86 *)
Example rv102 : there_and_back dd (TyNamed 2) (DList []) = Some (DList []).
Proof. vm_compute. reflexivity. Qed.
Example rv103 : there_and_back dd (TyNamed 3) (DRecord []) = Some (DRecord []).
Proof. vm_compute. reflexivity. Qed.
Example rv104 : there_and_back dd (TyTuple [TyInt Tu8]) (DList [DInt 1]) = Some (DList [DInt 1]).
Proof. vm_compute. reflexivity. Qed.
Example rv105 : there_and_back dd (TyTuple [TyInt Tu8; TyString; TyF32]) (DList [DInt 1; DString (s "hello"); DF32 (neg32 pi32)]) = Some (DList [DInt 1; DString (s "hello"); DF32 (neg32 pi32)]).
Proof. vm_compute. reflexivity. Qed.
Example rv106 : there_and_back dd (TyNamed 1) (DList [DInt 1; DString (s "hello"); DF32 (neg32 pi32)]) = Some (DList [DInt 1; DString (s "hello"); DF32 (neg32 pi32)]).
Proof. vm_compute. reflexivity. Qed.
(** tests/decoding.rs 107-157 *)
Definition its0 : data := DList [DNone; DInt 0; DF64 (FFin false 0 (-1074)); DString []].
Definition some1 : data := DRecord [DInt (-100); DF64 pi64; DString (s "Hello, world!"); DNone; DUnit; DUnit; err_unit; one; its0; DList []; DList [one; two]; DMap []].
Definition some2 : data := DRecord [DInt 10101; DF64 pi64; DString []; DSome some1; DUnit; DUnit; err_unit; one; its0; DList []; DList [one; two]; DMap []].
Example rv107 : there_and_back dd (TyNamed 4) (some1) = Some (some1).
Proof. vm_compute. reflexivity. Qed.
Example rv108 : there_and_back dd (TyNamed 4) (some2) = Some (some2).
Proof. vm_compute. reflexivity. Qed.
(** tests/decoding.rs 169-209 *)
Example rv109 : there_and_back dd (TyNamed 5) (one) = Some (one).
Proof. vm_compute. reflexivity. Qed.
Example rv110 : there_and_back dd (TyNamed 5) (two) = Some (two).
Proof. vm_compute. reflexivity. Qed.
Example rv111 : there_and_back dd (TyNamed 5) (ntype_ 120) = Some (ntype_ 120).
Proof. vm_compute. reflexivity. Qed.
Example rv112 : there_and_back dd (TyNamed 5) (tuple_ 120 (-100) pi64) = Some (tuple_ 120 (-100) pi64).
Proof. vm_compute. reflexivity. Qed.
Example rv113 : there_and_back dd (TyNamed 5) (struct_ 120 (s "Hello, world!") (neg64 pi64)) = Some (struct_ 120 (s "Hello, world!") (neg64 pi64)).
Proof. vm_compute. reflexivity. Qed.
(** tests/decoding.rs 211-229 *)
Example rv114 : there_and_back dd (TyVec (TyInt Ti32)) (DList (map DInt [-1; 0; 1; 5]%Z)) = Some (DList (map DInt [-1; 0; 1; 5]%Z)).
Proof. vm_compute. reflexivity. Qed.
Example rv115 : there_and_back dd (TyMap TyString (TyInt Tu32)) (DMap [(DString (s "a"), DInt 0); (DString (s "b"), DInt 1); (DString (s "c"), DInt 2)]) = Some (DMap [(DString (s "a"), DInt 0); (DString (s "b"), DInt 1); (DString (s "c"), DInt 2)]).
Proof. vm_compute. reflexivity. Qed.
(** tests/decoding.rs 499-519 *)
Example rv116 : round dd (TyInt Tu8) (DInt 123) (config_default) = true.
Proof. vm_compute. reflexivity. Qed.
Example rv117 : round dd (TyInt Tu64) (DInt 16803534192531604596) (config_default) = true.
Proof. vm_compute. reflexivity. Qed.
(** tests/decoding.rs 521-531 *)
Example rv118 : round dd (TyString) (DString [158533; 1004009; 90652; 83946; 796422; 104367; 1008716; 544157; 141560; 655355; 446309; 861505; 949224; 467057; 1015856; 599475; 425536; 522889]) (config_default) = true.
Proof. vm_compute. reflexivity. Qed.
(** tests/decoding.rs 534-545 *)
Example rv119 : round dd (TyNamed 3) (DRecord []) (cfg false false false (Some 0%nat)) = true.
Proof. vm_compute. reflexivity. Qed.
(** tests/decoding.rs 548-590 *)
Definition some3 : data := DRecord [DInt (-1534911249); DF64 (f64_of "0.3503985440975186"); DString [555184; 978395; 384265; 1014290; 50461; 838348; 682575; 770295; 511778; 462352; 1082208; 880831; 482047; 273379; 731217; 1058538; 662796; 291060; 331454; 434093; 556128; 405229; 84092; 491085; 235044; 985520]; DNone; DUnit; DUnit; err_unit; tuple_ 213 (-15278) (f64_of "0.5143220283660902"); DList [DNone; DInt (-1039545731); DF64 (f64_of "0.9572395051775555"); DString []]; DList []; DList [two]; DMap []].
Example rv120 : round dd (TyNamed 4) (some3) (cfg true false true (Some 0%nat)) = true.
Proof. vm_compute. reflexivity. Qed.
(** tests/decoding.rs 592-637 *)
Definition some4 : data := DRecord [DInt 1785306414; DF64 (f64_of "0.9600825275211862"); DString [862780; 800473; 355447; 32016; 57692; 1018452; 357070; 1077884; 876652; 1071669; 207215]; DNone; DUnit; DUnit; err_unit; ntype_ 30; DList [DNone; DInt 2101028762; DF64 (f64_of "0.8603156654015199"); DString []]; DList []; DList [struct_ 187 [743334; 1011715; 492841; 862737; 262137; 936047; 246019; 625980; 273342; 1100895] (f64_of "0.5815612461032534")]; DMap [(DString [193824; 728265; 331620; 998492; 1015736; 806745; 873935; 470664; 256538; 900778; 880395; 860423; 1096983; 200167; 378277], DUnit)]].
Example rv121 : round dd (TyNamed 4) (some4) (cfg true true true (Some 77%nat)) = true.
Proof. vm_compute. reflexivity. Qed.
(** tests/decoding.rs 641-672 *)
Definition s_decl : decls := fun _ => DefStruct (s "S") [(s "a", TyInt Tu8); (s "b", TyString)].
Definition s_k : kserd := as_kserd s_decl (TyNamed 0) (DRecord [DInt 0; DString (s "hello")]).
Definition s_looks (k : kserd) : bool := match v_cntr (kval k) with Some m => match get_num m (s "a"), get_str m (s "b") with Some n, Some t => num_eqb n (num_of_int Ti32 0) && str_eqb t (s "hello") | _, _ => false end | None => false end.
Example rv122 : s_looks s_k = true.
Proof. vm_compute. reflexivity. Qed.
Example rv123 : match v_seq (kval (as_kserd s_decl (TyVec (TyNamed 0)) (DList [DRecord [DInt 0; DString (s "hello")]]))) with Some (x :: _) => s_looks x | _ => false end = true.
Proof. vm_compute. reflexivity. Qed.
(** tests/eq.rs 4-29 *)
Example rv124 : (v_unit (kval (as_kserd none TyUnit DUnit)), kid (as_kserd none TyUnit DUnit), v_unit (kval (num 1))) = (true, None, false).
Proof. vm_compute. reflexivity. Qed.
Example rv125 : (v_bool (kval (new_bool true)), v_bool (kval (new_bool false)), v_bool (kval (num 1))) = (Some true, Some false, None).
Proof. vm_compute. reflexivity. Qed.
Example rv126 : (v_ch (kval (as_kserd none TyChar (DChar 97))), v_ch (kval (num 1))) = (Some 97, None).
Proof. vm_compute. reflexivity. Qed.
(** tests/eq.rs 31-48 *)
Example rv127 : (v_uint (kval (new_int Tusize (ntype_max Tusize))), v_uint (kval (new_bool true))) = (Some (ntype_max Tusize), None).
Proof. vm_compute. reflexivity. Qed.
Example rv128 : (v_uint (kval (new_int Tu8 (ntype_max Tu8))), v_uint (kval (new_bool true))) = (Some (ntype_max Tu8), None).
Proof. vm_compute. reflexivity. Qed.
Example rv129 : (v_uint (kval (new_int Tu16 (ntype_max Tu16))), v_uint (kval (new_bool true))) = (Some (ntype_max Tu16), None).
Proof. vm_compute. reflexivity. Qed.
Example rv130 : (v_uint (kval (new_int Tu32 (ntype_max Tu32))), v_uint (kval (new_bool true))) = (Some (ntype_max Tu32), None).
Proof. vm_compute. reflexivity. Qed.
Example rv131 : (v_uint (kval (new_int Tu64 (ntype_max Tu64))), v_uint (kval (new_bool true))) = (Some (ntype_max Tu64), None).
Proof. vm_compute. reflexivity. Qed.
Example rv132 : (v_uint (kval (new_int Tu128 (ntype_max Tu128))), v_uint (kval (new_bool true))) = (Some (ntype_max Tu128), None).
Proof. vm_compute. reflexivity. Qed.
(** tests/eq.rs 50-69 *)
Example rv133 : map (fun n => v_int (kval (new_int Tisize n))) [ntype_max Tisize; ntype_min Tisize] = [Some (ntype_max Tisize); Some (ntype_min Tisize)].
Proof. vm_compute. reflexivity. Qed.
Example rv134 : map (fun n => v_int (kval (new_int Ti8 n))) [ntype_max Ti8; ntype_min Ti8] = [Some (ntype_max Ti8); Some (ntype_min Ti8)].
Proof. vm_compute. reflexivity. Qed.
Example rv135 : map (fun n => v_int (kval (new_int Ti16 n))) [ntype_max Ti16; ntype_min Ti16] = [Some (ntype_max Ti16); Some (ntype_min Ti16)].
Proof. vm_compute. reflexivity. Qed.
Example rv136 : map (fun n => v_int (kval (new_int Ti32 n))) [ntype_max Ti32; ntype_min Ti32] = [Some (ntype_max Ti32); Some (ntype_min Ti32)].
Proof. vm_compute. reflexivity. Qed.
Example rv137 : map (fun n => v_int (kval (new_int Ti64 n))) [ntype_max Ti64; ntype_min Ti64] = [Some (ntype_max Ti64); Some (ntype_min Ti64)].
Proof. vm_compute. reflexivity. Qed.
Example rv138 : map (fun n => v_int (kval (new_int Ti128 n))) [ntype_max Ti128; ntype_min Ti128] = [Some (ntype_max Ti128); Some (ntype_min Ti128)].
Proof. vm_compute. reflexivity. Qed.
(** tests/eq.rs 71-83: the f64 which the text of an f32 reads as *)
Definition widened (x : f32) : bool := match f32_to_f64 x, f_parse (g_display x) with Ret y, Some z => f_eq y z | _, _ => false end.
(** tests/eq.rs 85-110 *)
Example rv139 : forallb (fun x => widened (f32_of x)) ["0.318309886183790671537767526745028724"; "0.636619772367581343075535053490057448"; "1.12837916709551257389615890312154517"; "0.707106781186547524400844362104849039"; "1.57079632679489661923132169163975144"; "1.04719755119659774615421446109316763"; "0.785398163397448309615660845819875721"; "0.52359877559829887307710723054658381"; "0.39269908169872415480783042290993786"; "0.693147180559945309417232121458176568"; "2.30258509299404568401799145468436421"; "1.44269504088896340735992468100189214"; "0.434294481903251827651128918916605082"; "3.14159265358979323846264338327950288"; "1.41421356237309504880168872420969808"]%string = true.
Proof. vm_compute. reflexivity. Qed.
Example rv140 : forallb widened [GFin false 8388608 (-46); GFin false 16777215 104; GFin true 16777215 104; GFin false 8388608 (-149)] = true.
Proof. vm_compute. reflexivity. Qed.
Example rv141 : forallb (fun x => match f_parse (f_display (f64_of x)) with Some y => f_eq y (f64_of x) | None => false end) ["0.318309886183790671537767526745028724"; "0.636619772367581343075535053490057448"; "1.12837916709551257389615890312154517"; "0.707106781186547524400844362104849039"; "1.57079632679489661923132169163975144"; "1.04719755119659774615421446109316763"; "0.785398163397448309615660845819875721"; "0.52359877559829887307710723054658381"; "0.39269908169872415480783042290993786"; "0.693147180559945309417232121458176568"; "2.30258509299404568401799145468436421"; "1.44269504088896340735992468100189214"; "0.434294481903251827651128918916605082"; "3.14159265358979323846264338327950288"; "1.41421356237309504880168872420969808"]%string = true.
Proof. vm_compute. reflexivity. Qed.
(** tests/eq.rs 112-129 *)
Example rv142 : match as_kserd none TyF32 (DF32 (f32_of "1.2345678")) with k => match v_float (kval k) with Some x => f_eq x (f64_of "1.2345678") | None => false end end = true.
Proof. vm_compute. reflexivity. Qed.
Example rv143 : map (fun x => v_float (kval (as_kserd none TyF32 (DF32 x)))) [GInf false; GInf true] = [Some (FInf false); Some (FInf true)].
Proof. vm_compute. reflexivity. Qed.
Example rv144 : match v_float (kval (as_kserd none TyF32 (DF32 (GNaN false (2 ^ 22))))) with Some x => f_is_nan x | None => false end = true.
Proof. vm_compute. reflexivity. Qed.
(** tests/eq.rs 131-148 *)
Example rv145 : (v_str (kval (as_kserd none TyString (DString (s "Hello, world!")))), v_str (kval (new_bool true))) = (Some (s "Hello, world!"), None).
Proof. vm_compute. reflexivity. Qed.
Example rv146 : (v_barr (kval (new_barr [1; 2; 3; 4; 5])), v_barr (kval (new_bool true))) = (Some [1; 2; 3; 4; 5], None).
Proof. vm_compute. reflexivity. Qed.
(** tests/number.rs 4-20 *)
Example rv147 : (num_eqb (num_of_int Tu8 100) (num_of_int Ti8 100), num_eqb (num_of_int Ti8 100) (Float (f64_of "100.0")), num_eqb (Float (f64_of "100.0")) (num_of_int Tu8 100)) = (true, true, true).
Proof. vm_compute. reflexivity. Qed.
Example rv148 : (num_eqb (num_of_int Tu64 100) (num_of_int Ti64 (-100)), num_eqb (num_of_int Ti64 (-100)) (Float (f64_of "100.1")), num_eqb (Float (f64_of "100.1")) (num_of_int Tu64 100)) = (false, false, false).
Proof. vm_compute. reflexivity. Qed.
(** tests/number.rs 23-40 *)
Example rv149 : map (fun m => (num_cmp (num_of_int Tu8 100) m, num_cmp m (num_of_int Tu8 100))) [num_of_int Tu64 99; num_of_int Ti8 99; Float (f64_of "99.99"); Float (f64_of "98.0")] = repeat (Gt, Lt) 4.
Proof. vm_compute. reflexivity. Qed.
(** tests/number.rs 42-59 *)
Example rv150 : map (fun m => (num_cmp (num_of_int Ti8 100) m, num_cmp m (num_of_int Ti8 100))) [num_of_int Tu64 99; num_of_int Ti8 99; Float (f64_of "99.99"); Float (f64_of "98.0")] = repeat (Gt, Lt) 4.
Proof. vm_compute. reflexivity. Qed.
(** tests/number.rs 61-78 *)
Example rv151 : map (fun m => (num_cmp (Float (f64_of "100.0")) m, num_cmp m (Float (f64_of "100.0")))) [num_of_int Tu64 99; num_of_int Ti8 99; Float (f64_of "99.99"); Float (f64_of "98.0")] = repeat (Gt, Lt) 4.
Proof. vm_compute. reflexivity. Qed.
