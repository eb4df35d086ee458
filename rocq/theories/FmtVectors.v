(** The formatter model run on cases from /repo's tests and documentation. *)
From Verif Require Import Base F64 Number BTree Value Base91 Nav Nom Parse ParseErr Fmt Formatter.
Open Scope nat_scope.

Definition i32 (n : Z) : kserd := new_int Ti32 n.
Definition fl (x : string) : kserd := new_f64 (match f_parse (s x) with Some f => f | None => FInf true end).
Definition st (x : string) : kserd := new_str (s x).
Definition tup (l : list kserd) : kserd := knew (VTuple l).
Definition sq (l : list kserd) : kserd := knew (VSeq l).
Definition cn (l : list (string * kserd)) : kserd := knew (match new_cntr (map (fun e => (s (fst e), snd e)) l) with inr v => v | inl _ => VUnit end).
Definition mp (l : list (kserd * kserd)) : kserd := knew (new_map l).
Definition id_ (n : string) (k : kserd) : kserd := Kserd (Some (s n)) (kval k).
Definition width (w : option nat) : config := mkConfig false true true false false w.
Definition show (k : kserd) (w : option nat) : lres str := as_str_with_config k (width w).
Definition lines (k : kserd) : lres (list repr) := dl f <- fm_new k ; LRet (map f_line (fm_fmts f)).
Fixpoint requests (l : list (repr * nat)) (f : formatter) : lres (formatter * list (option fmt_error)) :=
  match l with
  | [] => LRet (f, [])
  | (r, i) :: l => dl x <- fm_request r f i ; dl y <- requests l (fst x) ; LRet (fst y, snd x :: snd y)
  end.
Definition lines_after (k : kserd) (l : list (repr * nat)) : lres (list repr * list (option fmt_error)) :=
  dl f <- fm_new k ; dl x <- requests l f ; LRet (map f_line (fm_fmts (fst x)), snd x).

(** cntr.rs 138-198 *)
Definition c1 : kserd := id_ "Struct" (cn [("a", i32 101); ("b", tup [i32 0; i32 10101]); ("c", sq [i32 111; fl "3.14"])]%string).
Example fv1 : show c1 None = LRet (s "Struct (a = 101, b = (0, 10101), c = [111, 3.14])").
Proof. vm_compute. reflexivity. Qed.
Example fv2 : show c1 (Some 20) = LRet (s "Struct (
    a = 101
    b = (0, 10101)
    c = [111, 3.14]
)").
Proof. vm_compute. reflexivity. Qed.
Example fv3 : show c1 (Some 0) = LRet (s ":Struct
a = 101
b = (
        0
        10101
    )

[[c]]
111

[[c]]
3.14
").
Proof. vm_compute. reflexivity. Qed.
(** 216-247 *)
Definition c2 : kserd := cn [("un", cn [("dos", cn [("treis", cn [("quattro", new_unit)])])])]%string.
Example fv4 : show c2 (Some 0) = LRet (s "
[un]

    [dos]

        [treis]
            quattro = ()
").
Proof. vm_compute. reflexivity. Qed.
(** maps.rs 129-176 *)
Definition m1 : kserd := mp [(new_unit, i32 100); (i32 1, i32 (-101)); (tup [i32 0; i32 1], fl "3.14")].
Example fv5 : show m1 None = LRet (s "{ (): 100, 1: -101, (0, 1): 3.14 }").
Proof. vm_compute. reflexivity. Qed.
Example fv6 : show m1 (Some 20) = LRet (s "{
    (): 100
    1: -101
    (0, 1): 3.14
}").
Proof. vm_compute. reflexivity. Qed.
Example fv7 : show m1 (Some 0) = LRet (s "{
    (): 100
    1: -101
    (
        0
        1
    ): 3.14
}").
Proof. vm_compute. reflexivity. Qed.
(** 179-203 *)
Example fv8 : (dl f <- fm_new (mp [(tup [i32 0; i32 1], tup [i32 2; i32 3])]) ; fm_write f []) = LRet (s "{
    (
        <i32> 0
        <i32> 1
    ): (
           <i32> 2
           <i32> 3
       )
}").
Proof. vm_compute. reflexivity. Qed.
(** seqs.rs 93-140, tuples.rs 63-97 *)
Definition s1 : list kserd := [i32 100; i32 (-101); fl "3.14"].
Definition ids (w : option nat) : config := mkConfig true true true true false w.
Example fv9 : as_str_with_config (id_ "hello" (sq s1)) (ids None) = LRet (s "hello [<i32> 100, <i32> -101, <f64> 3.14]").
Proof. vm_compute. reflexivity. Qed.
Example fv10 : as_str_with_config (id_ "hello" (sq s1)) (ids (Some 0)) = LRet (s "hello [
    <i32> 100
    <i32> -101
    <f64> 3.14
]").
Proof. vm_compute. reflexivity. Qed.
Example fv11 : as_str_with_config (id_ "hello" (tup s1)) (ids None) = LRet (s "hello(<i32> 100, <i32> -101, <f64> 3.14)").
Proof. vm_compute. reflexivity. Qed.
Example fv12 : as_str_with_config (id_ "hello" (tup s1)) (ids (Some 0)) = LRet (s "hello(
    <i32> 100
    <i32> -101
    <f64> 3.14
)").
Proof. vm_compute. reflexivity. Qed.
(** the empty cases: cntr.rs 251-275, maps.rs 206-228, seqs.rs 143-165, tuples.rs 100-122 *)
Example fv13 : (dl f <- fm_new (id_ "something" (cn [])) ; fm_write f []) = LRet (s "something ()").
Proof. vm_compute. reflexivity. Qed.
Example fv14 : (dl f <- fm_new (id_ "a-tuple" (tup [])) ; fm_write f []) = LRet (s "a-tuple()").
Proof. vm_compute. reflexivity. Qed.
Example fv15 : lines_after (id_ "something" (mp [])) [(Concise, 0); (Verbose, 0); (Inline, 0)]
  = LRet ([Inline], [Some (RequestTooHigh Inline Concise); Some SeqMapAtRoot; None]).
Proof. vm_compute. reflexivity. Qed.
(** formatter.rs 533-563 *)
Example fv16 : lines (tup [cn []; sq []; mp []]) = LRet [Concise; Inline; Inline; Inline].
Proof. vm_compute. reflexivity. Qed.
(** 566-604 *)
Definition c3 : kserd := cn [("a", fl "1.01"); ("b", sq [i32 1])]%string.
Example fv17 : lines c3 = LRet [Verbose; Inline; Verbose; Inline].
Proof. vm_compute. reflexivity. Qed.
Example fv18 : lines_after c3 [(Inline, 2)] = LRet ([Verbose; Inline; Inline; Inline], [None]).
Proof. vm_compute. reflexivity. Qed.
(** 607-668 and 671-760 *)
Definition c4 : kserd := cn [("a", sq [i32 0; i32 1]); ("b", tup [i32 1; st "Hello"]);
  ("c", mp [(tup [new_unit], new_unit); (sq [new_unit], new_unit)]); ("d", st "asdf")]%string.
Example fv19 : lines c4 = LRet [Verbose; Verbose; Inline; Inline; Concise; Inline; Inline; Verbose; Concise;
                                Inline; Inline; Concise; Inline; Inline; Inline].
Proof. vm_compute. reflexivity. Qed.
Example fv20 : lines_after c4 [(Concise, 1); (Concise, 0)]
  = LRet ([Concise; Concise; Inline; Inline; Concise; Inline; Inline; Concise; Concise;
           Inline; Inline; Concise; Inline; Inline; Inline], [None; None]).
Proof. vm_compute. reflexivity. Qed.
Example fv21 : lines_after c4 [(Inline, 0); (Concise, 0); (Concise, 1); (Verbose, 0)]
  = LRet ([Verbose; Concise; Inline; Inline; Inline; Inline; Inline; Inline; Inline;
           Inline; Inline; Inline; Inline; Inline; Inline], [None; None; None; None]).
Proof. vm_compute. reflexivity. Qed.
(** solver.rs 452-475 *)
Example fv22 : (dl nv <- nav_new (tup [i32 100; i32 (-101); knew (VStr (s "Hello
"))]) ; inline_widths nv (mkConfig false false true false false (Some 60))) = LRet [22; 3; 4; 9].
Proof. vm_compute. reflexivity. Qed.
Definition offsets (k : kserd) (reqs : list (repr * nat)) : lres (list nat) :=
  dl f <- fm_new k ;
  dl inw <- inline_widths (fm_nav f) (mkConfig false false false false false (Some 60)) ;
  dl f <- requests reqs f ;
  lfold (fun acc n => dl o <- calculate_offset (fm_nav (fst f)) n (fm_fmts (fst f)) inw ; LRet (acc ++ [o])) (nav_nodes (fm_nav (fst f))) [].
(** 478-512 *)
Example fv23 : offsets (cn [("field-name", mp [(i32 1234, i32 1234567)])]%string) [(Concise, 0); (Concise, 1); (Inline, 2); (Inline, 3)]
  = LRet [0; 17; 21; 27].
Proof. vm_compute. reflexivity. Qed.
(** 515-573 (indices 8, 9, 11, 12 are not in the test) *)
Example fv24 : option_map (fun l => map (fun i => nth i l 99) [0; 1; 2; 3; 4; 5; 6; 7; 10])
  (match offsets (cn [("mapping", mp [(tup [i32 1; i32 2], cn [("a", i32 100); ("b", tup [i32 0; i32 1]); ("c", sq [i32 2; i32 3])])])]%string)
                 [(Verbose, 0); (Verbose, 1); (Inline, 2)] with LRet l => Some l | _ => None end)
  = Some [0; 10; 0; 0; 0; 8; 8; 8; 8].
Proof. vm_compute. reflexivity. Qed.
(** 576-627 *)
Example fv25 : offsets c2 [] = LRet [0; 5; 10; 16; 22].
Proof. vm_compute. reflexivity. Qed.
(** 630-644 *)
Example fv26 : offsets (mp [(i32 1234, i32 123456)]) [(Concise, 0)] = LRet [0; 4; 10].
Proof. vm_compute. reflexivity. Qed.
(** mod.rs 509-617 *)
Definition toml : kserd := id_ "my-crate" (cn [
  ("package", id_ "Package" (cn [("name", st "a-crate"); ("version", st "0.1.0")]));
  ("dependencies", sq [cn [("name", st "serde"); ("version", st "1")]; cn [("name", st "rand"); ("version", st "0.5")]])]%string).
Example fv27 : as_str toml = LRet (s "my-crate (
    dependencies = [
                       (name = ""serde"", version = ""1"")
                       (name = ""rand"", version = ""0.5"")
                   ]
    package = Package (name = ""a-crate"", version = ""0.1.0"")
)").
Proof. vm_compute. reflexivity. Qed.
Example fv28 : show toml (Some 0) = LRet (s ":my-crate

[[dependencies]]
    name = ""serde""
    version = ""1""

[[dependencies]]
    name = ""rand""
    version = ""0.5""

[package:Package]
    name = ""a-crate""
    version = ""0.1.0""
").
Proof. vm_compute. reflexivity. Qed.
Example fv29 : (dl f <- fm_new toml ; dl f <- apply_config f (width (Some 0)) ; dl x <- fm_inline f 8 ; fm_write (fst x) [])
  = LRet (s ":my-crate

[[dependencies]]
    name = ""serde""
    version = ""1""

[[dependencies]]
    name = ""rand""
    version = ""0.5""
package = Package (name = ""a-crate"", version = ""0.1.0"")
").
Proof. vm_compute. reflexivity. Qed.
(** mod.rs 619-640 *)
Example fv30 : as_str (st "Hello ""World""") = LRet (s "str'Hello ""World""'").
Proof. vm_compute. reflexivity. Qed.
Example fv31 : as_str (st "'Hello'
""World""") = LRet (s "str#'Hello'
""World""#").
Proof. vm_compute. reflexivity. Qed.
(** tests/formatting.rs 22-69 *)
Definition units : kserd := id_ "Units" (cn [("uvalue", new_unit); ("ustruct", id_ "AStruct" new_unit); ("uenum", id_ "EnumVariant" new_unit)]%string).
Example fv32 : show units (Some 25) = LRet (s "Units (
    uenum = EnumVariant()
    ustruct = AStruct()
    uvalue = ()
)").
Proof. vm_compute. reflexivity. Qed.
(** 217-223 *)
Example fv33 : as_str (knew (VBarr [0; 1; 2; 5; 10; 20; 50; 100; 150; 200; 255]%N)) = LRet (s "b91':C!WEH#L4RHMWL'").
Proof. vm_compute. reflexivity. Qed.

(** 303-366 (width 50 and 16) *)
Definition simple (a b c : Z) (l : list Z) : kserd :=
  id_ "Simple" (cn [("a", i32 a); ("b", tup [i32 b; i32 c]); ("c", sq (map i32 l))]%string).
Definition bare (w : option nat) : config := mkConfig false false false false false w.
Example fv34 : as_str_with_config (cn [("inner", sq [simple 100 0 1 [2; 3]%Z; simple 101 1 2 [4; 5]%Z])]%string) (bare (Some 16)) = LRet (s "
[[inner]]
    a = 100
    b = (0, 1)
    c = [2, 3]

[[inner]]
    a = 101
    b = (1, 2)
    c = [4, 5]
").
Proof. vm_compute. reflexivity. Qed.
(** 420-590 *)
Definition smap : kserd := id_ "SimpleMap" (cn [("name", st "A simple mapping");
  ("mapping", mp [(tup [i32 1; i32 2], simple 100 0 1 [2; 3]%Z); (tup [i32 2; i32 3], simple 101 1 2 [4; 5]%Z)])]%string).
Example fv35 : as_str_with_config smap (bare (Some 50)) = LRet (s "(
    mapping = {
                  (1, 2): (
                              a = 100
                              b = (0, 1)
                              c = [2, 3]
                          )
                  (2, 3): (
                              a = 101
                              b = (1, 2)
                              c = [4, 5]
                          )
              }
    name = ""A simple mapping""
)").
Proof. vm_compute. reflexivity. Qed.
Example fv36 : as_str_with_config smap (bare (Some 35)) = LRet (s "mapping = {
              (1, 2): (
                          a = 100
                          b = (0, 1)
                          c = [2, 3]
                      )
              (2, 3): (
                          a = 101
                          b = (1, 2)
                          c = [4, 5]
                      )
          }
name = ""A simple mapping""
").
Proof. vm_compute. reflexivity. Qed.
Example fv37 : as_str_with_config smap (mkConfig false false true false false (Some 14)) = LRet (s ":SimpleMap

[[mapping]]
(1, 2):
    :Simple
    a = 100
    b = (0, 1)
    c = [2, 3]

[[mapping]]
(2, 3):
    :Simple
    a = 101
    b = (1, 2)
    c = [4, 5]

name = ""A simple mapping""
").
Proof. vm_compute. reflexivity. Qed.
(** 632-662 *)
Definition chr (x : string) : kserd := id_ "char" (st x).
Example fv38 : show (id_ "map" (mp [(tup [chr "c"; chr "c"], tup [fl "3.3"; st "cc"]); (tup [chr "a"; chr "a"], tup [fl "1.1"; st "aa"])])) (Some 22)
 = LRet (s "{
    (""a"", ""a""): (
                    1.1
                    ""aa""
                )
    (""c"", ""c""): (
                    3.3
                    ""cc""
                )
}").
Proof. vm_compute. reflexivity. Qed.
