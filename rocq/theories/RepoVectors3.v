(** The model run on the examples of the documentation of the formatter, which
    are tests of /repo as well. *)
From Verif Require Import Base F64 Number BTree Value Base91 Nav Nom Parse ParseErr Fmt Formatter FmtVectors.
Open Scope nat_scope.

Definition fmt_at (f : formatter) (i : nat) : option fmt := nth_error (fm_fmts f) i.
(** fmt/formatter.rs 40-85 *)
Definition dv_root : kserd := cn [("a", i32 0); ("b", sq [tup [i32 1; fl "3.14"]])]%string.
Example dv1 : (dl f <- fm_new dv_root ; dl g <- fm_concise f 0 ; dl h <- fm_verbose (fst g) 0 ; dl i <- fm_inline (fst h) 3 ; dl t <- fm_write (fst i) [] ;
    LRet (fmt_at f 2, (fmt_at (fst g) 0, fmt_at (fst g) 2), (fmt_at (fst h) 0, fmt_at (fst h) 2), [snd g; snd h; snd i], t))
  = LRet (Some (mkFmt true Verbose), (Some (mkFmt true Concise), Some (mkFmt true Concise)), (Some (mkFmt true Verbose), Some (mkFmt true Concise)), [None; None; None], s "a = <i32> 0
b = [
        (<i32> 1, <f64> 3.14)
    ]
").
Proof. vm_compute. reflexivity. Qed.
(** 165-179 *)
Example dv2 : (dl f <- fm_new (i32 101) ; LRet (option_map f_id (fmt_at f 0), option_map f_id (fmt_at (fst (fm_id f 0 false)) 0), snd (fm_id f 0 false))) = LRet (Some true, Some false, None).
Proof. vm_compute. reflexivity. Qed.
(** 188-206 *)
Example dv3 : lines (tup [i32 0]) = LRet [Concise; Inline] /\ lines_after (tup [i32 0]) [(Inline, 0)] = LRet ([Inline; Inline], [None]).
Proof. vm_compute. auto. Qed.
(** 211-232, 237-262 *)
Example dv4 : lines (cn [("a", sq [i32 0])]%string) = LRet [Verbose; Verbose; Inline] /\
  lines_after (cn [("a", sq [i32 0])]%string) [(Concise, 0)] = LRet ([Concise; Concise; Inline], [None]) /\
  lines_after (cn [("a", sq [i32 0])]%string) [(Concise, 0); (Verbose, 0)] = LRet ([Verbose; Concise; Inline], [None; None]).
Proof. vm_compute. auto. Qed.
(** 270-297 *)
Example dv5 : (dl f <- fm_new (cn [("a", fl "3.14"); ("b", sq [i32 0; i32 100])]%string) ; dl g <- fm_concise f 0 ; dl h <- fm_inline (fst g) 2 ;
  fm_write (fold_left (fun f i => fst (fm_id f i false)) (seq 0 (nav_len (fm_nav (fst h)))) (fst h)) []) = LRet (s "(
    a = 3.14
    b = [0, 100]
)").
Proof. vm_compute. reflexivity. Qed.
(** 405-417, 430-446, 448-464 *)
Example dv6 : lines_after (i32 0) [(Concise, 1)] = LRet ([Inline], [Some IdxOutOfBounds]) /\
  lines_after (i32 0) [(Verbose, 0)] = LRet ([Inline], [Some (RequestTooHigh Inline Verbose)]) /\
  lines_after (sq []) [(Verbose, 0)] = LRet ([Inline], [Some SeqMapAtRoot]).
Proof. vm_compute. auto. Qed.
(** fmt/mod.rs 173-206 *)
Example dv7 : map (fun w => as_str_with_config (cn [("a", i32 101); ("b", fl "3.14")]%string) (width w)) [None; Some 16; Some 0] =
  [LRet (s "(a = 101, b = 3.14)"); LRet (s "(
    a = 101
    b = 3.14
)"); LRet (s "a = 101
b = 3.14
")].
Proof. vm_compute. reflexivity. Qed.
(** 213-242 *)
Example dv8 : as_str_with_config (cn [("unit", new_unit); ("bool", new_bool true); ("number", i32 1); ("float", fl "3.14"); ("str", st "Hello"); ("barr", new_barr [0; 1; 2]%N)]%string)
    (mkConfig true true true false false (Some 0)) = LRet (s "barr = <barr> b91':CQA'
bool = <bool> true
float = <f64> 3.14
number = <i32> 1
str = <str> ""Hello""
unit = ()
").
Proof. vm_compute. reflexivity. Qed.
(** 245-332 *)
Example dv9 : as_str_with_config (id_ "a-tuple" (tup [])) config_default = LRet (s "a-tuple()") /\
  as_str_with_config (id_ "a-cntr" (cn [])) config_default = LRet (s "a-cntr ()") /\
  as_str_with_config (id_ "a-seq" (sq [])) (mkConfig false true true true false (Some 60)) = LRet (s "a-seq []") /\
  as_str_with_config (id_ "a-map" (mp [])) (mkConfig false true true false true (Some 60)) = LRet (s "a-map {}").
Proof. vm_compute. auto. Qed.
(** 389-412, 418-443 *)
Definition dv_struct : kserd := id_ "AStruct" (cn [("a", i32 1010101); ("b", fl "3.14"); ("c", st "Hello, world!"); ("d", new_barrv [100; 150; 200; 225]%N)]%string).
Example dv10 : as_str dv_struct = LRet (s "AStruct (
    a = 1010101
    b = 3.14
    c = ""Hello, world!""
    d = b91'""!Mo4'
)") /\ as_str_with_config dv_struct (mkConfig false true false false false None) = LRet (s "(a = 1010101, b = 3.14, c = ""Hello, world!"", d = b91'""!Mo4')").
Proof. vm_compute. auto. Qed.
