(** The model run on the unit tests in /repo/src. The definitions below are shorthand for writing the values of the tests (not in /repo). *)
From Verif Require Import Base F64 F32 Number NumPrim BTree Value Base91 Nav Nom Parse ParseErr Fmt Formatter Encode ToKserd Errors Mutate FmtVectors RepoVectors.
Open Scope N_scope.
Open Scope list_scope.

Definition finf := FInf false.
Definition ninf := FInf true.
Definition fnan := nan.
Definition f (x : string) : f64 := f64_of x.
Definition fadd_5e11 : string := "3.00000000005".
Definition fsub_5e11 : string := "2.99999999995".
(** ds/num.rs 515-549 *)
Example uv1 : [cmp_float_to_float (f "0.0") (f "0.0"); cmp_float_to_float (f "0.0") (f "-0.0"); cmp_float_to_float (f "0.1") (f "0.0"); cmp_float_to_float (f "0.0") (f "0.1"); cmp_float_to_float (f "3.14") (f "-3.14"); cmp_float_to_float (f "-3.14") (f "3.14"); cmp_float_to_float (fnan) (f "0.0"); cmp_float_to_float (fnan) (f "1.0"); cmp_float_to_float (fnan) (f "-1.0"); cmp_float_to_float (fnan) (finf); cmp_float_to_float (fnan) (ninf); cmp_float_to_float (f "0.0") (fnan); cmp_float_to_float (f "1.0") (fnan); cmp_float_to_float (f "-1.0") (fnan); cmp_float_to_float (finf) (fnan); cmp_float_to_float (ninf) (fnan); cmp_float_to_float (finf) (f "0.0"); cmp_float_to_float (finf) (ninf); cmp_float_to_float (finf) (finf); cmp_float_to_float (f "0.0") (finf); cmp_float_to_float (ninf) (finf); cmp_float_to_float (finf) (finf); cmp_float_to_float (ninf) (ninf)] = [Eq; Eq; Gt; Lt; Gt; Lt; Gt; Gt; Gt; Gt; Gt; Lt; Lt; Lt; Lt; Lt; Gt; Gt; Eq; Lt; Lt; Eq; Eq].
Proof. vm_compute. reflexivity. Qed.
(** ds/num.rs 551-569 *)
Example uv2 : [num_eqb (Float (finf)) (Float (finf)); num_eqb (Float (finf)) (Float (ninf)); num_eqb (Float (finf)) (Float (fnan)); num_eqb (Float (ninf)) (Float (finf)); num_eqb (Float (ninf)) (Float (ninf)); num_eqb (Float (ninf)) (Float (fnan)); num_eqb (Float (fnan)) (Float (finf)); num_eqb (Float (fnan)) (Float (ninf)); num_eqb (Float (fnan)) (Float (fnan))] = [true; false; false; false; true; false; false; false; true].
Proof. vm_compute. reflexivity. Qed.
(** ds/num.rs 571-597: a BTreeSet is a BTreeMap to () *)
Example uv3 : let set := map fst (fold_left (fun m x => bt_insert num_cmp x tt m) [num_of_int Ti32 0; Float (f "-0.0"); Float (f "-1.0"); Float (f "0.5"); Float (finf); num_of_int Ti32 (-100); Float (fnan); Float (fnan); Float (f "-0.0"); Float (ninf); Float (f "100.0")] []) in list_eqb num_eqb set [Float (ninf); Float (f "-100.0"); Float (f "-1.0"); Float (f "0.0"); Float (f "0.5"); Float (f "100.0"); Float (finf); Float (fnan)] = true.
Proof. vm_compute. reflexivity. Qed.
(** ds/num.rs 599-617; 3.0 + 5e-11 written as a decimal *)
Example uv4 : map as_u128 [num_of_int Ti32 100; Float (f "100.0"); Float (f fadd_5e11); Float (f fsub_5e11); Float (f "0.0"); Float (f "-1.0"); num_of_int Ti32 (-100); Float (f "0.5"); Float finf; Float ninf; Float fnan] = [Some 100%Z; Some 100%Z; Some 3%Z; Some 3%Z; Some 0%Z; None; None; None; None; None; None].
Proof. vm_compute. reflexivity. Qed.
(** ds/num.rs 619-636 *)
Example uv5 : map as_i128 [num_of_int Ti32 100; Float (f "100.0"); Float (f "-2.99999999995"); Float (f "-3.00000000005"); Float (f "0.0"); Float (f "-1.0"); Float (f "0.5"); Float finf; Float ninf; Float fnan] = [Some 100%Z; Some 100%Z; Some (-3)%Z; Some (-3)%Z; Some 0%Z; Some (-1)%Z; None; None; None; None].
Proof. vm_compute. reflexivity. Qed.
(** ds/num.rs 638-657 *)
Example uv6 : map (fun p => (num_eq_prim (num_of_int Tu8 0) p, num_cmp_prim (Float (f "-0.001")) p)) ([PInt Tisize 0; PInt Ti8 0; PInt Ti16 0; PInt Ti32 0; PInt Ti64 0; PInt Ti128 0; PInt Tusize 0; PInt Tu8 0; PInt Tu16 0; PInt Tu32 0; PInt Tu64 0; PInt Tu128 0] ++ [PF32 (f32_of "0.0"); PF64 (f "0.0")]) = repeat (Ret true, Ret (Some Lt)) 14.
Proof. vm_compute. reflexivity. Qed.
(** ds/num.rs 659-677 *)
Example uv7 : map (fun p => num_cmp (fst p) (snd p)) [(num_of_int Tu128 128, num_of_int Ti128 (-128)); (num_of_int Tu128 128, Float (f "-3.14")); (Float finf, num_of_int Tu128 u128_max); (Float fnan, num_of_int Tu128 u128_max); (Float (f "128.1"), num_of_int Tu128 128); (num_of_int Ti128 128, Float (f "-3.14")); (Float finf, num_of_int Ti128 i128_max); (Float fnan, num_of_int Ti128 i128_max); (Float (f "128.1"), num_of_int Ti128 128)] = repeat Gt 9.
Proof. vm_compute. reflexivity. Qed.
Example uv8 : (num_eqb (num_of_int Tu128 128) (Float (f "128.0")), num_eqb (num_of_int Ti128 128) (Float (f "128.0"))) = (true, true).
Proof. vm_compute. reflexivity. Qed.
(** ds/num.rs 679-683 *)
Example uv9 : (num_eqb (num_of_int Ti32 (-123)) (num_of_int Tusize 123), num_eqb (num_of_int Tisize 123) (num_of_int Tusize 123)) = (false, true).
Proof. vm_compute. reflexivity. Qed.
(** ds/num.rs 685-697 *)
Example uv10 : map (num_cmp (num_of_int Tu8 123)) [Float finf; Float fnan; Float (f "123"); Float ninf] = [Lt; Lt; Eq; Gt].
Proof. vm_compute. reflexivity. Qed.
(** ds/num.rs 699-705 *)
Example uv11 : map rev_ordering [Lt; Gt; Eq] = [Gt; Lt; Eq].
Proof. vm_compute. reflexivity. Qed.
(** ds/num.rs 707-723 *)
Example uv12 : map (fun t => num_from_str (s t)) ["100"; "-100"; "3.14"; "abcd"; "100_000"; "-100_000"; "-3.14e7"; " 10.  0"; ""]%string = [Some (Uint 100); Some (Int (-100)); Some (Float (f "3.14")); None; Some (Uint 100000); Some (Int (-100000)); Some (Float (f "-31400000")); None; None].
Proof. vm_compute. reflexivity. Qed.
(** ds/num.rs 725-741 *)
Example uv13 : forallb (fun n => match num_from_str (num_display n) with Some m => num_eqb m n | None => false end) [Uint 0; Uint u128_max; Int i128_max; Int i128_min] = true.
Proof. vm_compute. reflexivity. Qed.
(** ds/num.rs 751-758 *)
Example uv14 : map (fun n => num_hash_bits n =? num_hash_bits (num_of_int Ti32 101))%Z [Float (f "101.0"); num_of_int Ti8 101; Float (f "3.14")] = [true; true; false].
Proof. vm_compute. reflexivity. Qed.
(** parse/heuristics.rs 131-153 *)
Example uv15 : map (fun t => pattern_match_delimited t) [s "123456"; s "123456 ["; s "-123456"; s "-123456 ["; s "-3.14e-314"; s "-3.14e-314 ["; s "()"; s "() ["; s "a = 123"; s "a = 123 ["; s """Hello, world!"""; s """Hello, world!"" ["; s "str'Hello, world!'"; s "true"; s "true ["; s "false"; s "false
["; s "b91':C!WEH#L4R'"; s "b91':C!WEH#L4R' ["] = map (fun t => POk t NpNone) [s "123456"; s "123456 ["; s "-123456"; s "-123456 ["; s "-3.14e-314"; s "-3.14e-314 ["; s "()"; s "() ["; s "a = 123"; s "a = 123 ["; s """Hello, world!"""; s """Hello, world!"" ["; s "str'Hello, world!'"; s "true"; s "true ["; s "false"; s "false
["; s "b91':C!WEH#L4R'"; s "b91':C!WEH#L4R' ["].
Proof. vm_compute. reflexivity. Qed.
(** parse/heuristics.rs 157-166 *)
Example uv16 : map (fun t => pattern_match_delimited t) [s "[1,2,3]"; s "[
1,2,3
]"; s "Hello [1,2,3]"; s "Hello [
1,2,3
]"; s "Hello[1,2,3]"; s "Hello[
1,2,3
]"] = map (fun t => POk t NpSeq) [s "[1,2,3]"; s "[
1,2,3
]"; s "Hello [1,2,3]"; s "Hello [
1,2,3
]"; s "Hello[1,2,3]"; s "Hello[
1,2,3
]"].
Proof. vm_compute. reflexivity. Qed.
(** parse/heuristics.rs 170-179 *)
Example uv17 : map (fun t => pattern_match_delimited t) [s "{1:2, 3:4, 5:6}"; s "{
1:2
3:4
5:6
}"; s "Hello {1:2, 3:4, 5:6}"; s "Hello {
1:2
3:4
5:6
}"; s "Hello{1:2, 3:4, 5:6}"; s "Hello{
1:2
3:4
5:6
}"] = map (fun t => POk t NpMap) [s "{1:2, 3:4, 5:6}"; s "{
1:2
3:4
5:6
}"; s "Hello {1:2, 3:4, 5:6}"; s "Hello {
1:2
3:4
5:6
}"; s "Hello{1:2, 3:4, 5:6}"; s "Hello{
1:2
3:4
5:6
}"].
Proof. vm_compute. reflexivity. Qed.
(** parse/heuristics.rs 183-192 *)
Example uv18 : map (fun t => pattern_match_delimited t) [s "(1,2,3)"; s "(
1,2,3
)"; s "Hello (1,2,3)"; s "Hello (
1,2,3
)"; s "Hello(1,2,3)"; s "Hello(
1,2,3
)"] = map (fun t => POk t NpTuple) [s "(1,2,3)"; s "(
1,2,3
)"; s "Hello (1,2,3)"; s "Hello (
1,2,3
)"; s "Hello(1,2,3)"; s "Hello(
1,2,3
)"].
Proof. vm_compute. reflexivity. Qed.
(** parse/heuristics.rs 196-205 *)
Example uv19 : map (fun t => pattern_match_delimited t) [s "(a=1, 2, 3)"; s "(
a  = 1,2,3
)"; s "Hello (a = 1,2,3)"; s "Hello (
a=1,2,3
)"; s "Hello(_a=1,2,3)"; (s "Hello(
a " ++ [9; 9; 9] ++ s " =1,2,3
)")] = map (fun t => POk t NpCntr) [s "(a=1, 2, 3)"; s "(
a  = 1,2,3
)"; s "Hello (a = 1,2,3)"; s "Hello (
a=1,2,3
)"; s "Hello(_a=1,2,3)"; (s "Hello(
a " ++ [9; 9; 9] ++ s " =1,2,3
)")].
Proof. vm_compute. reflexivity. Qed.
(** parse/prims.rs 109-132 *)
Example uv20 : map pstring [s """"""; s """abcdef"""; s """Hello, world!"""; s """Hello
newline"""; s """ """; (s """" ++ [13] ++ s "
 
"""); (s """" ++ [9] ++ s """"); s "str'  ""  '"; s "str""  '  """; (s """'" ++ [9] ++ s "
" ++ [13] ++ s "
""")] = [POk (s "") (s ""); POk (s "") (s "abcdef"); POk (s "") (s "Hello, world!"); POk (s "") (s "Hello
newline"); POk (s "") (s " "); POk (s "") (([13] ++ s "
 
")); POk (s "") ([9]); POk (s "") (s "  ""  "); POk (s "") (s "  '  "); POk (s "") ((s "'" ++ [9] ++ s "
" ++ [13] ++ s "
"))].
Proof. vm_compute. reflexivity. Qed.
(** parse/prims.rs 134-157 *)
Example uv21 : map (fun b => match as_str (knew (VBarr b)) with LRet t => barr t | _ => PPanic end) [[]; [0]; [0; 1; 2; 5; 10; 20; 50; 100; 110; 120; 150; 200; 210; 220; 250]; map N.of_nat (List.seq 0 255)] = map (fun b => POk [] b) [[]; [0]; [0; 1; 2; 5; 10; 20; 50; 100; 110; 120; 150; 200; 210; 220; 250]; map N.of_nat (List.seq 0 255)].
Proof. vm_compute. reflexivity. Qed.
(** parse/prims.rs 159-164 *)
Example uv22 : map barr [s "b91'',"; s "b91']',"; s "b91'],',"] = [POk (s ",") []; POk (s ",") [82]; POk (s ",") [143]].
Proof. vm_compute. reflexivity. Qed.
(** parse/prims.rs 167-186 *)
Example uv23 : forallb (fun n => match Parse.num (Z_display n) with POk _ m => match as_u128 m with Some k => Z.eqb k n | None => false end | _ => false end) [0; 1; 2 ^ 8 - 1; 2 ^ 16 - 1; 2 ^ 32 - 1; 2 ^ 64 - 1; 2 ^ 128 - 1; 16803534192531604596; 16803534192531605504]%Z = true.
Proof. vm_compute. reflexivity. Qed.
(** parse/prims.rs 188-211 *)
Example uv24 : forallb (fun n => match Parse.num (Z_display n) with POk _ m => match as_i128 m with Some k => Z.eqb k n | None => false end | _ => false end) [0; 1; -1; 2 ^ 7 - 1; - 2 ^ 7; 2 ^ 15 - 1; - 2 ^ 15; 2 ^ 31 - 1; - 2 ^ 31; 2 ^ 63 - 1; - 2 ^ 63; 2 ^ 127 - 1; - 2 ^ 127]%Z = true.
Proof. vm_compute. reflexivity. Qed.
(** parse/prims.rs 213-234 *)
Example uv25 : forallb (fun x => match Parse.num (f_display x) with POk _ m => f_eq (as_f64 m) x | _ => false end) (map f64_of ["0.0"; "-0.0"; "2.71828182845904523536028747135266250"; "0.318309886183790671537767526745028724"; "0.707106781186547524400844362104849039"; "0.693147180559945309417232121458176568"; "2.30258509299404568401799145468436421"; "3.14159265358979323846264338327950288"; "6.28318530717958647692528676655900577"]%string ++ [finf; ninf]) = true.
Proof. vm_compute. reflexivity. Qed.
(** encode/decoder.rs 430-490 *)
Example uv26 : map (there_and_back none (TyUnit)) [DUnit] = map Some [DUnit].
Proof. vm_compute. reflexivity. Qed.
Example uv27 : map (there_and_back none (TyBool)) [DBool true; DBool false] = map Some [DBool true; DBool false].
Proof. vm_compute. reflexivity. Qed.
Example uv28 : map (there_and_back none (TyChar)) [DChar 97; DChar 98; DChar 99] = map Some [DChar 97; DChar 98; DChar 99].
Proof. vm_compute. reflexivity. Qed.
Example uv29 : map (there_and_back none (TyInt Tu8)) [DInt (ntype_min Tu8); DInt (ntype_max Tu8); DInt 0] = map Some [DInt (ntype_min Tu8); DInt (ntype_max Tu8); DInt 0].
Proof. vm_compute. reflexivity. Qed.
Example uv30 : map (there_and_back none (TyInt Tu16)) [DInt (ntype_min Tu16); DInt (ntype_max Tu16); DInt 0] = map Some [DInt (ntype_min Tu16); DInt (ntype_max Tu16); DInt 0].
Proof. vm_compute. reflexivity. Qed.
Example uv31 : map (there_and_back none (TyInt Tu32)) [DInt (ntype_min Tu32); DInt (ntype_max Tu32); DInt 0] = map Some [DInt (ntype_min Tu32); DInt (ntype_max Tu32); DInt 0].
Proof. vm_compute. reflexivity. Qed.
Example uv32 : map (there_and_back none (TyInt Tu64)) [DInt (ntype_min Tu64); DInt (ntype_max Tu64); DInt 0] = map Some [DInt (ntype_min Tu64); DInt (ntype_max Tu64); DInt 0].
Proof. vm_compute. reflexivity. Qed.
Example uv33 : map (there_and_back none (TyInt Tu128)) [DInt (ntype_min Tu128); DInt (ntype_max Tu128); DInt 0] = map Some [DInt (ntype_min Tu128); DInt (ntype_max Tu128); DInt 0].
Proof. vm_compute. reflexivity. Qed.
Example uv34 : map (there_and_back none (TyInt Ti8)) [DInt (ntype_min Ti8); DInt (ntype_max Ti8); DInt 0] = map Some [DInt (ntype_min Ti8); DInt (ntype_max Ti8); DInt 0].
Proof. vm_compute. reflexivity. Qed.
Example uv35 : map (there_and_back none (TyInt Ti16)) [DInt (ntype_min Ti16); DInt (ntype_max Ti16); DInt 0] = map Some [DInt (ntype_min Ti16); DInt (ntype_max Ti16); DInt 0].
Proof. vm_compute. reflexivity. Qed.
Example uv36 : map (there_and_back none (TyInt Ti32)) [DInt (ntype_min Ti32); DInt (ntype_max Ti32); DInt 0] = map Some [DInt (ntype_min Ti32); DInt (ntype_max Ti32); DInt 0].
Proof. vm_compute. reflexivity. Qed.
Example uv37 : map (there_and_back none (TyInt Ti64)) [DInt (ntype_min Ti64); DInt (ntype_max Ti64); DInt 0] = map Some [DInt (ntype_min Ti64); DInt (ntype_max Ti64); DInt 0].
Proof. vm_compute. reflexivity. Qed.
Example uv38 : map (there_and_back none (TyInt Ti128)) [DInt (ntype_min Ti128); DInt (ntype_max Ti128); DInt 0] = map Some [DInt (ntype_min Ti128); DInt (ntype_max Ti128); DInt 0].
Proof. vm_compute. reflexivity. Qed.
Example uv39 : map (there_and_back none (TyString)) [DString (s "Hello, world!"); DString (10 :: s "This is me!")] = map Some [DString (s "Hello, world!"); DString (10 :: s "This is me!")].
Proof. vm_compute. reflexivity. Qed.
Example uv40 : map (there_and_back none (TyF64)) [DF64 (f "0.0"); DF64 (f "2.71828182845904523536028747135266250"); DF64 pi64; DF64 (f "-2.71828182845904523536028747135266250"); DF64 (neg64 pi64)] = map Some [DF64 (f "0.0"); DF64 (f "2.71828182845904523536028747135266250"); DF64 pi64; DF64 (f "-2.71828182845904523536028747135266250"); DF64 (neg64 pi64)].
Proof. vm_compute. reflexivity. Qed.
Example uv41 : map (there_and_back none (TyF32)) [DF32 (f32_of "0.0"); DF32 (f32_of "2.71828182845904523536028747135266250"); DF32 pi32; DF32 (f32_of "-2.71828182845904523536028747135266250"); DF32 (neg32 pi32)] = map Some [DF32 (f32_of "0.0"); DF32 (f32_of "2.71828182845904523536028747135266250"); DF32 pi32; DF32 (f32_of "-2.71828182845904523536028747135266250"); DF32 (neg32 pi32)].
Proof. vm_compute. reflexivity. Qed.
(** encode/decoder.rs 542-558 *)
Example uv42 : (dec none TyBytes (new_barr [0; 1; 2]), dec none TyBytes (new_barrv [0; 1; 2])) = (Some (DBytes [0; 1; 2]), Some (DBytes [0; 1; 2])).
Proof. vm_compute. reflexivity. Qed.
(** encode/decoder.rs 560-571 *)
Example uv43 : dec (fun _ => DefNewtype (s "NewTypeTest") TyBytes) (TyNamed 0) (named "NewTypeTest" (tup [new_barr [0; 1; 2]])) = Some (DNewtype (DBytes [0; 1; 2])).
Proof. vm_compute. reflexivity. Qed.
(** encode/decoder.rs 573-585; whether, not the text of the error *)
Example uv44 : (dec none TyChar (st "x"), dec none TyChar (st "")) = (Some (DChar 120), None).
Proof. vm_compute. reflexivity. Qed.
(** encode/encoder.rs 459-480 *)
Example uv45 : enc (fun _ => DefNewtype (s "Test") TyUnit) (TyNamed 0) (DNewtype DUnit) = inr (named "Test" (tup [new_unit])).
Proof. vm_compute. reflexivity. Qed.
Example uv46 : match enc (fun _ => DefNewtype (s "\Test") TyUnit) (TyNamed 0) (DNewtype DUnit) with inl (EInvalidId i) => id_error_text i | _ => [] end = s "identity '\Test' contains invalid characters. Invalid characters: '(){}[]<> ,./\='".
Proof. vm_compute. reflexivity. Qed.
Example uv47 : match enc (fun _ => DefEnum [(s "\Test", ShNewtype TyUnit)]) (TyNamed 0) (DVariant 0 DUnit) with inl (EInvalidId i) => id_error_text i | _ => [] end = s "identity '\Test' contains invalid characters. Invalid characters: '(){}[]<> ,./\='".
Proof. vm_compute. reflexivity. Qed.
(** encode/encoder.rs 482-493 *)
Example uv48 : k_eqb (as_kserd none (TyMap (TyInt Tu64) TyString) (DMap [(DInt 100, DString (s "Hello"))])) (mp [(num 100, st "Hello")]) = true.
Proof. vm_compute. reflexivity. Qed.
(** ds/kserd.rs 402-407 *)
Example uv49 : (v_barr (kval (new_barrv [0; 1; 2; 3])), kid (new_barrv [0; 1; 2; 3])) = (Some [0; 1; 2; 3], Some (s "ByteVec")).
Proof. vm_compute. reflexivity. Qed.
(** ds/kserd.rs 409-417 *)
Example uv50 : (with_id (s "an-identity") (VBool true), match with_id (s "<an,> in(valid.)/{identity}\=") VUnit with inl _ => true | inr _ => false end) = (inr (named "an-identity" (new_bool true)), true).
Proof. vm_compute. reflexivity. Qed.
(** ds/kserd.rs 427-432 *)
Example uv51 : k_cmp (num 0) (num 1) = Lt.
Proof. vm_compute. reflexivity. Qed.
(** ds/kserd.rs 441-445 *)
Example uv52 : match with_id (s "\// ") (VBool true) with inl i => id_error_text i | inr _ => [] end = s "identity '\// ' contains invalid characters. Invalid characters: '(){}[]<> ,./\='".
Proof. vm_compute. reflexivity. Qed.
(** ds/val.rs 1058-1073 *)
Example uv53 : map (fun t => match validate_name t with Some e => field_error_text (name_error_text t e) | None => [] end) [[]; s "9name"; s "na" ++ [9] ++ s "me"] = [s "invalid field name: name is empty"; s "invalid field name: name can not begin with digit"; s "invalid field name: invalid character '" ++ [9] ++ s "' exists in name 'na" ++ [9] ++ s "me'"].
Proof. vm_compute. reflexivity. Qed.
(** ds/val.rs 1190-1222 *)
Definition prims5 : kserd := cn [("unit", new_unit); ("bool", new_bool true); ("num", FmtVectors.fl "1.01234"); ("str", st "Hello, world!"); ("barr", new_barr [0; 1; 2; 4; 8])]%string.
Definition nested5 : kserd := cn [("prims", prims5); ("tuple", tup [prims5; prims5]); ("seq", sq [prims5; prims5; prims5; prims5]); ("map", mp [(st "first", prims5); (st "second", prims5)])]%string.
Example uv54 : k_eqb nested5 (into_owned (k_clone nested5)) = true.
Proof. vm_compute. reflexivity. Qed.
(** ds/val.rs 1234-1245 *)
Definition cntr9 : kserd := cn [("a", new_unit); ("b", new_bool false); ("c", num 101); ("d", st "hello"); ("e", new_barr [0]); ("f", tup [num 1]); ("g", sq [num 2]); ("h", cn [("a", new_unit)]); ("i", mp [(new_unit, num 2)])]%string.
Definition get9 {A} (g : list (str * kserd) -> str -> option A) (n : string) : option A := match v_cntr (kval cntr9) with Some m => g m (s n) | None => None end.
(** ds/val.rs 1228-1261 *)
Example uv55 : (v_cntr (kval (num 101)), get9 get_unit "a", get9 get_num "a", get9 get_bool "b", get9 get_num "c", get9 get_str "d") = (None, Some tt, None, Some false, Some (Int 101), Some (s "hello")).
Proof. vm_compute. reflexivity. Qed.
Example uv56 : (get9 get_barr "e", get9 get_tuple "f", get9 get_seq "g", get9 get_tuple_or_seq "f", get9 get_tuple_or_seq "g") = (Some [0], Some [num 1], Some [num 2], Some [num 1], Some [num 2]).
Proof. vm_compute. reflexivity. Qed.
Example uv57 : (get9 get_cntr "h", get9 get_map "i") = (Some [(s "a", new_unit)], Some [(new_unit, num 2)]).
Proof. vm_compute. reflexivity. Qed.
(** nav/navigator.rs 386-528 *)
Definition nid (n : string) (v : value kserd) : kserd := Kserd (Some (s n)) v.
Definition nc (l : list (string * kserd)) : value kserd := kval (cn l).
Definition nu (n : string) : kserd := nid n VUnit.
Definition nav_ids (k : kserd) : lres (list (option str)) := dl nv <- nav_new k ; LRet (map (fun x => kid (n_kserd x)) nv).
Definition six : list (option str) := map (fun x => Some (s x)) ["0"; "1"; "2"; "3"; "4"; "5"]%string.
Definition nav_map : kserd := nid "0" (new_map [(nid "1" (VNum (Int 0)), nid "2" (new_map [(nu "3", nu "4")])); (nid "5" (VNum (Int 1)), nu "6"); (nid "7" (new_map [(nu "8", nu "9")]), nid "10" (new_map [(nu "11", nu "12")]))]).
(** nav/navigator.rs 383-413 *)
Example uv58 : nav_ids (nid "0" (VTuple [nid "1" (VTuple [nu "2"]); nu "3"; nid "4" (VTuple [nu "5"])])) = LRet six.
Proof. vm_compute. reflexivity. Qed.
(** nav/navigator.rs 415-454 *)
Example uv59 : nav_ids (nid "0" (nc [("a", nid "1" (nc [("a", nu "2")])); ("b", nu "3"); ("c", nid "4" (nc [("a", nu "5")]))]%string)) = LRet six.
Proof. vm_compute. reflexivity. Qed.
(** nav/navigator.rs 456-486 *)
Example uv60 : nav_ids (nid "0" (VSeq [nid "1" (VSeq [nu "2"]); nu "3"; nid "4" (VSeq [nu "5"])])) = LRet six.
Proof. vm_compute. reflexivity. Qed.
(** nav/navigator.rs 488-544 *)
Example uv61 : (dl nv <- nav_new nav_map ; LRet (match nav_root nv with Some r => map (fun x => kid (n_kserd x)) (key_children nv r) | None => [] end, nav_len nv)) = LRet (map (fun x => Some (s x)) ["1"; "5"; "7"]%string, 13%nat).
Proof. vm_compute. reflexivity. Qed.
(** nav/navigator.rs 546-553 *)
Example uv62 : nav_ids nav_map = LRet (map (fun x => Some (s x)) ["0"; "1"; "2"; "3"; "4"; "5"; "6"; "7"; "8"; "9"; "10"; "11"; "12"]%string).
Proof. vm_compute. reflexivity. Qed.
(** to_kserd.rs 209-217 *)
Example uv63 : map into_kserd [RInt Ti32 123456; RInt Ti32 (-1234567); RF64 (f "3.14"); RUnit; RBool true] = [inr (num 123456); inr (num (-1234567)); inr (FmtVectors.fl "3.14"); inr new_unit; inr (new_bool true)].
Proof. vm_compute. reflexivity. Qed.
Example uv64 : match into_kserd (RChar 121) with inr k => k_eqb k (st "y") | inl _ => false end = true.
Proof. vm_compute. reflexivity. Qed.
(** to_kserd.rs 298-309 *)
Example uv65 : match into_kserd (RArray [RInt Tu8 1; RInt Tu8 2]), into_kserd (RVec [RInt Tu8 1; RInt Tu8 2]) with inr a, inr b => k_eqb a b | _, _ => false end = true.
Proof. vm_compute. reflexivity. Qed.
(** to_kserd.rs 405-428 *)
Example uv66 : map (fun v => match into_kserd v with inr k => k_eqb k (st "Hello, world!") | inl _ => false end) [RBox (RString (s "Hello, world!")); RSome (RString (s "Hello, world!"))] = [true; true].
Proof. vm_compute. reflexivity. Qed.
Example uv67 : map (fun v => match into_kserd v with inr k => k_eqb k (tup [st "I am okay!"]) | inl _ => false end) [ROk (RString (s "I am okay!")); RErr (RString (s "I am okay!"))] = [true; true].
Proof. vm_compute. reflexivity. Qed.
