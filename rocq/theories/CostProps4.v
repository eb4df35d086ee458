(** How much work the parser does: an accepted document which takes much. *)
From Verif Require Import Base F64 Number BTree Value Nom Parse ParseErr ParseSpec ParseProps ParseCost CostSpec CostProps CostProps2 CostProps3.
Open Scope nat_scope.

Definition nl : str := [10%N].
Definition tail (n : nat) : str := opened n (s ";""").
Definition third (n : nat) : str := s "b = ""]," ++ tail n.
Definition second (n : nat) : str := s "[str]" ++ nl ++ third n.
Definition crafted (n : nat) : str := s "[[a]]" ++ nl ++ second n.

Lemma tail_till n : take_while (fun c => negb (34 =? c)%N) (s "]," ++ tail n) = (s "]," ++ opened n (s ";"), [34%N]).
Proof.
  assert (E : take_while (fun c => negb (34 =? c)%N) (tail n) = (opened n (s ";"), [34%N])).
  { induction n as [|n IH]; [reflexivity|]. change (tail (S n)) with (ch "{" :: tail n). cbn [take_while]. change (negb (34 =? ch "{")%N) with true. cbn iota. rewrite IH. reflexivity. }
  cbn [app take_while]. change (s "]," ++ tail n) with (ch "]" :: ch "," :: tail n). cbn [take_while]. change (negb (34 =? ch "]")%N) with true. change (negb (34 =? ch ",")%N) with true. cbn iota. rewrite E. reflexivity.
Qed.
Lemma third_string fuel b n : kserd_delimited (S fuel) b (s """]," ++ tail n) = POk [] (knew (VStr (s "]," ++ opened n (s ";")))).
Proof.
  assert (P : prim (s """]," ++ tail n) = POk [] (knew (VStr (s "]," ++ opened n (s ";"))))).
  { change (s """]," ++ tail n) with (34%N :: s "]," ++ tail n). unfold prim, context, separated_pair.
    change (opt (ident true) (34%N :: s "]," ++ tail n)) with (POk (34%N :: s "]," ++ tail n) (@None str)). cbn [pbind].
    change (inline_whitespace (34%N :: s "]," ++ tail n)) with (POk (34%N :: s "]," ++ tail n) (@nil char)). cbn [pbind].
    unfold prim_value, context, alt5, pmap.
    change (unit_value (34%N :: s "]," ++ tail n)) with (@PErr unit [(34%N :: s "]," ++ tail n, EChar (ch "(")); (34%N :: s "]," ++ tail n, EContext (s "unit value"))]).
    cbn [pbind].
    change (boolean (34%N :: s "]," ++ tail n)) with (@PErr bool [(34%N :: s "]," ++ tail n, ENom NkTag); (34%N :: s "]," ++ tail n, ENom NkAlt); (34%N :: s "]," ++ tail n, EContext (s "boolean"))]).
    cbn [pbind].
    change (num (34%N :: s "]," ++ tail n)) with (@PErr number [(34%N :: s "]," ++ tail n, ENom NkFail); (34%N :: s "]," ++ tail n, EContext (s "number"))]).
    cbn [pbind]. unfold pstring. change (starts_with (s "str") (34%N :: s "]," ++ tail n)) with false. cbn iota. unfold context, parse_str, preceded.
    change (pchar 34%N (34%N :: s "]," ++ tail n)) with (POk (s "]," ++ tail n) 34%N). cbn [pbind]. unfold cut, terminated, ptake_till, ptake_while. rewrite tail_till. reflexivity. }
  cbn [kserd_delimited]. exact P.
Qed.
(** the attempt to read a key *)
Definition word : kserd := knew (VStr (nl ++ s "b = """)).
Lemma first_element fuel n : kserd_delimited (S fuel) true (s "str]" ++ nl ++ third n) = POk (s "," ++ tail n) word.
Proof. reflexivity. Qed.
Lemma first_reading fuel n : readings (S fuel) true (s "str]" ++ nl ++ third n) = 1.
Proof. reflexivity. Qed.
Lemma second_key fuel n : n < fuel ->
  (exists e, kserd_delimited (S fuel) true (second n) = PFail e) /\ 2 ^ S n <= readings (S fuel) true (second n).
Proof.
  intros L. destruct fuel as [|fuel]; [lia|]. destruct (open_braces (S fuel) (s ";""") eq_refl n true L) as [[e E] R]. fold (tail n) in E, R.
  assert (Es : ignore_ws (pchar (ch ",")) (s "," ++ tail n) = POk (tail n) (ch ",")) by reflexivity.
  assert (Ew : ignore_ws (kserd_delimited (S fuel) true) (tail n) = PErr e) by (unfold tail; rewrite open_ws by exact eq_refl; exact E).
  assert (Ln : Nat.eqb (length (tail n)) (length (s "," ++ tail n)) = false) by (apply Nat.eqb_neq; cbn; lia).
  change (kserd_delimited (S (S fuel)) true (second n)) with (seq_delimited (kserd_delimited (S fuel) true) (kserd_delimited (S fuel) false) true (second n)).
  change (readings (S (S fuel)) true (second n)) with (S (r_seq (kserd_delimited (S fuel) true) (kserd_delimited (S fuel) false) (readings (S fuel) true) (readings (S fuel) false) true (second n))).
  unfold seq_delimited, r_seq. change (opt (ident false) (second n)) with (POk (second n) (@None str)). cbn [pbind r_then Nat.add].
  change (ignore_ws (pchar (ch "[")) (second n)) with (POk (s "str]" ++ nl ++ third n) (ch "[")). cbn [pbind r_then Nat.add].
  change (recognise_concise (s "str]" ++ nl ++ third n)) with false. cbn [andb negb]. unfold inline_list_kserds, r_inline_list.
  change (ignore_ws (kserd_delimited (S fuel) true)) with (fun i => ignore_ws (kserd_delimited (S fuel) true) i). split.
  - unfold context, cut, terminated, separated_list0.
    change (ignore_ws (kserd_delimited (S fuel) true) (s "str]" ++ nl ++ third n)) with (kserd_delimited (S fuel) true (s "str]" ++ nl ++ third n)). rewrite first_element. cbn [sep_loop]. rewrite Es, Ln, Ew. cbn [pbind].
    change (ignore_ws (pchar (ch "]")) (s "," ++ tail n)) with (@PErr char [(s "," ++ tail n, EChar (ch "]"))]). cbn [pbind]. eauto.
  - unfold r_separated_list0, r_then.
    change (ignore_ws (kserd_delimited (S fuel) true) (s "str]" ++ nl ++ third n)) with (kserd_delimited (S fuel) true (s "str]" ++ nl ++ third n)). rewrite first_element. cbn [r_sep_loop]. rewrite Es, Ln.
    assert (Rw : r_ignore_ws (readings (S fuel) true) (tail n) = 2 ^ S n - 1) by (unfold tail; rewrite open_r_ws by exact eq_refl; exact R). rewrite Rw.
    pose proof (Nat.pow_nonzero 2 (S n) ltac:(lia)). lia.
Qed.
Lemma crafted_length n : length (crafted n) = 21 + n.
Proof.
  unfold crafted, second, third, tail, opened. rewrite !app_length, repeat_length. cbn. lia.
Qed.
Lemma first_field inl con rinl rcon rn n : rinl (second n) <= r_verbose_cntr_field inl con rinl rcon rn 0 (crafted n).
Proof.
  change (r_verbose_cntr_field inl con rinl rcon rn 0 (crafted n)) with
    (r_then (rinl (second n)) (opt (terminated (ignore_ws (uncut inl)) (ignore_ws (pchar (ch ":")))) (second n)) (fun i key =>
          match key with
          | Some _ => r_alt2 (r_ignore_ws rcon) (fun i => r_then 0 (ignore_ws line_ending i) (fun i _ => rn i)) (ignore_ws con) i
          | None => rn i
          end)).
  unfold r_then at 1. lia.
Qed.
Lemma crafted_costs n : 2 ^ S n <= parse_readings (crafted n).
Proof.
  change (parse_readings (crafted n)) with (r_nested (S (length (crafted n))) (S (length (crafted n))) 0 (crafted n)). pose proof (crafted_length n) as F. set (f := length (crafted n)) in *.
  clearbody f. cbn [r_nested].
  change (pattern_match_verbose (crafted n)) with (POk (crafted n) true). cbn [r_then Nat.add r_many0_loop].
  match goal with |- _ <= r_verbose_cntr_field ?a ?b ?c ?d ?e 0 (crafted n) + _ => pose proof (first_field a b c d e n) as H end.
  destruct (second_key f n ltac:(lia)) as [_ K]. lia.
Qed.
(** and is accepted *)
Definition inner (n : nat) : kserd := knew (VStr (s "]," ++ opened n (s ";"))).
Definition crafted_value (n : nat) : kserd :=
  knew (VCntr [(s "a", knew (VSeq [knew (VCntr [])])); (s "b", inner n); (s "str", knew (VCntr []))]).
Section Fields.
  Variables (n f : nat).
  Hypothesis F : f = 21 + n.
  Let field := verbose_cntr_field (kserd_inline (S f)) (kserd_concise (S f)) (kserd_nested f (S f) 1) 0.
  Lemma none_nested i : pattern_match_verbose i = POk i true -> skip_lines (S (length i)) i = POk i tt -> (exists e, expect_indents 1 i = PErr e) -> forall g d, kserd_nested (S g) d 1 i = POk i (knew (VCntr [])).
  Proof.
    intros H S [e E] g d. cbn [kserd_nested]. rewrite H. cbn [pbind]. unfold cntr_verbose, many0. cbn [many0_loop]. unfold verbose_cntr_field at 1. rewrite S. cbn [pbind]. rewrite E. cbn [pbind]. reflexivity.
  Qed.
  Lemma field1 : field (crafted n) = POk (second n) (CfSeq None (s "a") (knew (VCntr []))).
  Proof.
    unfold field. destruct (second_key f n ltac:(lia)) as [[e E] _].
    change (verbose_cntr_field (kserd_inline (S f)) (kserd_concise (S f)) (kserd_nested f (S f) 1) 0 (crafted n)) with
      (let? (i, key) := opt (terminated (ignore_ws (uncut (kserd_inline (S f)))) (ignore_ws (pchar (ch ":")))) (second n) in
        match key with
        | Some key =>
            let? (i, v) := context (s "verbose map entry")
                             (alt2 (ignore_ws (kserd_concise (S f))) (preceded (ignore_ws line_ending) (kserd_nested f (S f) 1))) i in
            POk i (CfMap None (s "a") key v)
        | None =>
            let? (i, v) := context (s "verbose sequence entry") (kserd_nested f (S f) 1) i in
            POk i (CfSeq None (s "a") v)
        end).
    assert (K : opt (terminated (ignore_ws (uncut (kserd_inline (S f)))) (ignore_ws (pchar (ch ":")))) (second n) = POk (second n) None).
    { unfold opt, terminated. change (ignore_ws (uncut (kserd_inline (S f))) (second n)) with (uncut (kserd_inline (S f)) (second n)). unfold uncut, kserd_inline. rewrite E. reflexivity. }
    rewrite K. cbn [pbind]. unfold context. destruct f as [|g]; [discriminate F|].
    rewrite none_nested; [reflexivity|reflexivity|reflexivity|eexists; reflexivity].
  Qed.
  Lemma field2 : field (second n) = POk (third n) (CfNested (s "str") (knew (VCntr []))).
  Proof.
    unfold field.
    change (verbose_cntr_field (kserd_inline (S f)) (kserd_concise (S f)) (kserd_nested f (S f) 1) 0 (second n)) with
      (let? (i, v) := context (s "nested container") (kserd_nested f (S f) 1) (third n) in POk i (CfNested (s "str") (Kserd (match kid v with Some x => Some x | None => None end) (kval v)))).
    unfold context. destruct f as [|g]; [discriminate F|].
    rewrite none_nested; [reflexivity|reflexivity|reflexivity|eexists; reflexivity].
  Qed.
  Lemma field3 : field (third n) = POk [] (CfDirect (s "b") (inner n)).
  Proof.
    unfold field.
    change (verbose_cntr_field (kserd_inline (S f)) (kserd_concise (S f)) (kserd_nested f (S f) 1) 0 (third n)) with
      (let? (i, x) := cut (context (s "name-kserd key value pair") (fun _ => let? (i, c) := cut (kserd_delimited (S f) false) (s """]," ++ tail n) in POk i (s "b", c))) (third n) in let (fname, v) := x in POk i (CfDirect fname v)).
    unfold cut, context. rewrite third_string. reflexivity.
  Qed.
End Fields.
Lemma crafted_parse n : parse (crafted n) = ParseOk (crafted_value n).
Proof.
  unfold parse. change (kserd_root (crafted n)) with (all_consuming (terminated (kserd_nested (S (length (crafted n))) (S (length (crafted n))) 0) multiline_whitespace) (crafted n)).
  pose proof (crafted_length n) as F. set (f := length (crafted n)) in *.
  unfold all_consuming, terminated. cbn [kserd_nested]. change (pattern_match_verbose (crafted n)) with (POk (crafted n) true). cbn [pbind].
  unfold cntr_verbose, many0. fold f. 
  assert (E4 : exists e, verbose_cntr_field (kserd_inline (S f)) (kserd_concise (S f)) (kserd_nested f (S f) 1) 0 [] = PErr e) by (eexists; reflexivity). destruct E4 as [e E4].
  assert (L1 : Nat.eqb (length (second n)) f = false) by (apply Nat.eqb_neq; unfold f, crafted; rewrite !app_length; cbn; lia).
  assert (L2 : Nat.eqb (length (third n)) (length (second n)) = false) by (apply Nat.eqb_neq; unfold second; rewrite !app_length; cbn; lia).
  replace (S f) with (S (S (S (S (18 + n))))) at 1 by lia. cbn [many0_loop].
  rewrite (field1 n f F). fold f. rewrite L1. rewrite (field2 n f F). rewrite L2. rewrite (field3 n f). change (Nat.eqb (length (@nil char)) (length (third n))) with false. cbn iota. rewrite E4. cbn [pbind]. reflexivity.
Qed.
