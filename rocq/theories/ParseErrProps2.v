(** The order of the traces of an error, and the outermost one. *)
From Verif Require Import Base BaseProps BTree Value ValueSpec Nom Parse ParseErr ParseSpec ParseProps ParseErrProps.
Open Scope nat_scope.

(** ** places *)
Lemma app_cases {A} (a b : list A) : forall x y, a ++ x = b ++ y -> (exists z, a = b ++ z /\ y = z ++ x) \/ (exists z, z <> [] /\ b = a ++ z /\ x = z ++ y).
Proof.
  revert b. induction a as [|c a IH]; intros b x y E.
  - destruct b as [|d b]; [left; exists []; auto|]. right. exists (d :: b). split; [discriminate|]. auto.
  - destruct b as [|d b]; [left; exists (c :: a); auto|]. cbn [app] in E. injection E as -> E.
    destruct (IH b x y E) as [(z & -> & ->)|(z & N & -> & ->)]; [left; now exists z|right; now exists z].
Qed.
Lemma bytes_app a b : bytes (a ++ b) = bytes a + bytes b.
Proof. rewrite !bytes_len. apply byte_len_app. Qed.
Lemma lf_last (a z : str) : (a ++ z = [] \/ exists b, a ++ z = b ++ [10%N]) -> z <> [] -> exists y, z = y ++ [10%N].
Proof.
  intros [H|[b H]] N; [destruct a, z; easy|]. destruct (exists_last N) as (y & c & ->). exists y. rewrite app_assoc in H. apply app_inj_tail in H as [_ ->]. reflexivity.
Qed.
Lemma located_order src p p' z l c x l' c' x' : located src p l c x -> located src p' l' c' x' -> p = p' ++ z -> l' < l \/ (l' = l /\ c' <= c).
Proof.
  intros (bf & li & af & q & L & _ & -> & -> & -> & IN) (bf' & li' & af' & q' & L' & _ & -> & -> & -> & IN') E.
  destruct L as (L1 & L2 & L3 & L4 & L5). destruct L' as (L1' & L2' & L3' & L4' & L5').
  rewrite <- app_assoc in E. destruct (app_cases _ _ _ _ E) as [(w & -> & W)|(w & N & -> & W)].
  - destruct (list_eq_dec N.eq_dec w []) as [->|N].
    + right. rewrite app_nil_r. cbn [app] in W. split; [reflexivity|]. rewrite <- W, bytes_app. lia.
    + left. destruct (lf_last _ _ L2 N) as (y & ->). rewrite !count_app. change (length (filter (N.eqb 10) [10%N])) with 1. lia.
  - exfalso. destruct (lf_last _ _ L2' N) as (y & ->).
    destruct IN as [[q2 ->]|[P ->]].
    + apply L3. subst q. rewrite !in_app_iff. cbn. auto.
    + rewrite L1 in P. rewrite L1 in L1'. apply app_inv_head in P. rewrite <- app_assoc in L1'. apply app_inv_head in L1'.
      rewrite <- app_assoc in L1'. change (li ++ [10%N] = y ++ ([10%N] ++ li' ++ af')) in L1'. cbn [app] in L1'.
      destruct (app_cases _ _ _ _ L1') as [(v & -> & V)|(v & NV & -> & V)].
      * destruct v as [|v0 v]; cbn [app] in V.
        -- injection V as V. now apply L5'.
        -- injection V as <- V. apply L3. rewrite in_app_iff. cbn. auto.
      * destruct v as [|v0 v]; [easy|]. cbn [app] in V. injection V as <- V. destruct v; discriminate V.
Qed.
Lemma ord_nth {A} (R : A -> A -> Prop) l : ForallOrdPairs R l -> forall i j x y, i < j -> nth_error l i = Some x -> nth_error l j = Some y -> R x y.
Proof.
  induction 1 as [|a l F O IH]; intros i j x y L X Y; [destruct i; discriminate|].
  destruct j as [|j]; [lia|]. cbn [nth_error] in Y. destruct i as [|i]; cbn [nth_error] in X.
  - injection X as <-. rewrite Forall_forall in F. apply F. now apply nth_error_In in Y.
  - apply (IH i j); auto. lia.
Qed.
Lemma error_order src e i j t t' : parse src = ParseErr e -> i < j -> e_get e i = Ret (Some t) -> e_get e j = Ret (Some t') ->
  t_line t' < t_line t \/ (t_line t' = t_line t /\ t_col t' <= t_col t).
Proof.
  intros P L G G'.
  assert (Hj : j < e_len e). { destruct (Nat.lt_ge_cases j (e_len e)) as [H|H]; [exact H|]. rewrite (e_get_none _ _ H) in G'. discriminate. }
  destruct (e_get_spec src e i P) as (p & q & k & t0 & S & NE & E & D); [lia|].
  destruct (e_get_spec src e j P Hj) as (p' & q' & k' & t0' & S' & NE' & E' & D').
  rewrite G in E. injection E as <-. rewrite G' in E'. injection E' as <-.
  destruct (parse_err_inv src e P) as (pe & (_ & _ & O) & ->). cbn [error_new errs] in NE, NE'. rewrite nth_error_map in NE, NE'.
  destruct (nth_error pe i) as [[u k0]|] eqn:U; [|discriminate]. destruct (nth_error pe j) as [[u' k0']|] eqn:U'; [|discriminate].
  destruct (ord_nth _ _ O i j _ _ L U U') as [w W]. cbn [fst] in W. subst u'.
  cbn [option_map fst snd] in NE, NE'. injection NE as NE _. injection NE' as NE' _. unfold offset in NE, NE'. rewrite bytes_len in NE, NE'. rewrite byte_len_app in NE'.
  assert (B : byte_len p' <= byte_len p) by lia.
  destruct (prefix_le p' p q' q) as [z Hz]; [congruence|exact B|].
  destruct src as [|c src].
  - destruct D as (A & B1 & _), D' as (A' & B' & _). lia.
  - destruct D as [D _], D' as [D' _]. eapply located_order; eassumption.
Qed.

(** ** the outermost trace *)
Definition outer {A} (c : char) (t : str) (r : pres A) : Prop :=
  match r with PErr e | PFail e => exists e' x, e = e' ++ [(t, EContext x)] /\ In x (enclosing c) | _ => True end.
Lemma outer_context {A} c t x (p : parser A) : In x (enclosing c) -> outer c t (context x p t).
Proof. intros H. unfold context. destruct (p t); cbn; eauto. Qed.
Lemma outer_ctor {A} c t (r : pres A) (f : A -> value kserd) : outer c t r -> outer c t (pbind r (fun i a => kserd_ctor None (f a) i)).
Proof. destruct r; cbn; auto. Qed.
Section Outer.
  Variables (inl con : parser kserd) (t : str).
  Lemma outer_map b : outer (ch "{") t (map_delimited inl con b (ch "{" :: t)).
  Proof. unfold map_delimited. change (opt (ident false) (ch "{" :: t)) with (POk (ch "{" :: t) (@None str)). cbn [pbind].
    change (ignore_ws (pchar (ch "{")) (ch "{" :: t)) with (POk t (ch "{")). cbn [pbind]. cbv zeta.
    apply (outer_ctor _ _ _ (fun l => VMap (map_of l))), outer_context. destruct (_ && _); [left|right; left]; reflexivity. Qed.
  Lemma outer_cntr b : outer (ch "(") t (cntr_delimited inl con b (ch "(" :: t)).
  Proof. unfold cntr_delimited. change (opt (ident false) (ch "(" :: t)) with (POk (ch "(" :: t) (@None str)). cbn [pbind].
    change (ignore_ws (pchar (ch "(")) (ch "(" :: t)) with (POk t (ch "(")). cbn [pbind]. cbv zeta.
    apply (outer_ctor _ _ _ (fun l => VCntr (fields_of l))), outer_context. destruct (_ && _); [right; right; left|right; right; right; left]; reflexivity. Qed.
  Lemma outer_tuple b : outer (ch "(") t (tuple inl con b (ch "(" :: t)).
  Proof. unfold tuple. change (opt (ident false) (ch "(" :: t)) with (POk (ch "(" :: t) (@None str)). cbn [pbind].
    change (ignore_ws (pchar (ch "(")) (ch "(" :: t)) with (POk t (ch "(")). cbn [pbind]. cbv zeta.
    apply (outer_ctor _ _ _ VTuple), outer_context. destruct (_ && _); [left|right; left]; reflexivity. Qed.
  Lemma outer_unit : is_ok (unit_value (ch "(" :: t)) = true -> outer (ch "(") t (prim (ch "(" :: t)).
  Proof.
    intros H. unfold prim, context, separated_pair.
    change (opt (ident true) (ch "(" :: t)) with (POk (ch "(" :: t) (@None str)). cbn [pbind].
    change (inline_whitespace (ch "(" :: t)) with (POk (ch "(" :: t) (@nil char)). cbn [pbind].
    unfold prim_value, context, alt5, alt2, pmap. destruct (unit_value (ch "(" :: t)); try discriminate H. exact I.
  Qed.
  Lemma outer_body c b : c = ch "(" \/ c = ch "{" -> outer c t (delimited_body inl con b (c :: t)).
  Proof.
    intros H. unfold delimited_body, pattern_match_delimited. destruct H as [-> | ->].
    - change (starts_with (s "true") (ch "(" :: t) || starts_with (s "false") (ch "(" :: t)) with false. cbv iota.
      change (opt (ident true) (ch "(" :: t)) with (POk (ch "(" :: t) (@None str)). change (opt (ident false) (ch "(" :: t)) with (POk (ch "(" :: t) (@None str)).
      cbn [pbind]. change (multiline_whitespace (ch "(" :: t)) with (POk (ch "(" :: t) (@nil char)). cbn [pbind]. cbv zeta. cbn [hd tl].
      change (ch "(" =? ch "[")%N with false. change (ch "(" =? ch "{")%N with false. change (ch "(" =? ch "(")%N with true. cbv iota.
      destruct (is_ok (unit_value (ch "(" :: t))) eqn:U; cbn [pbind]; [now apply outer_unit|].
      unfold multiline_whitespace, ptake_while. destruct (take_while is_wsp t) as [a r]. cbn [pbind].
      destruct (recognise_field_assign r); cbn [pbind]; [apply outer_cntr|apply outer_tuple].
    - change (starts_with (s "true") (ch "{" :: t) || starts_with (s "false") (ch "{" :: t)) with false. cbv iota.
      change (opt (ident true) (ch "{" :: t)) with (POk (ch "{" :: t) (@None str)). change (opt (ident false) (ch "{" :: t)) with (POk (ch "{" :: t) (@None str)).
      cbn [pbind]. change (multiline_whitespace (ch "{" :: t)) with (POk (ch "{" :: t) (@nil char)). cbn [pbind]. cbv zeta. cbn [hd tl].
      change (ch "{" =? ch "[")%N with false. change (ch "{" =? ch "{")%N with true. cbv iota. cbn [pbind]. apply outer_map.
  Qed.
End Outer.
Lemma outer_root c t : c = ch "(" \/ c = ch "{" ->
  match kserd_root (c :: t) with
  | PErr e | PFail e => (exists r, e = [(r, ENom NkEof)]) \/ exists e' x, e = e' ++ [(t, EContext x)] /\ In x (enclosing c)
  | _ => True
  end.
Proof.
  intros H. unfold kserd_root, all_consuming, terminated. set (n := S (length (c :: t))). generalize n at 2. subst n. intros d.
  assert (V : pattern_match_verbose (c :: t) = POk (c :: t) false) by (destruct H as [-> | ->]; reflexivity).
  cbn [kserd_nested]. rewrite V. cbn [pbind].
  assert (W : ignore_ws (kserd_concise d) (c :: t) = kserd_concise d (c :: t)) by (destruct H as [-> | ->]; reflexivity). rewrite W.
  assert (O : outer c t (kserd_concise d (c :: t))).
  { unfold kserd_concise. destruct d as [|d]; [exact I|]. cbn [kserd_delimited]. now apply outer_body. }
  destruct (kserd_concise d (c :: t)) as [r k|e|e| |]; cbn [pbind outer] in *; auto.
  unfold multiline_whitespace, ptake_while. destruct (take_while is_wsp r) as [a r']. cbn [pbind]. destruct r'; [exact I|]. left. eauto.
Qed.
Lemma outermost c t e : c = ch "(" \/ c = ch "{" -> parse (c :: t) = ParseErr e ->
  (exists p tr, e_len e = 1 /\ e_get e 0 = Ret (Some tr) /\ describes (c :: t) p (ENom NkEof) tr) \/
  (exists x tr, In x (enclosing c) /\ e_get e (e_len e - 1) = Ret (Some tr) /\ t_msg tr = s "in " ++ x /\
    located (c :: t) [c] (t_line tr) (t_col tr) (t_linestr tr)).
Proof.
  intros H P. pose proof (outer_root c t H) as O. pose proof P as P0. unfold parse in P.
  assert (X : exists pe, e = error_new (c :: t) pe /\ ((exists r, pe = [(r, ENom NkEof)]) \/ exists e' x, pe = e' ++ [(t, EContext x)] /\ In x (enclosing c))).
  { destruct (kserd_root (c :: t)); try discriminate P; injection P as <-; eauto. }
  destruct X as (pe & E & [(r & ->)|(e' & x & -> & Hx)]).
  - left. assert (L : e_len e = 1) by (rewrite E; reflexivity).
    destruct (e_get_spec (c :: t) e 0 P0) as (p & q & k & tr & _ & NE & G & D); [lia|]. exists p, tr. split; [exact L|]. split; [exact G|].
    rewrite E in NE. cbn [error_new errs map nth_error snd] in NE. injection NE as _ <-. exact D.
  - right. assert (L : e_len e = S (length e')).
    { rewrite E. unfold e_len. cbn [error_new errs]. rewrite map_length, app_length. cbn [length]. lia. }
    destruct (e_get_spec (c :: t) e (length e') P0) as (p & q & k & tr & S & NE & G & D); [lia|]. exists x, tr. split; [exact Hx|].
    replace (e_len e - 1) with (length e') by lia. split; [exact G|].
    rewrite E in NE. cbn [error_new errs] in NE. rewrite nth_error_map, nth_error_app2, Nat.sub_diag in NE by lia.
    cbn [nth_error option_map fst snd] in NE. injection NE as NE <-. cbn [describes] in D. destruct D as [D (y & _ & M)]. split; [exact M|].
    replace p with [c] in D; [exact D|]. unfold offset in NE. rewrite bytes_len in NE. change (c :: t) with ([c] ++ t) in NE, S. rewrite byte_len_app in NE.
    destruct (prefix_le [c] p t q S) as [w W]; [lia|]. subst p. rewrite byte_len_app in NE. assert (byte_len w = 0) by lia.
    destruct w as [|w0 w]; [now rewrite app_nil_r|]. exfalso. cbn [byte_len fold_right] in H0.
    pose proof (utf8_len_pos w0). lia.
Qed.
