(** Ends of lines: the parsers of the format. *)
From Verif Require Import Base BaseProps F64 Number BTree BTreeProps Value ValueSpec ValueProps ValueProps2 Base91 Nom Parse ParseErr ParseSpec ParseProps ParseErrProps MapOrder EolSpec EolProps2 TrailSpec TrailProps TrailProps2.
Open Scope N_scope.

Local Notation same_keys R := (Forall2 (fun e f => fst e = fst f /\ R (snd e) (snd f))).
Ltac pl := solve [repeat split; discriminate].
Ltac bl := solve [repeat split; reflexivity].
Lemma lock_inline_ws z : lock z (fun _ _ => True) inline_whitespace inline_whitespace.
Proof.
  intros i i' [E N]. unfold inline_whitespace, ptake_while. destruct (skip_trail i i' E) as (a & b & a' & b' & -> & -> & -> & -> & E4 & _).
  split; [split; [now exists a|first [now exists a'|now exists a]]|auto].
Qed.
Lemma blind_wsp : blind is_wsp.
Proof. bl. Qed.
Lemma moves_multi : moves multiline_whitespace multiline_whitespace.
Proof. apply moves_take_while, blind_wsp. Qed.
Lemma lock_multi_ws z : lock z (fun _ _ => True) multiline_whitespace multiline_whitespace.
Proof. eapply lock_weak; [|apply lock_take_while, blind_wsp]. auto. Qed.
Lemma lock_ignore_ws {A B} z (R : A -> B -> Prop) p p' : lock z R p p' -> lock z R (ignore_ws p) (ignore_ws p').
Proof. intros H i i' I. unfold ignore_ws. eapply lk_bind'; [exact I|apply (lock_opt z _ _ _ (lock_inline_ws z)), I|]. intros. now apply H. Qed.

Lemma lock_valid_name z : lock z eq valid_name valid_name.
Proof.
  intros i i' I. unfold valid_name. eapply lk_bind; [exact I|apply (lock_alt2 z eq); [apply lock_alpha1|apply lock_tag; reflexivity|exact I]|].
  intros. apply (lock_context z); [|exact I]. apply lock_cut. apply lock_take_while1; [bl|reflexivity].
Qed.
Lemma lock_ident z b : lock z eq (ident b) (ident b).
Proof.
  unfold ident. destruct b; apply lock_context.
  - eapply lock_preceded; [apply lock_pchar; pl|]. apply lock_cut. eapply lock_terminated; [apply lock_valid_name|apply lock_pchar; pl].
  - apply lock_valid_name.
Qed.
Lemma lock_field_name z : lock z eq field_name field_name.
Proof. apply lock_take_while_eq; [bl|reflexivity]. Qed.

Lemma lock_unit z : lock z eq unit_value unit_value.
Proof.
  apply lock_context. eapply lock_pmap; [|reflexivity].
  eapply lock_preceded; [apply lock_pchar; pl|]. apply lock_cut. eapply lock_terminated; [apply lock_inline_ws|apply lock_pchar; pl].
Qed.
Lemma lock_boolean z : lock z eq boolean boolean.
Proof. apply lock_context, lock_alt2; (eapply lock_pmap; [now apply lock_tag|reflexivity]). Qed.
Lemma lock_num z : lock z eq num num.
Proof.
  apply lock_context. intros i i' [E N]. assert (BN : blind is_num_char) by bl. destruct (take_while_trail is_num_char i i' BN E) as (a & b & a' & b' & -> & -> & -> & -> & E3 & E4 & M).
  pose proof (trail_plain _ _ E3 (M eq_refl)) as ->. destruct (num_from_str a); [|easy]. split; [split; [now exists a|first [now exists a'|now exists a]]|auto].
Qed.
Lemma lock_parse_str z d : plain d -> lock z trail (parse_str d) (parse_str d).
Proof.
  intros P. unfold parse_str. eapply lock_preceded; [apply lock_pchar, P|]. apply lock_cut. eapply lock_terminated; [apply lock_take_till, P|apply lock_pchar, P].
Qed.
Lemma lock_pstring z : lock z trail pstring pstring.
Proof.
  intros i i' I. pose proof I as [E N]. unfold pstring. destruct (starts_trail (s "str") eq_refl i i' E) as [X Y]. rewrite <- X.
  destruct (starts_with (s "str") i) eqn:S.
  - destruct (Y eq_refl) as (A & B & C). pose proof (starts_step (s "str") i i' eq_refl E S) as ST. cbn [length s] in *.
    change (length (s "str")) with 3%nat in *.
    set (r := skipn 3 i) in *. set (r' := skipn 3 i') in *. assert (J : inp r r') by (eapply inp_step; eassumption). clearbody r r'.
    eapply lk_step; [exact ST|]. clear ST.
    destruct C as [|c t t' H C|w e t t' WB K C].
    + apply (lock_context z trail); [|exact J]. apply lock_parse_str. pl.
    + cbn [hd]. apply (lock_context z trail); [|exact J]. apply lock_parse_str. destruct (N [] c t A) as [N1 N2]. repeat split; assumption.
    + exfalso. destruct (N [] 10 t A) as [_ N2]. now apply N2.
  - apply (lock_context z trail); [|exact I]. apply lock_parse_str. pl.
Qed.
Lemma b91_trail t t' : trail t t' -> forall b n v, b91_decode_from b n v t' = b91_decode_from b n v t.
Proof.
  induction 1 as [|c t t' H E IH|w e t t' B K E IH]; intros b n v.
  - reflexivity.
  - cbn [b91_decode_from]. destruct (b91_index c); [|apply IH]. destruct v; [|apply IH]. cbv zeta. destruct (b91_drain _ _ _) as [out [b2 n2]]. now rewrite IH.
  - induction w as [|c w IHw]; cbn [app].
    + destruct K; subst e; cbn [app b91_decode_from]; change (b91_index 13) with (@None N); change (b91_index 10) with (@None N); cbv iota; apply IH.
    + cbn [forallb] in B. apply andb_true_iff in B as [B1 B2]. rewrite <- (IHw B2). cbn [b91_decode_from]. destruct (blank_is c B1); subst c; reflexivity.
Qed.
Lemma lock_barr z : lock z eq barr barr.
Proof.
  apply lock_context. eapply lock_preceded; [now apply lock_tag|]. apply lock_cut.
  eapply lock_terminated; [|apply lock_pchar; pl]. eapply lock_pmap; [apply lock_take_till; pl|].
  intros a b E. unfold b91_decode. symmetry. now apply b91_trail.
Qed.
Lemma lock_prim_value z : lock z rv prim_value prim_value.
Proof.
  apply lock_context, lock_alt5; (eapply lock_pmap; [first [apply lock_unit|apply lock_boolean|apply lock_num|apply lock_pstring|apply lock_barr]|]).
  1-3,5: intros a b ->; now apply rv_atom.
  intros a b. apply rv_str.
Qed.
Lemma lk_ctor z id v v' i i' : inp i i' -> rv v v' -> lk z i i' rk (kserd_ctor id v i) (kserd_ctor id v' i').
Proof.
  intros I V. unfold kserd_ctor, knew. destruct id as [id|]; [|apply lk_ok; [exact I|apply V]].
  unfold with_id. destruct (existsb _ id); [easy|]. apply lk_ok; [exact I|apply V].
Qed.
Lemma opt_eq {A} (a b : option A) : opt_rel eq a b -> a = b.
Proof. destruct a, b; cbn; intros; subst; try easy. Qed.
Lemma lock_opt_ident z b : lock z eq (opt (ident b)) (opt (ident b)).
Proof. eapply lock_weak; [|apply lock_opt, lock_ident]. intros a c. apply opt_eq. Qed.
Lemma lock_prim z : lock z rk prim prim.
Proof.
  intros i i' I. unfold prim.
  eapply lk_bind'; [exact I|apply (lock_context z); [eapply lock_pair; [apply lock_opt_ident|apply lock_inline_ws|apply lock_prim_value]|exact I]|].
  intros j j' [id v] [id' v'] J [E V]. cbn [fst snd] in *. subst id'. now apply lk_ctor.
Qed.

(** ** heuristics *)
Lemma concise_trail i i' : trail i i' -> recognise_concise i = recognise_concise i'.
Proof.
  unfold recognise_concise. induction 1 as [|c t t' H E IH|w e t t' B K E IH]; [reflexivity| |].
  - cbn [find]. destruct (negb (mem c [32; 9; 13])); [reflexivity|exact IH].
  - induction w as [|c w IHw]; cbn [app].
    + destruct K; subst e; reflexivity.
    + cbn [forallb] in B. apply andb_true_iff in B as [B1 B2]. rewrite (IHw B2). cbn [find]. destruct (blank_is c B1); subst c; reflexivity.
Qed.
Lemma assign_trail i i' : inp i i' -> recognise_field_assign i = recognise_field_assign i'.
Proof.
  intros [E _]. set (f := fun c => is_alnum c || negb (mem c assign_stop)).
  assert (R : forall i, recognise_field_assign i = match snd (take_while f i) with c :: _ => c =? ch "=" | [] => false end).
  { intros u. unfold recognise_field_assign, terminated, ptake_while. fold f. destruct (take_while f u) as [a [|c b]]; cbn [pbind snd]; [reflexivity|]. unfold pchar. now destruct (c =? ch "="). }
  rewrite !R. clear R. induction E as [|c t t' H E IH|w e t t' B K E _]; [reflexivity| |].
  - cbn [take_while]. destruct (f c); [|reflexivity]. destruct (take_while f t), (take_while f t'). exact IH.
  - assert (X : forall u, match snd (take_while f (w ++ e ++ u)) with c :: _ => c =? ch "=" | [] => false end = false).
    { intros u. induction w as [|c w IHw]; cbn [app].
      - destruct K; subst e; reflexivity.
      - cbn [forallb] in B. apply andb_true_iff in B as [B1 B2]. specialize (IHw B2). cbn [take_while].
        replace (f c) with true by (destruct (blank_is c B1); subst c; reflexivity). destruct (take_while f (w ++ e ++ u)). exact IHw. }
    rewrite X. reflexivity.
Qed.
Lemma hd_trail (d : N) c i i' : plain c -> trail i i' -> (@hd N d i =? c) = (@hd N d i' =? c).
Proof.
  intros (P & Q & X) E. destruct E as [|x t t' H E|w e t t' B K E]; cbn [hd]; try reflexivity. destruct (end_cons w e t' B K) as (x & u & -> & Y). cbn [hd].
  destruct (N.eqb_spec 10 c); [congruence|]. destruct (N.eqb_spec x c); [|reflexivity]. subst x. destruct Y as [Y|[Y|Y]]; congruence.
Qed.
Lemma tl_trail c i i' : plain c -> inp i i' -> (@hd N 32 i =? c) = true -> c <> 32 -> inp (tl i) (tl i') /\ step i i' (tl i) (tl i').
Proof.
  intros P I H D. pose proof I as [E N]. destruct i as [|x r]; cbn [hd] in H; apply N.eqb_eq in H; [congruence|]. subst x.
  destruct (trail_head _ _ _ E P) as (r' & -> & E'). cbn [tl]. assert (S : step (c :: r) (c :: r') r r') by apply step_one.
  split; [eapply inp_step; eassumption|exact S].
Qed.
Lemma lock_pattern z : lock z eq pattern_match_delimited pattern_match_delimited.
Proof.
  intros i i' I. pose proof I as [E N]. unfold pattern_match_delimited.
  rewrite <- (proj1 (starts_trail (s "true") eq_refl i i' E)), <- (proj1 (starts_trail (s "false") eq_refl i i' E)).
  destruct (_ || _); [now apply lk_ok|].
  eapply lk_bind; [exact I|apply lock_opt_ident, I|]. intros j j' id ? S J <-.
  eapply lk_bind with (R := eq); [exact I| |].
  { destruct id; [eapply lk_step; [exact S|now apply lk_ok]|]. eapply lk_bind; [exact I|apply lock_opt_ident, I|].
    intros j1 j1' [id|] ? S1 J1 <-; [eapply lk_step; [exact S1|now apply lk_ok]|now apply lk_ok]. }
  intros j1 j1' k ? S1 J1 <-.
  eapply lk_bind; [exact I|eapply lk_step; [exact S1|apply (lock_multi_ws z), J1]|]. intros j2 j2' ? ? S2 J2 _. cbv zeta.
  eapply lk_bind with (R := eq); [exact I| |intros; subst; now apply lk_ok].
  eapply lk_step; [exact S2|]. pose proof J2 as [E2 _].
  assert (P1 : plain (ch "[")) by pl. assert (P2 : plain (ch "{")) by pl. assert (P3 : plain (ch "(")) by pl.
  rewrite <- (hd_trail 32 _ j2 j2' P1 E2), <- (hd_trail 32 _ j2 j2' P2 E2), <- (hd_trail 32 _ j2 j2' P3 E2).
  destruct (hd 32 j2 =? ch "["); [now apply lk_ok|]. destruct (hd 32 j2 =? ch "{"); [now apply lk_ok|].
  destruct (hd 32 j2 =? ch "(") eqn:H; [|now apply lk_ok].
  rewrite <- (lk_is_ok _ _ _ _ _ (lock_unit false _ _ J2)). destruct (match k with IkNonprim => false | _ => _ end); [now apply lk_ok|].
  destruct (tl_trail (ch "(") j2 j2') as [TI TS]; [pl|exact J2|exact H|discriminate|].
  eapply lk_bind; [exact J2|eapply lk_step; [exact TS|apply (lock_multi_ws z), TI]|]. intros j3 j3' ? ? S3 J3 _.
  rewrite (assign_trail _ _ J3). destruct (recognise_field_assign j3'); now apply lk_ok.
Qed.
Lemma encased_trail a b i i' : plain_text a = true -> plain_text b = true -> inp i i' -> encased a b i = encased a b i'.
Proof.
  intros A B I. unfold encased. eapply lk_is_ok. eapply (lock_preceded false eq eq); [now apply lock_tag| |exact I].
  eapply lock_terminated; apply lock_ignore_ws; [apply lock_valid_name|now apply lock_tag].
Qed.
Lemma lock_pattern_verbose z : lock z eq pattern_match_verbose pattern_match_verbose.
Proof.
  intros i i' I. unfold pattern_match_verbose. eapply lk_bind; [exact I|apply (lock_multi_ws z), I|]. intros j j' ? ? S J _. pose proof J as [E _].
  rewrite <- (proj1 (starts_trail (s ":") eq_refl j j' E)), <- (proj1 (starts_trail (s "[[") eq_refl j j' E)).
  rewrite <- (assign_trail _ _ J), <- (encased_trail (s "[") (s "]") _ _ eq_refl eq_refl J). now apply lk_ok.
Qed.

(** ** delimited forms *)
Section Delimited.
  Variables inl inl' con con' : parser kserd.
  Hypothesis Hinl : lock true rk inl inl'.
  Hypothesis Hcon : lock true rk con con'.
  Lemma lock_comma : lock true eq (ignore_ws (pchar (ch ","))) (ignore_ws (pchar (ch ","))).
  Proof. apply lock_ignore_ws, lock_pchar. pl. Qed.
  Lemma slock_ws {A B} (R : A -> B -> Prop) p p' : slock R p p' -> slock R (ignore_ws p) (ignore_ws p').
  Proof. intros H i i' I. unfold ignore_ws. eapply slk_bind2; [exact I|apply (lock_opt true _ _ _ (lock_inline_ws true)), I|]. intros. now apply H. Qed.
  Lemma moves_comma : moves (ignore_ws (pchar (ch ","))) (ignore_ws (pchar (ch ","))).
  Proof. eapply slock_moves, slock_ws, slock_pchar. pl. Qed.
  Lemma lock_inline_list : lock true (Forall2 rk) (inline_list_kserds inl) (inline_list_kserds inl').
  Proof. apply lock_context. eapply lock_sep; [apply moves_comma|now apply lock_ignore_ws|apply lock_comma]. Qed.
  Lemma lock_concise_list : lock true (Forall2 rk) (concise_list_kserds con) (concise_list_kserds con').
  Proof.
    eapply lock_preceded; [apply lock_multi_ws|]. apply lock_cut. eapply lock_terminated; [|apply lock_multi_ws].
    eapply lock_sep; [apply moves_multi|exact Hcon|apply lock_multi_ws].
  Qed.
  Lemma lock_open c : plain c -> lock true eq (ignore_ws (pchar c)) (ignore_ws (pchar c)).
  Proof. intros. now apply lock_ignore_ws, lock_pchar. Qed.
  Lemma lock_tuple b : lock true rk (tuple inl con b) (tuple inl' con' b).
  Proof.
    intros i i' I. unfold tuple. eapply lk_bind'; [exact I|apply lock_opt_ident, I|]. intros j j' id ? J <-.
    eapply lk_bind'; [exact J|apply lock_open; [pl|exact J]|]. intros j1 j1' ? ? J1 _. cbv zeta. rewrite <- (concise_trail _ _ (proj1 J1)).
    eapply lk_bind' with (R := Forall2 rk); [exact J1| |intros; apply lk_ctor; [assumption|now apply rv_tuple]].
    apply lock_context; [|exact J1]. apply lock_cut. eapply lock_terminated; [|apply lock_open; pl].
    destruct (_ && _); [apply lock_concise_list|apply lock_inline_list].
  Qed.
  Lemma lock_seq b : lock true rk (seq_delimited inl con b) (seq_delimited inl' con' b).
  Proof.
    intros i i' I. unfold seq_delimited. eapply lk_bind'; [exact I|apply lock_opt_ident, I|]. intros j j' id ? J <-.
    eapply lk_bind'; [exact J|apply lock_open; [pl|exact J]|]. intros j1 j1' ? ? J1 _. cbv zeta. rewrite <- (concise_trail _ _ (proj1 J1)).
    eapply lk_bind' with (R := Forall2 rk); [exact J1| |intros; apply lk_ctor; [assumption|now apply rv_seq]].
    apply lock_context; [|exact J1]. apply lock_cut. eapply lock_terminated; [|apply lock_open; pl].
    destruct (_ && _); [apply lock_concise_list|apply lock_inline_list].
  Qed.
  Lemma lock_kvp_field b : lock true rf (kvp_field inl con b) (kvp_field inl' con' b).
  Proof.
    apply lock_context. eapply lock_weak; [|eapply lock_pair; [apply lock_field_name|apply lock_open; pl|]].
    { intros x y H. exact H. }
    apply lock_ignore_ws, lock_cut. destruct b; assumption.
  Qed.
  Lemma slock_kvp_field b : slock rf (kvp_field inl con b) (kvp_field inl' con' b).
  Proof.
    apply slock_context. apply (slock_pair eq eq rk); [apply lock_field_name|apply slock_ws, slock_pchar; pl|].
    apply lock_ignore_ws, lock_cut. destruct b; assumption.
  Qed.
  Lemma lock_cntr b : lock true rk (cntr_delimited inl con b) (cntr_delimited inl' con' b).
  Proof.
    intros i i' I. unfold cntr_delimited. eapply lk_bind'; [exact I|apply lock_opt_ident, I|]. intros j j' id ? J <-.
    eapply lk_bind'; [exact J|apply lock_open; [pl|exact J]|]. intros j1 j1' ? ? J1 _. cbv zeta. rewrite <- (concise_trail _ _ (proj1 J1)).
    eapply lk_bind' with (R := Forall2 rf); [exact J1| |intros; apply lk_ctor; [assumption|now apply rv_cntr, rf_fields]].
    apply lock_context; [|exact J1]. eapply lock_terminated; [|apply lock_open; pl].
    destruct (_ && _); apply lock_context.
    - eapply lock_preceded; [apply lock_multi_ws|]. apply lock_cut. eapply lock_terminated; [|apply lock_multi_ws].
      eapply lock_sep; [apply moves_multi|apply lock_kvp_field|apply lock_multi_ws].
    - eapply lock_sep; [apply moves_comma|apply lock_ignore_ws, lock_kvp_field|apply lock_comma].
  Qed.
  Lemma lock_kvp_kserd b : lock true re (kvp_kserd inl con b) (kvp_kserd inl' con' b).
  Proof.
    apply lock_context. eapply lock_weak; [|eapply lock_pair; [|apply lock_open; pl|]].
    { intros x y H. exact H. }
    - now apply lock_alt2.
    - apply lock_ignore_ws. destruct b; assumption.
  Qed.
  Lemma lock_map b : lock true rk (map_delimited inl con b) (map_delimited inl' con' b).
  Proof.
    intros i i' I. unfold map_delimited. eapply lk_bind'; [exact I|apply lock_opt_ident, I|]. intros j j' id ? J <-.
    eapply lk_bind'; [exact J|apply lock_open; [pl|exact J]|]. intros j1 j1' ? ? J1 _. cbv zeta. rewrite <- (concise_trail _ _ (proj1 J1)).
    eapply lk_bind' with (R := Forall2 re); [exact J1| |intros; apply lk_ctor; [assumption|now apply rv_map, rm_map_of]].
    apply lock_context; [|exact J1]. eapply lock_terminated; [|apply lock_open; pl].
    destruct (_ && _); apply lock_context.
    - eapply lock_preceded; [apply lock_multi_ws|]. eapply lock_terminated; [|apply lock_multi_ws].
      eapply lock_sep; [apply moves_multi|apply lock_kvp_kserd|apply lock_multi_ws].
    - eapply lock_sep; [apply moves_comma|apply lock_ignore_ws, lock_kvp_kserd|apply lock_comma].
  Qed.
  Lemma lock_body b : lock true rk (delimited_body inl con b) (delimited_body inl' con' b).
  Proof.
    intros i i' I. unfold delimited_body. eapply lk_bind'; [exact I|apply lock_pattern, I|]. intros j j' p ? J <-.
    destruct p; [now apply lock_tuple|now apply lock_cntr|now apply lock_seq|now apply lock_map|now apply lock_prim].
  Qed.
End Delimited.
Lemma lock_delimited n : forall n' b, lock true rk (kserd_delimited n b) (kserd_delimited n' b).
Proof.
  induction n as [|n IH]; intros n' b i i' I; [reflexivity|]. destruct n' as [|n']; [apply lk_fr|].
  cbn [kserd_delimited]. apply lock_body; [apply IH|apply IH|exact I].
Qed.

(** ** verbose containers *)
Lemma lock_skip_lines n : forall n' i i', inp i i' -> lk true i i' eq (skip_lines n i) (skip_lines n' i').
Proof.
  induction n as [|n IH]; intros n' i i' I; [reflexivity|]. destruct n' as [|n']; [apply lk_fr|].
  cbn [skip_lines]. eapply lk_bind; [exact I|apply (lock_opt true _ _ _ (lock_line_end true)), I|].
  intros j j' o o' S J H. destruct o, o'; try contradiction; [|now apply lk_ok]. eapply lk_step; [exact S|]. now apply IH.
Qed.
(** the line ends here, but for blanks *)
Definition line_end (i : str) : bool := is_ok (ignore_ws line_ending i).
Lemma skip_lines_end n : forall i j u, skip_lines n i = POk j u -> line_end j = false.
Proof.
  induction n as [|n IH]; intros i j u H; [discriminate|]. cbn [skip_lines] in H. unfold opt in H. unfold line_end. destruct (ignore_ws line_ending i) as [r a|e|e| |] eqn:E; cbn [pbind] in H; try discriminate.
  - exact (IH _ _ _ H).
  - injection H as <- _. now rewrite E.
Qed.
Lemma line_end_blank c i : blank c = true -> line_end (c :: i) = line_end i.
Proof.
  intros B. unfold line_end, ignore_ws, opt, inline_whitespace, ptake_while. cbn [take_while]. rewrite is_blank_blank, B. now destruct (take_while is_blank i).
Qed.
Lemma blanks_trail w : forallb blank w = true -> forall i i', trail i i' -> line_end i = false -> starts_with w i = starts_with w i' /\
  (starts_with w i = true -> i = w ++ skipn (length w) i /\ i' = w ++ skipn (length w) i' /\ trail (skipn (length w) i) (skipn (length w) i') /\ line_end (skipn (length w) i) = false).
Proof.
  induction w as [|c w IH]; intros B i i' E LE; cbn [starts_with length skipn app].
  - split; [now destruct i, i'|auto].
  - cbn [forallb] in B. apply andb_true_iff in B as [B1 B2]. destruct E as [|x i i' H E|u e i i' B K E]; [split; [reflexivity|discriminate]| |discriminate LE].
    destruct (N.eqb_spec c x) as [<-|D]; [|now split]. rewrite line_end_blank in LE by exact B1. destruct (IH B2 i i' E LE) as [X Y]. cbn [andb skipn]. split; [exact X|].
    intros Z. destruct (Y Z) as (Y1 & Y2 & Y3). split; [exact (f_equal (cons c) Y1)|split; [exact (f_equal (cons c) Y2)|exact Y3]].
Qed.
Lemma lk_blanks z w i i' : forallb blank w = true -> inp i i' -> line_end i = false -> lk z i i' eq (tag w i) (tag w i') /\ (forall j u, tag w i = POk j u -> line_end j = false).
Proof.
  intros B [E N] LE. unfold tag. destruct (blanks_trail w B i i' E LE) as [X Y]. rewrite <- X. destruct (starts_with w i); [|split; [exact Logic.I|discriminate]].
  destruct (Y eq_refl) as (Y1 & Y2 & Y3 & Y4). split; [|intros j u [= <- _]; exact Y4]. split; [split; now exists w|auto].
Qed.
Lemma lk_indents z n : forall i i', inp i i' -> line_end i = false -> lk z i i' eq (expect_indents n i) (expect_indents n i').
Proof.
  induction n as [|n IH]; intros i i' I LE; cbn [expect_indents]; [now apply lk_ok|].
  destruct (lk_blanks false (s "    ") i i' eq_refl I LE) as [L1 M1]. destruct (lk_blanks false [9] i i' eq_refl I LE) as [L2 M2]. unfold alt2.
  destruct (tag (s "    ") i) as [r a|e|e| |] eqn:T1, (tag (s "    ") i') as [r' a'|e'|e'| |] eqn:T1'; cbn in L1; try contradiction; try discriminate; try easy; cbn [pbind].
  - destruct L1 as (S & E & _). eapply lk_step; [exact S|]. apply IH; [eapply inp_step; eassumption|]. now apply (M1 r a).
  - destruct (tag [9] i) as [r a|f|f| |] eqn:T2, (tag [9] i') as [r' a'|f'|f'| |] eqn:T2'; cbn in L2; try contradiction; try discriminate; try easy; cbn [pbind].
    + destruct L2 as (S & E & _). eapply lk_step; [exact S|]. apply IH; [eapply inp_step; eassumption|]. now apply (M2 r a).
Qed.
Lemma lock_title z : lock z eq verbose_field_name_and_identity verbose_field_name_and_identity.
Proof.
  apply lock_context. intros i i' I. eapply lk_bind'; [exact I|apply lock_ignore_ws; [apply lock_field_name|exact I]|].
  intros j j' n ? J <-. assert (P : plain (ch ":")) by pl. pose proof (lock_ignore_ws false eq _ _ (lock_pchar false _ P) _ _ J) as L.
  destruct (ignore_ws (pchar (ch ":")) j), (ignore_ws (pchar (ch ":")) j'); cbn in L; try easy; try discriminate L; try (now apply lk_ok).
  destruct L as (S & E & _). assert (K : inp rest rest0) by (eapply inp_step; eassumption). eapply lk_step; [exact S|].
  eapply lk_bind'; [exact K|apply lock_ignore_ws; [apply lock_ident|exact K]|]. intros. subst. now apply lk_ok.
Qed.
Inductive rcf : container_field -> container_field -> Prop :=
| rcf_id id : rcf (CfId id) (CfId id)
| rcf_direct n v v' : rk v v' -> rcf (CfDirect n v) (CfDirect n v')
| rcf_nested n v v' : rk v v' -> rcf (CfNested n v) (CfNested n v')
| rcf_seq id n v v' : rk v v' -> rcf (CfSeq id n v) (CfSeq id n v')
| rcf_map id n k k' v v' : rk k k' -> rk v v' -> rcf (CfMap id n k v) (CfMap id n k' v').
Section Verbose.
  Variables inl inl' con con' nested nested' : parser kserd.
  Hypothesis Hinl : lock true rk inl inl'.
  Hypothesis Hcon : lock true rk con con'.
  Hypothesis Hnes : lock true rk nested nested'.
  Lemma nil_trail i i' : trail i i' -> match i with [] => true | _ => false end = match i' with [] => true | _ => false end.
  Proof. intros E. apply trail_nil_iff in E. destruct i, i'; try reflexivity; exfalso; [discriminate (proj2 E eq_refl)|discriminate (proj1 E eq_refl)]. Qed.
  Lemma slock_vfield n : slock rcf (verbose_cntr_field inl con nested n) (verbose_cntr_field inl' con' nested' n).
  Proof.
    intros i i' I. unfold verbose_cntr_field.
    pose proof (lock_skip_lines (S (length i)) (S (length i')) i i' I) as L. pose proof (skip_lines_end (S (length i)) i) as SE.
    destruct (skip_lines (S (length i)) i) as [j u|e|e| |] eqn:Q, (skip_lines (S (length i')) i') as [j' u'|e'|e'| |] eqn:Q'; try contradiction; try (split; [exact L|exact Logic.I]); try (split; cbn [pbind]; [first [reflexivity|apply lk_fr]|match goal with |- match ?x with _ => _ end => destruct x; exact Logic.I end]).
    destruct L as (S0 & E0 & _). assert (J : inp j j') by (eapply inp_step; eassumption). specialize (SE _ _ eq_refl). cbn [pbind]. eapply slk_step; [exact S0|]. clear S0 E0 Q Q'.
    eapply slk_bind2; [exact J|apply lk_indents; [exact J|exact SE]|]. clear i i' I. intros i i' ? ? I _.
    eapply slk_bind2; [exact I|apply (lock_inline_ws true), I|]. clear j j' J SE. intros j j' ? ? J _. clear i i' I. pose proof J as [E _].
    rewrite <- (nil_trail _ _ E), <- (lk_is_ok _ _ _ _ _ (lock_line_end false _ _ J)).
    rewrite <- (proj1 (starts_trail (s ":") eq_refl j j' E)), <- (proj1 (starts_trail (s "[[") eq_refl j j' E)), <- (proj1 (starts_trail (s "[") eq_refl j j' E)).
    destruct (_ || _); [easy|]. destruct (starts_with (s ":") j) eqn:E1.
    { pose proof (starts_step (s ":") j j' eq_refl E E1) as S. destruct (proj2 (starts_trail (s ":") eq_refl j j' E) E1) as (A & B & C).
      change (length (s ":")) with 1%nat in *. assert (T : forall x : str, tl x = skipn 1 x) by (now intros [|]). rewrite !T.
      assert (K : inp (skipn 1 j) (skipn 1 j')) by (eapply inp_step; eassumption).
      eapply slk_strict; [exact S|pose proof (f_equal (@length _) A) as AL; rewrite app_length in AL; change (length (s ":")) with 1%nat in AL; lia|pose proof (f_equal (@length _) B) as BL; rewrite app_length in BL; change (length (s ":")) with 1%nat in BL; lia|].
      eapply lk_bind'; [exact K|apply lock_ignore_ws; [apply lock_ident|exact K]|]. intros; subst. apply lk_ok; [assumption|constructor]. }
    destruct (starts_with (s "[[") j).
    { eapply slk_bind; [exact J| |].
      - apply slock_context; [|exact J]. apply slock_cut. eapply slock_preceded; [now apply slock_tag|].
        eapply lock_terminated; [apply lock_title|apply lock_ignore_ws; now apply lock_tag].
      - intros i i' [fn id] ? I <-. eapply lk_bind'; [exact I|apply (lock_line_end true), I|]. intros i1 i1' ? ? I1 _.
        eapply lk_bind' with (R := opt_rel rk); [exact I1| |].
        + apply lock_opt; [|exact I1]. eapply lock_terminated; [apply lock_ignore_ws, lock_uncut, Hinl|apply lock_open; pl].
        + intros i2 i2' [k|] [k'|] I2 K; try contradiction.
          * eapply lk_bind'; [exact I2| |].
            { apply (lock_context true rk); [|exact I2]. apply lock_alt2; [now apply lock_ignore_ws|]. eapply lock_preceded; [apply (lock_line_end true)|exact Hnes]. }
            intros. apply lk_ok; [assumption|now constructor].
          * eapply lk_bind'; [exact I2|apply (lock_context true rk); [exact Hnes|exact I2]|]. intros. apply lk_ok; [assumption|now constructor]. }
    destruct (starts_with (s "[") j).
    { eapply slk_bind; [exact J| |].
      - eapply slock_preceded; [now apply slock_tag| |exact J].
        eapply lock_terminated; [apply lock_title|apply lock_ignore_ws; now apply lock_tag].
      - intros i i' [fn id] ? I <-. eapply lk_bind'; [exact I|apply (lock_line_end true), I|]. intros i1 i1' ? ? I1 _.
        eapply lk_bind'; [exact I1|apply (lock_context true rk); [exact Hnes|exact I1]|]. intros i2 i2' v v' I2 V. apply lk_ok; [assumption|]. constructor.
        intros A. assert (A' : k_all one_line_keys v = true \/ k_all one_line_keys v' = true).
        { destruct v as [vi vv], v' as [vi' vv']. rewrite !k_all_children in *. exact A. }
        specialize (V A'). destruct V. cbn [kid kval]. now constructor. }
    eapply slk_bind; [exact J|apply slock_cut; [now apply (slock_kvp_field inl inl' con con')|exact J]|].
    intros i i' [f v] [f' v'] I [A B]. cbn [fst snd] in *. subst f'. apply lk_ok; [assumption|now constructor].
  Qed.
End Verbose.
Lemma update_same {V W} (R : V -> W -> Prop) n a b f g : R a b -> (forall x y, R x y -> R (f x) (g y)) ->
  forall m m', same_keys R m m' -> same_keys R (bt_update n a f m) (bt_update n b g m').
Proof.
  intros H G. induction 1 as [|[k x] [k' x'] m m' [E F] F2 IH]; cbn [bt_update]; [repeat constructor; cbn; auto|].
  cbn [fst snd] in *. subst k'. destruct (str_cmp n k); repeat (constructor; auto); cbn; auto.
Qed.
Definition rst (st st' : vstate) : Prop :=
  same_keys (fun a b => fst a = fst b /\ Forall2 rk (snd a) (snd b)) (vs_seqs st) (vs_seqs st') /\
  same_keys (fun a b => fst a = fst b /\ rm (snd a) (snd b)) (vs_maps st) (vs_maps st') /\
  same_keys rk (vs_fields st) (vs_fields st') /\ vs_id st = vs_id st'.
Lemma rst_step st st' f f' : rst st st' -> rcf f f' -> rst (vs_step st f) (vs_step st' f').
Proof.
  intros (A & B & C & D) F. destruct F; cbn [vs_step]; repeat split; cbn [vs_seqs vs_maps vs_fields vs_id]; try assumption; try now apply insert_same.
  - apply (update_same (fun a b => fst a = fst b /\ Forall2 rk (snd a) (snd b))); [split; constructor| |exact A].
    intros [a l] [b l'] [X Y]. cbn [fst snd] in *. subst b. split; [reflexivity|]. apply Forall2_app; [exact Y|]. now repeat constructor.
  - apply (update_same (fun a b => fst a = fst b /\ rm (snd a) (snd b))); [split; [reflexivity|intros _; constructor]| |exact B].
    intros [a l] [b l'] [X Y]. cbn [fst snd] in *. subst b. split; [reflexivity|]. now apply rm_insert.
Qed.
Lemma rk_assemble l l' : Forall2 rcf l l' -> rk (assemble l) (assemble l').
Proof.
  intros H. unfold assemble. set (st0 := mkVs [] [] [] None).
  assert (R : forall st st', rst st st' -> rst (fold_left vs_step l st) (fold_left vs_step l' st')).
  { induction H; intros st st' S; cbn [fold_left]; [exact S|]. apply IHForall2. now apply rst_step. }
  destruct (R st0 st0) as (A & B & C & D); [repeat split; constructor|]. clear R H.
  set (st := fold_left vs_step l st0) in *. set (st' := fold_left vs_step l' st0) in *. clearbody st st'. cbv zeta. rewrite <- D.
  apply rv_cntr.
  assert (F1 : forall m m', same_keys rk m m' -> same_keys rk
    (fold_left (fun m e => bt_insert str_cmp (fst e) (Kserd (fst (snd e)) (VSeq (snd (snd e)))) m) (vs_seqs st) m)
    (fold_left (fun m e => bt_insert str_cmp (fst e) (Kserd (fst (snd e)) (VSeq (snd (snd e)))) m) (vs_seqs st') m')).
  { clear - A. induction A as [|[k [a x]] [k' [a' x']] l l' [E [E1 F]] G IH]; intros m m' M; cbn [fold_left]; [exact M|].
    cbn [fst snd] in *. subst. apply IH. apply insert_same; [|exact M]. now apply rv_seq. }
  specialize (F1 _ _ C). revert F1.
  set (g := fold_left _ (vs_seqs st) _). set (g' := fold_left _ (vs_seqs st') _). clearbody g g'. revert g g'.
  clear - B. induction B as [|[k [a x]] [k' [a' x']] l l' [E [E1 F]] G IH]; intros m m' M; cbn [fold_left]; [exact M|].
  cbn [fst snd] in *. subst. apply IH. apply insert_same; [|exact M]. now apply rv_map.
Qed.
Lemma lock_cntr_verbose inl inl' con con' nested nested' n : lock true rk inl inl' -> lock true rk con con' -> lock true rk nested nested' ->
  lock true rk (cntr_verbose inl con nested n) (cntr_verbose inl' con' nested' n).
Proof.
  intros A B C i i' I. unfold cntr_verbose. eapply lk_bind' with (R := Forall2 rcf); [exact I| |].
  - apply lock_many0; [eapply slock_moves; now apply slock_vfield|apply slock_lock; now apply slock_vfield|exact I|constructor].
  - intros. apply lk_ok; [assumption|now apply rk_assemble].
Qed.
Lemma lock_nested n : forall n' d d' ind, lock true rk (kserd_nested n d ind) (kserd_nested n' d' ind).
Proof.
  induction n as [|n IH]; intros n' d d' ind i i' I; [reflexivity|]. destruct n' as [|n']; [apply lk_fr|].
  cbn [kserd_nested]. eapply lk_bind'; [exact I|apply lock_pattern_verbose, I|]. intros j j' b ? J <-. destruct b.
  - apply lock_cntr_verbose; [apply lock_delimited|apply lock_delimited|apply IH|exact J].
  - apply lock_ignore_ws; [apply lock_delimited|exact J].
Qed.
Lemma lock_root : lock true rk kserd_root kserd_root.
Proof.
  intros i i' I. pose proof I as [E _]. apply trail_nil_iff in E. unfold kserd_root.
  destruct i as [|c i], i' as [|c' i']; [exact Logic.I|exfalso; discriminate (proj2 E eq_refl)|exfalso; discriminate (proj1 E eq_refl)|].
  apply lock_consuming; [|exact I]. eapply lock_terminated; [apply lock_nested|apply lock_multi_ws].
Qed.

(** ** parse *)
Lemma parse_lock t t' : trail t t' -> no_str_blank t ->
  match parse t, parse t' with
  | ParseOk k, ParseOk k' => rk k k'
  | ParseErr _, ParseErr _ => True
  | _, _ => False
  end.
Proof.
  intros E N. pose proof (lock_root t t' (conj E N)) as L. pose proof (parse_total t) as T. pose proof (parse_total t') as T'.
  unfold parse in *. destruct (kserd_root t), (kserd_root t'); cbn in L; try tauto;
    try (destruct T as [(? & T & _)|(? & T)]; discriminate T); try (destruct T' as [(? & T' & _)|(? & T')]; discriminate T').
Qed.
Lemma trail_parse t t' v : trail t t' -> no_str_blank t -> parse t = ParseOk v -> k_all one_line_keys v = true ->
  exists v', parse t' = ParseOk v' /\ trail_k v v'.
Proof.
  intros E N P K. pose proof (parse_lock t t' E N) as L. rewrite P in L. destruct (parse t') as [v'| | |]; try contradiction.
  exists v'. split; [reflexivity|]. apply L. auto.
Qed.
Lemma trail_parse_back t t' v' : trail t t' -> no_str_blank t -> parse t' = ParseOk v' -> k_all one_line_keys v' = true ->
  exists v, parse t = ParseOk v /\ trail_k v v'.
Proof.
  intros E N P K. pose proof (parse_lock t t' E N) as L. rewrite P in L. destruct (parse t) as [v| | |]; try contradiction.
  exists v. split; [reflexivity|]. apply L. auto.
Qed.
Lemma trail_parse_same t t' v : trail t t' -> no_str_blank t -> k_all one_line v = true -> (parse t = ParseOk v <-> parse t' = ParseOk v).
Proof.
  intros E N K. split; intros P.
  - destruct (trail_parse t t' v E N P (flat_one_line _ K)) as (v' & -> & H). f_equal. now apply trail_k_flat.
  - destruct (trail_parse_back t t' v E N P (flat_one_line _ K)) as (v' & -> & H). f_equal. symmetry. now apply trail_k_flat'.
Qed.
Lemma trail_rejected t t' : trail t t' -> no_str_blank t -> ((exists e, parse t = ParseErr e) <-> (exists e, parse t' = ParseErr e)).
Proof.
  intros E N. pose proof (parse_lock t t' E N) as L. destruct (parse t), (parse t'); try contradiction; split; intros (x & X); try discriminate X; eauto.
Qed.

(** ** taking the blanks away *)
Lemma strip_lf c t r : blank c = true -> strip t = 10 :: r -> strip (c :: t) = 10 :: r.
Proof. intros B E. cbn [strip]. now rewrite E, B. Qed.
Lemma strip_cons c t : (blank c = false \/ hd 0 (strip t) <> 10) -> strip (c :: t) = c :: strip t.
Proof.
  intros H. cbn [strip]. destruct (strip t) as [|d r]; [reflexivity|]. cbn [hd] in H.
  destruct d as [|[?|[[?|[?|?|]|]|?|]|]]; try reflexivity. destruct H as [->|H]; [reflexivity|now destruct H].
Qed.
Lemma strip_trail t : mem 13 t = false -> trail (strip t) t.
Proof.
  induction t as [|c t IH]; intros M; [constructor|]. cbn [mem existsb] in M. apply Bool.orb_false_iff in M as [M1 M2]. specialize (IH M2).
  assert (C : c <> 13) by (intros ->; discriminate M1).
  destruct (blank c) eqn:B; [|rewrite strip_cons by auto; now constructor].
  destruct (N.eq_dec (hd 0 (strip t)) 10) as [H|H]; [|rewrite strip_cons by auto; now constructor].
  destruct (strip t) as [|d r] eqn:S; [discriminate H|]. cbn [hd] in H. subst d. rewrite (strip_lf c t r B S).
  inversion IH as [|c' u u' X Y|w e u u' W X Y]; subst.
  - apply (trail_end [c] [10] r u'); [cbn; now rewrite B|auto|exact Y].
  - apply (trail_end (c :: w) e r u'); [cbn [forallb]; now rewrite B|exact X|exact Y].
Qed.
(** what [strip] leaves of [t] begins with what [t] begins with, or with a line feed where [t] has a blank *)
Lemma strip_hd c r t : strip t = c :: r -> (exists u, t = c :: u /\ strip u = r) \/ (c = 10 /\ exists b u, t = b :: u /\ blank b = true).
Proof.
  destruct t as [|b t]; [discriminate|]. intros E. destruct (blank b) eqn:B.
  - destruct (N.eq_dec (hd 0 (strip t)) 10) as [H|H].
    + destruct (strip t) as [|d q] eqn:S; [discriminate H|]. cbn [hd] in H. subst d. rewrite (strip_lf b t q B S) in E. injection E as <- <-. right. eauto 6.
    + rewrite strip_cons in E by auto. injection E as <- <-. left. eauto.
  - rewrite strip_cons in E by auto. injection E as <- <-. left. eauto.
Qed.
Lemma strip_at t : forall a c r, strip t = a ++ c :: r -> blank c = false -> c <> 10 -> exists a' u, t = a' ++ c :: u /\ strip u = r.
Proof.
  induction t as [|b t IH]; intros a c r E B L; [destruct a; discriminate E|]. destruct a as [|x a].
  - destruct (strip_hd _ _ _ E) as [(u & -> & U)|(-> & _)]; [exists [], u; auto|congruence].
  - destruct (blank b) eqn:Bb.
    + destruct (N.eq_dec (hd 0 (strip t)) 10) as [H|H].
      * destruct (strip t) as [|d q] eqn:S; [discriminate H|]. cbn [hd] in H. subst d. rewrite (strip_lf b t q Bb S) in E. 
        destruct (IH (x :: a) c r E B L) as (a' & u & -> & U). exists (b :: a'), u. auto.
      * rewrite strip_cons in E by auto. injection E as <- E. destruct (IH a c r E B L) as (a' & u & -> & U). exists (b :: a'), u. auto.
    + rewrite strip_cons in E by auto. injection E as <- E. destruct (IH a c r E B L) as (a' & u & -> & U). exists (b :: a'), u. auto.
Qed.
Lemma strip_no_str t : no_str_blank t -> no_str_blank (strip t).
Proof.
  intros H a c b E. change (s "str" ++ c :: b) with (115 :: 116 :: 114 :: c :: b) in E.
  destruct (strip_at t a 115 _ E eq_refl ltac:(discriminate)) as (a' & u & -> & U).
  destruct (strip_hd _ _ _ U) as [(u1 & -> & U1)|(X & _)]; [|inversion X].
  destruct (strip_hd _ _ _ U1) as [(u2 & -> & U2)|(X & _)]; [|inversion X].
  destruct (strip_hd _ _ _ U2) as [(u4 & -> & U4)|(-> & d & u4 & -> & B)].
  - now apply (H a' c u4).
  - destruct (H a' d u4 eq_refl) as [X _]. congruence.
Qed.
Lemma strip_parse t v : mem 13 t = false -> no_str_blank t -> k_all one_line v = true -> (parse (strip t) = ParseOk v <-> parse t = ParseOk v).
Proof. intros M N K. apply trail_parse_same; [now apply strip_trail|now apply strip_no_str|exact K]. Qed.
Lemma no_str_blank_check t : existsb (fun n => starts_with (s "str") (skipn n t) && match nth_error t (n + 3) with Some c => blank c || (c =? 10) | None => false end) (seq 0 (length t)) = false -> no_str_blank t.
Proof.
  intros H a c b ->. enough (X : blank c || (c =? 10) = false) by (apply Bool.orb_false_iff in X as [X Y]; split; [exact X|intros ->; discriminate Y]).
  apply Bool.not_true_is_false. intros X. apply Bool.not_true_iff_false in H. apply H. apply existsb_exists. exists (length a). split.
  - apply in_seq. rewrite !app_length. cbn [length s]. cbn. lia.
  - replace (skipn (length a) (a ++ s "str" ++ c :: b)) with (s "str" ++ c :: b) by (rewrite skipn_app, skipn_all, Nat.sub_diag; reflexivity).
    replace (nth_error (a ++ s "str" ++ c :: b) (length a + 3)) with (Some c) by (rewrite nth_error_app2 by lia; replace (length a + 3 - length a)%nat with 3%nat by lia; reflexivity).
    rewrite X. reflexivity.
Qed.
