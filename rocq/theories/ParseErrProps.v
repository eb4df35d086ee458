(** Where parse errors point. *)
From Verif Require Import Base BaseProps BTree Value ValueSpec Nom Parse ParseErr ParseSpec ParseProps ValueProps.
From Verif Require Encode.
Open Scope nat_scope.

Lemma prefix_le (a b : str) : forall x y, a ++ x = b ++ y -> byte_len a <= byte_len b -> exists c, b = a ++ c.
Proof.
  revert b. induction a as [|c a IH]; intros b x y E H; [now exists b|].
  destruct b as [|d b].
  - cbn in H. pose proof (utf8_len_pos c). lia.
  - cbn [app] in E. cbn [byte_len fold_right] in H. fold (byte_len a) (byte_len b) in H. injection E as -> E. destruct (IH b x y E) as [z ->]; [lia|]. now exists z.
Qed.
Lemma byte_drop_app q x : byte_drop (byte_len q) (q ++ x) = Some x.
Proof.
  induction q as [|c q IH]; [now destruct x|]. cbn [byte_len fold_right app]. fold (byte_len q).
  pose proof (utf8_len_pos c). destruct (utf8_len c + byte_len q) eqn:E; [lia|]. cbn [byte_drop]. rewrite <- E.
  destruct (Nat.leb_spec (utf8_len c) (utf8_len c + byte_len q)); [|lia].
  replace (utf8_len c + byte_len q - utf8_len c) with (byte_len q) by lia. exact IH.
Qed.
Lemma strip_cr_text l a : line_text l (10%N :: a) (strip_cr l).
Proof.
  cbn [line_text]. unfold strip_cr. destruct (rev l) as [|c r] eqn:E.
  - right. split; [reflexivity|]. intros [x Hx]. subst l. rewrite rev_app_distr in E. discriminate E.
  - assert (L : l = rev r ++ [c]) by (rewrite <- (rev_involutive l), E; reflexivity).
    destruct (N.eq_dec c 13) as [->|N13]; [left; exact L|].
    assert (X : forall A (x y : A), match c with 13%N => x | _ => y end = y).
    { intros. destruct c as [|p]; [reflexivity|]. do 4 (try (destruct p as [p|p|]; try reflexivity)). congruence. }
    rewrite X. right. split; [reflexivity|]. intros [x Hx]. rewrite L in Hx. apply app_inj_tail in Hx. now destruct Hx.
Qed.

Lemma count_app a b : length (filter (N.eqb 10) (a ++ b)) = length (filter (N.eqb 10) a) + length (filter (N.eqb 10) b).
Proof. now rewrite filter_app, app_length. Qed.
Lemma count_none l : ~ In 10%N l -> length (filter (N.eqb 10) l) = 0.
Proof.
  induction l as [|c l IH]; intros H; [reflexivity|]. cbn [filter]. destruct (N.eqb_spec 10 c) as [<-|E].
  - exfalso. apply H. now left.
  - apply IH. intros K. apply H. now right.
Qed.

Lemma get_line_first off idx l o : match l with [] => False | _ => True end -> o < off -> get_line (number_lines off idx l) o = None.
Proof.
  intros H Ho. destruct l as [|[t nl] l]; [easy|]. cbn [number_lines get_line fst].
  destruct (Nat.leb_spec off o); [lia|reflexivity].
Qed.
Lemma raw_lines_nonempty cur t : cur ++ t <> [] -> match raw_lines cur t with [] => False | _ => True end.
Proof.
  revert cur. induction t as [|c t IH]; intros cur H; cbn [raw_lines].
  - rewrite app_nil_r in H. now destruct cur.
  - destruct (N.eqb_spec c 10); [exact I|]. apply IH. now destruct cur.
Qed.

Lemma some_or {A} (o : option A) x y : o = Some x -> match o with Some z => Some z | None => y end = Some x.
Proof. now intros ->. Qed.
Lemma none_or {A} (o : option A) y : o = None -> match o with Some z => Some z | None => y end = y.
Proof. now intros ->. Qed.

Lemma bytes_len t : bytes t = byte_len t.
Proof.
  unfold bytes, Encode.utf8. induction t as [|c t IH]; [reflexivity|]. cbn [flat_map byte_len fold_right]. rewrite app_length.
  unfold byte_len in IH. rewrite IH. f_equal. unfold Encode.utf8_char, utf8_len. destruct (c <? 128)%N, (c <? 2048)%N, (c <? 65536)%N; reflexivity.
Qed.

Lemma get_line_spec src t : forall before cur p,
  src = before ++ cur ++ t -> (before = [] \/ exists b, before = b ++ [10%N]) -> ~ In 10%N cur -> cur ++ t <> [] ->
  (exists q r, p = before ++ q /\ cur ++ t = q ++ r) ->
  exists off line text, get_line (number_lines (byte_len before) (length (filter (N.eqb 10) before)) (raw_lines cur t)) (byte_len p) = Some (off, (line, text)) /\
    off <= byte_len p /\ located src p line (S (byte_len p - off)) text.
Proof.
  induction t as [|c t IH]; intros before cur p Hs Hb Hc Hn (q & r & Hp & Hq); cbn [raw_lines].
  - rewrite app_nil_r in *. destruct cur as [|x cur]; [easy|].
    cbn [number_lines get_line fst]. destruct (Nat.leb_spec (byte_len before) (byte_len p)) as [L|L]; [|subst p; rewrite byte_len_app in L; lia].
    eexists _, _, _. split; [reflexivity|]. split; [assumption|].
    exists before, (x :: cur), [], q. split; [|split; [reflexivity|]].
    { split; [now rewrite app_nil_r|]. split; [assumption|]. split; [assumption|]. split; [now left|easy]. }
    split; [reflexivity|]. split; [assumption|]. split; [rewrite bytes_len; subst p; rewrite byte_len_app; f_equal; lia|].
    left. now exists r.
  - destruct (N.eqb_spec c 10) as [->|N10].
    + cbn [number_lines get_line fst]. destruct (Nat.leb_spec (byte_len before) (byte_len p)) as [L|L]; [|subst p; rewrite byte_len_app in L; lia].
      assert (Here : (exists q', cur = q ++ q') \/ (p = src /\ t = []) ->
        located src p (S (length (filter (N.eqb 10) before))) (S (byte_len p - byte_len before)) (strip_cr cur)).
      { intros D. exists before, cur, (10%N :: t), q. split; [|split; [apply strip_cr_text|]].
        { split; [assumption|]. split; [assumption|]. split; [assumption|]. split; [right; now exists t|]. now destruct cur. }
        split; [reflexivity|]. split; [assumption|]. split; [rewrite bytes_len; subst p; rewrite byte_len_app; f_equal; lia|].
        destruct D as [D|[D1 D2]]; [now left|right]. split; [assumption|]. now subst t. }
      assert (BL : byte_len before + byte_len cur + 1 = byte_len (before ++ cur ++ [10%N])).
      { rewrite !byte_len_app. change (byte_len [10%N]) with 1. lia. }
      assert (CL : S (length (filter (N.eqb 10) before)) = length (filter (N.eqb 10) (before ++ cur ++ [10%N]))).
      { rewrite !count_app, (count_none cur Hc). change (length (filter (N.eqb 10) [10%N])) with 1. lia. }
      destruct (le_lt_dec (byte_len (cur ++ [10%N])) (byte_len q)) as [Q|Q].
      * destruct (prefix_le (cur ++ [10%N]) q t r) as [q' Hq']; [now rewrite <- app_assoc|assumption|].
        destruct t as [|d t].
        { (* at the end, after the last line feed *)
          cbn [raw_lines number_lines get_line].
          assert (R : q' = [] /\ r = []).
          { subst q. rewrite <- !app_assoc in Hq. cbn [app] in Hq. apply app_inv_head in Hq. injection Hq as Hq. symmetry in Hq.
            now apply app_eq_nil in Hq. }
          eexists _, _, _. split; [reflexivity|]. split; [assumption|]. apply Here. right. split; [|reflexivity].
          destruct R as [-> ->]. subst. now rewrite !app_nil_r. }
        { destruct (IH (before ++ cur ++ [10%N]) [] p) as (off & line & text & G & Go & Gl).
          - rewrite Hs, <- !app_assoc. reflexivity.
          - right. exists (before ++ cur). now rewrite app_assoc.
          - easy.
          - easy.
          - exists q', r. split; [subst; now rewrite <- !app_assoc|]. subst q. rewrite <- !app_assoc in Hq. cbn [app] in *.
            apply app_inv_head in Hq. now injection Hq.
          - rewrite BL, CL. exists off, line, text. refine (conj _ (conj Go Gl)). now apply some_or. }
      * assert (P : exists q', cur = q ++ q').
        { rewrite byte_len_app in Q. change (byte_len [10%N]) with 1 in Q. apply (prefix_le q cur r (10%N :: t)); [symmetry; exact Hq|lia]. }
        assert (G : get_line (number_lines (byte_len before + byte_len cur + 1) (S (length (filter (N.eqb 10) before))) (raw_lines [] t)) (byte_len p) = None).
        { destruct t as [|d t]; [reflexivity|]. apply get_line_first.
          - now apply raw_lines_nonempty.
          - subst p. rewrite byte_len_app in *. change (byte_len [10%N]) with 1 in Q. lia. }
        eexists _, _, _. split; [apply none_or; exact G|]. split; [assumption|]. apply Here. now left.
    + apply IH; auto.
      * now rewrite Hs, <- !app_assoc.
      * rewrite in_app_iff. cbn. intuition.
      * now destruct cur.
      * exists q, r. split; [assumption|]. now rewrite <- app_assoc.
Qed.

Lemma line_text_prefix l after text : line_text l after text -> exists z, l = text ++ z.
Proof.
  unfold line_text. destruct after as [|a after]; [intros ->; exists []; now rewrite app_nil_r|].
  intros [->|[-> _]]; [now exists [13%N]|]. exists []. now rewrite app_nil_r.
Qed.

Lemma msg_spec src p line col text k : located src p line col text ->
  exists x, found_char col text x /\ make_trace_msg text (col - 1) k = Ret (message k x).
Proof.
  intros (before & l & after & q & (E1 & E2 & E3 & E4 & E5) & Ht & _ & Hp & Hc & D). rewrite bytes_len in Hc. subst col. cbn [Nat.sub]. rewrite Nat.sub_0_r.
  destruct (line_text_prefix _ _ _ Ht) as [z Hz].
  destruct (Nat.leb_spec (byte_len text) (byte_len q)) as [L|L].
  - exists None. split; [cbn [found_char]; rewrite bytes_len; lia|]. destruct k; cbn [make_trace_msg message]; try reflexivity.
    destruct (Nat.leb_spec (byte_len text) (byte_len q)); [reflexivity|lia].
  - assert (P : exists y, text = q ++ y).
    { destruct D as [[q' Hq]|[D1 D2]].
      - apply (prefix_le q text q' z); [congruence|lia].
      - exfalso. assert (q = l ++ [10%N]). { subst after. subst src. rewrite Hp in D1. now apply app_inv_head in D1. }
        subst q l. rewrite !byte_len_app in L. lia. }
    destruct P as [y ->]. destruct y as [|x y]; [rewrite app_nil_r in L; lia|].
    exists (Some x). split; [exists q, y; now rewrite bytes_len|]. destruct k; cbn [make_trace_msg message]; try reflexivity.
    destruct (Nat.leb_spec (byte_len (q ++ x :: y)) (byte_len q)); [lia|]. now rewrite byte_drop_app.
Qed.

Lemma parse_err_inv src e : parse src = ParseErr e -> exists pe, err_in src pe /\ e = error_new src pe.
Proof.
  unfold parse. pose proof (root_spec src) as H. destruct (kserd_root src) as [r k|pe|pe| |]; cbn [sp] in H; intros E; try discriminate E;
    injection E as <-; eauto.
Qed.

Lemma parse_total src : (exists k, parse src = ParseOk k /\ k_parsed k = true) \/ exists e, parse src = ParseErr e.
Proof.
  unfold parse. pose proof (root_spec src) as H. destruct (kserd_root src) as [r k|pe|pe| |]; cbn [sp] in H; try contradiction; eauto.
  left. exists k. split; [reflexivity|]. apply H.
Qed.

Lemma e_get_spec src e i : parse src = ParseErr e -> i < e_len e ->
  exists p q k t, src = p ++ q /\ nth_error (errs e) i = Some (bytes p, k) /\ e_get e i = Ret (Some t) /\
    describes src p k t.
Proof.
  intros H Hi. apply parse_err_inv in H as (pe & (N & F & _) & ->). unfold e_len, error_new in Hi. cbn [errs] in Hi. rewrite map_length in Hi.
  destruct (nth_error pe i) as [[sub k]|] eqn:E; [|apply nth_error_None in E; lia].
  assert (S : suffix sub src). { rewrite Forall_forall in F. apply nth_error_In in E. now apply (F (sub, k)). }
  destruct S as [p Hp]. exists p, sub, k.
  rewrite bytes_len. assert (NE : nth_error (errs (error_new src pe)) i = Some (byte_len p, k)).
  { cbn [error_new errs]. rewrite nth_error_map, E. cbn [option_map fst snd]. unfold offset. rewrite Hp, byte_len_app. do 2 f_equal. lia. }
  unfold e_get. rewrite NE. destruct src as [|c src].
  - cbn [error_new empty_input]. exists (make_empty_trace k). split; [exact Hp|]. split; [reflexivity|]. split; [reflexivity|]. split; [reflexivity|]. split; [reflexivity|]. split; [reflexivity|]. destruct k; cbn [make_empty_trace t_msg message]; rewrite <- ?app_assoc; reflexivity.
  - cbn [error_new empty_input e_lines]. unfold lines_to_map.
    destruct (get_line_spec (c :: src) (c :: src) [] [] p) as (off & line & text & G & Go & Gl); auto; try easy.
    { exists p, sub. split; [reflexivity|exact Hp]. }
    cbn [byte_len fold_right filter length] in G. match goal with |- context [get_line ?a ?b] => replace (get_line a b) with (Some (off, (line, text))) by (symmetry; exact G) end.
    destruct (msg_spec _ _ _ _ _ k Gl) as (x & Hx & Hm). cbn [Nat.sub] in Hm. rewrite Nat.sub_0_r in Hm. rewrite Hm. cbn [rbind].
    eexists. split; [exact Hp|]. split; [reflexivity|]. split; [reflexivity|]. cbn [t_line t_col t_linestr t_msg].
    rewrite Nat.add_1_r. split; [exact Gl|]. now exists x.
Qed.

Lemma e_get_none e i : e_len e <= i -> e_get e i = Ret None.
Proof. intros H. unfold e_get. unfold e_len in H. apply nth_error_None in H. now rewrite H. Qed.

Lemma e_len_pos src e : parse src = ParseErr e -> 0 < e_len e.
Proof.
  intros H. apply parse_err_inv in H as (pe & (N & F & _) & ->). unfold e_len, error_new. cbn [errs]. rewrite map_length. destruct pe; [easy|cbn; lia].
Qed.

Lemma e_iter_spec src e : parse src = ParseErr e -> exists l, e_iter e = Ret l /\ length l = e_len e /\
  forall i, nth_error l i = match e_get e i with Ret t => t | Panic _ => None end.
Proof.
  intros H. unfold e_iter.
  assert (G : forall n i, i + n = e_len e -> exists l, e_iter_from n i e = Ret l /\ length l = n /\
    forall j, nth_error l j = match e_get e (i + j) with Ret t => t | Panic _ => None end).
  { induction n as [|n IH]; intros i Hi; cbn [e_iter_from].
    - exists []. split; [reflexivity|]. split; [reflexivity|]. intros j. rewrite e_get_none by lia. now destruct j.
    - destruct (e_get_spec src e i H) as (p & q & k & t & _ & _ & Ht & _); [lia|]. rewrite Ht. cbn [rbind].
      destruct (IH (S i)) as (l & Hl & Hn & Hj); [lia|]. rewrite Hl. cbn [rbind]. exists (t :: l).
      split; [reflexivity|]. split; [cbn; lia|]. intros [|j]; cbn [nth_error].
      + rewrite Nat.add_0_r, Ht. reflexivity.
      + rewrite Hj. now rewrite Nat.add_succ_r. }
  exact (G (e_len e) 0 eq_refl).
Qed.
Lemma backtrace_spec src e : parse src = ParseErr e -> exists t, backtrace e = Ret t.
Proof. intros H. unfold backtrace. destruct (e_iter_spec src e H) as (l & -> & _). cbn [rbind]. eauto. Qed.
Lemma parse_wf src k : parse src = ParseOk k -> k_parsed k = true.
Proof. intros H. destruct (parse_total src) as [(k' & H' & W)|[e H']]; congruence. Qed.
Lemma error_traces src e : parse src = ParseErr e ->
  0 < e_len e /\
  (forall i, i < e_len e ->
     exists p q k t, src = p ++ q /\ nth_error (errs e) i = Some (bytes p, k) /\
       e_get e i = Ret (Some t) /\ describes src p k t) /\
  (forall i, e_len e <= i -> e_get e i = Ret None).
Proof.
  intros H. split; [now apply (e_len_pos src)|]. split; [intros i Hi; now apply e_get_spec|]. intros i. apply e_get_none.
Qed.
Lemma iter_and_backtrace src e : parse src = ParseErr e ->
  (exists l, e_iter e = Ret l /\ length l = e_len e /\ forall i, e_get e i = Ret (nth_error l i)) /\
  (exists t, backtrace e = Ret t).
Proof.
  intros H. split; [|now apply (backtrace_spec src)]. destruct (e_iter_spec src e H) as (l & H1 & H2 & H3).
  exists l. repeat split; auto. intros i. rewrite H3. destruct (le_lt_dec (e_len e) i) as [L|L].
  - now rewrite e_get_none.
  - destruct (e_get_spec src e i H L) as (p & q & k & t & _ & _ & -> & _). reflexivity.
Qed.

Lemma shown_display i t : shown i t = s "#" ++ nat_display i ++ s ": " ++ trace_display t.
Proof.
  assert (E : match t_col t with O => [] | S n => repeat 32%N n ++ s "^" end = (if 0 <? t_col t then repeat 32%N (t_col t - 1) ++ s "^" else [])).
  { destruct (t_col t); [reflexivity|]. cbn [Nat.ltb Nat.leb Nat.sub]. now rewrite Nat.sub_0_r. }
  unfold shown, trace_display, nat_display. rewrite E. change (s ": at ") with (s ": " ++ s "at "). now rewrite <- !app_assoc.
Qed.
Lemma backtrace_from_text l : forall i last, last = i + length l - 1 ->
  backtrace_from i last l = paragraphs (numbered i l).
Proof.
  induction l as [|t l IH]; intros i last H; [reflexivity|]. cbn [backtrace_from numbered]. cbn [length] in H.
  rewrite (IH (S i) last) by lia. rewrite shown_display. destruct l as [|u l].
  - replace (i =? last) with true by (symmetry; apply Nat.eqb_eq; cbn [length] in H; lia). cbn [numbered paragraphs app]. now rewrite !app_nil_r.
  - replace (i =? last) with false by (symmetry; apply Nat.eqb_neq; cbn [length] in H; lia). cbn [numbered paragraphs]. now rewrite <- !app_assoc.
Qed.
Lemma backtrace_text src e l : parse src = ParseErr e -> e_iter e = Ret l -> backtrace e = Ret (paragraphs (numbered 0 l)).
Proof.
  intros H E. unfold backtrace. rewrite E. cbn [rbind]. f_equal. apply backtrace_from_text.
  destruct (e_iter_spec src e H) as (l' & E' & L & _). rewrite E in E'. injection E' as <-. lia.
Qed.

(** ** ids and names which are not read *)
Lemma id_not_read id : parsed_id id = false -> forall src k, parse src = ParseOk k -> k_all (fun n => negb (has_id id n)) k = true.
Proof.
  intros H src k P. apply parse_wf in P. revert P. apply k_all_impl. intros [i v]. unfold parsed_node, has_id. cbn [kid]. destruct i as [i|]; [|reflexivity].
  intros P. apply andb_true_iff in P as [P _]. destruct (str_eqb i id) eqn:E; [|reflexivity]. apply str_eqb_eq in E. subst. congruence.
Qed.
Lemma field_not_read name : forallb word_char name = false -> forall src k, parse src = ParseOk k -> k_all (fun n => negb (has_field name n)) k = true.
Proof.
  intros H src k P. apply parse_wf in P. revert P. apply k_all_impl. intros [i v]. unfold parsed_node, has_field. cbn [kval]. destruct v as [| | | | | |m| |]; try reflexivity.
  intros P. apply andb_true_iff in P as [_ P]. apply andb_true_iff in P as [_ P]. destruct (existsb _ m) eqn:E; [|reflexivity].
  apply existsb_exists in E as (e & He & E). apply str_eqb_eq in E. rewrite forallb_forall in P. specialize (P e He). subst name. exfalso. exact (eq_true_false_abs _ P H).
Qed.
