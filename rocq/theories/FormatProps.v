(** What the parser accepts is in the format: pieces and delimited values. *)
From Verif Require Import Base F64 Number BTree Value BaseProps ValueProps2 Base91 Nom Parse ParseProps ParseErr Grammar VGrammar GrammarProps VGrammarProps VAssemble Format.
Open Scope N_scope.

(** ** combinators *)
Lemma bind_inv {A B} (e : pres A) (f : str -> A -> pres B) r b : pbind e f = POk r b -> exists i a, e = POk i a /\ f i a = POk r b.
Proof. destruct e; cbn; intros H; try discriminate. eauto. Qed.
Lemma context_inv {A} t (p : parser A) i r a : context t p i = POk r a -> p i = POk r a.
Proof. unfold context. destruct (p i); congruence. Qed.
Lemma cut_inv {A} (p : parser A) i r a : cut p i = POk r a -> p i = POk r a.
Proof. unfold cut. destruct (p i); congruence. Qed.
Lemma uncut_inv {A} (p : parser A) i r a : uncut p i = POk r a -> p i = POk r a.
Proof. unfold uncut. destruct (p i); congruence. Qed.
Lemma opt_inv {A} (p : parser A) i r o : opt p i = POk r o -> (exists a, o = Some a /\ p i = POk r a) \/ (o = None /\ r = i /\ exists e, p i = PErr e).
Proof. unfold opt. destruct (p i); intros H; try discriminate; injection H as <- <-; eauto 6. Qed.
Lemma alt2_inv {A} (p q : parser A) i r a : alt2 p q i = POk r a -> p i = POk r a \/ q i = POk r a.
Proof. unfold alt2. destruct (p i); intros H; try discriminate; auto. right. destruct (q i); congruence. Qed.
Lemma pmap_inv {A B} (p : parser A) (f : A -> B) i r b : pmap p f i = POk r b -> exists a, b = f a /\ p i = POk r a.
Proof. unfold pmap. intros H. apply bind_inv in H as (j & a & E & H). injection H as <- <-. eauto. Qed.
Lemma preceded_inv {A B} (p : parser A) (q : parser B) i r b : preceded p q i = POk r b -> exists j a, p i = POk j a /\ q j = POk r b.
Proof. apply bind_inv. Qed.
Lemma terminated_inv {A B} (p : parser A) (q : parser B) i r a : terminated p q i = POk r a -> exists j b, p i = POk j a /\ q j = POk r b.
Proof.
  unfold terminated. intros H. apply bind_inv in H as (j & a' & E & H). apply bind_inv in H as (j' & b & E' & H). injection H as -> ->. eauto.
Qed.
Lemma pair_inv {A B C} (p : parser A) (sep : parser B) (q : parser C) i r x : separated_pair p sep q i = POk r x ->
  exists j a j' b, p i = POk j a /\ sep j = POk j' b /\ q j' = POk r (snd x) /\ fst x = a.
Proof.
  unfold separated_pair. intros H. apply bind_inv in H as (j & a & E & H). apply bind_inv in H as (j' & b & E' & H).
  apply bind_inv in H as (j2 & c & E2 & H). injection H as -> <-. eauto 8.
Qed.
Lemma char_inv c i r a : pchar c i = POk r a -> i = c :: r.
Proof. unfold pchar. destruct i as [|x i]; [discriminate|]. destruct (N.eqb_spec x c); [|discriminate]. now intros [= <- <-]; subst. Qed.
Lemma tag_inv t i r a : tag t i = POk r a -> i = t ++ r /\ a = t.
Proof.
  unfold tag. destruct (starts_with t i) eqn:E; [|discriminate]. intros [= <- <-]. apply starts_with_spec in E as [r ->].
  now rewrite skipn_app, skipn_all, Nat.sub_diag.
Qed.
Lemma while_inv f i r a : ptake_while f i = POk r a -> i = a ++ r /\ forallb f a = true /\ stops f r.
Proof.
  unfold ptake_while. pose proof (take_while_app f i) as H1. pose proof (take_while_all f i) as H2. pose proof (take_while_rest f i) as H3.
  destruct (take_while f i) as [x y]. intros [= <- <-]. now split.
Qed.
Lemma blank_inv i r a : inline_whitespace i = POk r a -> i = a ++ r /\ blanks a /\ stops blank r.
Proof. apply (while_inv blank). Qed.
Lemma space_inv i r a : multiline_whitespace i = POk r a -> i = a ++ r /\ spaces a /\ stops space r.
Proof. apply (while_inv space). Qed.
Lemma ignore_inv {A} (p : parser A) i r a : ignore_ws p i = POk r a -> exists w j, i = w ++ j /\ blanks w /\ stops blank j /\ p j = POk r a.
Proof.
  unfold ignore_ws, opt. intros H. destruct (inline_whitespace i) as [j w| | | |] eqn:E; try discriminate; try (unfold inline_whitespace, ptake_while in E; destruct (take_while is_blank i); discriminate).
  cbn [pbind] in H. apply blank_inv in E as (-> & B & S). eauto 6.
Qed.
Lemma ignore_char_inv c i r a : ignore_ws (pchar c) i = POk r a -> exists w, i = w ++ c :: r /\ blanks w.
Proof. intros H. apply ignore_inv in H as (w & j & -> & B & _ & H). apply char_inv in H as ->. eauto. Qed.
Lemma ignore_tag_inv t i r a : ignore_ws (tag t) i = POk r a -> exists w, i = w ++ t ++ r /\ blanks w.
Proof. intros H. apply ignore_inv in H as (w & j & -> & B & _ & H). apply tag_inv in H as [-> _]. eauto. Qed.

(** ** names *)
Lemma valid_name_inv i r a : valid_name i = POk r a -> i = a ++ r /\ is_id a = true.
Proof.
  unfold valid_name. intros H. apply bind_inv in H as (j & x & E & H). apply context_inv, cut_inv in H.
  unfold ptake_while1 in H. pose proof (take_while_app is_name_char i) as H1. pose proof (take_while_all is_name_char i) as H2.
  destruct (take_while is_name_char i) as [y z]. cbn [fst snd] in *. destruct y as [|c y]; [discriminate|]. injection H as <- <-. subst i. split; [reflexivity|].
  unfold is_id. rewrite forallb_names, H2, andb_true_r. apply alt2_inv in E as [E|E].
  - unfold alpha1 in E. cbn [app take_while] in E. destruct (is_alpha c); [reflexivity|discriminate].
  - apply tag_inv in E as [E _]. cbn in E. injection E as -> _. now rewrite orb_true_r.
Qed.
Lemma ident_false_inv i r a : ident false i = POk r a -> i = a ++ r /\ is_id a = true.
Proof. intros H. apply context_inv in H. now apply valid_name_inv. Qed.
Lemma ident_true_inv i r a : ident true i = POk r a -> i = s "<" ++ a ++ s ">" ++ r /\ is_id a = true.
Proof.
  intros H. apply context_inv, preceded_inv in H as (j & x & E & H). apply char_inv in E as ->. apply cut_inv, terminated_inv in H as (j' & b & E & H).
  apply valid_name_inv in E as [-> V]. apply char_inv in H as ->. split; [reflexivity|exact V].
Qed.
Lemma field_name_inv i r a : field_name i = POk r a -> i = a ++ r /\ forallb name_char a = true.
Proof. intros H. apply while_inv in H as (-> & F & _). now rewrite forallb_names. Qed.
Lemma ctor_inv id v i r k : kserd_ctor id v i = POk r k -> r = i /\ k = Kserd id v.
Proof.
  unfold kserd_ctor. destruct id as [id|]; [|now intros [= <- <-]]. rewrite with_id_spec. destruct (forallb _ id); [|discriminate]. now intros [= <- <-].
Qed.

(** ** primitives *)
Lemma till_inv d i r a : ptake_till (N.eqb d) i = POk r a -> i = a ++ r /\ mem d a = false.
Proof.
  intros H. apply while_inv in H as (-> & F & _). split; [reflexivity|]. destruct (mem d a) eqn:M; [|reflexivity].
  apply mem_In in M. rewrite forallb_forall in F. apply F in M. now rewrite N.eqb_refl in M.
Qed.
Lemma parse_str_inv d i r a : parse_str d i = POk r a -> i = d :: a ++ d :: r /\ mem d a = false.
Proof.
  intros H. apply preceded_inv in H as (j & x & E & H). apply char_inv in E as ->. apply cut_inv, terminated_inv in H as (j' & b & E & H).
  apply till_inv in E as [-> M]. apply char_inv in H as ->. auto.
Qed.
Lemma prim_value_inv i r v : prim_value i = POk r v -> exists t, i = t ++ r /\ token t v.
Proof.
  intros H. apply context_inv in H.
  assert (C : exists a, (v = VUnit /\ unit_value i = POk r a) \/ (exists b, v = VBool b /\ boolean i = POk r b) \/ (exists n, v = VNum n /\ num i = POk r n) \/
    (exists t, v = VStr t /\ pstring i = POk r t) \/ (exists b, v = VBarr b /\ barr i = POk r b)).
  { exists tt. unfold alt5 in H.
    destruct (pmap unit_value _ i) eqn:E1; try discriminate; [injection H as <- <-; apply pmap_inv in E1 as ([] & -> & E1); auto|].
    destruct (pmap boolean _ i) eqn:E2; try discriminate; [injection H as <- <-; apply pmap_inv in E2 as (b & -> & E2); eauto 6|].
    destruct (pmap num _ i) eqn:E3; try discriminate; [injection H as <- <-; apply pmap_inv in E3 as (b & -> & E3); eauto 8|].
    destruct (pmap pstring _ i) eqn:E4; try discriminate; [injection H as <- <-; apply pmap_inv in E4 as (b & -> & E4); eauto 8|].
    destruct (pmap barr _ i) eqn:E5; try discriminate. injection H as <- <-; apply pmap_inv in E5 as (b & -> & E5); eauto 8. }
  destruct C as (a & [[-> E]|[(b & -> & E)|[(n & -> & E)|[(t & -> & E)|(b & -> & E)]]]]); clear H.
  - apply context_inv, pmap_inv in E as (x & _ & E). apply preceded_inv in E as (j & y & E1 & E). apply char_inv in E1 as ->.
    apply cut_inv, terminated_inv in E as (j' & z & E1 & E). apply blank_inv in E1 as (-> & B & _). apply char_inv in E as ->.
    exists (s "(" ++ x ++ s ")"). split; [rewrite <- !app_assoc; reflexivity|now constructor].
  - apply context_inv, alt2_inv in E as [E|E]; apply pmap_inv in E as (x & -> & E); apply tag_inv in E as [-> _]; eexists; (split; [reflexivity|constructor]).
  - apply context_inv in E. pose proof (take_while_app is_num_char i) as H1. pose proof (take_while_all is_num_char i) as H2.
    destruct (take_while is_num_char i) as [t z]. cbn [fst snd] in *. destruct (num_from_str t) eqn:F; [|discriminate]. injection E as -> ->. subst i.
    exists t. split; [reflexivity|]. now constructor.
  - unfold pstring in E. destruct (starts_with (s "str") i) eqn:S.
    + apply starts_with_spec in S as [i' ->]. change (skipn 3 (s "str" ++ i')) with i' in E. apply context_inv, parse_str_inv in E as [E M].
      destruct i' as [|d i']; [discriminate|]. cbn [hd] in *. injection E as ->. exists (s "str" ++ [d] ++ t ++ [d]). split; [now rewrite <- !app_assoc|now constructor].
    + apply context_inv, parse_str_inv in E as [-> M]. exists (s """" ++ t ++ s """"). split; [now rewrite <- !app_assoc|now constructor].
  - apply context_inv, preceded_inv in E as (j & x & E1 & E). apply tag_inv in E1 as [-> _]. apply cut_inv, terminated_inv in E as (j' & z & E1 & E).
    apply pmap_inv in E1 as (t & -> & E1). apply till_inv in E1 as [-> M]. apply char_inv in E as ->.
    exists (s "b91'" ++ t ++ s "'"). split; [now rewrite <- !app_assoc|now constructor].
Qed.
Lemma stops_nil_blanks a r : blanks a -> stops blank (a ++ r) -> a = [].
Proof. destruct a as [|c a]; [auto|]. unfold blanks. cbn. intros H E. rewrite E in H. discriminate. Qed.
Lemma prim_inv m i r k : stops blank i -> prim i = POk r k -> exists t, i = t ++ r /\ derives m t k.
Proof.
  intros S H. unfold prim in H. apply bind_inv in H as (j & [id v] & E & H). apply ctor_inv in H as [-> ->].
  apply context_inv, pair_inv in E as (j1 & o & j2 & w & E1 & E2 & E3 & EQ). cbn [fst snd] in *. subst o.
  apply blank_inv in E2 as (-> & B & _). apply prim_value_inv in E3 as (t & -> & T).
  apply opt_inv in E1 as [(x & -> & E1)|(-> & <- & _)].
  - apply ident_true_inv in E1 as [-> V]. exists (s "<" ++ x ++ s ">" ++ w ++ t). split; [now rewrite <- !app_assoc|now constructor].
  - apply stops_nil_blanks in S; [|exact B]. subst w. exists t. split; [reflexivity|now constructor].
Qed.

(** ** lists *)
Section Loop.
  Context {A B : Type} (sep : parser B) (p : parser A) (S : str -> Prop) (R : str -> A -> Prop) (pre : str -> Prop).
  Hypothesis HS : forall i r b, sep i = POk r b -> length r <> length i -> exists w, i = w ++ r /\ S w /\ pre r.
  Hypothesis HP : forall i r a, pre i -> p i = POk r a -> exists t, i = t ++ r /\ R t a.
  Lemma loop_inv fuel : forall acc i r l, sep_loop fuel sep p acc i = POk r l ->
    exists t l', l = acc ++ l' /\ i = t ++ r /\ separated R S t l' /\
      ((exists e, sep r = PErr e) \/ exists j b, sep r = POk j b /\ length j <> length r).
  Proof.
    induction fuel as [|fuel IH]; intros acc i r l H; [discriminate|]. cbn [sep_loop] in H.
    destruct (sep i) as [i1 b|e|e| |] eqn:E; try discriminate.
    - destruct (Nat.eqb_spec (length i1) (length i)) as [|NE]; [discriminate|]. destruct (p i1) as [i2 a|e|e| |] eqn:EP; try discriminate.
      + destruct (HS _ _ _ E NE) as (w & -> & Sw & Pw). destruct (HP _ _ _ Pw EP) as (t & -> & Rt). apply IH in H as (t' & l' & -> & -> & C & L).
        exists (w ++ t ++ t'), (a :: l'). rewrite <- !app_assoc. split; [reflexivity|]. split; [reflexivity|]. split; [now constructor|exact L].
      + injection H as <- <-. exists [], []. rewrite app_nil_r. split; [reflexivity|]. split; [reflexivity|]. split; [constructor|]. right. eauto.
    - injection H as <- <-. exists [], []. rewrite app_nil_r. split; [reflexivity|]. split; [reflexivity|]. split; [constructor|]. left. eauto.
  Qed.
  Lemma list0_inv i r l : pre i -> separated_list0 sep p i = POk r l ->
    (l = [] /\ r = i) \/ exists a l' t t', l = a :: l' /\ i = t ++ t' ++ r /\ R t a /\ separated R S t' l' /\
      ((exists e, sep r = PErr e) \/ exists j b, sep r = POk j b /\ length j <> length r).
  Proof.
    intros P H. unfold separated_list0 in H. destruct (p i) as [i1 a|e|e| |] eqn:E; try discriminate.
    - destruct (HP _ _ _ P E) as (t & -> & Rt). apply loop_inv in H as (t' & l' & -> & -> & C & L). right. exists a, l', t, t'. auto.
    - injection H as <- <-. auto.
  Qed.
End Loop.
Lemma inline_inv {A} (p : parser A) (R : str -> A -> Prop) c i r l b j :
  (forall i r a, stops blank i -> p i = POk r a -> exists t, i = t ++ r /\ R t a) ->
  separated_list0 (ignore_ws (pchar (ch ","))) (ignore_ws p) i = POk j l -> ignore_ws (pchar c) j = POk r b ->
  exists t, i = t ++ c :: r /\ inline_items R t l.
Proof.
  intros HP H E. apply ignore_char_inv in E as (w' & -> & B').
  set (R' := fun u a => exists w t, u = w ++ t /\ blanks w /\ R t a).
  set (S' := fun w => exists w1, blanks w1 /\ w = w1 ++ s ",").
  apply (list0_inv _ _ S' R' (fun _ => True)) in H; [|intros i' r' x H' _; apply ignore_char_inv in H' as (w & -> & B); exists (w ++ s ","); rewrite <- app_assoc; repeat split; exists w; auto|
    intros i' r' a _ H'; apply ignore_inv in H' as (w & k & -> & B & S & H'); apply HP in H' as (t & -> & Rt); [|exact S]; exists (w ++ t); rewrite app_assoc; split; [reflexivity|]; exists w, t; auto|exact I].
  assert (M : forall t l, separated R' S' t l -> separated R comma t l).
  { induction 1 as [|w u a x l0 (w1 & B1 & ->) (w2 & t & -> & B2 & Rt) C IH]; [constructor|].
    replace ((w1 ++ s ",") ++ (w2 ++ t) ++ x) with ((w1 ++ s "," ++ w2) ++ t ++ x) by (rewrite <- !app_assoc; reflexivity).
    constructor; [exists w1, w2; auto|exact Rt|exact IH]. }
  destruct H as [[-> EQ]|(a & l' & u & t' & -> & EQ & (w & t & -> & B & Rt) & C & _)].
  - exists w'. split; [now symmetry|]. now constructor.
  - exists (w ++ t ++ t' ++ w'). split; [rewrite EQ, <- !app_assoc; reflexivity|]. constructor; auto.
Qed.
(** elements between spaces, closed by [c] *)
Lemma new_line_stop x : stops space x -> new_line x = false.
Proof.
  destruct x as [|c x]; [reflexivity|]. cbn [stops new_line]. intros H. unfold space, blank in *. cbn [mem existsb] in *. rewrite !orb_false_iff in *.
  destruct H as (H1 & H2 & H3 & H4 & _). now rewrite (N.eqb_sym c 13), (N.eqb_sym c 10), ?H1, ?H2, ?H3, ?H4, ?(N.eqb_sym c 10), ?(N.eqb_sym c 13) in *.
Qed.
Lemma stops_space_blank x : stops space x -> stops blank x.
Proof. apply stops_weak. exact blank_space. Qed.
Lemma new_line_app w x : stops space x -> new_line (w ++ x) = true -> new_line w = true.
Proof.
  intros S. induction w as [|c w IH]; cbn [app new_line]; [rewrite new_line_stop by exact S; discriminate|].
  rewrite !orb_true_iff, !andb_true_iff. intuition.
Qed.
Lemma concise_inv {A} (p : parser A) (R : str -> A -> Prop) c i i3 w i4 l i5 w2 r b :
  (forall i r a, stops blank i -> p i = POk r a -> exists t, i = t ++ r /\ R t a) ->
  new_line i = true -> multiline_whitespace i = POk i3 w -> separated_list0 multiline_whitespace p i3 = POk i4 l ->
  multiline_whitespace i4 = POk i5 w2 -> ignore_ws (pchar c) i5 = POk r b ->
  exists t, i = t ++ c :: r /\ concise_items R t l.
Proof.
  intros HP NL E1 H E2 E. apply space_inv in E1 as (-> & B1 & S1). pose proof E2 as E2'. apply space_inv in E2 as (-> & B2 & S2).
  apply ignore_char_inv in E as (w' & -> & B'). apply stops_space_blank, stops_nil_blanks in S2 as ->; [|exact B']. cbn [app] in *.
  apply new_line_app in NL; [|exact S1].
  apply (list0_inv _ _ gap R (stops space)) in H; [| |intros i' r' a S H'; apply HP in H'; [exact H'|now apply stops_space_blank]|exact S1].
  - destruct H as [[-> EQ]|(a & l' & t & t' & -> & -> & Rt & C & L)].
    + rewrite <- EQ in S1. destruct w2 as [|x w2]; [|exfalso; unfold spaces in B2; cbn in S1, B2; rewrite S1 in B2; discriminate].
      exists w. split; [now rewrite <- EQ|]. now constructor.
    + exists (w ++ t ++ t' ++ w2). split; [rewrite <- !app_assoc; reflexivity|]. constructor; auto. split; [exact B2|]. intros ->.
      destruct L as [[e L]|(j & x & L & NE)]; rewrite E2' in L; [discriminate|]. injection L as <- _. now apply NE.
  - intros i' r' x H' NE. apply space_inv in H' as (-> & Bw & Sw). exists x. split; [reflexivity|]. split; [|exact Sw]. split; [exact Bw|]. intros ->. now apply NE.
Qed.

(** ** the kind of a text *)
Lemma pattern_inv i j pat : pattern_match_delimited i = POk j pat -> j = i /\
  (pat <> NpNone -> starts_with (s "true") i = false /\ starts_with (s "false") i = false /\
   exists o i1, opt (ident false) i = POk i1 o /\
     forall w r, blanks w -> i1 = w ++ ch "(" :: r -> 
       (pat = NpTuple -> assigns (trim r) = false /\ (o = None -> is_ok (unit_value (ch "(" :: r)) = false)) /\
       (pat = NpCntr -> assigns (trim r) = true)).
Proof.
  unfold pattern_match_delimited. destruct (starts_with (s "true") i); cbn [orb]; [intros [= <- <-]; split; [reflexivity|congruence]|].
  destruct (starts_with (s "false") i); [intros [= <- <-]; split; [reflexivity|congruence]|].
  intros H. apply bind_inv in H as (i0 & o0 & E0 & H). apply bind_inv in H as (i1 & k & E1 & H). apply bind_inv in H as (i2 & w2 & E2 & H).
  apply bind_inv in H as (i3 & pat0 & E3 & H). injection H as <- <-. split; [reflexivity|]. intros NE. split; [reflexivity|]. split; [reflexivity|].
  destruct o0 as [x|]; [injection E1 as <- <-; congruence|]. apply bind_inv in E1 as (i1' & o & E1 & E1').
  assert (K : i1' = i1 /\ k = match o with Some _ => IkNonprim | None => IkNone end).
  { apply opt_inv in E1 as [(x & -> & _)|(-> & -> & _)]; injection E1' as <- <-; auto. }
  destruct K as [-> ->]. clear E1'. exists o, i1. split; [exact E1|]. intros w r B ->.
  rewrite take_spaces in E2 by (auto using blanks_spaces; reflexivity). assert (EI : i2 = ch "(" :: r) by congruence. clear E2. subst i2. cbn [hd] in E3.
  change (ch "(" =? ch "[") with false in E3. change (ch "(" =? ch "{") with false in E3. rewrite N.eqb_refl in E3. cbn [tl] in E3.
  assert (P : match (match o with Some _ => IkNonprim | None => IkNone end) with IkPrim => NpNone | _ => pat0 end = pat0) by (now destruct o). rewrite P in NE |- *. clear P.
  match type of E3 with (if ?x then _ else _) = _ => destruct x eqn:EU end; [injection E3 as _ <-; congruence|].
  apply bind_inv in E3 as (j & w3 & E4 & E3). destruct (trim_spec r) as [w4 E5]. rewrite E5 in E4. injection E4 as <- <-. rewrite assign_eq in E3.
  destruct (assigns (trim r)); injection E3 as _ <-; (split; [|auto; discriminate]); [discriminate|]. intros _. split; [reflexivity|]. intros ->. exact EU.
Qed.
Lemma head_inv i i1 o c i2 x : stops blank i -> starts_with (s "true") i = false -> starts_with (s "false") i = false ->
  opt (ident false) i = POk i1 o -> ignore_ws (pchar c) i1 = POk i2 x ->
  exists w, i = head o w ++ c :: i2 /\ head_ok o w /\ i1 = w ++ c :: i2.
Proof.
  intros S T1 T2 E H. apply ignore_char_inv in H as (w & -> & B). apply opt_inv in E as [(id & -> & E)|(-> & <- & _)].
  - apply ident_false_inv in E as [-> V]. exists w. split; [cbn [head]; now rewrite <- app_assoc|]. split; [|reflexivity]. split; [exact B|]. unfold is_id_plain. rewrite V. cbn [andb].
    apply andb_true_iff. split; apply negb_true_iff; [destruct (starts_with (s "true") id) eqn:F|destruct (starts_with (s "false") id) eqn:F]; auto;
      apply starts_with_spec in F as [y ->]; rewrite <- !app_assoc, starts_with_app in *; congruence.
  - apply stops_nil_blanks in S; [|exact B]. subst w. exists []. auto using (conj eq_refl Logic.I : head_ok None []).
Qed.

(** what can stand in an inline layout can stand in any *)
Lemma derives_weak t k : derives true t k -> derives false t k.
Proof. inversion 1; subst; econstructor; eassumption. Qed.

Section Delimited.
  Variables inl con : parser kserd.
  Hypothesis HI : forall i r k, stops blank i -> inl i = POk r k -> exists t, i = t ++ r /\ derives true t k.
  Hypothesis HC : forall i r k, stops blank i -> con i = POk r k -> exists t, i = t ++ r /\ derives false t k.

  Lemma field_inv (m : bool) i r e : kvp_field inl con m i = POk r e -> exists t, i = t ++ r /\ fieldf (derives m) t e.
  Proof.
    intros H. apply context_inv, pair_inv in H as (j & name & j' & x & E1 & E2 & E3 & EQ). apply field_name_inv in E1 as [-> F].
    apply ignore_char_inv in E2 as (w1 & -> & B1). apply ignore_inv in E3 as (w2 & j & -> & B2 & S & E3). apply cut_inv in E3.
    assert (D : exists t, j = t ++ r /\ derives m t (snd e)) by (destruct m; auto). destruct D as (t & -> & D).
    exists (name ++ w1 ++ s "=" ++ w2 ++ t). split; [rewrite <- !app_assoc; reflexivity|]. destruct e as [n k]. cbn [fst snd] in *. subst n. now constructor.
  Qed.
  Lemma entry_inv (m : bool) i r e : stops blank i -> kvp_kserd inl con m i = POk r e ->
    exists t, i = t ++ r /\ entryf (derives false) (derives m) t e.
  Proof.
    intros S0 H. apply context_inv, pair_inv in H as (j & key & j' & x & E1 & E2 & E3 & EQ).
    assert (D1 : exists t, i = t ++ j /\ (derives false t key \/ derives true t key)).
    { apply alt2_inv in E1 as [E1|E1]; [apply HC in E1 as (t & -> & D)|apply HI in E1 as (t & -> & D)]; eauto. }
    destruct D1 as (tk & -> & D1).
    apply ignore_char_inv in E2 as (w1 & -> & B1). apply ignore_inv in E3 as (w2 & j2 & -> & B2 & S & E3).
    assert (D : exists t, j2 = t ++ r /\ derives m t (snd e)) by (destruct m; auto). destruct D as (t & -> & D).
    exists (tk ++ w1 ++ s ":" ++ w2 ++ t). split; [rewrite <- !app_assoc; reflexivity|]. destruct e as [n k]. cbn [fst snd] in *. subst n. constructor; auto. destruct D1; auto using derives_weak.
  Qed.
  Lemma body_inv m i r k : stops blank i -> delimited_body inl con m i = POk r k -> exists t, i = t ++ r /\ derives m t k.
  Proof.
    intros S H. unfold delimited_body in H. apply bind_inv in H as (j & pat & E & H). apply pattern_inv in E as [-> P].
    destruct pat; [..|exact (prim_inv m _ _ _ S H)].
    all: destruct (P ltac:(discriminate)) as (T1 & T2 & o & i1 & EO & Q); clear P.
    all: unfold tuple, cntr_delimited, seq_delimited, map_delimited in H; rewrite EO in H; cbn [pbind] in H; apply bind_inv in H as (i2 & x & E & H);
      destruct (head_inv _ _ _ _ _ _ S T1 T2 EO E) as (w & -> & HO & EQ); apply bind_inv in H as (i3 & l & EL & H); apply ctor_inv in H as [-> ->];
      apply context_inv in EL; try apply cut_inv in EL; apply terminated_inv in EL as (i4 & b & EL & EB); rewrite new_line_eq in EL.
    all: destruct (new_line i2 && negb m) eqn:C; [apply andb_true_iff in C as [C M]; apply negb_true_iff in M as ->|].
    all: try (apply context_inv in EL); try (apply preceded_inv in EL as (i5 & w5 & E5 & EL); try apply cut_inv in EL; apply terminated_inv in EL as (i6 & w6 & EL & E6);
      eapply concise_inv in EL; [|first [exact HC|exact (fun i r a _ => field_inv false i r a)|exact (entry_inv false)]|eassumption..]; destruct EL as (t & -> & D)).
    all: try (eapply inline_inv in EL; [|first [exact HI|exact (fun i r a _ => field_inv true i r a)|exact (entry_inv true)]|eassumption]; destruct EL as (t & -> & D)).
    all: match goal with |- exists _, head _ _ ++ ?a :: ?t ++ ?b :: ?x = _ /\ _ => exists (head o w ++ [a] ++ t ++ [b]); split; [rewrite <- !app_assoc; reflexivity|] end.
    all: try (destruct (Q w _ (proj1 HO) EQ) as [Q1 Q2]; clear Q; rewrite trim_app2, assigns_close in Q1, Q2 by reflexivity).
    - now apply D_tuple_lines, Q1.
    - apply D_tuple; auto; [|now apply Q1]. intros -> ->. destruct (Q1 eq_refl) as [_ Q3]. inversion D as [w' B|]; subst. now rewrite unit_ok in Q3 by auto; discriminate (Q3 eq_refl).
    - now apply D_cntr_lines, Q2.
    - now apply D_cntr, Q2.
    - now apply D_seq_lines.
    - now apply D_seq.
    - now apply D_map_lines.
    - now apply D_map.
  Qed.
End Delimited.
Theorem delimited_inv fuel : forall m i r k, stops blank i -> kserd_delimited fuel m i = POk r k -> exists t, i = t ++ r /\ derives m t k.
Proof.
  induction fuel as [|fuel IH]; intros m i r k S H; [discriminate|]. cbn [kserd_delimited] in H. revert S H. apply body_inv; apply IH.
Qed.

(** ** the verbose layout *)
Lemma eol_inv i r a : line_ending i = POk r a -> i = a ++ r /\ eol a.
Proof.
  unfold line_ending. destruct i as [|c i]; [discriminate|]. intros H.
  destruct (N.eq_dec c 10) as [->|N1]; [injection H as <- <-; split; [reflexivity|now left]|].
  destruct (N.eq_dec c 13) as [->|N2].
  - destruct i as [|d i]; [discriminate|]. destruct (N.eq_dec d 10) as [->|N3]; [injection H as <- <-; split; [reflexivity|now right]|].
    exfalso. destruct d as [|d]; [discriminate|]. do 4 (destruct d as [d|d|]; try discriminate; try congruence).
  - exfalso. destruct c as [|c]; [discriminate|]. do 4 (destruct c as [c|c|]; try discriminate; try congruence).
Qed.
Lemma skip_lines_inv fuel : forall i r a, skip_lines fuel i = POk r a -> exists w, i = w ++ r /\ blank_lines w.
Proof.
  induction fuel as [|fuel IH]; intros i r a H; [discriminate|]. cbn [skip_lines] in H. apply bind_inv in H as (n & o & E & H).
  apply opt_inv in E as [(x & -> & E)|(-> & <- & _)].
  - apply ignore_inv in E as (w & j & -> & B & _ & E). apply eol_inv in E as [-> L]. apply IH in H as (w' & -> & BL).
    exists (w ++ x ++ w'). split; [now rewrite <- !app_assoc|]. now constructor.
  - injection H as <- _. exists []. split; [reflexivity|constructor].
Qed.
Lemma indents_inv n : forall i r a, expect_indents n i = POk r a -> exists w, i = w ++ r /\ indents n w.
Proof.
  induction n as [|n IH]; intros i r a H; cbn [expect_indents] in H; [injection H as <- _; exists []; split; [reflexivity|constructor]|].
  apply bind_inv in H as (j & x & E & H). apply IH in H as (w & -> & I). apply alt2_inv in E as [E|E]; apply tag_inv in E as [-> _].
  - exists (s "    " ++ w). split; [now rewrite <- app_assoc|]. now constructor.
  - exists (9 :: w). split; [reflexivity|]. now constructor.
Qed.
Lemma title_inv i r x j b c : verbose_field_name_and_identity i = POk j x -> ignore_ws (tag c) j = POk r b ->
  exists h, i = h ++ c ++ r /\ titlef h (fst x) (snd x).
Proof.
  intros H E. apply ignore_tag_inv in E as (w4 & -> & B4). apply context_inv, bind_inv in H as (i1 & name & E1 & H).
  apply ignore_inv in E1 as (w1 & i2 & -> & B1 & _ & E1). apply field_name_inv in E1 as [-> F].
  assert (N : POk i1 (name, None) = POk (w4 ++ c ++ r) x -> exists h, w1 ++ name ++ i1 = h ++ c ++ r /\ titlef h (fst x) (snd x)).
  { intros [= -> <-]. exists (w1 ++ name ++ w4). split; [now rewrite <- !app_assoc|]. now constructor. }
  destruct (ignore_ws (pchar (ch ":")) i1) as [i3 y| | | |] eqn:E2; auto. clear N.
  apply bind_inv in H as (i4 & id & E3 & H). injection H as -> <-. apply ignore_char_inv in E2 as (w2 & -> & B2).
  apply ignore_inv in E3 as (w3 & i4' & -> & B3 & _ & E3). apply ident_false_inv in E3 as [-> V].
  exists (w1 ++ name ++ w2 ++ s ":" ++ w3 ++ id ++ w4). split; [rewrite <- !app_assoc; reflexivity|]. now constructor.
Qed.

Section Verbose.
  Variables (inl con nested : parser kserd) (n : nat).
  Hypothesis HI : forall i r k, stops blank i -> inl i = POk r k -> exists t, i = t ++ r /\ derives true t k.
  Hypothesis HC : forall i r k, stops blank i -> con i = POk r k -> exists t, i = t ++ r /\ derives false t k.
  Hypothesis HN : forall i r k, nested i = POk r k -> exists t, i = t ++ r /\ bodyf (S n) t k.
  Lemma item_inv i r f : verbose_cntr_field inl con nested n i = POk r f -> exists w t, i = w ++ t ++ r /\ lead n w /\ itemf n t (cf_item f).
  Proof.
    unfold verbose_cntr_field. intros H. apply bind_inv in H as (i1 & x1 & E1 & H). apply bind_inv in H as (i2 & x2 & E2 & H). apply bind_inv in H as (i3 & w3 & E3 & H).
    apply skip_lines_inv in E1 as (w1 & -> & BL). apply indents_inv in E2 as (w2 & -> & ID). apply blank_inv in E3 as (-> & B3 & S3).
    assert (L : lead n (w1 ++ w2 ++ w3)) by (now constructor). clear BL ID B3.
    assert (G : (exists t, i3 = t ++ r /\ itemf n t (cf_item f)) -> exists w t, w1 ++ w2 ++ w3 ++ i3 = w ++ t ++ r /\ lead n w /\ itemf n t (cf_item f)).
    { intros (t & -> & F). exists (w1 ++ w2 ++ w3), t. now rewrite <- !app_assoc. }
    apply G. clear G L.
    match type of H with (if ?x then _ else _) = _ => destruct x end; [discriminate|].
    destruct (starts_with (s ":") i3) eqn:C1.
    { apply starts_with_spec in C1 as [i4 ->]. change (tl (s ":" ++ i4)) with i4 in H. apply bind_inv in H as (i5 & id & E & H). injection H as -> <-.
      apply ignore_inv in E as (w & j & -> & B & _ & E). apply ident_false_inv in E as [-> V]. exists (s ":" ++ w ++ id). split; [now rewrite <- !app_assoc|]. now constructor. }
    clear C1. destruct (starts_with (s "[[") i3) eqn:C2.
    { clear C2. apply bind_inv in H as (i4 & [fname id] & E & H). apply context_inv, cut_inv, preceded_inv in E as (i5 & x5 & E5 & E). apply tag_inv in E5 as [-> _].
      apply terminated_inv in E as (i6 & x6 & E & E6). eapply title_inv in E; [|exact E6]. destruct E as (h & -> & T). cbn [fst snd] in T.
      apply bind_inv in H as (i7 & e & E7 & H). apply ignore_inv in E7 as (w & j & -> & B & _ & E7). apply eol_inv in E7 as [-> L].
      apply bind_inv in H as (i8 & key & E8 & H). apply opt_inv in E8 as [(k & -> & E8)|(-> & -> & _)].
      - apply terminated_inv in E8 as (i9 & x9 & E8 & E9). apply ignore_char_inv in E9 as (w2' & -> & B2). apply ignore_inv in E8 as (w1' & j' & -> & B1 & S1 & E8).
        apply uncut_inv, HI in E8 as (tk & -> & D); [|exact S1]. apply bind_inv in H as (i10 & v & E10 & H). injection H as -> <-.
        apply context_inv, alt2_inv in E10 as [E|E].
        + apply ignore_inv in E as (w3' & j2 & -> & B3 & S3' & E). apply HC in E as (t & -> & D2); [|exact S3'].
          exists (s "[[" ++ h ++ s "]]" ++ w ++ e ++ w1' ++ tk ++ w2' ++ s ":" ++ w3' ++ t). split; [rewrite <- !app_assoc; reflexivity|]. now apply F_entry.
        + apply preceded_inv in E as (j2 & e' & E & E'). apply ignore_inv in E as (w3' & j3 & -> & B3 & _ & E). apply eol_inv in E as [-> L'].
          apply HN in E' as (t & -> & D2).
          exists (s "[[" ++ h ++ s "]]" ++ w ++ e ++ w1' ++ tk ++ w2' ++ s ":" ++ w3' ++ e' ++ t). split; [rewrite <- !app_assoc; reflexivity|]. now apply F_entry_below.
      - apply bind_inv in H as (i10 & v & E10 & H). injection H as -> <-. apply context_inv, HN in E10 as (t & -> & D).
        exists (s "[[" ++ h ++ s "]]" ++ w ++ e ++ t). split; [rewrite <- !app_assoc; reflexivity|]. now apply F_elem. }
    clear C2. destruct (starts_with (s "[") i3) eqn:C3.
    { clear C3. apply bind_inv in H as (i4 & [fname id] & E & H). apply preceded_inv in E as (i5 & x5 & E5 & E). apply tag_inv in E5 as [-> _].
      apply terminated_inv in E as (i6 & x6 & E & E6). eapply title_inv in E; [|exact E6]. destruct E as (h & -> & T). cbn [fst snd] in T.
      apply bind_inv in H as (i7 & e & E7 & H). apply ignore_inv in E7 as (w & j & -> & B & _ & E7). apply eol_inv in E7 as [-> L].
      apply bind_inv in H as (i10 & v & E10 & H). injection H as -> <-. apply context_inv, HN in E10 as (t & -> & D).
      exists (s "[" ++ h ++ s "]" ++ w ++ e ++ t). split; [rewrite <- !app_assoc; reflexivity|]. now apply (F_section n h fname id w e t v). }
    apply bind_inv in H as (i4 & [fname v] & E & H). injection H as -> <-. apply cut_inv, (field_inv inl con HI HC) in E as (t & -> & D). exists t. split; [reflexivity|]. now constructor.
  Qed.
  Lemma many_inv fuel : forall acc i r l, many0_loop fuel (verbose_cntr_field inl con nested n) acc i = POk r l ->
    exists t l', l = acc ++ l' /\ i = t ++ r /\ itemsf n t (map cf_item l').
  Proof.
    induction fuel as [|fuel IH]; intros acc i r l H; [discriminate|]. cbn [many0_loop] in H.
    destruct (verbose_cntr_field inl con nested n i) as [i1 f| | | |] eqn:E; try discriminate.
    - destruct (Nat.eqb (length i1) (length i)); [discriminate|]. apply item_inv in E as (w & t & -> & L & F). apply IH in H as (t' & l' & -> & -> & D).
      exists (w ++ t ++ t'), (f :: l'). rewrite <- !app_assoc. split; [reflexivity|]. split; [reflexivity|]. cbn [map]. now constructor.
    - injection H as -> ->. exists [], []. rewrite app_nil_r. split; [reflexivity|]. split; [reflexivity|constructor].
  Qed.
  Lemma container_inv i r k : cntr_verbose inl con nested n i = POk r k -> exists t l, i = t ++ r /\ itemsf n t l /\ k = container l.
  Proof.
    unfold cntr_verbose. intros H. apply bind_inv in H as (j & fs & E & H). injection H as -> <-. apply many_inv in E as (t & l' & -> & -> & D).
    exists t, (map cf_item l'). cbn [app]. now rewrite assemble_container.
  Qed.
End Verbose.
Lemma pattern_verbose_inv i j b : pattern_match_verbose i = POk j b -> j = i /\ b = verbose_first i.
Proof.
  unfold pattern_match_verbose. destruct (trim_spec i) as [w ->]. cbn [pbind]. intros [= <- <-]. split; [reflexivity|].
  unfold verbose_first, verbose_start. rewrite assign_eq, encased_eq. now rewrite !orb_assoc.
Qed.
Theorem nested_inv fuel dfuel : forall n i r k, kserd_nested fuel dfuel n i = POk r k -> exists t, i = t ++ r /\
  ((exists w t', t = w ++ t' /\ blanks w /\ derives false t' k /\ verbose_first i = false) \/ (exists l, itemsf n t l /\ k = container l /\ verbose_first i = true)).
Proof.
  induction fuel as [|fuel IH]; intros n i r k H; [discriminate|]. cbn [kserd_nested] in H. apply bind_inv in H as (j & b & E & H). apply pattern_verbose_inv in E as [-> ->].
  destruct (verbose_first i) eqn:V.
  - apply container_inv in H as (t & l & -> & D & ->); [exists t; split; [reflexivity|]; right; eauto|apply delimited_inv|apply delimited_inv|].
    intros i' r' k' H'. apply IH in H' as (t & -> & [(w & t' & -> & B & D & _)|(l & D & -> & _)]); eexists; (split; [reflexivity|]); now constructor.
  - apply ignore_inv in H as (w & j & -> & B & S & H). apply delimited_inv in H as (t & -> & D); [|exact S].
    exists (w ++ t). split; [now rewrite app_assoc|]. left. eauto 8.
Qed.
Theorem parse_format src k : parse src = ParseOk k -> format src k.
Proof.
  unfold parse. destruct (kserd_root src) as [r a| | | |] eqn:E; intros H; try discriminate. injection H as <-.
  unfold kserd_root in E. destruct src as [|c src]; [discriminate|]. set (i := c :: src) in *. clearbody i. clear c src.
  unfold all_consuming in E. apply bind_inv in E as (j & x & E & H). destruct j; [|discriminate]. injection H as <- <-.
  apply terminated_inv in E as (j & w & E & H). apply space_inv in H as (-> & B & _). rewrite app_nil_r in *.
  apply nested_inv in E as (t & -> & [(w1 & t' & -> & B1 & D & V)|(l & D & -> & V)]).
  - rewrite <- app_assoc in *. now constructor.
  - now constructor.
Qed.
