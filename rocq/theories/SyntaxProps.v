(** What the parser accepts is in the syntax: values. *)
From Verif Require Import Base F64 Number BTree Value BaseProps ValueProps2 Base91 Nom Parse ParseProps ParseErr Grammar VGrammar GrammarProps VGrammarProps VAssemble Format FormatProps Syntax.
Open Scope N_scope.

Lemma stop_stops f r : stop f r = true <-> stops f r.
Proof. destruct r as [|c r]; cbn [stop stops]; [tauto|]. apply negb_true_iff. Qed.

(** ** primitives *)
Lemma prim_value_at i r v : prim_value i = POk r v -> exists t, i = t ++ r /\ token t v /\ ends_token v r = true.
Proof.
  intros H. pose proof H as H0. apply prim_value_inv in H0 as (t & -> & T). exists t. split; [reflexivity|]. split; [exact T|].
  destruct v; try reflexivity. cbn [ends_token]. apply stop_stops.
  unfold prim_value in H. apply context_inv in H. unfold alt5 in H.
  assert (N : exists n', num (t ++ r) = POk r n').
  { assert (X : forall A (p : parser A) (f : A -> value kserd) i j v, pmap p f i = POk j v -> exists a, v = f a /\ p i = POk j a) by (intros; now apply pmap_inv).
    destruct (pmap unit_value _ _) eqn:E1; try discriminate; [injection H as -> ->; apply X in E1 as (? & E1 & _); discriminate|].
    destruct (pmap boolean _ _) eqn:E2; try discriminate; [injection H as -> ->; apply X in E2 as (? & E2 & _); discriminate|].
    destruct (pmap num _ _) eqn:E3; try discriminate; [injection H as -> ->; apply X in E3 as (n' & _ & E3); eauto|].
    destruct (pmap pstring _ _) eqn:E4; try discriminate; [injection H as -> ->; apply X in E4 as (? & E4 & _); discriminate|].
    destruct (pmap barr _ _) eqn:E5; try discriminate; injection H as -> ->; apply X in E5 as (? & E5 & _); discriminate. }
  destruct N as (n' & N). unfold num in N. apply context_inv in N. pose proof (take_while_rest is_num_char (t ++ r)) as S. destruct (take_while is_num_char (t ++ r)) as [a b].
  destruct (num_from_str a); [|discriminate]. injection N as -> _. exact S.
Qed.
Lemma ident_false_at i r a : ident false i = POk r a -> i = a ++ r /\ is_id a = true /\ stops name_char r.
Proof.
  intros H. pose proof H as H0. apply ident_false_inv in H0 as [-> V]. split; [reflexivity|]. split; [exact V|].
  destruct a as [|c a]; [discriminate|]. apply id_start in V as [V _]. pose proof (ident_prefix c (a ++ r) V) as P. change (c :: a ++ r) with ((c :: a) ++ r) in P.
  pose proof (take_while_rest name_char ((c :: a) ++ r)) as S. destruct (take_while name_char ((c :: a) ++ r)) as [x y]. rewrite H in P. injection P as -> _. exact S.
Qed.
Lemma pattern_none_inv i j : pattern_match_delimited i = POk j NpNone -> (exists e, ident true i = PErr e) -> no_head i = true.
Proof.
  intros H [e A]. unfold no_head. unfold pattern_match_delimited in H. destruct (starts_with (s "true") i); [reflexivity|]. destruct (starts_with (s "false") i); [reflexivity|]. cbn [orb] in *.
  unfold opt at 1 in H. rewrite A in H. cbn [pbind] in H. destruct i as [|c i]; [reflexivity|]. destruct (id_head c) eqn:E.
  - pose proof (ident_prefix c i E) as P. destruct (take_while name_char (c :: i)) as [x y]. unfold opt in H. rewrite P in H. cbn [pbind] in H.
    destruct (opens y) eqn:O; [|now rewrite orb_true_r]. exfalso. rewrite opens_trim in O. destruct (trim_spec y) as [w T]. rewrite T in H. cbn [pbind] in H.
    destruct (trim y) as [|d z] eqn:TY; [discriminate|]. cbn [hd tl] in *. destruct (trim_spec z) as [w' T'].
    apply opener_cases in O as [->|[->| ->]]; [|discriminate|discriminate]. change (ch "(" =? ch "[") with false in H. change (ch "(" =? ch "{") with false in H. rewrite N.eqb_refl, T' in H. cbn [pbind] in H.
    destruct (recognise_field_assign (trim z)); discriminate.
  - cbn [take_while]. destruct (name_char c); [|reflexivity]. destruct (take_while name_char i) as [x y]. unfold is_id. fold (id_head c). now rewrite E.
Qed.
Lemma prim_at m i r k : stops blank i -> (exists j, pattern_match_delimited i = POk j NpNone) -> prim i = POk r k -> exists t, i = t ++ r /\ value_at m t r k.
Proof.
  intros S [jp P] H. unfold prim in H. apply bind_inv in H as (j & [id v] & E & H). apply ctor_inv in H as [-> ->].
  apply context_inv, pair_inv in E as (j1 & o & j2 & w & E1 & E2 & E3 & EQ). cbn [fst snd] in *. subst o.
  apply blank_inv in E2 as (-> & B & _). apply prim_value_at in E3 as (t & -> & T & ET).
  apply opt_inv in E1 as [(x & -> & E1)|(-> & <- & A)].
  - apply ident_true_inv in E1 as [-> V]. exists (s "<" ++ x ++ s ">" ++ w ++ t). split; [now rewrite <- !app_assoc|now constructor].
  - apply stops_nil_blanks in S; [|exact B]. subst w. exists t. split; [reflexivity|]. constructor; auto. now apply pattern_none_inv in P.
Qed.

(** ** lists *)
Section Loop.
  Context {A B : Type} (sep : parser B) (p : parser A) (S : str -> Prop) (R : str -> str -> A -> Prop) (pre : str -> Prop).
  Hypothesis HS : forall i r b, sep i = POk r b -> length r <> length i -> exists w, i = w ++ r /\ S w /\ pre r.
  Hypothesis HP : forall i r a, pre i -> p i = POk r a -> exists t, i = t ++ r /\ R t r a.
  Lemma loop_at fuel : forall acc i r l, sep_loop fuel sep p acc i = POk r l ->
    exists t l', l = acc ++ l' /\ i = t ++ r /\ separated_at R S t r l' /\
      ((exists e, sep r = PErr e) \/ exists j b, sep r = POk j b /\ length j <> length r).
  Proof.
    induction fuel as [|fuel IH]; intros acc i r l H; [discriminate|]. cbn [sep_loop] in H.
    destruct (sep i) as [i1 b|e|e| |] eqn:E; try discriminate.
    - destruct (Nat.eqb_spec (length i1) (length i)) as [|NE]; [discriminate|]. destruct (p i1) as [i2 a|e|e| |] eqn:EP; try discriminate.
      + destruct (HS _ _ _ E NE) as (w & -> & Sw & Pw). destruct (HP _ _ _ Pw EP) as (t & -> & Rt). apply IH in H as (t' & l' & -> & -> & C & L).
        exists (w ++ t ++ t'), (a :: l'). rewrite <- !app_assoc. split; [reflexivity|]. split; [reflexivity|]. split; [now constructor|exact L].
      + injection H as <- <-. exists [], []. rewrite app_nil_r. split; [reflexivity|]. split; [reflexivity|]. split; [constructor|]. right. eauto.
    - injection H as <- <-. exists [], []. rewrite app_nil_r. split; [reflexivity|]. split; [reflexivity|]. split; [constructor|]. left. eauto.
  Qed.
  Lemma list0_at i r l : pre i -> separated_list0 sep p i = POk r l ->
    (l = [] /\ r = i) \/ exists a l' t t', l = a :: l' /\ i = t ++ t' ++ r /\ R t (t' ++ r) a /\ separated_at R S t' r l' /\
      ((exists e, sep r = PErr e) \/ exists j b, sep r = POk j b /\ length j <> length r).
  Proof.
    intros P H. unfold separated_list0 in H. destruct (p i) as [i1 a|e|e| |] eqn:E; try discriminate.
    - destruct (HP _ _ _ P E) as (t & -> & Rt). apply loop_at in H as (t' & l' & -> & -> & C & L). right. exists a, l', t, t'. auto 6.
    - injection H as <- <-. auto.
  Qed.
End Loop.
Lemma inline_at_inv {A} (p : parser A) (R : str -> str -> A -> Prop) c i r l b j :
  (forall i r a, stops blank i -> p i = POk r a -> exists t, i = t ++ r /\ R t r a) ->
  separated_list0 (ignore_ws (pchar (ch ","))) (ignore_ws p) i = POk j l -> ignore_ws (pchar c) j = POk r b ->
  exists t, i = t ++ c :: r /\ inline_at R t ([c] ++ r) l.
Proof.
  intros HP H E. apply ignore_char_inv in E as (w' & -> & B').
  set (R' := fun u x a => exists w t, u = w ++ t /\ blanks w /\ R t x a).
  set (S' := fun w => exists w1, blanks w1 /\ w = w1 ++ s ",").
  apply (list0_at _ _ S' R' (fun _ => True)) in H; [|intros i' r' x H' _; apply ignore_char_inv in H' as (w & -> & B); exists (w ++ s ","); rewrite <- app_assoc; repeat split; exists w; auto|
    intros i' r' a _ H'; apply ignore_inv in H' as (w & k & -> & B & S & H'); apply HP in H' as (t & -> & Rt); [|exact S]; exists (w ++ t); rewrite app_assoc; split; [reflexivity|]; exists w, t; auto|exact I].
  assert (M : forall t x l, separated_at R' S' t x l -> separated_at R comma t x l).
  { induction 1 as [|w u a x l0 y (w1 & B1 & ->) (w2 & t & -> & B2 & Rt) C IH]; [constructor|].
    replace ((w1 ++ s ",") ++ (w2 ++ t) ++ x) with ((w1 ++ s "," ++ w2) ++ t ++ x) by (rewrite <- !app_assoc; reflexivity).
    constructor; [exists w1, w2; auto|exact Rt|exact IH]. }
  destruct H as [[-> EQ]|(a & l' & u & t' & -> & EQ & (w & t & -> & B & Rt) & C & _)].
  - exists w'. split; [now symmetry|]. now constructor.
  - exists (w ++ t ++ t' ++ w'). split; [rewrite EQ, <- !app_assoc; reflexivity|]. constructor; auto.
Qed.
Lemma concise_at_inv {A} (p : parser A) (R : str -> str -> A -> Prop) c i i3 w i4 l i5 w2 r b :
  (forall i r a, stops blank i -> p i = POk r a -> exists t, i = t ++ r /\ R t r a) ->
  new_line i = true -> multiline_whitespace i = POk i3 w -> separated_list0 multiline_whitespace p i3 = POk i4 l ->
  multiline_whitespace i4 = POk i5 w2 -> ignore_ws (pchar c) i5 = POk r b ->
  exists t, i = t ++ c :: r /\ concise_at R t ([c] ++ r) l.
Proof.
  intros HP NL E1 H E2 E. apply space_inv in E1 as (-> & B1 & S1). pose proof E2 as E2'. apply space_inv in E2 as (-> & B2 & S2).
  apply ignore_char_inv in E as (w' & -> & B'). apply stops_space_blank, stops_nil_blanks in S2 as ->; [|exact B']. cbn [app] in *.
  apply FormatProps.new_line_app in NL; [|exact S1].
  apply (list0_at _ _ gap R (stops space)) in H; [| |intros i' r' a S H'; apply HP in H'; [exact H'|now apply stops_space_blank]|exact S1].
  - destruct H as [[-> EQ]|(a & l' & t & t' & -> & -> & Rt & C & L)].
    + rewrite <- EQ in S1. destruct w2 as [|x w2]; [|exfalso; unfold spaces in B2; cbn in S1, B2; rewrite S1 in B2; discriminate].
      exists w. split; [now rewrite <- EQ|]. now constructor.
    + exists (w ++ t ++ t' ++ w2). split; [rewrite <- !app_assoc; reflexivity|]. constructor; auto. split; [exact B2|]. intros ->.
      destruct L as [[e L]|(j & x & L & NE)]; rewrite E2' in L; [discriminate|]. injection L as <- _. now apply NE.
  - intros i' r' x H' NE. apply space_inv in H' as (-> & Bw & Sw). exists x. split; [reflexivity|]. split; [|exact Sw]. split; [exact Bw|]. intros ->. now apply NE.
Qed.

Lemma value_at_weak t r k : value_at true t r k -> value_at false t r k.
Proof. inversion 1; subst; econstructor; eassumption. Qed.
Section Delimited.
  Variables inl con : parser kserd.
  Hypothesis HI : forall i r k, stops blank i -> inl i = POk r k -> exists t, i = t ++ r /\ value_at true t r k.
  Hypothesis HC : forall i r k, stops blank i -> con i = POk r k -> exists t, i = t ++ r /\ value_at false t r k.

  Lemma field_at_inv (m : bool) i r e : stops blank i -> kvp_field inl con m i = POk r e -> exists t, i = t ++ r /\ field_at (value_at m) t r e.
  Proof.
    intros S0 H. apply context_inv, pair_inv in H as (j & name & j' & x & E1 & E2 & E3 & EQ). apply field_name_inv in E1 as [-> F].
    apply ignore_char_inv in E2 as (w1 & -> & B1). apply ignore_inv in E3 as (w2 & j & -> & B2 & S & E3). apply cut_inv in E3.
    assert (D : exists t, j = t ++ r /\ value_at m t r (snd e)) by (destruct m; auto). destruct D as (t & -> & D).
    exists (name ++ w1 ++ s "=" ++ w2 ++ t). split; [rewrite <- !app_assoc; reflexivity|]. destruct e as [n k]. cbn [fst snd] in *. subst n. constructor; auto.
    intros ->. cbn [app] in S0. now apply stops_nil_blanks in S0.
  Qed.
  Lemma entry_at_inv (m : bool) i r e : stops blank i -> kvp_kserd inl con m i = POk r e ->
    exists t, i = t ++ r /\ entry_at (value_at false) (value_at m) t r e.
  Proof.
    intros S0 H. apply context_inv, pair_inv in H as (j & key & j' & x & E1 & E2 & E3 & EQ).
    assert (D1 : exists t, i = t ++ j /\ value_at false t j key).
    { apply alt2_inv in E1 as [E1|E1]; [apply HC in E1 as (t & -> & D)|apply HI in E1 as (t & -> & D)]; eauto using value_at_weak. }
    destruct D1 as (tk & -> & D1).
    apply ignore_char_inv in E2 as (w1 & -> & B1). apply ignore_inv in E3 as (w2 & j2 & -> & B2 & S & E3).
    assert (D : exists t, j2 = t ++ r /\ value_at m t r (snd e)) by (destruct m; auto). destruct D as (t & -> & D).
    exists (tk ++ w1 ++ s ":" ++ w2 ++ t). split; [rewrite <- !app_assoc; reflexivity|]. destruct e as [n k]. cbn [fst snd] in *. subst n. now constructor.
  Qed.
  Lemma body_at_inv m i r k : stops blank i -> delimited_body inl con m i = POk r k -> exists t, i = t ++ r /\ value_at m t r k.
  Proof.
    intros S H. unfold delimited_body in H. apply bind_inv in H as (j & pat & E & H). pose proof E as E0. apply pattern_inv in E as [-> P].
    destruct pat; [..|exact (prim_at m _ _ _ S (ex_intro _ _ E0) H)]. all: clear E0.
    all: destruct (P ltac:(discriminate)) as (T1 & T2 & o & i1 & EO & Q); clear P.
    all: unfold tuple, cntr_delimited, seq_delimited, map_delimited in H; rewrite EO in H; cbn [pbind] in H; apply bind_inv in H as (i2 & x & E & H);
      destruct (head_inv _ _ _ _ _ _ S T1 T2 EO E) as (w & -> & HO & EQ); apply bind_inv in H as (i3 & l & EL & H); apply ctor_inv in H as [-> ->];
      apply context_inv in EL; try apply cut_inv in EL; apply terminated_inv in EL as (i4 & b & EL & EB); rewrite new_line_eq in EL.
    all: destruct (new_line i2 && negb m) eqn:C; [apply andb_true_iff in C as [C M]; apply negb_true_iff in M as ->|].
    all: try (apply context_inv in EL); try (apply preceded_inv in EL as (i5 & w5 & E5 & EL); try apply cut_inv in EL; apply terminated_inv in EL as (i6 & w6 & EL & E6);
      eapply concise_at_inv in EL; [|first [exact HC|exact (field_at_inv false)|exact (entry_at_inv false)]|eassumption..]; destruct EL as (t & -> & D)).
    all: try (eapply inline_at_inv in EL; [|first [exact HI|exact (field_at_inv true)|exact (entry_at_inv true)]|eassumption]; destruct EL as (t & -> & D)).
    all: match goal with |- exists _, head _ _ ++ ?a :: ?t ++ ?b :: ?x = _ /\ _ => exists (head o w ++ [a] ++ t ++ [b]); split; [rewrite <- !app_assoc; reflexivity|] end.
    all: try (destruct (Q w _ (proj1 HO) EQ) as [Q1 Q2]; clear Q; rewrite trim_app2, assigns_close in Q1, Q2 by reflexivity).
    - now apply V_tuple_lines, Q1.
    - apply V_tuple; auto; [|now apply Q1]. intros -> ->. destruct (Q1 eq_refl) as [_ Q3]. inversion D as [w' x' B|]; subst. now rewrite unit_ok in Q3 by auto; discriminate (Q3 eq_refl).
    - now apply V_cntr_lines, Q2.
    - now apply V_cntr, Q2.
    - now apply V_seq_lines.
    - now apply V_seq.
    - now apply V_map_lines.
    - now apply V_map.
  Qed.
End Delimited.
Theorem delimited_at fuel : forall m i r k, stops blank i -> kserd_delimited fuel m i = POk r k -> exists t, i = t ++ r /\ value_at m t r k.
Proof.
  induction fuel as [|fuel IH]; intros m i r k S H; [discriminate|]. cbn [kserd_delimited] in H. revert S H. apply body_at_inv; apply IH.
Qed.
