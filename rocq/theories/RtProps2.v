(** The texts of the writers are in the grammar. *)
From Verif Require Import Base F64 Number BTree Value BaseProps NumberProps3 Base91 Base91Props Nom Parse Grammar GrammarProps Nav Fmt FmtText FmtSpec FmtProps FmtProps2 RtProps RtSpec.
Open Scope N_scope.

Lemma each_all p d : each p d = d_all p d.
Proof. reflexivity. Qed.

(** ** lists as the writers write them *)
Definition gap (x : dk) : str := if drops x then [] else [32].
Lemma cut_space x a : FmtText.cut x (a ++ [32]) = a ++ gap x.
Proof. unfold FmtText.cut, gap. destruct (drops x); [|reflexivity]. rewrite pop_app_last. now rewrite app_nil_r. Qed.
Section Bodies.
  Context {A : Type} (g : A -> bool) (I : A -> str).
  Fixpoint more_text (l : list A) : str :=
    match l with [] => [] | x :: l => s "," ++ (if g x then [] else s " ") ++ I x ++ more_text l end.
  Definition first_text (c0 : str) (l : list A) : str :=
    match l with [] => c0 | x :: l => (if g x then pop c0 else c0) ++ I x ++ more_text l end.
  Definition istep (acc : str) (x : A) : str := (if g x then pop acc else acc) ++ I x ++ s ", ".
  Lemma pop_app a b : b <> [] -> pop (a ++ b) = a ++ pop b.
  Proof. unfold pop. apply removelast_app. Qed.
  Lemma more_fold l : forall a, pop (pop (fold_left istep l (a ++ s ", "))) = a ++ more_text l.
  Proof.
    induction l as [|x l IH]; intros a; cbn [fold_left more_text].
    - rewrite !pop_app by discriminate. reflexivity.
    - unfold istep at 2. replace ((if g x then pop (a ++ s ", ") else a ++ s ", ") ++ I x ++ s ", ") with ((a ++ s "," ++ (if g x then [] else s " ") ++ I x) ++ s ", ").
      + rewrite IH. now rewrite <- !app_assoc.
      + destruct (g x); rewrite <- ?app_assoc; [rewrite pop_app by discriminate; now rewrite <- app_assoc|reflexivity].
  Qed.
  Lemma first_fold c0 l pre : match l with x :: _ => g x = true -> c0 <> [] | [] => True end ->
    pop2 l (fold_left istep l (pre ++ c0)) = pre ++ first_text c0 l.
  Proof.
    intros H. destruct l as [|x l]; cbn [fold_left first_text pop2 nonempty]; [reflexivity|].
    unfold istep at 2. rewrite app_assoc, more_fold. rewrite <- app_assoc. destruct (g x).
    - rewrite pop_app by auto. now rewrite <- app_assoc.
    - now rewrite <- app_assoc.
  Qed.
  Variable col : nat.
  Fixpoint lines_text (l : list A) : str :=
    nl ++ match l with [] => sp col | x :: l => sp (if g x then col + 3 else col + 4) ++ I x ++ lines_text l end.
  Definition cstep (acc : str) (x : A) : str := (if g x then pop (acc ++ sp (col + 4)) else acc ++ sp (col + 4)) ++ I x ++ nl.
  Lemma pop_sp a n : pop (a ++ sp (S n)) = a ++ sp n.
  Proof.
    unfold sp. replace (repeat 32 (S n)) with (repeat 32 n ++ [32]) by (symmetry; apply repeat_cons). now rewrite app_assoc, pop_app_last.
  Qed.
  Lemma lines_fold l : forall a, fold_left cstep l (a ++ nl) ++ sp col = a ++ lines_text l.
  Proof.
    induction l as [|x l IH]; intros a; cbn [fold_left lines_text].
    - now rewrite <- app_assoc.
    - unfold cstep at 2. replace ((if g x then pop ((a ++ nl) ++ sp (col + 4)) else (a ++ nl) ++ sp (col + 4)) ++ I x ++ nl)
        with ((a ++ nl ++ sp (if g x then col + 3 else col + 4) ++ I x) ++ nl).
      + rewrite IH. now rewrite <- !app_assoc.
      + destruct (g x); [|now rewrite <- !app_assoc]. replace (col + 4)%nat with (S (col + 3)) by lia. rewrite pop_sp. now rewrite <- !app_assoc.
  Qed.
End Bodies.

(** ** numbers *)
Definition dotted (c : char) : bool := is_digit c || mem c (s "-.").
Lemma digits_dotted ds : forallb is_digit ds = true -> forallb dotted ds = true.
Proof. rewrite !forallb_forall. intros H c Hc. unfold dotted. now rewrite (H c Hc). Qed.
Lemma dec_dotted n : forallb dotted (dec_of_N n) = true.
Proof. apply digits_dotted. now destruct (dec_of_N_spec n) as (_ & D & _). Qed.
Lemma zeros_dotted n : forallb dotted (zeros n) = true.
Proof. apply forallb_forall. intros c Hc. apply repeat_spec in Hc. now subst. Qed.
Lemma positional_dotted d t : forallb dotted (positional d t) = true.
Proof.
  unfold positional. destruct (0 <=? t)%Z; [now rewrite forallb_app, dec_dotted, zeros_dotted|].
  destruct (- t <? _)%Z; rewrite !forallb_app.
  - rewrite forallb_firstn, forallb_skipn by apply dec_dotted. reflexivity.
  - now rewrite dec_dotted, zeros_dotted.
Qed.
Lemma Z_display_dotted n : forallb dotted (Z_display n) = true.
Proof. destruct (Z_display_spec n) as (ds & -> & D & _). apply digits_dotted in D. destruct (n <? 0)%Z; cbn [forallb]; now rewrite D. Qed.
Lemma dotted_id t : forallb dotted t = true -> is_id t = false.
Proof.
  destruct t as [|c t]; [reflexivity|]. cbn [forallb]. intros H. apply andb_true_iff in H as [H _]. unfold is_id.
  replace (is_alpha c || (c =? ch "_")) with false; [reflexivity|]. symmetry. unfold dotted in H. apply orb_true_iff in H as [H|H].
  - apply digit_cases in H. each_char H.
  - apply mem_In in H. each_char H.
Qed.
Lemma display_bare n id f : is_id (num_display n) = bare_number (DK (mkFmt false f) id (VNum n)).
Proof.
  destruct n as [x|x|x]; cbn [num_display].
  - apply dotted_id, Z_display_dotted.
  - apply dotted_id, Z_display_dotted.
  - destruct x as [sg p|sg|sg m e]; [reflexivity|destruct sg; reflexivity|]. apply dotted_id. cbn [f_display]. rewrite forallb_app.
    apply andb_true_iff. split; [destruct sg; reflexivity|].
    destruct (m =? 0)%Z; [reflexivity|]. destruct (exact_dec m e) as [d t]. destruct (shortest _ d t _) as [d1 t1]. destruct (strip0 _ d1 t1) as [d2 t2]. apply positional_dotted.
Qed.
Lemma display_num_chars n : forallb Grammar.num_char (num_display n) = true.
Proof.
  pose proof (num_display_chars n) as H. rewrite forallb_forall in *. intros c Hc. specialize (H c Hc). unfold FmtProps2.num_char, Grammar.num_char in *.
  apply orb_true_iff in H as [H|H]; [now rewrite H|]. apply mem_In in H. each_char H.
Qed.

(** ** the lists are in the grammar *)
Section InGrammar.
  Context {A B : Type} (R : str -> B -> bool -> Prop) (g : A -> bool) (I : A -> str) (v : A -> B) (b : A -> bool).
  Lemma more_in l w : Forall (fun x => R (I x) (v x) (b x)) l -> blanks w -> inline_more R (more_text g I l ++ w) (map v l).
  Proof.
    intros F W. induction F as [|x l H _ IH]; cbn [more_text map].
    - now constructor.
    - replace ((s "," ++ (if g x then [] else s " ") ++ I x ++ more_text g I l) ++ w) with ([] ++ s "," ++ (if g x then [] else s " ") ++ I x ++ (more_text g I l ++ w)) by now rewrite <- !app_assoc.
      econstructor; [reflexivity|destruct (g x); reflexivity|exact H|exact IH].
  Qed.
  Lemma first_in c0 l w : Forall (fun x => R (I x) (v x) (b x)) l -> blanks c0 -> blanks w -> inline_list R (first_text g I c0 l ++ w) (map v l).
  Proof.
    intros F B0 W. destruct F as [|x l H F]; cbn [first_text map].
    - constructor. now apply blanks_app.
    - rewrite <- !app_assoc. econstructor; [|exact H|now apply more_in].
      destruct (g x); [|exact B0]. unfold blanks, pop in *. rewrite forallb_forall in *. intros c Hc. apply B0.
      clear -Hc. induction c0 as [|d c0 IH]; [contradiction|]. destruct c0; [contradiction|]. cbn [removelast] in Hc. destruct Hc as [->|Hc]; [now left|]. right. auto.
  Qed.
  Variable op : A -> bool.
  Lemma spaces_sp n : spaces (sp n).
  Proof. unfold spaces, sp. apply forallb_forall. intros c Hc. apply repeat_spec in Hc. now subst. Qed.
  Lemma lines_in col l : Forall (fun x => R (I x) (v x) (b x)) l -> chain (fun x y => negb (b x && op y)) l = true ->
    Forall (fun x => op x = false -> forall z, Grammar.opens (I x ++ z) = false) l ->
    concise_list R (lines_text g I col l) (map v l).
  Proof.
    intros F C OP. split; [destruct l; reflexivity|]. induction F as [|x l H F IH]; cbn [lines_text map].
    - constructor; [|discriminate]. apply (spaces_app nl); [reflexivity|apply spaces_sp].
    - rewrite app_assoc. econstructor; [|discriminate|exact H|apply IH|].
      + apply (spaces_app nl); [reflexivity|apply spaces_sp].
      + destruct l; [reflexivity|]. cbn [chain] in C. now apply andb_true_iff in C.
      + now inversion_clear OP.
      + intros BX. destruct l as [|y l]; cbn [lines_text].
        * rewrite <- (app_nil_r (nl ++ sp col)). rewrite spaces_opens; [reflexivity|]. apply (spaces_app nl); [reflexivity|apply spaces_sp].
        * cbn [chain] in C. apply andb_true_iff in C as [C _]. rewrite BX in C. cbn [andb] in C. apply negb_true_iff in C.
          rewrite spaces_opens by reflexivity. rewrite spaces_opens by apply spaces_sp. inversion_clear OP as [|? ? _ OP1]. inversion_clear OP1 as [|? ? OP2 _]. now apply OP2.
  Qed.
End InGrammar.

(** ** no '=' before the characters which stop the search for it *)
Fixpoint scan (t : str) : option bool :=
  match t with
  | [] => None
  | c :: t => if c =? ch "=" then Some true else if mem c (s "<>(){}'""" ++ [13; 10]) then Some false else scan t
  end.
Definition quiet (t : str) : Prop := scan t <> Some true.
Lemma assigns_scan t : assigns t = match scan t with Some true => true | _ => false end.
Proof.
  induction t as [|c t IH]; [reflexivity|]. cbn [assigns scan]. destruct (c =? ch "="); [reflexivity|]. destruct (mem c _); [reflexivity|exact IH].
Qed.
Lemma scan_app a b : scan (a ++ b) = match scan a with Some x => Some x | None => scan b end.
Proof. induction a as [|c a IH]; [reflexivity|]. cbn [app scan]. destruct (c =? ch "="); [reflexivity|]. destruct (mem c _); [reflexivity|exact IH]. Qed.
Lemma quiet_assigns t : assigns t = false <-> quiet t.
Proof. rewrite assigns_scan. unfold quiet. destruct (scan t) as [[]|]; split; congruence. Qed.
Lemma quiet_app a b : quiet a -> quiet b -> quiet (a ++ b).
Proof. unfold quiet. rewrite scan_app. destruct (scan a); auto. Qed.
Lemma quiet_stop a b : scan a = Some false -> quiet (a ++ b).
Proof. unfold quiet. rewrite scan_app. intros ->. discriminate. Qed.
Lemma name_quiet t : forallb name_char t = true -> scan t = None.
Proof.
  induction t as [|c t IH]; [reflexivity|]. cbn [forallb scan]. intros H. apply andb_true_iff in H as [H1 H2]. rewrite IH by assumption.
  destruct (N.eqb_spec c (ch "=")) as [->|_]; [discriminate|]. destruct (mem c _) eqn:E; [|reflexivity]. apply mem_In in E. each_char E; discriminate.
Qed.
Lemma num_quiet t : forallb Grammar.num_char t = true -> scan t = None.
Proof.
  induction t as [|c t IH]; [reflexivity|]. cbn [forallb scan]. intros H. apply andb_true_iff in H as [H1 H2]. rewrite IH by assumption.
  destruct (N.eqb_spec c (ch "=")) as [->|_]; [discriminate|]. destruct (mem c _) eqn:E; [|reflexivity]. apply mem_In in E. each_char E; discriminate.
Qed.
Lemma sp_quiet n : scan (sp n) = None.
Proof. unfold sp. induction n as [|n IH]; [reflexivity|]. exact IH. Qed.
Section Quiet.
  Context {A : Type} (g : A -> bool) (I : A -> str).
  Lemma more_quiet l : Forall (fun x => quiet (I x)) l -> quiet (more_text g I l).
  Proof.
    induction 1 as [|x l H _ IH]; cbn [more_text]; [discriminate|]. apply quiet_app; [discriminate|]. apply quiet_app; [destruct (g x); discriminate|]. now apply quiet_app.
  Qed.
  Lemma first_quiet l : Forall (fun x => quiet (I x)) l -> quiet (first_text g I [] l).
  Proof.
    intros [|x l' H F]; cbn [first_text]; [discriminate|]. apply quiet_app; [destruct (g x); discriminate|]. apply quiet_app; [exact H|now apply more_quiet].
  Qed.
  Lemma lines_quiet col l : Forall (fun x => quiet (I x)) l -> match l with x :: _ => starts (I x) | [] => True end -> quiet (trim (lines_text g I col l) ++ s ")").
  Proof.
    intros F S. assert (E : lines_text g I col l = (nl ++ match l with [] => sp col | x :: _ => sp (if g x then col + 3 else col + 4) end) ++ match l with [] => [] | x :: l => I x ++ lines_text g I col l end).
    { destruct l; cbn [lines_text]; [now rewrite app_nil_r|now rewrite <- !app_assoc]. }
    rewrite E. rewrite trim_app.
    - destruct l as [|x l]; [discriminate|]. inversion_clear F. rewrite <- app_assoc. apply quiet_app; [assumption|]. destruct l; cbn [lines_text]; apply (quiet_stop nl); reflexivity.
    - apply (spaces_app nl); [reflexivity|]. destruct l; apply spaces_sp.
    - destruct l; [exact Logic.I|]. now apply starts_space, starts_app.
  Qed.
End Quiet.
