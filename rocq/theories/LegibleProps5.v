(** Exactly which documents with titles can be read. *)
From Verif Require Import ParseSpec PropertiesParse Base F64 Number NumberSpec BTree Value BaseProps BTreeProps ValueSpec ValueProps ValueProps2 Nom Parse ParseErr ParseProps Grammar VGrammar GrammarProps VGrammarProps VAssemble VGrammarProps2 Format FormatProps Nav NavSpec NavProps NavProps2 Fmt Formatter FmtText FmtSpec FmtProps FmtProps2 FormatterProps FormatterProps2 FormatterProps3 FormatterProps4 VSpec VRtProps VRtProps2 VRtProps3 VRtProps4 VRtProps5 Syntax SyntaxProps SyntaxProps2 SyntaxProps3 SyntaxProps4 RtSpec RtProps2 RtProps3 RtProps4 RtProps5 RtProps6 RtProps7 MisreadSpec MisreadProps MisreadProps2 MisreadProps3 MisreadProps4 MisreadProps5 MisreadProps6 MisreadProps7 LegibleSpec MisreadSpec2 MisreadProps8 MisreadProps9 LegibleSpec2.
From Verif Require LegibleProps LegibleProps2.
Open Scope N_scope.

(** ** items one after another, with what makes them readable *)
Definition lpiece : Type := piece * (bool * bool).
Definition bodyp (p : lpiece) : str := snd (fst (fst p)).
Definition itemp (p : lpiece) : VGrammar.item := snd (fst p).
Definition legp (p : lpiece) : bool := fst (snd p).
Definition barep (p : lpiece) : bool := snd (snd p).
Definition popen (p : lpiece) : bool := Grammar.opens (bodyp p).
Definition next_open (ps : list lpiece) (o : bool) : bool := match ps with q :: _ => popen q | [] => o end.
Fixpoint pleg (ps : list lpiece) (o : bool) : Prop :=
  match ps with [] => True | p :: qs => (legp p = true /\ (barep p = true -> next_open qs o = false)) /\ pleg qs o end.
Lemma pleg_app ps qs o : pleg (ps ++ qs) o <-> pleg ps (next_open qs o) /\ pleg qs o.
Proof.
  induction ps as [|p ps IH]; cbn [app pleg]; [tauto|]. rewrite IH. replace (next_open (ps ++ qs) o) with (next_open ps (next_open qs o)) by now destruct ps. tauto.
Qed.
Lemma pleg_map {A} (f : A -> lpiece) l o : (forall x, popen (f x) = true) ->
  pleg (map f l) o <-> forallb (fun x => legp (f x)) l = true /\ chain (fun x _ => negb (barep (f x))) l = true /\ (last (map (fun x => barep (f x)) l) false = true -> o = false).
Proof.
  intros H. induction l as [|x l IH]; [cbn; intuition discriminate|]. cbn [map pleg forallb]. rewrite IH. destruct l as [|y l].
  - cbn. rewrite !andb_true_r. intuition discriminate.
  - set (l' := y :: l) in *. change (next_open (map f l') o) with (popen (f y)). rewrite H. change (chain (fun x _ => negb (barep (f x))) (x :: l')) with (negb (barep (f x)) && chain (fun x _ => negb (barep (f x))) l').
    change (last (barep (f x) :: map (fun x => barep (f x)) l') false) with (last (map (fun x => barep (f x)) l') false). rewrite !andb_true_iff, negb_true_iff. destruct (barep (f x)); intuition congruence.
Qed.

Definition item_iff (n : nat) (T : str) (i : VGrammar.item) (L b : bool) : Prop := forall rest, lower (S n) rest ->
  (forall t r i', item_at n t r i' -> t ++ r = T ++ rest -> L = true /\ (b = true -> Grammar.opens rest = false)) /\
  (L = true -> (b = true -> Grammar.opens rest = false) -> exists T' W, T = T' ++ W /\ blank_lines W /\ item_at n T' (W ++ rest) i).
Definition good_piece (n : nat) (p : lpiece) : Prop := piece_read n (fst p) /\ item_iff n (bodyp p) (itemp p) (legp p) (barep p).
Definition rtext (n : nat) (ps : list lpiece) : str := concat (map (render n) (map fst ps)).
Lemma good_reads n ps : Forall (good_piece n) ps -> Forall (piece_read n) (map fst ps).
Proof. intros F. apply Forall_map. eapply Forall_impl; [|exact F]. intros p [H _]. exact H. Qed.
Lemma opens_begins T z : SyntaxProps2.begins T -> Grammar.opens (T ++ z) = Grammar.opens T.
Proof. intros B. destruct T as [|c T]; [contradiction|]. destruct B as [B _]. cbn [app Grammar.opens]. now rewrite B. Qed.
Lemma opens_rtext n ps rest : Forall (good_piece n) ps -> Grammar.opens (rtext n ps ++ rest) = next_open ps (Grammar.opens rest).
Proof.
  intros F. destruct F as [|[[[W T] i] Lb] ps [[HW [B _]] _] _]; [reflexivity|]. unfold rtext. cbn [map concat fst snd next_open]. unfold render at 1, popen, bodyp. cbn [fst snd] in *. rewrite <- !app_assoc.
  rewrite spaces_opens by now apply blank_lines_spaces. rewrite spaces_opens by apply spaces_sp. now apply opens_begins.
Qed.
Lemma items_back n ps : Forall (good_piece n) ps -> forall W t r l rest, blank_lines W -> lower n rest -> items_at n t r l -> closes n r = true ->
  t ++ r = W ++ rtext n ps ++ rest -> pleg ps (Grammar.opens rest).
Proof.
  induction 1 as [|[[[p T] i] [lb bb]] ps [[P [B H]] Q] F IH]; intros W t r l rest HW L HI C E; [exact I|]. unfold rtext in E. cbn [map concat fst snd] in *. unfold bodyp, itemp, legp, barep in Q. cbn [fst snd] in Q.
  unfold render at 1 in E. cbn [fst snd] in E. rewrite <- !app_assoc in E. destruct T as [|c z]; [contradiction|].
  inversion HI as [|n0 w t0 i' u l0 r0 LD HA HU]; subst.
  - exfalso. cbn [app] in E. rewrite E, app_assoc in C. rewrite opens_here in C; [discriminate|now apply bl_app|apply B].
  - rewrite <- !app_assoc in E. rewrite (app_assoc W), (app_assoc (W ++ p)) in E. pose proof (item_begins _ _ _ _ HA) as BA.
    apply gap_eq in E as [_ E]; [|now apply lead_spaces in LD|now apply begins_space, SyntaxProps2.begins_app| |apply B].
    2:{ unfold spaces. rewrite forallb_app. apply andb_true_iff. split; [apply blank_lines_spaces; now apply bl_app|apply spaces_sp]. }
    assert (LO : lower (S n) (rtext n ps ++ rest)) by (apply pieces_lower; [now apply good_reads|exact L]).
    destruct (H t0 (u ++ r) i' (rtext n ps ++ rest) LO HA E) as (-> & W' & HW' & E').
    cbn [pleg]. split; [|exact (IH W' u r l0 rest HW' L HU C E')]. unfold legp, barep. cbn [fst snd]. rewrite <- (opens_rtext n ps rest F). exact (proj1 (Q _ LO) _ _ _ HA E).
Qed.
Lemma indents_sp n : indents n (sp (4 * n)).
Proof. induction n as [|n IH]; [constructor|]. replace (4 * S n)%nat with (4 + 4 * n)%nat by lia. unfold sp. rewrite repeat_app. exact (In_spaces n _ IH). Qed.
Lemma lead_sp n W : blank_lines W -> lead n (W ++ sp (4 * n)).
Proof. intros H. rewrite <- (app_nil_r (sp (4 * n))). constructor; [exact H|apply indents_sp|reflexivity]. Qed.
Lemma items_fwd n ps : Forall (good_piece n) ps -> forall V rest, blank_lines V -> lower n rest -> pleg ps (Grammar.opens rest) ->
  exists t W, V ++ rtext n ps = t ++ W /\ blank_lines W /\ items_at n t (W ++ rest) (map itemp ps).
Proof.
  induction 1 as [|[[[p T] i] [lb bb]] ps [[P [B H]] Q] F IH]; intros V rest HV L PL.
  - exists [], V. split; [now rewrite app_nil_r|]. split; [exact HV|constructor].
  - cbn [pleg] in PL. destruct PL as [[PL PB] PQ]. unfold bodyp, itemp, legp, barep in *. cbn [fst snd] in *. rewrite <- (opens_rtext n ps rest F) in PB.
    assert (LO : lower (S n) (rtext n ps ++ rest)) by (apply pieces_lower; [now apply good_reads|exact L]).
    destruct (proj2 (Q _ LO) PL PB) as (T' & W & -> & BW & HA). destruct (IH W rest BW L PQ) as (u & W' & EU & BW' & HU).
    exists ((V ++ p ++ sp (4 * n)) ++ T' ++ u), W'. split; [|split; [exact BW'|]].
    + unfold rtext in *. cbn [map concat fst snd]. unfold render at 1. cbn [fst snd]. rewrite <- !app_assoc, EU. reflexivity.
    + cbn [map]. constructor; [rewrite app_assoc; apply lead_sp; now apply bl_app| |exact HU].
      rewrite app_assoc, EU, <- app_assoc in HA. exact HA.
Qed.
Lemma lower_closes n r : lower n r -> closes n r = true.
Proof.
  intros [H|(e & j & c & z & -> & B & J & C)]; [rewrite <- (app_nil_r r); now apply rest_closes|]. unfold closes. rewrite next_line_blank_lines by exact B. rewrite next_line_stop.
  - apply orb_true_iff. right. clear B. apply negb_true_iff. revert j J. induction n as [|n IH]; intros j J; [lia|]. destruct j as [|[|[|[|j]]]].
    5:{ specialize (IH j ltac:(lia)). exact IH. }
    all: cbn [sp repeat app indented]; repeat (destruct c as [|c]; try reflexivity; try discriminate); repeat (destruct c; try reflexivity; try discriminate).
  - left. rewrite skip_blanks_app by apply sp_blanks. rewrite skip_blanks_id by (cbn; now apply space_blank). cbn [at_eol].
    destruct (N.eqb_spec c 10) as [->|N1]; [discriminate|]. destruct (N.eqb_spec c 13) as [->|N2]; [discriminate|].
    destruct c as [|p]; [reflexivity|]. repeat (destruct p as [p|p|]; try reflexivity); congruence.
Qed.

(** ** values on lines of their own *)
Lemma plain_back x col rest k : tidy x -> value_at false (text true x col) (nl ++ rest) k -> each legible_node x = true /\ (bare_number x = true -> Grammar.opens rest = false).
Proof.
  intros TD HV. rewrite each_all. destruct (LegibleProps2.text_reading x (proj1 TD) (proj2 TD) false col ltac:(discriminate) (nl ++ rest) k ltac:(now apply follow_char) HV) as [A B]. split; [exact A|exact B].
Qed.
Lemma plain_fwd x col rest : tidy x -> each legible_node x = true -> (bare_number x = true -> Grammar.opens rest = false) -> value_at false (text true x col) (nl ++ rest) (norm x).
Proof.
  intros TD L O. rewrite each_all in L. pose proof (LegibleProps.fine_in_grammar x (LegibleProps.fine_all _ (proj1 TD) L) L (proj2 TD) false col ltac:(discriminate)) as R.
  set (t := text true x col) in *. pose proof (reads_ok (S (length t)) false t (norm x) _ (nl ++ rest) R) as P.
  assert (Q : kserd_delimited (S (length t)) false (t ++ nl ++ rest) = POk (nl ++ rest) (norm x)) by (apply P; auto; lia).
  pose proof (text_begins x col (proj1 TD) (proj2 TD)) as B. apply delimited_at in Q as (t' & E & V); [|now apply stops_space_blank, begins_space, SyntaxProps2.begins_app].
  apply app_inv_tail in E. now subst t'.
Qed.
