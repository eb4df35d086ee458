(** Exactly which texts can be read: formatters. *)
From Verif Require Import ParseSpec PropertiesParse Base F64 Number NumberSpec BTree Value BTreeProps ValueSpec ValueProps ValueProps2 Nav NavSpec NavProps NavProps2 Nom Parse ParseErr Fmt Formatter FmtText FmtSpec FmtProps FmtProps2 FormatterProps FormatterProps2 FormatterProps3 FormatterProps4 Grammar RtSpec RtProps2 RtProps3 RtProps4 RtProps5 RtProps6 RtProps7 GrammarProps MisreadSpec MisreadProps5 MisreadProps6 LegibleSpec LegibleProps LegibleProps2.
Open Scope nat_scope.

Theorem text_decided d : tidy d -> if legible d then parse (text true d 0) = ParseOk (norm d) else exists e, parse (text true d 0) = ParseErr e.
Proof.
  intros TD. destruct (legible d) eqn:L; [now apply legible_parses; [apply TD|apply TD|]|].
  destruct (C17_parse_total (text true d 0)) as [[k P]|[e P]]; [|now exists e]. apply text_legible in P; [congruence|exact TD].
Qed.
Theorem decided k fm : reachable k fm -> (forall i, line_of fm i <> Some Verbose) -> clear (deco (fm_fmts fm) 0 k) = true ->
  exists t, fm_write fm [] = LRet t /\ if legible (deco (fm_fmts fm) 0 k) then parse t = ParseOk (norm (deco (fm_fmts fm) 0 k)) else exists e, parse t = ParseErr e.
Proof.
  intros R V T. change (deco (fm_fmts fm) 0 k) with (shown k fm) in *. pose proof (clear_strings k fm T) as S.
  pose proof (reachable_finv k fm R) as FI. pose proof (fm_write_text k fm [] FI S) as E.
  replace (FmtText.cut (shown k fm) []) with (@nil char) in E by (unfold FmtText.cut; destruct (drops _); reflexivity). cbn [app] in E.
  exists (text true (shown k fm) 0). split; [exact E|]. apply text_decided. split; [unfold clear in T; now rewrite each_all in T|now apply shown_flat].
Qed.
Theorem accepted_iff k fm t : reachable k fm -> (forall i, line_of fm i <> Some Verbose) -> clear (deco (fm_fmts fm) 0 k) = true ->
  fm_write fm [] = LRet t -> ((exists k', parse t = ParseOk k') <-> legible (deco (fm_fmts fm) 0 k) = true).
Proof.
  intros R V T E. destruct (decided k fm R V T) as (t' & E' & D). rewrite E in E'. injection E' as <-. destruct (legible _).
  - split; [reflexivity|]. intros _. eauto.
  - split; [|discriminate]. intros [k' P]. destruct D as [e D]. congruence.
Qed.
