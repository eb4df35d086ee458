(** Parsing what the writers write: tokens. *)
From Verif Require Import Base F64 Number BTree Value BaseProps Base91 Base91Props Nom Parse ParseSpec ParseProps Nav Fmt FmtText FmtSpec FormatterProps4.
Open Scope N_scope.

Lemma delimiter_spec t d : delimiter t = Some d -> In d delimiters /\ forallb (fun c => negb (d =? c)) t = true.
Proof.
  intros E. apply find_some in E as [E1 E2]. split; [exact E1|]. apply negb_true_iff, mem_not_In in E2. apply forallb_forall. intros c Hc.
  apply negb_true_iff, N.eqb_neq. intros ->. contradiction.
Qed.
Lemma string_literal t d rest : delimiter t = Some d -> pstring (str_text t ++ rest) = POk rest t.
Proof.
  intros E. unfold str_text. rewrite E. apply delimiter_spec in E as [_ E].
  assert (P : forall r, context (s "string") (parse_str d) (d :: t ++ d :: r) = POk r t).
  { intros r. unfold context, parse_str, preceded, pchar at 1, pbind. rewrite N.eqb_refl. unfold Nom.cut, terminated, ptake_till, ptake_while.
    rewrite (take_till_stop d t r E : take_while (fun c : char => negb (d =? c)) (t ++ d :: r) = (t, d :: r)). cbn [pbind]. unfold pchar. rewrite N.eqb_refl. reflexivity. }
  unfold pstring. destruct (d =? 34) eqn:Ed.
  - apply N.eqb_eq in Ed. subst d. cbn [app]. rewrite <- app_assoc. exact (P rest).
  - rewrite <- !app_assoc. cbn [app]. exact (P rest).
Qed.
Lemma string_text buf t : FmtSpec.str_ok (Kserd None (VStr t)) = true ->
  exists u, fmt_str buf t false None = LRet (buf ++ u) /\ forall rest, pstring (u ++ rest) = POk rest t.
Proof.
  intros H. apply FormatterProps4.str_ok_delimiter in H. destruct (delimiter t) as [d|] eqn:E; [|congruence]. exists (str_text t). split.
  - unfold fmt_str, str_text. cbn [maybe_write_prim_ident]. unfold delimiter in E. unfold delimiter. rewrite E. reflexivity.
  - intros rest. now apply (string_literal t d).
Qed.
Lemma string_panics buf t print id : FmtSpec.str_ok (Kserd None (VStr t)) = false -> fmt_str buf t print id = LPanic.
Proof.
  intros H. assert (E : delimiter t = None).
  { destruct (delimiter t) as [d|] eqn:E; [|reflexivity]. rewrite (proj2 (FormatterProps4.str_ok_delimiter t None)) in H; [discriminate|congruence]. }
  unfold fmt_str. unfold delimiter in E. now rewrite E.
Qed.
