(** Property C72: which ids decoding looks at. *)
From Verif Require Import Base F64 Number BTree Value ValueSpec Nav NavSpec Nom Parse ParseErr Fmt Formatter FmtText FmtVectors FmtSpec RtSpec VSpec StuckSpec TextSpec Encode EncodeSpec NameSpec NameProps NameProps2 StuckProps2 EncodeProps4 MisreadSpec LegibleSpec MisreadSpec2 TextSpec2 EncodeProps21.
Open Scope N_scope.

(** what a Kserd is decoded to does not change when ids which are [free] are changed,
    taken away or added, at any number of places *)
Theorem C72_renamed : forall E t k k', renamed E k k' -> dec E t k = dec E t k'.
Proof. exact (fun E t k k' R => renamed_dec E k k' R t). Qed.
Print Assumptions C72_renamed.
(** hence values can be written without the names of their structs, if no enum of the
    program has a variant with named fields: encode, write, parse and decode gives
    the value back *)
Theorem C72_layouts : forall E t d k fm, good_decls E -> no_struct_variant E -> has_type E t d = true -> f32s_kept d -> EncodeSpec.apart E t d -> enc E t d = inr k ->
  reachable k fm -> readable_tree k = true -> k_all no_neg_zero k = true -> vsimple false k = true \/ (forall i, line_of fm i <> Some Verbose) ->
  tuple_ids_shown (deco (fm_fmts fm) 0 k) = true ->
  exists text k', fm_write fm [] = LRet text /\ parse text = ParseOk k' /\ dec E t k' = Some d.
Proof. exact (fun E t d k fm W NV T G A H R RT Z V => text_unnamed E W NV false t d k fm T G A H R RT Z V (fun X => match Bool.diff_false_true X with end)). Qed.
Print Assumptions C72_layouts.
Theorem C72_as_str : forall E t d k cfg, good_decls E -> no_struct_variant E -> has_type E t d = true -> f32s_kept d -> EncodeSpec.apart E t d -> enc E t d = inr k ->
  readable_tree k = true -> k_all no_neg_zero k = true ->
  (vsimple (id_on_containers cfg) k = true /\ ~ stuck cfg k) \/ is_cntr k = false \/ width_limit cfg = None ->
  id_on_tuples cfg = true ->
  exists text k', as_str_with_config k cfg = LRet text /\ parse text = ParseOk k' /\ dec E t k' = Some d.
Proof. exact (fun E t d k cfg W NV => as_str_unnamed E W NV t d k cfg). Qed.
Print Assumptions C72_as_str.
(** Nothing asked of numbers, of neighbours and of what strings contain: the text is refused, or it
    decodes to the value that was encoded *)
Theorem C72_refused_or_right : forall E t d k cfg, good_decls E -> no_struct_variant E -> has_type E t d = true -> f32s_kept d -> EncodeSpec.apart E t d -> enc E t d = inr k ->
  told_apart (id_on_containers cfg) k = true -> k_all clear_value k = true -> k_all lasting_value k = true -> ~ stuck cfg k -> id_on_tuples cfg = true ->
  exists text, as_str_with_config k cfg = LRet text /\ ((exists e, parse text = ParseErr e) \/ exists k', parse text = ParseOk k' /\ dec E t k' = Some d).
Proof. exact as_str_unnamed_never_wrong. Qed.
Print Assumptions C72_refused_or_right.

(** the cases *)
Definition crew : decls := fun n =>
  match n with
  | 0 => DefStruct (s "Ship") [(s "name", TyString); (s "hull", TyNamed 1); (s "log", TyVec (TyNamed 2)); (s "pos", TyNamed 3)]
  | 1 => DefEnum [(s "Wood", ShUnit); (s "Steel", ShTuple [TyInt Tu8; TyBool])]
  | 2 => DefStruct (s "Entry") [(s "day", TyInt Tu16); (s "note", TyOption TyString)]
  | 3 => DefTuple (s "Place") [TyInt Ti16; TyInt Ti16; TyBool]
  | _ => DefNewtype (s "Metre") (TyInt Tu8)
  end.
Definition ship : data := DRecord [DString (s "Argo"); DVariant 1 (DList [DInt 7%Z; DBool true]); DList [DRecord [DInt 1%Z; DSome (DString (s "x"))]; DRecord [DInt 2%Z; DNone]]; DList [DInt (-3)%Z; DInt 4%Z; DBool false]].
Definition ship_kserd (a b c : option str) (d : string) : kserd :=
  Kserd a (VCntr [(s "hull", Kserd (Some (s "Steel")) (VTuple [Kserd (Some (s d)) (VNum (Uint 7)); new_bool true]));
    (s "log", Kserd c (VSeq [Kserd b (VCntr [(s "day", Kserd (Some (s "u16")) (VNum (Uint 1))); (s "note", Kserd (Some (s "Some")) (VTuple [Kserd None (VStr (s "x"))]))]);
                             Kserd b (VCntr [(s "day", Kserd None (VNum (Uint 2))); (s "note", Kserd (Some (s "None")) (VTuple []))])]));
    (s "name", Kserd c (VStr (s "Argo")));
    (s "pos", Kserd b (VTuple [Kserd None (VNum (Int (-3))); Kserd None (VNum (Int 4)); new_bool false]))]).
Example C72_case :
  renamed crew (ship_kserd (Some (s "Ship")) (Some (s "Place")) None "u8") (ship_kserd (Some (s "Vessel")) None (Some (s "any")) "Wood") /\
  dec crew (TyNamed 0) (ship_kserd (Some (s "Ship")) (Some (s "Place")) None "u8") = Some ship /\
  dec crew (TyNamed 0) (ship_kserd (Some (s "Vessel")) None (Some (s "any")) "Wood") = Some ship.
Proof.
  assert (V : forall n vs name sh, crew n = DefEnum vs -> In (name, sh) vs -> (name = s "Wood" /\ sh = ShUnit) \/ (name = s "Steel" /\ sh = ShTuple [TyInt Tu8; TyBool])).
  { intros n vs name sh H I. assert (N1 : n = 1). { destruct n as [|[[p|p|]|[p|p|]|]]; try discriminate H; reflexivity. } subst n. injection H as <-. destruct I as [[= <- <-]|[[= <- <-]|[]]]; auto. }
  assert (NS : forall i, ~ names_variant crew i (fun sh => exists fs, sh = ShStruct fs)).
  { intros i (n & vs & name & sh & _ & H & I & (fs & ->)). destruct (V n vs name _ H I) as [[_ X]|[_ X]]; discriminate X. }
  assert (N3 : forall i, ~ names_variant crew i (tuple_shape 3)).
  { intros i (n & vs & name & sh & _ & H & I & X). destruct (V n vs name _ H I) as [[_ Y]|[_ Y]]; rewrite Y in X; discriminate X. }
  split; [|split; vm_compute; reflexivity].
  unfold ship_kserd. constructor; [right; cbn [free]; split; apply NS|]. apply In_cntr.
  repeat match goal with
  | |- Forall2 _ [] [] => constructor
  | |- Forall2 _ (_ :: _) _ => constructor
  | |- _ /\ _ => split; [reflexivity|cbn [snd]]
  | |- renamed_value _ (VCntr _) _ => apply In_cntr
  | |- renamed_value _ _ _ => constructor
  | |- renamed _ (Kserd _ (VTuple [_; _; _])) _ => constructor; [right; cbn [free length]; split; [split; apply N3|exact Logic.I]|]
  | |- renamed _ (Kserd _ (VCntr _)) _ => constructor; [right; cbn [free]; split; apply NS|]
  | |- renamed _ (Kserd (Some (s "u8")) _) _ => constructor; [right; exact Logic.I|]
  | |- renamed _ (Kserd _ (VSeq _)) _ => constructor; [right; exact Logic.I|]
  | |- renamed _ (Kserd _ (VStr _)) _ => constructor; [right; exact Logic.I|]
  | |- renamed _ _ _ => constructor; [left; reflexivity|]
  end.
Qed.
Lemma crew_good : good_decls crew.
Proof. intros [|[[p|p|]|[p|p|]|]]; reflexivity. Qed.
Lemma crew_no_struct : no_struct_variant crew.
Proof.
  intros n vs name fs H I. assert (N1 : n = 1). { destruct n as [|[[p|p|]|[p|p|]|]]; try discriminate H; reflexivity. } subst n. injection H as <-.
  destruct I as [X|[X|[]]]; discriminate X.
Qed.
Definition encoded : kserd := match enc crew (TyNamed 0) ship with inr k => k | _ => new_unit end.
Definition unnamed (w : option nat) : config := mkConfig false true false false false w.
Example C72_as_str_case : good_decls crew /\ no_struct_variant crew /\ has_type crew (TyNamed 0) ship = true /\ f32s_kept ship /\ EncodeSpec.apart crew (TyNamed 0) ship /\
  enc crew (TyNamed 0) ship = inr encoded /\ readable_tree encoded = true /\ k_all no_neg_zero encoded = true /\ vsimple false encoded = true /\ ~ stuck (unnamed (Some 20%nat)) encoded /\
  as_str_with_config encoded (unnamed (Some 20%nat)) = LRet (s "hull = Steel(
           7
           true
       )

[[log]]
    day = 1
    note = Some(""x"")

[[log]]
    day = 2
    note = None()
name = ""Argo""
pos = Place(
          -3
          4
          false
      )
").
Proof.
  split; [exact crew_good|]. split; [exact crew_no_struct|]. split; [reflexivity|]. split; [repeat constructor|].
  split; [apply (no_enum_apart _ crew_good); [reflexivity|]; intros kt vt m H; vm_compute in H; repeat (destruct H as [H|H]; [discriminate H|]); destruct H|].
  split; [vm_compute; reflexivity|]. split; [vm_compute; reflexivity|]. split; [vm_compute; reflexivity|]. split; [vm_compute; reflexivity|].
  split; [eapply returned_free; vm_compute; reflexivity|]. vm_compute. reflexivity.
Qed.
Example C72_layouts_case : exists fm, reachable encoded fm /\ line_of fm 0 = Some Concise /\ (forall i, line_of fm i <> Some Verbose) /\ tuple_ids_shown (deco (fm_fmts fm) 0 encoded) = true /\
  fm_write fm [] = LRet (s "(
    hull = Steel(7, true)
    log = [(day = 1, note = Some(""x"")), (day = 2, note = None())]
    name = ""Argo""
    pos = Place(-3, 4, false)
)").
Proof.
  destruct (run encoded [OpConfig (unnamed (Some 70%nat)); OpLine Concise 0]) as [fm| |] eqn:E; [|vm_compute in E; discriminate|vm_compute in E; discriminate].
  exists fm. split; [eexists; exact E|]. vm_compute in E. injection E as <-. split; [reflexivity|]. split; [|split; vm_compute; reflexivity].
  intros i. unfold line_of. do 25 (destruct i as [|i]; [discriminate|]). destruct i; discriminate.
Qed.

(** a name with quotes and an '=' in it, written without the names of the structs *)
Definition ship2 : data := DRecord [DString (s "Argo = ""the ship's name"""); DVariant 0 DUnit; DList [DRecord [DInt 1%Z; DSome (DString (s "b"))]]; DList [DInt (-3)%Z; DInt 4%Z; DBool false]].
Definition encoded2 : kserd := match enc crew (TyNamed 0) ship2 with inr k => k | _ => new_unit end.
Example C72_refused_or_right_case : has_type crew (TyNamed 0) ship2 = true /\ f32s_kept ship2 /\ EncodeSpec.apart crew (TyNamed 0) ship2 /\ enc crew (TyNamed 0) ship2 = inr encoded2 /\
  readable_tree encoded2 = false /\ told_apart false encoded2 = true /\ k_all clear_value encoded2 = true /\ k_all lasting_value encoded2 = true /\ ~ stuck (unnamed (Some 20%nat)) encoded2 /\
  match as_str_with_config encoded2 (unnamed (Some 20%nat)) with LRet t => match parse t with ParseOk k' => dec crew (TyNamed 0) k' | _ => None end | _ => None end = Some ship2.
Proof.
  split; [reflexivity|]. split; [repeat constructor|].
  split; [apply (no_enum_apart _ crew_good); [reflexivity|]; intros kt vt m H; vm_compute in H; repeat (destruct H as [H|H]; [discriminate H|]); destruct H|].
  do 5 (split; [vm_compute; reflexivity|]). split; [eapply returned_free; vm_compute; reflexivity|]. vm_compute. reflexivity.
Qed.

Definition shapes : decls := fun _ =>
  DefEnum [(s "A", ShUnit); (s "B", ShUnit); (s "C", ShTuple []); (s "D", ShNewtype TyBool); (s "E", ShTuple [TyBool; TyBool]); (s "F", ShStruct [(s "f", TyBool)])].
(** ids do matter everywhere else: for variants of each shape, for Options, and for
    tuples of one element *)
Theorem C72_ids_refuted :
  Forall (fun c => let '(t, v, i, j) := c in dec shapes t (Kserd i v) <> dec shapes t (Kserd j v))
  [ (TyNamed 0, VUnit, Some (s "A"), Some (s "B"));
    (TyNamed 0, VTuple [], Some (s "A"), Some (s "C"));
    (TyNamed 0, VTuple [new_bool true], Some (s "D"), None);
    (TyNamed 0, VTuple [new_bool true; new_bool true], Some (s "E"), Some (s "D"));
    (TyNamed 0, VCntr [(s "f", new_bool true)], Some (s "F"), None);
    (TyOption TyBool, VTuple [], Some (s "None"), None);
    (TyOption TyBool, VTuple [new_bool true], Some (s "Some"), Some (s "Any"));
    (TyTuple [TyBool], VTuple [new_bool true], None, Some (s "Any"));
    (TyVec TyBool, VTuple [], Some (s "None"), Some (s "Any")) ].
Proof. repeat constructor; discriminate. Qed.
Print Assumptions C72_ids_refuted.
(** nor do values of variants with named fields come back when the names of
    containers are not written *)
Theorem C72_struct_variant_refuted : exists E t d k text k', good_decls E /\ has_type E t d = true /\ enc E t d = inr k /\
  as_str_with_config k (unnamed None) = LRet text /\ parse text = ParseOk k' /\ dec E t k' = None.
Proof.
  exists shapes, (TyNamed 0), (DVariant 5 (DRecord [DBool true])). do 3 eexists. split; [intros n; reflexivity|]. split; [reflexivity|]. split; [reflexivity|].
  split; [vm_compute; reflexivity|]. split; [vm_compute; reflexivity|]. vm_compute. reflexivity.
Qed.
Print Assumptions C72_struct_variant_refuted.
