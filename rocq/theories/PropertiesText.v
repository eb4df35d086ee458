(** Property C34: encode, format, parse, decode. *)
From Verif Require Import Base F64 Number NumberSpec BTree Value ValueSpec Nav NavSpec Nom Parse ParseErr Fmt Formatter FmtVectors FmtText FmtSpec Grammar RtSpec VSpec TextSpec Encode EncodeSpec EncodeProps9 PropertiesRt PropertiesEnc StuckSpec StuckProps2 MisreadSpec LegibleSpec MisreadSpec2 TextSpec2 EncodeProps20.
Open Scope nat_scope.

(** * C34  encode, format, parse, decode *)
(** for every layout: the text can be read back ([vsafe], as in C22_layouts), and
    what the decoder needs is in the text *)
Theorem C34_layouts : forall E t d k fm, good_decls E -> has_type E t d = true -> f32s_kept d -> EncodeSpec.apart E t d -> enc E t d = inr k ->
  reachable k fm -> vsafe true 0 (deco (fm_fmts fm) 0 k) = true -> each kept_node (deco (fm_fmts fm) 0 k) = true ->
  exists text k', fm_write fm [] = LRet text /\ parse text = ParseOk k' /\ dec E t k' = Some d.
Proof. exact (fun E t d k fm W => text_layouts E W t d k fm). Qed.
Print Assumptions C34_layouts.
(** a type with all kinds of data in the verbose layout: see [C34_layouts_case] below *)
(** the inline and concise layouts, with conditions on the value alone *)
Theorem C34_inline_concise : forall E t d k fm, good_decls E -> has_type E t d = true -> f32s_kept d -> EncodeSpec.apart E t d -> enc E t d = inr k ->
  reachable k fm -> (forall i, line_of fm i <> Some Verbose) -> readable_tree k = true -> k_all no_neg_zero k = true ->
  data_ids_shown (deco (fm_fmts fm) 0 k) = true ->
  exists text k', fm_write fm [] = LRet text /\ parse text = ParseOk k' /\ dec E t k' = Some d.
Proof. exact (fun E t d k fm W T G A H R V S Z D => text_simple E W t d k fm T G A H R S Z (or_intror V) D). Qed.
Print Assumptions C34_inline_concise.
(** [as_str_with_config] with any width limit, the ids of tuples and containers
    shown as they are by default *)
Theorem C34_as_str : forall E t d k cfg, good_decls E -> has_type E t d = true -> f32s_kept d -> EncodeSpec.apart E t d -> enc E t d = inr k ->
  readable_tree k = true -> k_all no_neg_zero k = true ->
  (vsimple true k = true /\ ~ stuck cfg k) \/ is_cntr k = false \/ width_limit cfg = None ->
  id_on_tuples cfg = true -> id_on_containers cfg = true ->
  exists text k', as_str_with_config k cfg = LRet text /\ parse text = ParseOk k' /\ dec E t k' = Some d.
Proof. exact (fun E t d k cfg W => text_as_str E W t d k cfg). Qed.
Print Assumptions C34_as_str.

(** Nothing asked of numbers, of neighbours and of what strings contain: the text is refused, or it
    decodes to the value that was encoded; there is no other outcome.  In any layout: *)
Theorem C34_never_wrong : forall E t d k fm text k', good_decls E -> has_type E t d = true -> f32s_kept d -> EncodeSpec.apart E t d -> enc E t d = inr k ->
  reachable k fm -> clear (deco (fm_fmts fm) 0 k) = true -> vclear true true (deco (fm_fmts fm) 0 k) = true -> each kept_node (deco (fm_fmts fm) 0 k) = true ->
  fm_write fm [] = LRet text -> parse text = ParseOk k' -> dec E t k' = Some d.
Proof. exact (fun E t d k fm text k' W => never_wrong E W t d k fm text k'). Qed.
Print Assumptions C34_never_wrong.
(** [as_str_with_config], with conditions on the value alone *)
Theorem C34_refused_or_right : forall E t d k cfg, good_decls E -> has_type E t d = true -> f32s_kept d -> EncodeSpec.apart E t d -> enc E t d = inr k ->
  told_apart true k = true -> k_all clear_value k = true -> k_all lasting_value k = true -> ~ stuck cfg k -> id_on_tuples cfg = true -> id_on_containers cfg = true ->
  exists text, as_str_with_config k cfg = LRet text /\ ((exists e, parse text = ParseErr e) \/ exists k', parse text = ParseOk k' /\ dec E t k' = Some d).
Proof. exact (fun E t d k cfg W => as_str_never_wrong E W t d k cfg). Qed.
Print Assumptions C34_refused_or_right.

(** encode, format with a width limit, parse, decode *)
Definition through (E : decls) (t : ty) (d : data) (w : option nat) : option data :=
  match enc E t d with
  | inr k => match outcome (show k w) with Some (ParseOk k') => dec E t k' | _ => None end
  | inl _ => None
  end.
Definition poly_kserd : kserd := match enc decls0 (TyNamed 1) poly with inr k => k | _ => new_unit end.
Example C34_case : enc decls0 (TyNamed 1) poly = inr poly_kserd /\ readable_tree poly_kserd = true /\ k_all no_neg_zero poly_kserd = true /\
  vsimple true poly_kserd = true /\ ~ stuck (width (Some 0)) poly_kserd /\
  show poly_kserd (Some 0) = LRet (s ":Poly

[[by]]
""a"":
    :Tree

    [[kids]]
        :Tree
        kids = []

[[by]]
""b"":
    :Tree
    kids = []


[[pts]]
    :Point
    name = ""p""
    tag = Some(
              true
          )
    x = -7

[[pts]]
    :Point
    name = """"
    tag = None()
    x = 3
") /\ through decls0 (TyNamed 1) poly (Some 0) = Some poly /\ through decls0 (TyNamed 1) poly (Some 60) = Some poly /\ through decls0 (TyNamed 1) poly None = Some poly.
Proof.
  split; [vm_compute; reflexivity|]. split; [vm_compute; reflexivity|]. split; [vm_compute; reflexivity|]. split; [vm_compute; reflexivity|]. split.
  { eapply returned_free. vm_compute. reflexivity. }
  vm_compute. auto.
Qed.

Example C34_layouts_case : exists fm, reachable poly_kserd fm /\ line_of fm 0 = Some Verbose /\
  vsafe true 0 (deco (fm_fmts fm) 0 poly_kserd) = true /\ each kept_node (deco (fm_fmts fm) 0 poly_kserd) = true.
Proof.
  destruct (run poly_kserd []) as [fm| |] eqn:E; [|vm_compute in E; discriminate|vm_compute in E; discriminate].
  exists fm. split; [eexists; exact E|]. vm_compute in E. injection E as <-. vm_compute. auto.
Qed.

(** (inf, 1, "it's a ""x = y""") comes back although it is not [readable_tree]; [true] is refused *)
Definition loose_cases : list (ty * data) :=
  [ (TyTuple [TyF64; TyInt Tu8; TyString], DList [DF64 (FInf false); DInt 1%Z; DString (s "it's a ""x = y""")]); (TyVec TyBool, DList [DBool true]) ].
Definition loose_kserd (p : ty * data) : kserd := match enc decls0 (fst p) (snd p) with inr k => k | _ => new_unit end.
Example C34_refused_or_right_case :
  Forall (fun p => f32s_kept (snd p) /\ EncodeSpec.apart decls0 (fst p) (snd p) /\ has_type decls0 (fst p) (snd p) = true /\ enc decls0 (fst p) (snd p) = inr (loose_kserd p) /\ told_apart true (loose_kserd p) = true /\
      k_all clear_value (loose_kserd p) = true /\ k_all lasting_value (loose_kserd p) = true /\ ~ stuck (width (Some 60)) (loose_kserd p) /\ readable_tree (loose_kserd p) = false) loose_cases /\
  map (fun p => through decls0 (fst p) (snd p) (Some 60)) loose_cases = [Some (snd (hd (TyBool, DBool true) loose_cases)); None].
Proof.
  split; [|vm_compute; reflexivity].
  repeat (apply Forall_cons; [split; [apply Forall_nil|]; split; [intros kt vt m H; vm_compute in H; repeat (destruct H as [H|H]; [discriminate H|]); destruct H|]; do 5 (split; [vm_compute; reflexivity|]); split; [eapply returned_free; vm_compute; reflexivity|vm_compute; reflexivity]|]). apply Forall_nil.
Qed.

(** the same value in the layout a new Formatter gives it *)
Example C34_never_wrong_case : exists fm, let k := loose_kserd (hd (TyBool, DBool true) loose_cases) in
  reachable k fm /\ clear (deco (fm_fmts fm) 0 k) = true /\ vclear true true (deco (fm_fmts fm) 0 k) = true /\ each kept_node (deco (fm_fmts fm) 0 k) = true.
Proof.
  destruct (run (loose_kserd (hd (TyBool, DBool true) loose_cases)) []) as [fm| |] eqn:E; [|vm_compute in E; discriminate|vm_compute in E; discriminate].
  exists fm. split; [eexists; exact E|]. vm_compute in E. injection E as <-. vm_compute. auto.
Qed.

(** ** values which do not come back, although they do without the text *)
(** struct Inner { b: String }      struct Mid { a: Inner }      enum Void { V {} }
    struct Outer { m: Mid } *)
Definition decls1 : decls := fun n =>
  match n with
  | 0%N => DefStruct (s "Inner") [(s "b", TyString)]
  | 1%N => DefStruct (s "Mid") [(s "a", TyNamed 0)]
  | 2%N => DefStruct (s "Outer") [(s "m", TyNamed 1)]
  | _ => DefEnum [(s "V", ShStruct [])]
  end.
Lemma decls1_good : good_decls decls1.
Proof. intros [|[[]|[]|]]; reflexivity. Qed.
(** with the default configuration; the last value comes back as another one *)
Theorem C34_refuted :
  Forall (fun p => has_type decls1 (fst p) (snd p) = true /\ no_enum_keys decls1 (fst p) (snd p) /\ through decls1 (fst p) (snd p) (Some 60) = None)
    [ (TyNamed 2, DRecord [DRecord [DRecord [DString (s "a text which is too long to fit into a line of sixty columns")]]]);   (* the first line below [m:Mid] is [a:Inner] *)
      (TyNamed 3, DVariant 0 (DRecord []));                     (* the container V () is read as a tuple *)
      (TyTuple [], DList []);                                   (* an empty tuple is read as a unit *)
      (TyVec (TyVec (TyInt Tu8)), DList [DList [DInt 1%Z]]);    (* [[1]] *)
      (TyVec TyBool, DList [DBool true]);                       (* [true] *)
      (TyString, DString delimiters);                           (* no delimiter is left *)
      (TyF64, DF64 (FFin false (2 ^ 52)%Z 76)) ] /\            (* 2^128 *)
  through decls1 TyF64 (DF64 (FFin true 0 (-1074)))%Z (Some 60) = Some (DF64 (FFin false 0 (-1074)))%Z.
Proof.
  split; [|vm_compute; reflexivity].
  repeat (apply Forall_cons; [split; [reflexivity|split; [|vm_compute; reflexivity]]; intros kt vt m H; vm_compute in H; repeat (destruct H as [H|H]; [discriminate H|]); destruct H|]). apply Forall_nil.
Qed.
Print Assumptions C34_refuted.

(** one level less comes back *)
Example C34_case_first :
  let d := DRecord [DRecord [DString (s "a text which is too long to fit into a line of sixty columns")]] in
  match enc decls1 (TyNamed 1) d with inr k => readable_tree k && vsimple true k && negb (vsimple false k) | _ => false end = true /\
  through decls1 (TyNamed 1) d (Some 60) = Some d.
Proof. vm_compute. auto. Qed.
