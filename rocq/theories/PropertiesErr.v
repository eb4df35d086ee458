(** Property C59: what the texts of errors tell. *)
From Verif Require Import Base F64 Number BTree Value ValueSpec Nav NavSpec Fmt Formatter FmtSpec Ser Errors ErrorsProps.
Open Scope list_scope.
Open Scope N_scope.

(** * C59  error texts *)
(** the text of a refused id quotes the id and lists characters: the id has one of
    them, and they are exactly the characters which [with_id] refuses *)
Theorem C59_id : forall id v e, with_id id v = inl e -> exists bad,
  id_error_text e = (s "identity '" ++ id ++ s "' contains invalid characters. Invalid characters: '" ++ bad ++ s "'") /\
  (exists c, In c id /\ In c bad) /\ (forall c w, In c bad <-> exists e', with_id [c] w = inl e').
Proof. exact id_error_lists. Qed.
Print Assumptions C59_id.

(** a container is refused with a text exactly when it is refused *)
Theorem C59_field_exactly : forall l, new_cntr_error l = None <-> exists v, new_cntr l = inr v.
Proof. exact new_cntr_error_iff. Qed.
Print Assumptions C59_field_exactly.
(** the text of a refused container is about the first of its bad names, in the
    order of the names, and about the first bad character of that name *)
Theorem C59_field : forall l text, new_cntr_error l = Some text -> exists name,
  In name (map fst l) /\ (forall name', In name' (map fst l) -> str_cmp name' name = Lt -> good_name name' = true) /\
  ((name = [] /\ text = s "invalid field name: name is empty") \/
   (exists d r, name = d :: r /\ is_digit d = true /\ text = s "invalid field name: name can not begin with digit") \/
   (exists c a b, name = a ++ c :: b /\ In c [32; 47; 92; 34; 9; 39] /\ (forall x, In x a -> ~ In x [32; 47; 92; 34; 9; 39]) /\
     text = (s "invalid field name: invalid character '" ++ [c] ++ s "' exists in name '" ++ name ++ s "'")%list)).
Proof. exact field_error. Qed.
Print Assumptions C59_field.

(** different errors have different texts: of the formatter, the encoder and the conversions *)
Theorem C59_distinct :
  (forall e e', fmt_error_text e = fmt_error_text e' -> e = e') /\
  (forall e e', ser_err_text e = ser_err_text e' -> e = e') /\
  (forall e e', to_kserd_err_text e = to_kserd_err_text e' -> e = e').
Proof. exact (conj fmt_error_inj (conj ser_err_inj to_kserd_err_inj)). Qed.
Print Assumptions C59_distinct.

(** when a formatter refuses a layout as too high the text names the layout asked for and
    the highest one for the kind of value *)
Theorem C59_too_high : forall k fm r i fm' max req, reachable k fm -> fm_request r fm i = LRet (fm', Some (RequestTooHigh max req)) ->
  exists n, nav_get (fm_nav fm) i = Some n /\
  fmt_error_text (RequestTooHigh max req) =
    (s "requested format '" ++ layout_name r ++ s "' is higher than the value maximally allows '" ++ layout_name (kind_max (n_kserd n)) ++ s "'")%list.
Proof. exact too_high_text. Qed.
Print Assumptions C59_too_high.
Example C59_too_high_case : exists fm fm', reachable (new_unit) fm /\ fm_request Verbose fm 0 = LRet (fm', Some (RequestTooHigh Inline Verbose)).
Proof.
  destruct (fm_new new_unit) as [fm| |] eqn:E; [|vm_compute in E; discriminate|vm_compute in E; discriminate].
  exists fm. eexists. split; [exists []; unfold run; cbn [fold_left]; exact E|]. vm_compute in E. injection E as <-. vm_compute. reflexivity.
Qed.

Example C59_case :
  with_id (s "a b") VUnit = inl (s "a b") /\
  id_error_text (s "a b") = s "identity 'a b' contains invalid characters. Invalid characters: '(){}[]<> ,./\='" /\
  new_cntr_error [(s "x", new_unit); (s "b/'", new_unit); (s "a", new_unit); (s "d d", new_unit)]
    = Some (s "invalid field name: invalid character '/' exists in name 'b/''") /\
  new_cntr_error [(s "x", new_unit); (s "1x", new_unit)] = Some (s "invalid field name: name can not begin with digit") /\
  new_cntr_error [(s "x", new_unit); (s "1x", new_unit); (s "", new_unit)] = Some (s "invalid field name: name is empty") /\
  fmt_error_text (RequestTooHigh Concise Verbose) = s "requested format 'verbose' is higher than the value maximally allows 'concise'" /\
  ser_err_text (Message (s "x")) = s "custom error: x".
Proof. vm_compute. repeat split. Qed.

(** the text does not tell which name begins with a digit *)
Theorem C59_name_refuted : exists l l', new_cntr_error l = new_cntr_error l' /\ new_cntr_error l <> None /\
  (forall name, In name (map fst l) -> good_name name = false -> In name (map fst l') -> False).
Proof.
  exists [(s "1x", new_unit); (s "a", new_unit)], [(s "2y", new_unit); (s "a", new_unit)].
  split; [reflexivity|]. split; [discriminate|]. intros n H G H'. cbn [map fst In] in H, H'.
  destruct H as [<-|[<-|[]]]; [|discriminate G]. destruct H' as [H|[H|[]]]; discriminate H.
Qed.
Print Assumptions C59_name_refuted.
