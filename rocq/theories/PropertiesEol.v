(** Property C60: line endings. *)
From Verif Require Import Base F64 Number BTree Value ValueSpec Nom Parse ParseErr ParseSpec Nav NavSpec Fmt FmtVectors Formatter FmtText FmtSpec RtSpec VSpec StuckSpec EolSpec EolProps EolProps2 EolProps3 EolProps4.
Open Scope N_scope.
Open Scope list_scope.

(** * C60  a document whose lines end in carriage return and line feed is read as the
    same document with line feeds *)
(** some, all or none of the line feeds are written so: what is read has the same
    shape, ids, names, keys, numbers and bytes; the texts in it stand as they were
    written *)
Theorem C60_read : forall all t t' v, eol all t t' -> no_str_lf t -> parse t = ParseOk v -> k_all one_line_keys v = true ->
  exists v', parse t' = ParseOk v' /\ eol_k all v v'.
Proof. exact @eol_parse. Qed.
Print Assumptions C60_read.
(** when no text in it has a line feed it is the very same value *)
Theorem C60_same : forall all t t' v, eol all t t' -> no_str_lf t -> parse t = ParseOk v -> k_all one_line v = true -> parse t' = ParseOk v.
Proof. exact @eol_parse_same. Qed.
Print Assumptions C60_same.
(** the whole document converted *)
Theorem C60_converted : forall t v, mem 13 t = false -> no_str_lf t -> parse t = ParseOk v -> k_all one_line_keys v = true ->
  parse (crlf t) = ParseOk (crlf_k v).
Proof. exact crlf_parse. Qed.
Print Assumptions C60_converted.
(** a document is rejected with the one line ending if and only if with the other *)
Theorem C60_rejected : forall all t t', eol all t t' -> no_str_lf t ->
  ((exists e, parse t = ParseErr e) <-> (exists e, parse t' = ParseErr e)).
Proof. exact @eol_rejected. Qed.
Print Assumptions C60_rejected.
(** so what [as_str_with_config] writes can be converted before it is read back; the text has
    no carriage return or [str] at the end of a line, and no string of several lines is in the value *)
Theorem C60_written : forall k cfg t, simple_tree k = true -> vsimple (id_on_containers cfg) k = true -> k_sorted k = true ->
  (id_on_tuples cfg = true \/ forall x, In x (preorder k) -> match kval x with VTuple _ => kid x = None | _ => True end) ->
  as_str_with_config k cfg = LRet t -> mem 13 t = false -> no_str_lf t -> k_all one_line k = true ->
  exists r, parse (crlf t) = ParseOk r /\ parse t = ParseOk r /\ k_eqb r k = true.
Proof. exact crlf_written. Qed.
Print Assumptions C60_written.
Example C60_written_case : exists k t, simple_tree k = true /\ vsimple true k = true /\ k_sorted k = true /\
  as_str_with_config k (width (Some 30%nat)) = LRet t /\ mem 13 t = false /\ no_str_lf t /\ k_all one_line k = true /\ mem 10 t = true /\ crlf t <> t.
Proof.
  exists (cn [("name", st "demo"); ("server", cn [("host", st "localhost"); ("ports", sq [i32 80; i32 443; i32 8080])])])%string. eexists.
  split; [vm_compute; reflexivity|]. split; [vm_compute; reflexivity|]. split; [vm_compute; reflexivity|]. split; [vm_compute; reflexivity|].
  split; [vm_compute; reflexivity|]. split; [apply no_str_lf_check; vm_compute; reflexivity|]. split; [vm_compute; reflexivity|]. split; [vm_compute; reflexivity|vm_compute; discriminate].
Qed.

(** a verbose document with a string over two lines, the first line ending and the one
    in the string converted *)
Definition doc : str := s ":order" ++ 10 :: s "id = 3" ++ 10 :: s "[[tags]]" ++ 10 :: s """a"": [" ++ 10 :: s "  1" ++ 10 :: s "  str#one" ++ 10 :: s "two#" ++ 10 :: s "]" ++ [10].
Definition doc' : str := s ":order" ++ 13 :: 10 :: s "id = 3" ++ 10 :: s "[[tags]]" ++ 10 :: s """a"": [" ++ 10 :: s "  1" ++ 10 :: s "  str#one" ++ 13 :: 10 :: s "two#" ++ 10 :: s "]" ++ [10].
Example C60_case : eol false doc doc' /\ no_str_lf doc /\ mem 13 doc = false /\
  (exists v, parse doc = ParseOk v /\ k_all one_line_keys v = true /\ k_all one_line v = false) /\ parse doc <> parse doc'.
Proof.
  split; [repeat (first [apply eol_nil|apply eol_crlf|apply eol_same; [discriminate|discriminate|]])|].
  split; [now apply no_str_lf_check|]. split; [reflexivity|]. split; [eexists; split; [vm_compute; reflexivity|split; reflexivity]|]. vm_compute. discriminate.
Qed.
Example C60_same_case : exists v, parse (s "[" ++ 10 :: s "1" ++ 10 :: s "2" ++ 10 :: s "]") = ParseOk v /\ k_all one_line v = true /\
  parse (crlf (s "[" ++ 10 :: s "1" ++ 10 :: s "2" ++ 10 :: s "]")) = ParseOk v.
Proof. eexists. repeat split; vm_compute; reflexivity. Qed.

(** a line feed as the delimiter of a string: converted, the carriage return is the delimiter
    and the line feed comes into the text *)
Theorem C60_delimiter_refuted : exists t v v', mem 13 t = false /\ parse t = ParseOk v /\ parse (crlf t) = ParseOk v' /\
  kval v = VStr (s "abc") /\ kval v' = VStr (10 :: s "abc").
Proof. exists (s "str" ++ 10 :: s "abc" ++ [10]). do 2 eexists. split; [reflexivity|]. split; [vm_compute; reflexivity|]. split; [vm_compute; reflexivity|]. split; reflexivity. Qed.
Print Assumptions C60_delimiter_refuted.
(** line feeds in the keys of a map: converted in one key only, there are two entries
    instead of one; converted in all, the order of the entries may change *)
Theorem C60_keys_refuted :
  (exists t t' m m', eol false t t' /\ no_str_lf t /\ parse t = ParseOk (knew (VMap m)) /\ parse t' = ParseOk (knew (VMap m')) /\ length m = 1%nat /\ length m' = 2%nat) /\
  (exists t a b m, no_str_lf t /\ eol true t (crlf t) /\ parse t = ParseOk (knew (VMap m)) /\ map snd m = [a; b] /\
     exists m', parse (crlf t) = ParseOk (knew (VMap m')) /\ map snd m' = [b; a] /\ a <> b).
Proof.
  split.
  - exists ([123; 34; 10; 34] ++ s ":1," ++ [34; 10; 34] ++ s ":2}"), ([123; 34; 10; 34] ++ s ":1," ++ [34; 13; 10; 34] ++ s ":2}").
    do 2 eexists. split; [repeat (first [apply eol_nil|apply eol_crlf|apply eol_same; [discriminate|discriminate|]])|].
    split; [now apply no_str_lf_check|]. split; [vm_compute; reflexivity|]. split; [vm_compute; reflexivity|]. split; reflexivity.
  - exists ([123; 34; 10; 34] ++ s ":1," ++ [34; 11; 34] ++ s ":2}"). do 3 eexists. split; [now apply no_str_lf_check|].
    split; [apply (@crlf_eol true); reflexivity|]. split; [vm_compute; reflexivity|]. split; [reflexivity|].
    eexists. split; [vm_compute; reflexivity|]. split; [reflexivity|]. discriminate.
Qed.
Print Assumptions C60_keys_refuted.
