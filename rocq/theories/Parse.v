(** The parser: /repo/src/parse/{mod,prims,names,wsp,heuristics,list,map,cntr}.rs. *)
From Verif Require Import Base F64 Number BTree Value Base91 Nom.
Open Scope N_scope.

(** ** parse/wsp.rs *)
(** parse/wsp.rs 4-7 *)
Definition is_blank (c : char) : bool := mem c [32; 9].
(** parse/wsp.rs 4-7 *)
Definition inline_whitespace : parser str := ptake_while is_blank.
(** parse/wsp.rs 11-14 *)
Definition is_wsp (c : char) : bool := mem c [32; 9; 13; 10].
(** parse/wsp.rs 11-14 *)
Definition multiline_whitespace : parser str := ptake_while is_wsp.
(** parse/wsp.rs 17-27 *)
Definition ignore_ws {A} (f : parser A) : parser A := fun i => let? (i, _) := opt inline_whitespace i in f i.

(** ** parse/names.rs *)
Definition is_name_char (c : char) : bool := is_alnum c || (c =? 45) || (c =? 95).
(** parse/names.rs 3-15 *)
Definition valid_name : parser str :=
  fun i => let? (_, _) := alt2 alpha1 (tag (s "_")) i in
           context (s "valid name") (cut (ptake_while1 is_name_char)) i.
(** parse/names.rs 20-33 *)
Definition ident (req_angles : bool) : parser str :=
  if req_angles then
    context (s "identity") (preceded (pchar (ch "<")) (cut (terminated valid_name (pchar (ch ">")))))
  else context (s "identity") valid_name.
(** parse/names.rs 35-40 *)
Definition field_name : parser str := ptake_while is_name_char.

(** ** parse/prims.rs *)
(** parse/prims.rs 10-18 *)
Definition unit_value : parser unit :=
  context (s "unit value")
    (pmap (preceded (pchar (ch "(")) (cut (terminated inline_whitespace (pchar (ch ")"))))) (fun _ => tt)).
(** parse/prims.rs 20-25 *)
Definition boolean : parser bool :=
  context (s "boolean") (alt2 (pmap (tag (s "true")) (fun _ => true)) (pmap (tag (s "false")) (fun _ => false))).
(** parse/prims.rs 27-36 with from_str 3-7.  The text given to [from_str] starts where the
    number starts, so that is where its error points. *)
Definition is_num_char (c : char) : bool := is_digit c || mem c (s "-.einfNa").
(** parse/prims.rs 27-36 with from_str 3-7 *)
Definition num : parser number :=
  context (s "number")
    (fun i => let (t, r) := take_while is_num_char i in
              match num_from_str t with
              | Some n => POk r n
              | None => PErr [(i, ENom NkFail)]
              end).
(** parse/prims.rs 38-48 *)
Definition parse_str (delimiter : char) : parser str :=
  preceded (pchar delimiter) (cut (terminated (ptake_till (N.eqb delimiter)) (pchar delimiter))).
(** parse/prims.rs 50-57 *)
Definition pstring : parser str :=
  fun i =>
    let (d, i) := if starts_with (s "str") i
                  then (hd 34 (skipn 3 i), skipn 3 i)
                  else (34, i) in
    context (s "string") (parse_str d) i.
(** parse/prims.rs 59-72.  [base91::slice_decode] is given the UTF-8 bytes of the text; bytes
    outside of ASCII are not in the alphabet and are skipped like the scalars
    outside of it here. *)
Definition barr : parser (list N) :=
  context (s "base 91 byte array")
    (preceded (tag (s "b91'"))
       (cut (terminated (pmap (ptake_till (N.eqb 39)) b91_decode) (pchar 39)))).
(** parse/prims.rs 74-85 *)
Definition prim_value : parser (value kserd) :=
  context (s "primitive value")
    (alt5 (pmap unit_value (fun _ => VUnit)) (pmap boolean VBool) (pmap num VNum) (pmap pstring VStr) (pmap barr VBarr)).
(** parse/mod.rs 60-66; [unwrap] of a rejected id is a panic *)
Definition kserd_ctor (id : option str) (v : value kserd) (i : str) : pres kserd :=
  match id with
  | Some id => match with_id id v with inr k => POk i k | inl _ => PPanic end
  | None => POk i (knew v)
  end.
(** parse/prims.rs 89-102 *)
Definition prim : parser kserd :=
  fun i =>
    let? (i, (id, v)) := context (s "primitive") (separated_pair (opt (ident true)) inline_whitespace prim_value) i in
    kserd_ctor id v i.

(** ** parse/heuristics.rs *)
(** parse/heuristics.rs 99-106 *)
Definition recognise_concise (i : str) : bool :=
  match find (fun c => negb (mem c [32; 9; 13])) i with
  | Some c => c =? 10
  | None => false
  end.
(** parse/heuristics.rs 109-115 *)
Definition assign_stop : str := s "<>(){}='""" ++ [13; 10].
(** parse/heuristics.rs 109-115 *)
Definition recognise_field_assign (i : str) : bool :=
  is_ok (terminated (ptake_while (fun c => is_alnum c || negb (mem c assign_stop))) (pchar (ch "=")) i).
(** parse/heuristics.rs 3-10, 18-23 *)
Inductive nonprim : Type := NpTuple | NpCntr | NpSeq | NpMap | NpNone.
(** parse/heuristics.rs 18-23 *)
Inductive ident_kind : Type := IkPrim | IkNonprim | IkNone.
(** parse/heuristics.rs 15-66; the input is always handed back *)
Definition pattern_match_delimited : parser nonprim :=
  fun orig =>
    if starts_with (s "true") orig || starts_with (s "false") orig then POk orig NpNone
    else
      let? (i, id) := opt (ident true) orig in
      let? (i, k) :=
        match id with
        | Some _ => POk i IkPrim
        | None =>
            let? (i, id) := opt (ident false) orig in
            match id with
            | Some _ => POk i IkNonprim
            | None => POk orig IkNone
            end
        end in
      let? (i, _) := multiline_whitespace i in
      let next := hd 32 i in
      let? (_, r) :=
        if next =? ch "[" then POk i NpSeq
        else if next =? ch "{" then POk i NpMap
        else if next =? ch "(" then
          if match k with IkNonprim => false | _ => is_ok (unit_value i) end then POk i NpNone
          else
            let? (j, _) := multiline_whitespace (tl i) in
            if recognise_field_assign j then POk i NpCntr else POk i NpTuple
        else POk i NpNone in
      let r := match k with IkPrim => NpNone | _ => r end in
      POk orig r.
(** parse/heuristics.rs 70-95 *)
Definition encased (b e : str) (i : str) : bool :=
  is_ok (preceded (tag b) (terminated (ignore_ws valid_name) (ignore_ws (tag e))) i).
(** parse/heuristics.rs 70-95 *)
Definition pattern_match_verbose : parser bool :=
  fun orig =>
    let? (i, _) := multiline_whitespace orig in
    POk orig (starts_with (s ":") i || starts_with (s "[[") i || recognise_field_assign i || encased (s "[") (s "]") i).

(** ** Delimited forms.  The parsers of the elements are passed in: [inl] is
    kserd_inline, [con] is kserd_concise. *)
Section Delimited.
  Variables inl con : parser kserd.

  (** parse/list.rs 3-11 *)
  Definition inline_list_kserds : parser (list kserd) :=
    context (s "comma separated kserds") (separated_list0 (ignore_ws (pchar (ch ","))) (ignore_ws inl)).
  (** parse/list.rs 18-26 *)
  Definition concise_list_kserds : parser (list kserd) :=
    preceded multiline_whitespace
      (cut (terminated (separated_list0 multiline_whitespace con) multiline_whitespace)).
  (** parse/list.rs 31-63 *)
  Definition tuple (force_inline : bool) : parser kserd :=
    fun i =>
      let? (i, id) := opt (ident false) i in
      let? (i, _) := ignore_ws (pchar (ch "(")) i in
      let concise := recognise_concise i && negb force_inline in
      let? (i, l) :=
        context (if concise then s "multi-line (concise) tuple" else s "inline tuple")
          (cut (terminated (if concise then concise_list_kserds else inline_list_kserds) (ignore_ws (pchar (ch ")"))))) i in
      kserd_ctor id (VTuple l) i.
  (** parse/list.rs 68-100 *)
  Definition seq_delimited (force_inline : bool) : parser kserd :=
    fun i =>
      let? (i, id) := opt (ident false) i in
      let? (i, _) := ignore_ws (pchar (ch "[")) i in
      let concise := recognise_concise i && negb force_inline in
      let? (i, l) :=
        context (if concise then s "multi-line (concise) sequence" else s "inline sequence")
          (cut (terminated (if concise then concise_list_kserds else inline_list_kserds) (ignore_ws (pchar (ch "]"))))) i in
      kserd_ctor id (VSeq l) i.

  (** parse/cntr.rs 4-19 *)
  Definition kvp_field (force_inline : bool) : parser (str * kserd) :=
    context (s "name-kserd key value pair")
      (separated_pair field_name (ignore_ws (pchar (ch "="))) (ignore_ws (cut (if force_inline then inl else con)))).
  (** parse/cntr.rs 22-32 *)
  Definition inline_cntr_kserds : parser (list (str * kserd)) :=
    context (s "comma separated kserdstr-kserd pair")
      (separated_list0 (ignore_ws (pchar (ch ","))) (ignore_ws (kvp_field true))).
  (** parse/cntr.rs 35-48 *)
  Definition concise_cntr_kserds : parser (list (str * kserd)) :=
    context (s "newline separated (concise) kserdstr-kserd pair")
      (preceded multiline_whitespace
         (cut (terminated (separated_list0 multiline_whitespace (kvp_field false)) multiline_whitespace))).
  (** parse/cntr.rs 50-79 *)
  Definition cntr_delimited (force_inline : bool) : parser kserd :=
    fun i =>
      let? (i, id) := opt (ident false) i in
      let? (i, _) := ignore_ws (pchar (ch "(")) i in
      let concise := recognise_concise i && negb force_inline in
      let? (i, l) :=
        context (if concise then s "concise container" else s "inline container")
          (terminated (if concise then concise_cntr_kserds else inline_cntr_kserds) (ignore_ws (pchar (ch ")")))) i in
      kserd_ctor id (VCntr (fields_of l)) i.

  (** parse/map.rs 4-23 *)
  Definition kvp_kserd (force_inline : bool) : parser (kserd * kserd) :=
    context (s "kserd-kserd key-value pair")
      (separated_pair (alt2 con inl) (ignore_ws (pchar (ch ":"))) (ignore_ws (if force_inline then inl else con))).
  (** parse/map.rs 26-36 *)
  Definition inline_map_kserds : parser (list (kserd * kserd)) :=
    context (s "comma separated kserd-kserd pair")
      (separated_list0 (ignore_ws (pchar (ch ","))) (ignore_ws (kvp_kserd true))).
  (** parse/map.rs 39-52 *)
  Definition concise_map_kserds : parser (list (kserd * kserd)) :=
    context (s "newline separated (concise) kserd-kserd pair")
      (preceded multiline_whitespace
         (terminated (separated_list0 multiline_whitespace (kvp_kserd false)) multiline_whitespace)).
  (** parse/map.rs 57-82 *)
  Definition map_delimited (force_inline : bool) : parser kserd :=
    fun i =>
      let? (i, id) := opt (ident false) i in
      let? (i, _) := ignore_ws (pchar (ch "{")) i in
      let concise := recognise_concise i && negb force_inline in
      let? (i, l) :=
        context (if concise then s "concise map" else s "inline map")
          (terminated (if concise then concise_map_kserds else inline_map_kserds) (ignore_ws (pchar (ch "}")))) i in
      kserd_ctor id (VMap (map_of l)) i.

  (** parse/mod.rs 68-82, one level *)
  Definition delimited_body (force_inline : bool) : parser kserd :=
    fun i =>
      let? (i, pat) := pattern_match_delimited i in
      match pat with
      | NpTuple => tuple force_inline i
      | NpCntr => cntr_delimited force_inline i
      | NpSeq => seq_delimited force_inline i
      | NpMap => map_delimited force_inline i
      | NpNone => prim i
      end.
End Delimited.

(** parse/mod.rs 68-82; [fuel] bounds the nesting depth *)
Fixpoint kserd_delimited (fuel : nat) (force_inline : bool) (i : str) {struct fuel} : pres kserd :=
  match fuel with
  | O => PFuel
  | S fuel => delimited_body (kserd_delimited fuel true) (kserd_delimited fuel false) force_inline i
  end.
(** parse/mod.rs 84-90 *)
Definition kserd_inline (fuel : nat) : parser kserd := kserd_delimited fuel true.
(** parse/mod.rs 88-90 *)
Definition kserd_concise (fuel : nat) : parser kserd := kserd_delimited fuel false.

(** parse/mod.rs 117-127 *)
Definition uncut {A} (p : parser A) : parser A := fun i => match p i with PFail e => PErr e | r => r end.

(** ** Verbose containers (parse/cntr.rs 97-318) *)
(** parse/cntr.rs 162-178 *)
Inductive container_field : Type :=
| CfId (id : str)
| CfDirect (name : str) (v : kserd)
| CfNested (name : str) (v : kserd)
| CfSeq (id : option str) (name : str) (v : kserd)
| CfMap (id : option str) (name : str) (k v : kserd).

(** parse/cntr.rs 290-301 *)
Fixpoint expect_indents (n : nat) : parser unit :=
  fun i => match n with
           | O => POk i tt
           | S n => let? (i, _) := alt2 (tag (s "    ")) (tag [9]) i in expect_indents n i
           end.
(** parse/cntr.rs 305-318 *)
Definition verbose_field_name_and_identity : parser (str * option str) :=
  context (s "verbose container field name")
    (fun i =>
       let? (i, fname) := ignore_ws field_name i in
       match ignore_ws (pchar (ch ":")) i with
       | POk i _ => let? (i, id) := ignore_ws (ident false) i in POk i (fname, Some id)
       | _ => POk i (fname, None)
       end).
(** parse/cntr.rs 187-198: skips blank lines *)
Fixpoint skip_lines (fuel : nat) (i : str) : pres unit :=
  match fuel with
  | O => PFuel
  | S fuel =>
      let? (n, yes) := opt (ignore_ws line_ending) i in
      match yes with
      | Some _ => skip_lines fuel n
      | None => POk i tt
      end
  end.

Section Verbose.
  (** kserd_inline, kserd_concise and kserd_nested(indents + 1) *)
  Variables inl con nested : parser kserd.

  (** parse/cntr.rs 180-288 *)
  Definition verbose_cntr_field (indents : nat) : parser container_field :=
    fun i =>
      let? (i, _) := skip_lines (S (length i)) i in
      let? (i, _) := expect_indents indents i in
      let? (i, _) := inline_whitespace i in
      if match i with [] => true | _ => false end || is_ok (ignore_ws line_ending i)
      then PErr [(i, ENom NkEof)]
      else if starts_with (s ":") i then
        let? (i, id) := ignore_ws (ident false) (tl i) in POk i (CfId id)
      else if starts_with (s "[[") i then
        let? (i, (fname, id)) :=
          context (s "field name. expecting 'field_name[:identity]'")
            (cut (preceded (tag (s "[[")) (terminated verbose_field_name_and_identity (ignore_ws (tag (s "]]")))))) i in
        let? (i, _) := ignore_ws line_ending i in
        let? (i, key) := opt (terminated (ignore_ws (uncut inl)) (ignore_ws (pchar (ch ":")))) i in
        match key with
        | Some key =>
            let? (i, v) := context (s "verbose map entry")
                             (alt2 (ignore_ws con) (preceded (ignore_ws line_ending) nested)) i in
            POk i (CfMap id fname key v)
        | None =>
            let? (i, v) := context (s "verbose sequence entry") nested i in
            POk i (CfSeq id fname v)
        end
      else if starts_with (s "[") i then
        let? (i, (fname, id)) :=
          preceded (tag (s "[")) (terminated verbose_field_name_and_identity (ignore_ws (tag (s "]")))) i in
        let? (i, _) := ignore_ws line_ending i in
        let? (i, v) := context (s "nested container") nested i in
        POk i (CfNested fname (Kserd (match kid v with Some x => Some x | None => id end) (kval v)))
      else
        let? (i, (fname, v)) := cut (kvp_field inl con false) i in
        POk i (CfDirect fname v).
End Verbose.

(** parse/cntr.rs 103-139: [entry(..).or_insert_with(..)] then an update in place *)
Fixpoint bt_update {V} (name : str) (new : V) (upd : V -> V) (m : list (str * V)) : list (str * V) :=
  match m with
  | [] => [(name, upd new)]
  | (k, v) :: m' =>
      match str_cmp name k with
      | Lt => (name, upd new) :: m
      | Eq => (k, upd v) :: m'
      | Gt => (k, v) :: bt_update name new upd m'
      end
  end.
(** [Option::or] (Rust standard library) *)
Definition or_else {A} (a b : option A) : option A := match a with Some _ => a | None => b end.
(** the local variables of parse/cntr.rs 103-156 *)
Record vstate : Type := mkVs {
  vs_seqs : list (str * (option str * list kserd));
  vs_maps : list (str * (option str * list (kserd * kserd)));
  vs_fields : list (str * kserd);
  vs_id : option str
}.
(** one turn of the loop parse/cntr.rs 103-139 *)
Definition vs_step (st : vstate) (f : container_field) : vstate :=
  match f with
  | CfId id => mkVs (vs_seqs st) (vs_maps st) (vs_fields st) (Some id)
  | CfDirect n v | CfNested n v => mkVs (vs_seqs st) (vs_maps st) (bt_insert str_cmp n v (vs_fields st)) (vs_id st)
  | CfSeq id n v =>
      mkVs (bt_update n (None, []) (fun e => (or_else id (fst e), snd e ++ [v])) (vs_seqs st))
           (vs_maps st) (vs_fields st) (vs_id st)
  | CfMap id n k v =>
      mkVs (vs_seqs st)
           (bt_update n (None, []) (fun e => (or_else id (fst e), bt_insert k_cmp k v (snd e))) (vs_maps st))
           (vs_fields st) (vs_id st)
  end.
(** parse/cntr.rs 103-156 *)
Definition assemble (fields : list container_field) : kserd :=
  let st := fold_left vs_step fields (mkVs [] [] [] None) in
  let f1 := fold_left (fun m e => bt_insert str_cmp (fst e) (Kserd (fst (snd e)) (VSeq (snd (snd e)))) m)
              (vs_seqs st) (vs_fields st) in
  let f2 := fold_left (fun m e => bt_insert str_cmp (fst e) (Kserd (fst (snd e)) (VMap (snd (snd e)))) m)
              (vs_maps st) f1 in
  Kserd (vs_id st) (VCntr f2).
(** parse/cntr.rs 97-158 *)
Definition cntr_verbose (inl con nested : parser kserd) (indents : nat) : parser kserd :=
  fun i =>
    let? (i, fields) := many0 (verbose_cntr_field inl con nested indents) i in
    POk i (assemble fields).

(** parse/mod.rs 92-104; [fuel] bounds the nesting of verbose parts, [dfuel] that of
    the delimited ones *)
Fixpoint kserd_nested (fuel dfuel : nat) (indents : nat) (i : str) {struct fuel} : pres kserd :=
  match fuel with
  | O => PFuel
  | S fuel =>
      let? (i, verbose) := pattern_match_verbose i in
      if verbose then
        cntr_verbose (kserd_inline dfuel) (kserd_concise dfuel) (kserd_nested fuel dfuel (S indents)) indents i
      else ignore_ws (kserd_concise dfuel) i
  end.

(** parse/mod.rs 106-114 *)
Definition kserd_root (i : str) : pres kserd :=
  match i with
  | [] => context (s "empty input") (fun i => PErr [(i, ENom NkEof)]) i
  | _ =>
      let n := S (length i) in
      all_consuming (terminated (kserd_nested n n 0) multiline_whitespace) i
  end.
