(** The parser which keeps count of its work.  It is the parser of Nom.v and Parse.v, line by line,
    with two counters: [values] goes up by one each time [kserd_delimited] (/repo/src/parse/mod.rs 68-82)
    starts to read a value, [chars] by the number of characters which are looked at.  What the counters do not
    see: copying the results, sorting fields and entries, and building errors. *)
From Verif Require Import Base F64 Number BTree Value Base91 Nom Parse ParseErr.
Open Scope nat_scope.

(** the two counters *)
Record work : Type := Work { values : nat; chars : nat }.
(** no work *)
Definition nothing : work := Work 0 0.
(** work after work *)
Definition wadd (a b : work) : work := Work (values a + values b) (chars a + chars b).
(** IResult (nom 7) with the work done for it *)
Definition wpres (A : Type) : Type := pres A * work.
(** Fn(&str) -> IResult (nom 7) *)
Definition wparser (A : Type) := str -> wpres A.
(** a result at hand *)
Definition free {A} (r : pres A) : wpres A := (r, nothing).
(** [n] characters are looked at *)
Definition looking {A} (n : nat) (r : wpres A) : wpres A := (fst r, wadd (Work 0 n) (snd r)).
(** the [?] operator *)
Definition wbind {A B} (r : wpres A) (f : str -> A -> wpres B) : wpres B :=
  match fst r with
  | POk i a => let next := f i a in (fst next, wadd (snd r) (snd next))
  | PErr e => (PErr e, snd r)
  | PFail e => (PFail e, snd r)
  | PPanic => (PPanic, snd r)
  | PFuel => (PFuel, snd r)
  end.
Notation "'let!' ( i , a ) := e 'in' f" := (wbind e (fun i a => f)) (at level 200, i name, a pattern, e at level 200, f at level 200).

(** ** nom *)
(** a change of the result alone: combinator::cut, error::context (nom 7) *)
Definition wthrough {A B} (f : pres A -> pres B) (r : wpres A) : wpres B := (f (fst r), snd r).
(** combinator::map (nom 7) *)
Definition w_map {A B} (p : wparser A) (f : A -> B) : wparser B := fun i => let! (r, a) := p i in free (POk r (f a)).
(** sequence::preceded (nom 7) *)
Definition w_preceded {A B} (p : wparser A) (q : wparser B) : wparser B := fun i => let! (i, _) := p i in q i.
(** sequence::terminated (nom 7) *)
Definition w_terminated {A B} (p : wparser A) (q : wparser B) : wparser A :=
  fun i => let! (i, a) := p i in let! (i, _) := q i in free (POk i a).
(** sequence::separated_pair (nom 7) *)
Definition w_separated_pair {A B C} (p : wparser A) (sep : wparser B) (q : wparser C) : wparser (A * C) :=
  fun i => let! (i, a) := p i in let! (i, _) := sep i in let! (i, c) := q i in free (POk i (a, c)).
(** combinator::opt (nom 7) *)
Definition w_opt {A} (p : wparser A) : wparser (option A) :=
  fun i => wthrough (fun r => match r with
    | POk r a => POk r (Some a) | PErr _ => POk i None | PFail e => PFail e | PPanic => PPanic | PFuel => PFuel end) (p i).
(** combinator::cut (nom 7) *)
Definition w_cut {A} (p : wparser A) : wparser A := fun i => wthrough (fun r => match r with PErr e => PFail e | r => r end) (p i).
(** parse/mod.rs 117-127 *)
Definition w_uncut {A} (p : wparser A) : wparser A := fun i => wthrough (fun r => match r with PFail e => PErr e | r => r end) (p i).
(** error::context (nom 7) *)
Definition w_context {A} (t : str) (p : wparser A) : wparser A :=
  fun i => wthrough (fun r => match r with
    | PErr e => PErr (e ++ [(i, EContext t)]) | PFail e => PFail (e ++ [(i, EContext t)]) | r => r end) (p i).
(** the next alternative of branch::alt (nom 7) *)
Definition w_or {A} (r : wpres A) (next : unit -> wpres A) : wpres A :=
  match fst r with PErr _ => let next := next tt in (fst next, wadd (snd r) (snd next)) | _ => r end.
(** the error of branch::alt (nom 7) *)
Definition w_alt_error {A} (i : str) (r : wpres A) : wpres A := wthrough (fun r => match r with PErr e => PErr (e ++ [(i, ENom NkAlt)]) | r => r end) r.
(** branch::alt of two (nom 7) *)
Definition w_alt2 {A} (p q : wparser A) : wparser A := fun i => w_or (p i) (fun _ => w_alt_error i (q i)).
(** branch::alt of five (nom 7) *)
Definition w_alt5 {A} (p1 p2 p3 p4 p5 : wparser A) : wparser A :=
  fun i => w_or (p1 i) (fun _ => w_or (p2 i) (fun _ => w_or (p3 i) (fun _ => w_or (p4 i) (fun _ => w_alt_error i (p5 i))))).
(** character::complete::char (nom 7) looks at one character *)
Definition w_char (c : char) : wparser char := fun i => looking 1 (free (pchar c i)).
(** bytes::complete::tag (nom 7) *)
Definition w_tag (t : str) : wparser str := fun i => looking (length t) (free (tag t i)).
(** what take_while looks at: all it takes, and the character it stops at (nom 7) *)
Definition taken (f : char -> bool) (i : str) : nat := S (length (fst (take_while f i))).
(** bytes::complete::take_while (nom 7) *)
Definition w_take_while (f : char -> bool) : wparser str := fun i => looking (taken f i) (free (ptake_while f i)).
(** bytes::complete::take_till (nom 7) *)
Definition w_take_till (f : char -> bool) : wparser str := w_take_while (fun c => negb (f c)).
(** bytes::complete::take_while1 (nom 7) *)
Definition w_take_while1 (f : char -> bool) : wparser str := fun i => looking (taken f i) (free (ptake_while1 f i)).
(** character::complete::alpha1 (nom 7) *)
Definition w_alpha1 : wparser str := fun i => looking (taken is_alpha i) (free (alpha1 i)).
(** character::complete::line_ending (nom 7) *)
Definition w_line_ending : wparser str := fun i => looking 2 (free (line_ending i)).
(** combinator::all_consuming (nom 7) *)
Definition w_all_consuming {A} (p : wparser A) : wparser A :=
  fun i => let! (i, a) := p i in free (match i with [] => POk i a | _ => PErr [(i, ENom NkEof)] end).
(** multi::many0 (nom 7) *)
Fixpoint w_many0_loop {A} (fuel : nat) (p : wparser A) (acc : list A) (i : str) : wpres (list A) :=
  match fuel with
  | O => free PFuel
  | S fuel =>
      let r := p i in
      match fst r with
      | PErr _ => (POk i acc, snd r)
      | PFail e => (PFail e, snd r)
      | PPanic => (PPanic, snd r)
      | PFuel => (PFuel, snd r)
      | POk i1 a =>
          if Nat.eqb (length i1) (length i) then (PErr [(i, ENom NkMany0)], snd r)
          else let next := w_many0_loop fuel p (acc ++ [a]) i1 in (fst next, wadd (snd r) (snd next))
      end
  end.
(** multi::many0 (nom 7) *)
Definition w_many0 {A} (p : wparser A) : wparser (list A) := fun i => w_many0_loop (S (length i)) p [] i.
(** multi::separated_list0 (nom 7) *)
Fixpoint w_sep_loop {A B} (fuel : nat) (sep : wparser B) (p : wparser A) (acc : list A) (i : str) : wpres (list A) :=
  match fuel with
  | O => free PFuel
  | S fuel =>
      let r := sep i in
      match fst r with
      | PErr _ => (POk i acc, snd r)
      | PFail e => (PFail e, snd r)
      | PPanic => (PPanic, snd r)
      | PFuel => (PFuel, snd r)
      | POk i1 _ =>
          if Nat.eqb (length i1) (length i) then (PErr [(i1, ENom NkSeparatedList)], snd r)
          else
            let v := p i1 in
            let w := wadd (snd r) (snd v) in
            match fst v with
            | PErr _ => (POk i acc, w)
            | PFail e => (PFail e, w)
            | PPanic => (PPanic, w)
            | PFuel => (PFuel, w)
            | POk i2 a => let next := w_sep_loop fuel sep p (acc ++ [a]) i2 in (fst next, wadd w (snd next))
            end
      end
  end.
(** multi::separated_list0 (nom 7) *)
Definition w_separated_list0 {A B} (sep : wparser B) (p : wparser A) : wparser (list A) :=
  fun i => let r := p i in
           match fst r with
           | PErr _ => (POk i [], snd r)
           | PFail e => (PFail e, snd r)
           | PPanic => (PPanic, snd r)
           | PFuel => (PFuel, snd r)
           | POk i1 a => let next := w_sep_loop (S (length i1)) sep p [a] i1 in (fst next, wadd (snd r) (snd next))
           end.

(** ** parse/wsp.rs *)
(** parse/wsp.rs 4-7 *)
Definition w_inline_whitespace : wparser str := w_take_while is_blank.
(** parse/wsp.rs 11-14 *)
Definition w_multiline_whitespace : wparser str := w_take_while is_wsp.
(** parse/wsp.rs 17-27 *)
Definition w_ignore_ws {A} (f : wparser A) : wparser A := fun i => let! (i, _) := w_opt w_inline_whitespace i in f i.

(** ** parse/names.rs *)
(** parse/names.rs 3-15 *)
Definition w_valid_name : wparser str :=
  fun i => let! (_, _) := w_alt2 w_alpha1 (w_tag (s "_")) i in
           w_context (s "valid name") (w_cut (w_take_while1 is_name_char)) i.
(** parse/names.rs 20-33 *)
Definition w_ident (req_angles : bool) : wparser str :=
  if req_angles then
    w_context (s "identity") (w_preceded (w_char (ch "<")) (w_cut (w_terminated w_valid_name (w_char (ch ">")))))
  else w_context (s "identity") w_valid_name.
(** parse/names.rs 35-40 *)
Definition w_field_name : wparser str := w_take_while is_name_char.

(** ** parse/prims.rs *)
(** parse/prims.rs 10-18 *)
Definition w_unit_value : wparser unit :=
  w_context (s "unit value")
    (w_map (w_preceded (w_char (ch "(")) (w_cut (w_terminated w_inline_whitespace (w_char (ch ")"))))) (fun _ => tt)).
(** parse/prims.rs 20-25 *)
Definition w_boolean : wparser bool :=
  w_context (s "boolean") (w_alt2 (w_map (w_tag (s "true")) (fun _ => true)) (w_map (w_tag (s "false")) (fun _ => false))).
(** parse/prims.rs 27-36 with from_str 3-7: the characters of the number are taken, then read up to three times (ds/num.rs) *)
Definition w_num : wparser number :=
  w_context (s "number")
    (fun i => let (t, r) := take_while is_num_char i in
              looking (taken is_num_char i + 3 * length t) (free
              match num_from_str t with
              | Some n => POk r n
              | None => PErr [(i, ENom NkFail)]
              end)).
(** parse/prims.rs 38-48 *)
Definition w_parse_str (delimiter : char) : wparser str :=
  w_preceded (w_char delimiter) (w_cut (w_terminated (w_take_till (N.eqb delimiter)) (w_char delimiter))).
(** parse/prims.rs 50-57 *)
Definition w_string : wparser str :=
  fun i =>
    let (d, i) := if starts_with (s "str") i
                  then (hd 34%N (skipn 3 i), skipn 3 i)
                  else (34%N, i) in
    looking 4 (w_context (s "string") (w_parse_str d) i).
(** parse/prims.rs 59-72; decoding goes over the text once *)
Definition w_barr : wparser (list N) :=
  w_context (s "base 91 byte array")
    (w_preceded (w_tag (s "b91'"))
       (w_cut (w_terminated (fun i => let! (r, t) := w_take_till (N.eqb 39) i in looking (length t) (free (POk r (b91_decode t)))) (w_char 39%N)))).
(** parse/prims.rs 74-85 *)
Definition w_prim_value : wparser (value kserd) :=
  w_context (s "primitive value")
    (w_alt5 (w_map w_unit_value (fun _ => VUnit)) (w_map w_boolean VBool) (w_map w_num VNum) (w_map w_string VStr) (w_map w_barr VBarr)).
(** parse/mod.rs 60-66; an id is looked at again *)
Definition w_ctor (id : option str) (v : value kserd) (i : str) : wpres kserd :=
  looking (match id with Some id => length id | None => 0 end) (free (kserd_ctor id v i)).
(** parse/prims.rs 89-102 *)
Definition w_prim : wparser kserd :=
  fun i =>
    let! (i, (id, v)) := w_context (s "primitive") (w_separated_pair (w_opt (w_ident true)) w_inline_whitespace w_prim_value) i in
    w_ctor id v i.

(** ** parse/heuristics.rs *)
(** parse/heuristics.rs 99-106: the characters up to the first which decides *)
Definition concise_chars (i : str) : nat := taken (fun c => mem c [32; 9; 13]%N) i.
(** parse/heuristics.rs 109-115 *)
Definition w_recognise_field_assign : wparser str :=
  w_terminated (w_take_while (fun c => is_alnum c || negb (mem c assign_stop))) (w_char (ch "=")).
(** parse/heuristics.rs 15-66 *)
Definition w_pattern_match_delimited : wparser nonprim :=
  fun orig => looking 10
    (if starts_with (s "true") orig || starts_with (s "false") orig then free (POk orig NpNone)
    else
      let! (i, id) := w_opt (w_ident true) orig in
      let! (i, k) :=
        match id with
        | Some _ => free (POk i IkPrim)
        | None =>
            let! (i, id) := w_opt (w_ident false) orig in
            match id with
            | Some _ => free (POk i IkNonprim)
            | None => free (POk orig IkNone)
            end
        end in
      let! (i, _) := w_multiline_whitespace i in
      let next := hd 32%N i in
      let! (_, r) :=
        if N.eqb next (ch "[") then free (POk i NpSeq)
        else if N.eqb next (ch "{") then free (POk i NpMap)
        else if N.eqb next (ch "(") then
          let u := w_unit_value i in
          if match k with IkNonprim => false | _ => is_ok (fst u) end then (POk i NpNone, snd u)
          else
            let! (_, _) := (POk i tt, snd u) in
            let! (j, _) := w_multiline_whitespace (tl i) in
            let a := w_recognise_field_assign j in
            if is_ok (fst a) then (POk i NpCntr, snd a) else (POk i NpTuple, snd a)
        else free (POk i NpNone) in
      let r := match k with IkPrim => NpNone | _ => r end in
      free (POk orig r)).
(** parse/heuristics.rs 70-95 *)
Definition w_encased (b e : str) : wparser str := w_preceded (w_tag b) (w_terminated (w_ignore_ws w_valid_name) (w_ignore_ws (w_tag e))).
(** parse/heuristics.rs 70-95; all four tests are counted, though a test which holds ends them *)
Definition w_pattern_match_verbose : wparser bool :=
  fun orig =>
    let! (i, _) := w_multiline_whitespace orig in
    let a := w_recognise_field_assign i in
    let e := w_encased (s "[") (s "]") i in
    looking 3 (POk orig (starts_with (s ":") i || starts_with (s "[[") i || is_ok (fst a) || is_ok (fst e)), wadd (snd a) (snd e)).

(** ** Delimited forms.  [inl] is kserd_inline, [con] is kserd_concise. *)
Section Delimited.
  Variables inl con : wparser kserd.

  (** parse/list.rs 3-11 *)
  Definition w_inline_list : wparser (list kserd) :=
    w_context (s "comma separated kserds") (w_separated_list0 (w_ignore_ws (w_char (ch ","))) (w_ignore_ws inl)).
  (** parse/list.rs 18-26 *)
  Definition w_concise_list : wparser (list kserd) :=
    w_preceded w_multiline_whitespace
      (w_cut (w_terminated (w_separated_list0 w_multiline_whitespace con) w_multiline_whitespace)).
  (** parse/list.rs 31-63 *)
  Definition w_tuple (force_inline : bool) : wparser kserd :=
    fun i =>
      let! (i, id) := w_opt (w_ident false) i in
      let! (i, _) := w_ignore_ws (w_char (ch "(")) i in
      let concise := recognise_concise i && negb force_inline in
      let! (i, l) := looking (concise_chars i)
        (w_context (if concise then s "multi-line (concise) tuple" else s "inline tuple")
          (w_cut (w_terminated (if concise then w_concise_list else w_inline_list) (w_ignore_ws (w_char (ch ")"))))) i) in
      w_ctor id (VTuple l) i.
  (** parse/list.rs 68-100 *)
  Definition w_seq (force_inline : bool) : wparser kserd :=
    fun i =>
      let! (i, id) := w_opt (w_ident false) i in
      let! (i, _) := w_ignore_ws (w_char (ch "[")) i in
      let concise := recognise_concise i && negb force_inline in
      let! (i, l) := looking (concise_chars i)
        (w_context (if concise then s "multi-line (concise) sequence" else s "inline sequence")
          (w_cut (w_terminated (if concise then w_concise_list else w_inline_list) (w_ignore_ws (w_char (ch "]"))))) i) in
      w_ctor id (VSeq l) i.

  (** parse/cntr.rs 4-19 *)
  Definition w_kvp_field (force_inline : bool) : wparser (str * kserd) :=
    w_context (s "name-kserd key value pair")
      (w_separated_pair w_field_name (w_ignore_ws (w_char (ch "="))) (w_ignore_ws (w_cut (if force_inline then inl else con)))).
  (** parse/cntr.rs 22-32 *)
  Definition w_inline_cntr : wparser (list (str * kserd)) :=
    w_context (s "comma separated kserdstr-kserd pair")
      (w_separated_list0 (w_ignore_ws (w_char (ch ","))) (w_ignore_ws (w_kvp_field true))).
  (** parse/cntr.rs 35-48 *)
  Definition w_concise_cntr : wparser (list (str * kserd)) :=
    w_context (s "newline separated (concise) kserdstr-kserd pair")
      (w_preceded w_multiline_whitespace
         (w_cut (w_terminated (w_separated_list0 w_multiline_whitespace (w_kvp_field false)) w_multiline_whitespace))).
  (** parse/cntr.rs 50-79 *)
  Definition w_cntr (force_inline : bool) : wparser kserd :=
    fun i =>
      let! (i, id) := w_opt (w_ident false) i in
      let! (i, _) := w_ignore_ws (w_char (ch "(")) i in
      let concise := recognise_concise i && negb force_inline in
      let! (i, l) := looking (concise_chars i)
        (w_context (if concise then s "concise container" else s "inline container")
          (w_terminated (if concise then w_concise_cntr else w_inline_cntr) (w_ignore_ws (w_char (ch ")")))) i) in
      w_ctor id (VCntr (fields_of l)) i.

  (** parse/map.rs 4-23 *)
  Definition w_kvp_kserd (force_inline : bool) : wparser (kserd * kserd) :=
    w_context (s "kserd-kserd key-value pair")
      (w_separated_pair (w_alt2 con inl) (w_ignore_ws (w_char (ch ":"))) (w_ignore_ws (if force_inline then inl else con))).
  (** parse/map.rs 26-36 *)
  Definition w_inline_map : wparser (list (kserd * kserd)) :=
    w_context (s "comma separated kserd-kserd pair")
      (w_separated_list0 (w_ignore_ws (w_char (ch ","))) (w_ignore_ws (w_kvp_kserd true))).
  (** parse/map.rs 39-52 *)
  Definition w_concise_map : wparser (list (kserd * kserd)) :=
    w_context (s "newline separated (concise) kserd-kserd pair")
      (w_preceded w_multiline_whitespace
         (w_terminated (w_separated_list0 w_multiline_whitespace (w_kvp_kserd false)) w_multiline_whitespace)).
  (** parse/map.rs 57-82 *)
  Definition w_mapping (force_inline : bool) : wparser kserd :=
    fun i =>
      let! (i, id) := w_opt (w_ident false) i in
      let! (i, _) := w_ignore_ws (w_char (ch "{")) i in
      let concise := recognise_concise i && negb force_inline in
      let! (i, l) := looking (concise_chars i)
        (w_context (if concise then s "concise map" else s "inline map")
          (w_terminated (if concise then w_concise_map else w_inline_map) (w_ignore_ws (w_char (ch "}")))) i) in
      w_ctor id (VMap (map_of l)) i.

  (** parse/mod.rs 68-82, one level *)
  Definition w_body (force_inline : bool) : wparser kserd :=
    fun i =>
      let! (i, pat) := w_pattern_match_delimited i in
      match pat with
      | NpTuple => w_tuple force_inline i
      | NpCntr => w_cntr force_inline i
      | NpSeq => w_seq force_inline i
      | NpMap => w_mapping force_inline i
      | NpNone => w_prim i
      end.
End Delimited.

(** parse/mod.rs 68-82: a value is started *)
Fixpoint w_delimited (fuel : nat) (force_inline : bool) (i : str) {struct fuel} : wpres kserd :=
  match fuel with
  | O => free PFuel
  | S fuel => let r := w_body (w_delimited fuel true) (w_delimited fuel false) force_inline i in (fst r, wadd (Work 1 0) (snd r))
  end.

(** ** Verbose containers (parse/cntr.rs 97-318) *)
(** parse/cntr.rs 290-301 *)
Fixpoint w_expect_indents (n : nat) : wparser unit :=
  fun i => match n with
           | O => free (POk i tt)
           | S n => let! (i, _) := w_alt2 (w_tag (s "    ")) (w_tag [9%N]) i in w_expect_indents n i
           end.
(** parse/cntr.rs 305-318 *)
Definition w_verbose_name : wparser (str * option str) :=
  w_context (s "verbose container field name")
    (fun i =>
       let! (i, fname) := w_ignore_ws w_field_name i in
       let! (i, colon) := wthrough (fun r => match r with POk j _ => POk j true | _ => POk i false end) (w_ignore_ws (w_char (ch ":")) i) in
       if colon : bool then let! (i, id) := w_ignore_ws (w_ident false) i in free (POk i (fname, Some id))
       else free (POk i (fname, None))).
(** parse/cntr.rs 187-198 *)
Fixpoint w_skip_lines (fuel : nat) (i : str) : wpres unit :=
  match fuel with
  | O => free PFuel
  | S fuel =>
      let! (n, yes) := w_opt (w_ignore_ws w_line_ending) i in
      match yes with
      | Some _ => w_skip_lines fuel n
      | None => free (POk i tt)
      end
  end.

Section Verbose.
  (** kserd_inline, kserd_concise and kserd_nested(indents + 1) *)
  Variables inl con nested : wparser kserd.

  (** parse/cntr.rs 180-288 *)
  Definition w_field (indents : nat) : wparser container_field :=
    fun i =>
      let! (i, _) := w_skip_lines (S (length i)) i in
      let! (i, _) := w_expect_indents indents i in
      let! (i, _) := w_inline_whitespace i in
      let e := w_ignore_ws w_line_ending i in
      let! (i, ended) := (POk i (match i with [] => true | _ => false end || is_ok (fst e)), snd e) in
      if ended : bool
      then free (PErr [(i, ENom NkEof)])
      else looking 4 (if starts_with (s ":") i then
        let! (i, id) := w_ignore_ws (w_ident false) (tl i) in free (POk i (CfId id))
      else if starts_with (s "[[") i then
        let! (i, (fname, id)) :=
          w_context (s "field name. expecting 'field_name[:identity]'")
            (w_cut (w_preceded (w_tag (s "[[")) (w_terminated w_verbose_name (w_ignore_ws (w_tag (s "]]")))))) i in
        let! (i, _) := w_ignore_ws w_line_ending i in
        let! (i, key) := w_opt (w_terminated (w_ignore_ws (w_uncut inl)) (w_ignore_ws (w_char (ch ":")))) i in
        match key with
        | Some key =>
            let! (i, v) := w_context (s "verbose map entry")
                             (w_alt2 (w_ignore_ws con) (w_preceded (w_ignore_ws w_line_ending) nested)) i in
            free (POk i (CfMap id fname key v))
        | None =>
            let! (i, v) := w_context (s "verbose sequence entry") nested i in
            free (POk i (CfSeq id fname v))
        end
      else if starts_with (s "[") i then
        let! (i, (fname, id)) :=
          w_preceded (w_tag (s "[")) (w_terminated w_verbose_name (w_ignore_ws (w_tag (s "]")))) i in
        let! (i, _) := w_ignore_ws w_line_ending i in
        let! (i, v) := w_context (s "nested container") nested i in
        free (POk i (CfNested fname (Kserd (match kid v with Some x => Some x | None => id end) (kval v))))
      else
        let! (i, (fname, v)) := w_cut (w_kvp_field inl con false) i in
        free (POk i (CfDirect fname v))).
End Verbose.
(** parse/cntr.rs 97-158 *)
Definition w_verbose (inl con nested : wparser kserd) (indents : nat) : wparser kserd :=
  fun i =>
    let! (i, fields) := w_many0 (w_field inl con nested indents) i in
    free (POk i (assemble fields)).
(** parse/mod.rs 92-104 *)
Fixpoint w_nested (fuel dfuel : nat) (indents : nat) (i : str) {struct fuel} : wpres kserd :=
  match fuel with
  | O => free PFuel
  | S fuel =>
      let! (i, verbose) := w_pattern_match_verbose i in
      if verbose : bool then
        w_verbose (w_delimited dfuel true) (w_delimited dfuel false) (w_nested fuel dfuel (S indents)) indents i
      else w_ignore_ws (w_delimited dfuel false) i
  end.
(** parse/mod.rs 106-114 *)
Definition w_root (i : str) : wpres kserd :=
  match i with
  | [] => free (context (s "empty input") (fun i => PErr [(i, ENom NkEof)]) i)
  | _ =>
      let n := S (length i) in
      w_all_consuming (w_terminated (w_nested n n 0) w_multiline_whitespace) i
  end.
(** parse/mod.rs 210-219 *)
Definition parse_counting (src : str) : parse_result * work :=
  let r := w_root src in
  (match fst r with
   | POk _ k => ParseOk k
   | PErr e | PFail e => ParseErr (error_new src e)
   | PPanic => ParsePanic
   | PFuel => ParseFuel
   end, snd r).
