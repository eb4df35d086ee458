(** What the properties of the Encoder under any [Serialize] implementation are
    stated against. *)
From Verif Require Import Base F64 F32 F32Spec Number NumberSpec BTree Value ValueSpec Encode EncodeSpec Ser.
Open Scope N_scope.

(** ** what the Rust types of the arguments guarantee *)
Fixpoint typed (p : ser) : Prop :=
  match p with
  | SInt t n => serde_int t = t /\ in_ntype t n = true   (* there is no serialize_usize *)
  | SF32 x => f32_wf x = true
  | SF64 x => f64_wf x = true
  | SBytes b => forallb (fun x => x <? 256) b = true
  | SSome p | SNewtypeStruct _ p | SNewtypeVariant _ p | SThen p _ => typed p
  | SSeq c | STuple c | STupleStruct _ c | STupleVariant _ c => typed_elems c
  | SMap c => typed_entries c
  | SStruct _ c | SStructVariant _ c => typed_fields c
  | _ => True
  end
with typed_elems (c : elems) : Prop :=
  match c with
  | ElCall p next => typed p /\ forall r, typed_elems (next r)
  | _ => True
  end
with typed_entries (c : entries) : Prop :=
  match c with
  | EnKey p next | EnValue p next => typed p /\ forall r, typed_entries (next r)
  | EnEntry p q next => typed p /\ typed q /\ forall r, typed_entries (next r)
  | _ => True
  end
with typed_fields (c : fields) : Prop :=
  match c with
  | FlCall _ p next => typed p /\ forall r, typed_fields (next r)
  | FlSkip _ next => typed_fields next
  | _ => True
  end.

(** ** a valid Kserd *)
(** the id is one [with_id] accepts *)
Definition id_node (k : kserd) : bool := match kid k with Some n => id_name n | None => true end.
Definition cntr_node (k : kserd) : bool := match kval k with VCntr m => strictly_sorted str_cmp m | _ => true end.
(** a map is sorted if the keys in it have no floats which do not order (NaN, ..) *)
Definition map_node (k : kserd) : bool :=
  match kval k with
  | VMap m => if forallb (fun e => k_ordinary (fst e)) m then strictly_sorted k_cmp m else true
  | _ => true
  end.

(** ** what the calls made on a collection come to: the values which were
    serialised, in order, and how the implementation returned.  A call which fails
    adds nothing. *)
Inductive gave : elems -> list kserd -> option ser_err -> Prop :=
| gave_end : gave ElEnd [] None
| gave_raise e : gave (ElRaise e) [] (Some e)
| gave_value p next k ks r : run p = SOk k -> gave (next None) ks r -> gave (ElCall p next) (k :: ks) r
| gave_error p next e ks r : run p = SErr e -> gave (next (Some e)) ks r -> gave (ElCall p next) ks r.

(** the first argument is the key waiting for its value *)
Inductive gave_map : option kserd -> entries -> list (kserd * kserd) -> option ser_err -> Prop :=
| gm_end w : gave_map w EnEnd [] None
| gm_raise w e : gave_map w (EnRaise e) [] (Some e)
| gm_key w p next k es r : run p = SOk k -> gave_map (Some k) (next None) es r -> gave_map w (EnKey p next) es r
| gm_key_error w p next e es r : run p = SErr e -> gave_map w (next (Some e)) es r -> gave_map w (EnKey p next) es r
| gm_value k p next v es r : run p = SOk v -> gave_map None (next None) es r -> gave_map (Some k) (EnValue p next) ((k, v) :: es) r
| gm_value_error k p next e es r : run p = SErr e -> gave_map None (next (Some e)) es r -> gave_map (Some k) (EnValue p next) es r
| gm_no_key p next es r : gave_map None (next (Some NoKeyAvailable)) es r -> gave_map None (EnValue p next) es r
| gm_entry w p q next k v es r : run p = SOk k -> run q = SOk v -> gave_map w (next None) es r -> gave_map w (EnEntry p q next) ((k, v) :: es) r
| gm_entry_key w p q next e es r : run p = SErr e -> gave_map w (next (Some e)) es r -> gave_map w (EnEntry p q next) es r
| gm_entry_value w p q next k e es r : run p = SOk k -> run q = SErr e -> gave_map w (next (Some e)) es r -> gave_map w (EnEntry p q next) es r.

Inductive gave_fields : fields -> list (str * kserd) -> option ser_err -> Prop :=
| gf_end : gave_fields FlEnd [] None
| gf_raise e : gave_fields (FlRaise e) [] (Some e)
| gf_value n p next k fs r : run p = SOk k -> gave_fields (next None) fs r -> gave_fields (FlCall n p next) ((n, k) :: fs) r
| gf_error n p next e fs r : run p = SErr e -> gave_fields (next (Some e)) fs r -> gave_fields (FlCall n p next) fs r
| gf_skip n next fs r : gave_fields next fs r -> gave_fields (FlSkip n next) fs r.

(** [m] is sorted; of the entries given for equal keys it has the first key and
    the last value *)
Definition first_key {K V} (cmp : K -> K -> comparison) (k : K) (l : list (K * V)) : option K :=
  option_map fst (find (fun e => match cmp k (fst e) with Eq => true | _ => false end) l).
Definition holds {K V} (cmp : K -> K -> comparison) (m given : list (K * V)) : Prop :=
  strictly_sorted cmp m = true /\
  (forall k v, In (k, v) m -> first_key cmp k given = Some k /\ last_value cmp k given = Some v) /\
  (forall k v, In (k, v) given -> exists k' v', In (k', v') m /\ cmp k k' = Eq).

(** the result of the model of derived implementations (Encode.v) *)
Definition as_sres (r : eres kserd) : sres kserd :=
  match r with
  | inr k => SOk k
  | inl (EInvalidId n) => SErr (InvalidId n)
  | inl EPanic => SPanic
  | inl EIllTyped => SErr (Message [])
  end.


(** every value has a key before it.  The first argument: a key is waiting. *)
Fixpoint paired (waiting : bool) (l : list map_call) : bool :=
  match l with
  | [] => true
  | Key _ :: l => paired true l
  | Val _ :: l => waiting && paired false l
  | Entry _ _ :: l => paired waiting l
  end.
Definition map_call_args (c : map_call) : list ser := match c with Key p | Val p => [p] | Entry p q => [p; q] end.
(** implementations which do not fail *)
Definition succeeds (p : ser) : Prop := exists k, run p = SOk k.
