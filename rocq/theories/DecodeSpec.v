(** What decoding is stated against: for each type, the Kserds which are values of
    it, and the values.  [sub] decodes the parts.

    Written from the documentation of kserd::encode and of serde's data model,
    as rules; nothing here is a function of the decoder. *)
From Verif Require Import Base F64 F32 Number BTree Value Encode EncodeSpec.
Open Scope N_scope.

(** ** UTF-8, by the table of RFC 3629 *)
Inductive utf8_form : char -> list N -> Prop :=
| U1 c : c < 128 -> utf8_form c [c]
| U2 a b : a < 32 -> b < 64 -> 128 <= a * 64 + b -> utf8_form (a * 64 + b) [192 + a; 128 + b]
| U3 a b c : a < 16 -> b < 64 -> c < 64 -> 2048 <= a * 4096 + b * 64 + c ->
    ~ (55296 <= a * 4096 + b * 64 + c < 57344) -> utf8_form (a * 4096 + b * 64 + c) [224 + a; 128 + b; 128 + c]
| U4 a b c d : a < 8 -> b < 64 -> c < 64 -> d < 64 -> 65536 <= a * 262144 + b * 4096 + c * 64 + d < 1114112 ->
    utf8_form (a * 262144 + b * 4096 + c * 64 + d) [240 + a; 128 + b; 128 + c; 128 + d].
Definition utf8_text (t : str) (b : list N) : Prop := exists l, Forall2 utf8_form t l /\ b = concat l.

(** ** the items of a Kserd taken as a sequence *)
(** a Seq, or a tuple which is not None() nor one with an id and a single item *)
Definition sequence (k : kserd) (l : list kserd) : Prop :=
  kval k = VSeq l \/
  kval k = VTuple l /\ ~ (l = [] /\ kid k = Some (s "None")) /\ ~ (length l = 1%nat /\ kid k <> None).

Section Rules.
  Context (E : decls) (sub : ty -> kserd -> data -> Prop).

  (** the first items are of these types; there may be more *)
  Definition in_turn (ts : list ty) (ks : list kserd) (l : list data) : Prop :=
    length l = length ts /\ (length ts <= length ks)%nat /\
    forall j t k d, nth_error ts j = Some t -> nth_error ks j = Some k -> nth_error l j = Some d -> sub t k d.

  (** the name is that of number j (the first one, if names are repeated); or of none *)
  Definition named {A} (fs : list (str * A)) (n : str) (o : option nat) : Prop :=
    match o with
    | Some j => (exists a, nth_error fs j = Some (n, a)) /\ forall i a, (i < j)%nat -> nth_error fs i <> Some (n, a)
    | None => forall a, ~ In (n, a) fs
    end.
  (** the same for a Kserd as a key: a text, its bytes or an index *)
  Definition keyed {A} (fs : list (str * A)) (k : kserd) (o : option nat) : Prop :=
    match kval k with
    | VStr n => named fs n o
    | VBarr b => named (map (fun f => (utf8 (fst f), snd f)) fs) b o
    | VNum (Uint n) => (0 <= n < 2 ^ 64)%Z /\ ((n < Z.of_nat (length fs))%Z /\ o = Some (Z.to_nat n) \/ (Z.of_nat (length fs) <= n)%Z /\ o = None)
    | _ => False
    end.
  (** fields from entries: entries of other names are ignored; no field is there
      twice; a field which is absent is an Option, and None *)
  Definition from_entries {K} (key : K -> option nat -> Prop) (fs : list (str * ty)) (m : list (K * kserd)) (l : list data) : Prop :=
    exists js, Forall2 (fun e o => key (fst e) o) m js /\ length l = length fs /\
      (forall p q j, nth_error js p = Some (Some j) -> nth_error js q = Some (Some j) -> p = q) /\
      (forall p e j n t d, nth_error m p = Some e -> nth_error js p = Some (Some j) -> nth_error fs j = Some (n, t) -> nth_error l j = Some d -> sub t (snd e) d) /\
      (forall j n t d, nth_error fs j = Some (n, t) -> nth_error l j = Some d -> ~ In (Some j) js -> d = DNone /\ exists u, t = TyOption u).

  (** a text as a key of a map *)
  Definition key_text (t : ty) (n : str) (d : data) : Prop :=
    match t with
    | TyString => d = DString n
    | TyBytes => d = DBytes (utf8 n)
    | TyChar => exists c, n = [c] /\ d = DChar c
    | TyNamed q =>
        match E q with
        | DefEnum vs => exists i, named vs n (Some i) /\ nth_error vs i = Some (n, ShUnit) /\ d = DVariant i DUnit
        | _ => False
        end
    | _ => False
    end.
  (** put into an empty map one after the other *)
  Definition collected (es : list (data * data)) : data :=
    DMap (fold_left (fun acc e => bt_insert d_cmp (fst e) (snd e) acc) es []).

  Definition variant_rule (h : shape) (k : kserd) (d : data) : Prop :=
    match h with
    | ShUnit => d = DUnit /\ (kval k = VUnit \/ kval k = VTuple [])
    | ShNewtype t => exists x, kval k = VTuple [x] /\ sub t x d
    | ShTuple ts => exists ks l, kval k = VTuple ks /\ length ks = length ts /\ d = DList l /\ in_turn ts ks l
    | ShStruct fs => exists m l, kval k = VCntr m /\ d = DRecord l /\ from_entries (named fs) fs m l
    end.
  Definition def_rule (f : def) (k : kserd) (d : data) : Prop :=
    match f with
    | DefUnit _ => kval k = VTuple [] /\ d = DUnit
    | DefNewtype _ t =>
        exists x e, sub t x e /\ d = DNewtype e /\
          ((kval k = VTuple [x] /\ kid k <> None /\ kid k <> Some (s "Some")) \/ exists l, sequence k (x :: l))
    | DefTuple _ ts => exists ks l, sequence k ks /\ d = DList l /\ in_turn ts ks l
    | DefStruct _ fs =>
        exists l, d = DRecord l /\
          ((exists ks, sequence k ks /\ in_turn (map snd fs) ks l) \/
           (exists m, kval k = VCntr m /\ from_entries (named fs) fs m l) \/
           (exists m, kval k = VMap m /\ from_entries (keyed fs) fs m l))
    | DefEnum vs =>
        exists name i h e, kid k = Some name /\ named vs name (Some i) /\ nth_error vs i = Some (name, h) /\ d = DVariant i e /\ variant_rule h k e
    end.
  Definition rule (t : ty) (k : kserd) (d : data) : Prop :=
    match t with
    | TyUnit => kval k = VUnit /\ d = DUnit
    | TyBool => exists b, kval k = VBool b /\ d = DBool b
    | TyInt t => exists n r, kval k = VNum n /\ d = DInt r /\ (if ntype_signed t then as_i128 n else as_u128 n) = Some r /\ int_range t r
    | TyF64 => exists n, kval k = VNum n /\ d = DF64 (as_f64 n)
    | TyF32 => exists n, kval k = VNum n /\ d = DF32 (f64_to_f32 (as_f64 n))
    | TyChar => exists c, kval k = VStr [c] /\ d = DChar c
    | TyString => exists t, d = DString t /\ (kval k = VStr t \/ exists b, kval k = VBarr b /\ utf8_text t b)
    | TyBytes =>
        exists b, d = DBytes b /\
          (kval k = VBarr b \/ (exists t, kval k = VStr t /\ b = utf8 t) \/
           exists ks, sequence k ks /\ Forall2 (fun k x => sub (TyInt Tu8) k (DInt (Z.of_N x))) ks b)
    | TyOption t =>
        (d = DNone /\ (kval k = VUnit \/ kval k = VTuple [] /\ kid k = Some (s "None"))) \/
        exists x e, kval k = VTuple [x] /\ kid k = Some (s "Some") /\ d = DSome e /\ sub t x e
    | TyTuple ts => exists ks l, sequence k ks /\ d = DList l /\ in_turn ts ks l
    | TyVec t => exists ks l, sequence k ks /\ d = DList l /\ Forall2 (sub t) ks l
    | TyMap kt vt =>
        exists es, d = collected es /\
          ((exists m, kval k = VMap m /\ Forall2 (fun e f => sub kt (fst e) (fst f) /\ sub vt (snd e) (snd f)) m es) \/
           (exists m, kval k = VCntr m /\ Forall2 (fun e f => key_text kt (fst e) (fst f) /\ sub vt (snd e) (snd f)) m es))
    | TyNamed q => def_rule (E q) k d
    end.
End Rules.
