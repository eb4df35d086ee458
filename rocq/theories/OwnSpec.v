(** What the properties of owned and borrowed data are stated against. *)
From Verif Require Import Base Number Value Encode Own.
Open Scope N_scope.

(** ** types *)
(** [true]: the references of the type are &str, and &str is not the key
    of a map.  [false]: no references. *)
Fixpoint refs_ok (refs : bool) (t : oty) : bool :=
  match t with
  | OtStr => refs
  | OtSlice => false
  | OtOption t | OtVec t => refs_ok refs t
  | OtTuple l => forallb (refs_ok refs) l
  | OtMap k v => match k with OtStr => false | _ => true end && refs_ok refs k && refs_ok refs v
  | _ => true
  end.
Definition shape_ok (refs : bool) (h : oshape) : bool :=
  match h with
  | OhUnit => true
  | OhNewtype t => refs_ok refs t
  | OhTuple l => forallb (refs_ok refs) l
  | OhStruct fs => forallb (fun f => refs_ok refs (snd f)) fs
  end.
Definition def_ok (refs : bool) (d : odef) : bool :=
  match d with
  | OdUnit _ => true
  | OdNewtype _ t => refs_ok refs t
  | OdTuple _ l => forallb (refs_ok refs) l
  | OdStruct _ fs => forallb (fun f => refs_ok refs (snd f)) fs
  | OdEnum vs => forallb (fun v => shape_ok refs (snd v)) vs
  end.
(** the type and all declarations *)
Definition no_refs (E : odecls) (t : oty) : Prop := refs_ok false t = true /\ forall n, def_ok false (E n) = true.
Definition text_refs (E : odecls) (t : oty) : Prop := refs_ok true t = true /\ forall n, def_ok true (E n) = true.

(** ** values: every text and byte array is borrowed; names and ids may be owned *)
Fixpoint data_brwed (k : okserd) : bool :=
  match k with
  | OKserd _ v =>
      match v with
      | OUnit | OBool _ | ONum _ => true
      | OStr t => is_brwed t
      | OBarr b => is_brwed b
      | OTuple l | OSeq l => forallb data_brwed l
      | OCntr m => forallb (fun e => data_brwed (snd e)) m
      | OMap m => forallb (fun e => data_brwed (fst e) && data_brwed (snd e)) m
      end
  end.
(** no byte array *)
Fixpoint no_bytes (k : kserd) : bool :=
  match k with
  | Kserd _ v =>
      match v with
      | VBarr _ => false
      | VTuple l | VSeq l => forallb no_bytes l
      | VCntr m => forallb (fun e => no_bytes (snd e)) m
      | VMap m => forallb (fun e => no_bytes (fst e) && no_bytes (snd e)) m
      | _ => true
      end
  end.
(** the names, texts and byte arrays in the tree (not the ids: no method and no
    decoded value shows who owns them) *)
Fixpoint parts_are (name text : cow str -> bool) (bytes : cow (list N) -> bool) (k : okserd) : bool :=
  match k with
  | OKserd _ v =>
      match v with
      | OUnit | OBool _ | ONum _ => true
      | OStr t => text t
      | OBarr b => bytes b
      | OTuple l | OSeq l => forallb (parts_are name text bytes) l
      | OCntr m => forallb (fun e => name (fst e) && parts_are name text bytes (snd e)) m
      | OMap m => forallb (fun e => parts_are name text bytes (fst e) && parts_are name text bytes (snd e)) m
      end
  end.
