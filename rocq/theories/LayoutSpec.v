(** What the layout properties are stated against. *)
From Verif Require Import Base F64 Number BTree Value Nav NavSpec Fmt Formatter FmtSpec.
Open Scope nat_scope.

(** ** estimated widths *)
(** on one line: the sum over all nodes of what each adds *)
Definition inline_est (cfg : config) (k : kserd) : nat := total (fun x => inline_width x cfg) k.
(** on several lines: the widest line, the first one or that of an entry *)
Fixpoint concise_est (cfg : config) (k : kserd) : nat :=
  match k with
  | Kserd id v =>
      let first := concise_width (Kserd id v) cfg in
      match v with
      | VTuple l | VSeq l => fold_left max (map (fun x => 4 + concise_est cfg x) l) first
      | VCntr m => fold_left max (map (fun e => 4 + length (fst e) + 3 + concise_est cfg (snd e)) m) first
      | VMap m => fold_left max (map (fun e => 4 + inline_est cfg (fst e) + 2 + concise_est cfg (snd e)) m) first
      | _ => first
      end
  end.
Definition repr_least (a b c : repr) : repr := repr_min a (repr_min b c).

(** ** what is asked of a value at column [col]: inline if both estimates fit,
    concise if only the concise one does, else verbose *)
Definition wants (cfg : config) (col : nat) (k : kserd) : repr :=
  match width_limit cfg with
  | None => Inline
  | Some lim =>
      if lim <? col + concise_est cfg k then Verbose
      else if lim <? col + inline_est cfg k then Concise else Inline
  end.
(** a container in a sequence is not made concise but verbose *)
Definition asked (cfg : config) (col : nat) (parent k : kserd) : repr :=
  match wants cfg col k, kval k, kval parent with
  | Concise, VCntr _, VSeq _ => Verbose
  | r, _, _ => r
  end.

(** ** columns *)
Definition child (fm : formatter) (p n : node) : Prop := In n (fm_nav fm) /\ node_parent (fm_nav fm) n = Some p.
(** the last line of a key: all of it, or a bracket *)
Definition key_width (cfg : config) (fm : formatter) (q : node) (w : nat) : Prop :=
  match line_of fm (n_idx q) with
  | Some Inline => w = inline_est cfg (n_kserd q)
  | _ => w = 1
  end.
(** how far right of the column of [p] an entry [n] written in a line of its own starts *)
Inductive within (cfg : config) (fm : formatter) (p n : node) : nat -> Prop :=
| w_tuple l : kval (n_kserd p) = VTuple l -> within cfg fm p n 4
| w_seq l : kval (n_kserd p) = VSeq l -> within cfg fm p n 4
| w_field m name x : kval (n_kserd p) = VCntr m -> nth_error m (idx_in_parent n) = Some (name, x) ->
    within cfg fm p n (4 + length name + 3)
| w_key m : kval (n_kserd p) = VMap m -> is_key n = true -> within cfg fm p n 4
| w_value m q w : kval (n_kserd p) = VMap m -> is_key n = false ->
    child fm p q -> is_key q = true -> idx_in_parent q = idx_in_parent n -> key_width cfg fm q w ->
    within cfg fm p n (4 + w + 2).
(** the column of a node: the root at 0, the entries of concise values right of
    it; a container which is a section of a container is indented by 4, a list
    of sections is not *)
Inductive block (cfg : config) (fm : formatter) : node -> nat -> Prop :=
| b_root n : In n (fm_nav fm) -> n_idx n = 0 -> block cfg fm n 0
| b_entry p n c x : child fm p n -> line_of fm (n_idx p) = Some Concise -> block cfg fm p c -> within cfg fm p n x ->
    block cfg fm n (c + x)
| b_section p n c : child fm p n -> is_cntr (n_kserd p) = true -> is_cntr (n_kserd n) = true ->
    line_of fm (n_idx n) = Some Verbose -> block cfg fm p c -> block cfg fm n (c + 4)
| b_list p n c l : child fm p n -> is_cntr (n_kserd p) = true -> kval (n_kserd n) = VSeq l ->
    line_of fm (n_idx n) = Some Verbose -> block cfg fm p c -> block cfg fm n c.

(** ** lines *)
(** the lengths of the lines of a text which starts at column [col] *)
Fixpoint line_lengths (col : nat) (t : str) : list nat :=
  match t with
  | [] => [col]
  | c :: t => if (c =? 10)%N then col :: line_lengths 0 t else line_lengths (S col) t
  end.
(** characters a node may have more than estimated: the parentheses of a unit
    with an id, [str] before a string with a double quote, the quotes and marks of a
    short byte array, the inner spaces of a map, the second bracket of an empty
    value, the space after an empty id *)
Definition slack (k : kserd) : nat :=
  let noid := match kid k with Some [] => 1 | _ => 0 end in
  match kval k with
  | VUnit => match kid k with Some (_ :: _) => 2 | _ => 0 end
  | VStr t => if mem 34%N t then 2 else 0
  | VBarr ([] | [_]) => 2
  | VTuple [] | VCntr [] | VSeq [] | VMap [] => 1
  | VCntr _ | VSeq _ => noid
  | VMap _ => 2 + noid
  | _ => 0
  end.
(** A line is longer than the limit although the node [i] in it could have been
    written in the form [r], and then no line is. *)
Definition too_long (k : kserd) (cfg : config) (lim i : nat) (r : repr) : Prop :=
  width_limit cfg = Some lim /\ exists fm fm1 fm2 t1 t2, fm_new k = LRet fm /\ apply_config fm cfg = LRet fm1 /\
    fm_write fm1 [] = LRet t1 /\ Exists (fun w => lim < w) (line_lengths 0 t1) /\
    fm_request r fm1 i = LRet (fm2, None) /\ fm_write fm2 [] = LRet t2 /\ Forall (fun w => w <= lim) (line_lengths 0 t2).
