(** The text of a tree in which every node carries its format, as a function
    (no buffer, no navigator, no panics). *)
From Verif Require Import Base F64 Number BTree Value Base91 Nav Fmt.
Open Scope nat_scope.

(** a Kserd with the format of each node *)
Inductive dk : Type := DK (f : fmt) (id : option str) (v : value dk).
(** the format of a node (fmt/mod.rs 379-384) *)
Definition d_fmt (d : dk) : fmt := let 'DK f _ _ := d in f.
(** the id of a node (ds/kserd.rs 278-280) *)
Definition d_id (d : dk) : option str := let 'DK _ i _ := d in i.
(** the value of a node (ds/kserd.rs 56) *)
Definition d_val (d : dk) : value dk := let 'DK _ _ v := d in v.
(** Fmt::line (fmt/mod.rs 379-384) *)
Definition d_line (d : dk) : repr := f_line (d_fmt d).
(** the nodes directly inside (ds/val.rs 40-81) *)
Definition d_children (v : value dk) : list dk :=
  match v with
  | VTuple l | VSeq l => l
  | VCntr m => map snd m
  | VMap m => entry_list m
  | _ => []
  end.

(** the tree [k] with the formats [fmts], its root at index [i] (preorder) *)
Fixpoint deco (fmts : list fmt) (i : nat) (k : kserd) {struct k} : dk :=
  match k with
  | Kserd id v =>
      DK (nth i fmts (mkFmt true Inline)) id
        (match v with
         | VUnit => VUnit
         | VBool b => VBool b
         | VNum n => VNum n
         | VStr t => VStr t
         | VBarr b => VBarr b
         | VTuple l => VTuple ((fix go i l := match l with [] => [] | x :: l => deco fmts i x :: go (i + ksize x) l end) (S i) l)
         | VSeq l => VSeq ((fix go i l := match l with [] => [] | x :: l => deco fmts i x :: go (i + ksize x) l end) (S i) l)
         | VCntr m => VCntr ((fix go i m := match m with
                               | [] => []
                               | e :: m => (fst e, deco fmts i (snd e)) :: go (i + ksize (snd e)) m
                               end) (S i) m)
         | VMap m => VMap ((fix go i m := match m with
                             | [] => []
                             | e :: m => (deco fmts i (fst e), deco fmts (i + ksize (fst e)) (snd e))
                                         :: go (i + ksize (fst e) + ksize (snd e)) m
                             end) (S i) m)
         end)
  end.
(** and back *)
Fixpoint undeco (d : dk) : kserd :=
  match d with
  | DK _ id v =>
      Kserd id (match v with
                | VUnit => VUnit
                | VBool b => VBool b
                | VNum n => VNum n
                | VStr t => VStr t
                | VBarr b => VBarr b
                | VTuple l => VTuple (map undeco l)
                | VSeq l => VSeq (map undeco l)
                | VCntr m => VCntr (map (fun e => (fst e, undeco (snd e))) m)
                | VMap m => VMap (map (fun e => (undeco (fst e), undeco (snd e))) m)
                end)
  end.

(** a tuple with an id which is not shown removes the character before it *)
Definition drops (d : dk) : bool :=
  match d with DK f (Some _) (VTuple _) => negb (f_id f) | _ => false end.

(** the delimiter chosen for a string *)
Definition delimiter (t : str) : option char := find (fun d => negb (mem d t)) delimiters.
(** fmt/prims.rs 31-78 *)
Definition str_text (t : str) : str :=
  match delimiter t with
  | Some d => (if (d =? 34)%N then [] else s "str") ++ [d] ++ t ++ [d]
  | None => []
  end.
(** [<id> ] and [id ] *)
Definition prim_id (f : fmt) (id : option str) : str :=
  match f_id f, id with true, Some i => s "<" ++ i ++ s "> " | _, _ => [] end.
(** fmt/mod.rs 468-475 *)
Definition nonprim_id (f : fmt) (id : option str) : str :=
  match f_id f, id with true, Some i => i ++ s " " | _, _ => [] end.
(** fmt/tuples.rs 8-19 *)
Definition tuple_id (f : fmt) (id : option str) : str :=
  match f_id f, id with true, Some i => i | _, _ => [] end.
(** fmt/prims.rs 4-17 *)
Definition prim_text (f : fmt) (id : option str) (v : value dk) : str :=
  match v with
  | VUnit => (match id with Some i => i | None => [] end) ++ s "()"
  | VBool b => prim_id f id ++ (if b then s "true" else s "false")
  | VNum n => prim_id f id ++ num_display n
  | VStr t => prim_id f id ++ str_text t
  | VBarr b => prim_id f id ++ s "b91'" ++ b91_encode b ++ s "'"
  | _ => []
  end.

(** fmt/mod.rs 450-452 *)
Definition sp (n : nat) : str := repeat 32%N n.
(** a line break *)
Definition nl : str := [10%N].
(** what stands before a child [x] in the text *)
Definition cut (x : dk) (acc : str) : str := if drops x then pop acc else acc.
(** [FIELDS_SEPARATOR.chars().for_each(|_| buf.pop())], as in fmt/tuples.rs 32 *)
Definition pop2 {A} (l : list A) (t : str) : str := if nonempty l then pop (pop t) else t.

(** [top]: a verbose container shows its id in a line of its own *)
Fixpoint text (top : bool) (d : dk) (col : nat) {struct d} : str :=
  match d with
  | DK f id v =>
      match v with
      | VTuple l =>
          match f_line f with
          | Inline =>
              pop2 l (fold_left (fun acc x => cut x acc ++ text true x col ++ s ", ") l (tuple_id f id ++ s "(")) ++ s ")"
          | _ =>
              fold_left (fun acc x => cut x (acc ++ sp (col + 4)) ++ text true x (col + 4) ++ nl) l (tuple_id f id ++ s "(" ++ nl)
              ++ sp col ++ s ")"
          end
      | VSeq l =>
          match f_line f with
          | Inline =>
              pop2 l (fold_left (fun acc x => cut x acc ++ text true x col ++ s ", ") l (nonprim_id f id ++ s "[")) ++ s "]"
          | _ =>
              fold_left (fun acc x => cut x (acc ++ sp (col + 4)) ++ text true x (col + 4) ++ nl) l (nonprim_id f id ++ s "[" ++ nl)
              ++ sp col ++ s "]"
          end
      | VMap m =>
          match f_line f with
          | Inline =>
              pop2 m (fold_left (fun acc e => cut (snd e) (cut (fst e) acc ++ text true (fst e) col ++ s ": ") ++ text true (snd e) col ++ s ", ")
                       m (nonprim_id f id ++ s "{" ++ (if nonempty m then s " " else [])))
              ++ (if nonempty m then s " " else []) ++ s "}"
          | _ =>
              fold_left (fun acc e =>
                let kt := text true (fst e) (col + 4) in
                let ind := match d_line (fst e) with Inline => length kt + 2 - (if drops (fst e) then 1 else 0) | _ => 3 end in
                cut (snd e) (cut (fst e) (acc ++ sp (col + 4)) ++ kt ++ s ": ") ++ text true (snd e) (col + 4 + ind) ++ nl)
                m (nonprim_id f id ++ s "{" ++ nl)
              ++ sp col ++ s "}"
          end
      | VCntr m =>
          match f_line f with
          | Inline =>
              pop2 m (fold_left (fun acc e => cut (snd e) (acc ++ fst e ++ s " = ") ++ text true (snd e) col ++ s ", ")
                       m (nonprim_id f id ++ s "(")) ++ s ")"
          | Concise =>
              fold_left (fun acc e => cut (snd e) (acc ++ sp (col + 4) ++ fst e ++ s " = ") ++ text true (snd e) (col + 4 + (length (fst e) + 3)) ++ nl)
                m (nonprim_id f id ++ s "(" ++ nl)
              ++ sp col ++ s ")"
          | Verbose =>
              fold_left (fun acc e =>
                match e with (name, DK vf vid vv) =>
                  match f_line vf, vv with
                  | Verbose, VCntr _ =>
                      acc ++ nl ++ sp col ++ s "[" ++ name ++
                      (match f_id vf, vid with true, Some i => s ":" ++ i | _, _ => [] end) ++ s "]" ++ nl
                      ++ text false (snd e) (col + 4)
                  | Verbose, VSeq l =>
                      pop (fold_left (fun acc x =>
                             let acc := acc ++ sp col ++ s "[[" ++ name ++ s "]]" ++ nl in
                             match d_line x with
                             | Verbose => cut x acc ++ text true x (col + 4) ++ nl
                             | _ => cut x (acc ++ sp col) ++ text true x col ++ nl ++ nl
                             end) l (acc ++ nl))
                  | Verbose, VMap m =>
                      fold_left (fun acc e =>
                        let acc := acc ++ s "[[" ++ name ++ s "]]" ++ nl in
                        let kt := text true (fst e) col in
                        match d_line (snd e) with
                        | Verbose => cut (snd e) (cut (fst e) acc ++ kt ++ s ":" ++ nl) ++ text true (snd e) (col + 4) ++ nl
                        | _ =>
                            let ind := match d_line (fst e) with Inline => length kt + 2 - (if drops (fst e) then 1 else 0) | _ => 3 end in
                            cut (snd e) (cut (fst e) acc ++ kt ++ s ": ") ++ text true (snd e) (col + ind) ++ nl
                        end) m (acc ++ nl)
                  | _, _ => cut (snd e) (acc ++ sp col ++ name ++ s " = ") ++ text true (snd e) (col + (length name + 3)) ++ nl
                  end
                end) m
                (match f_id f && top, id with true, Some i => sp col ++ s ":" ++ i ++ nl | _, _ => [] end)
          end
      | _ => prim_text f id v
      end
  end.
