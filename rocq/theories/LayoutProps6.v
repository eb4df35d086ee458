(** Proofs about the solver: the lines of the text. *)
From Verif Require Import Base BaseProps F64 Number BTree Value ValueProps Base91 Nav NavSpec NavProps NavProps2 NavProps3 Fmt FmtSpec FmtText FmtProps FmtProps2 Formatter FormatterProps FormatterProps2 FormatterProps3 FormatterProps4 LayoutSpec LayoutProps LayoutProps2 LayoutProps3 LayoutProps4 LayoutProps5.
Open Scope nat_scope.

(** ** lengths *)
Lemma b91_from_length bytes : forall b n, (n <= 13)%N -> 13 * length (b91_encode_from b n bytes) <= 2 * (N.to_nat n + 8 * length bytes) + 26.
Proof.
  induction bytes as [|x l IH]; intros b n Hn; cbn [b91_encode_from].
  - destruct (0 <? n)%N eqn:E0; cbn [length]; [|lia]. apply N.ltb_lt in E0. destruct ((7 <? n) || (90 <? b))%N; cbn [length]; lia.
  - destruct (13 <? n + 8)%N eqn:E1.
    + apply N.ltb_lt in E1. destruct (88 <? (b + x * 2 ^ n) mod 8192)%N; cbn [length].
      * specialize (IH ((b + x * 2 ^ n) / 2 ^ 13)%N (n + 8 - 13)%N ltac:(lia)). cbn [length] in *. lia.
      * specialize (IH ((b + x * 2 ^ n) / 2 ^ 14)%N (n + 8 - 14)%N ltac:(lia)). cbn [length] in *. lia.
    + apply N.ltb_ge in E1. specialize (IH (b + x * 2 ^ n)%N (n + 8)%N ltac:(lia)). cbn [length] in *. lia.
Qed.
Lemma b91_width b : length (b91_encode b) + 2 <= 2 * length b + (length b - 1) * 2 + match b with [] | [_] => 2 | _ => 0 end.
Proof.
  pose proof (b91_from_length b 0 0 ltac:(lia)) as H. fold (b91_encode b) in H. destruct b as [|x [|y l]]; [apply Nat.leb_le; reflexivity| |].
  - change (b91_encode [x]) with (b91_char ((0 + x * 1) mod 91) :: [b91_char ((0 + x * 1) / 91)]). cbn [length]. lia.
  - cbn [length] in *. destruct l as [|z l]; cbn [length] in *; lia.
Qed.
Lemma escape_some c : 1 <= escape_len c.
Proof. unfold escape_len. destruct (mem _ _); [lia|]. destruct (_ && _); lia. Qed.
Lemma escapes_ge t : length t <= list_sum (map escape_len t).
Proof. induction t as [|c t IH]; [cbn; lia|]. cbn [map length]. rewrite list_sum_cons. pose proof (escape_some c). lia. Qed.
Lemma escapes_quote t : mem 34%N t = true -> length t + 1 <= list_sum (map escape_len t).
Proof.
  intros H. apply mem_In in H. induction t as [|c t IH]; [destruct H|]. cbn [map length]. rewrite list_sum_cons. destruct H as [->|H].
  - pose proof (escapes_ge t). change (escape_len 34%N) with 2. lia.
  - specialize (IH H). pose proof (escape_some c). lia.
Qed.
Lemma str_width t : length (str_text t) <= 2 + list_sum (map escape_len t) + (if mem 34%N t then 2 else 0).
Proof.
  unfold str_text, delimiter. destruct (mem 34%N t) eqn:M.
  - pose proof (escapes_quote t M). destruct (find _ _) as [d|]; [|cbn [length]; lia]. rewrite !app_length. cbn [length]. destruct (d =? 34)%N; cbn [length s list_ascii_of_string map]; lia.
  - replace (find (fun d => negb (mem d t)) delimiters) with (Some 34%N).
    + pose proof (escapes_ge t). change ((34 =? 34)%N) with true. cbn [app length]. rewrite app_length. cbn [length]. unfold str, char in *; lia.
    + unfold delimiters. cbn [s list_ascii_of_string map find]. change (N_of_ascii _) with 34%N at 1. cbn. now rewrite M.
Qed.
Lemma cut_length d a : length (cut d a) <= length a.
Proof. unfold cut. destruct (drops d); [rewrite length_pop|]; lia. Qed.

Definition len_le (cfg : config) (d : dk) : Prop := forall top col,
  length (text top d col) <= iw cfg (undeco d) + total slack (undeco d).
Lemma items_le cfg l col : Forall (len_le cfg) l -> forall acc,
  length (fold_left (fun acc x => cut x acc ++ text true x col ++ s ", ") l acc)
  <= length acc + list_sum (map (fun x => iw cfg (undeco x)) l) + list_sum (map (fun x => total slack (undeco x)) l) + 2 * length l.
Proof.
  induction 1 as [|x l H HF IH]; intros acc; cbn [fold_left map]; rewrite ?list_sum_cons; cbn [length]; [cbn; lia|].
  etransitivity; [apply IH|]. rewrite !app_length. change (length (s ", ")) with 2. specialize (H true col). pose proof (cut_length x acc). unfold str, char in *. lia.
Qed.
Lemma fields_le cfg (m : list (str * dk)) col : Forall (fun e => len_le cfg (snd e)) m -> forall acc,
  length (fold_left (fun acc e => cut (snd e) (acc ++ fst e ++ s " = ") ++ text true (snd e) col ++ s ", ") m acc)
  <= length acc + list_sum (map (fun e => length (fst e)) m) + 3 * length m
     + list_sum (map (fun e => iw cfg (undeco (snd e))) m) + list_sum (map (fun e => total slack (undeco (snd e))) m) + 2 * length m.
Proof.
  induction 1 as [|x l H HF IH]; intros acc; cbn [fold_left map]; rewrite ?list_sum_cons; cbn [length]; [cbn; lia|].
  etransitivity; [apply IH|]. rewrite !app_length. change (length (s ", ")) with 2. specialize (H true col). pose proof (cut_length (snd x) (acc ++ fst x ++ s " = ")) as C.
  rewrite !app_length in C. change (length (s " = ")) with 3 in C. unfold str, char in *. lia.
Qed.
Lemma entries_le cfg (m : list (dk * dk)) col : Forall (fun e => len_le cfg (fst e) /\ len_le cfg (snd e)) m -> forall acc,
  length (fold_left (fun acc e => cut (snd e) (cut (fst e) acc ++ text true (fst e) col ++ s ": ") ++ text true (snd e) col ++ s ", ") m acc)
  <= length acc + 2 * length m + list_sum (map (fun e => iw cfg (undeco (fst e)) + iw cfg (undeco (snd e))) m)
     + list_sum (map (fun e => total slack (undeco (fst e)) + total slack (undeco (snd e))) m) + 2 * length m.
Proof.
  induction 1 as [|x l [H1 H2] HF IH]; intros acc; cbn [fold_left map]; rewrite ?list_sum_cons; cbn [length]; [cbn; lia|].
  etransitivity; [apply IH|]. rewrite !app_length. change (length (s ", ")) with 2. specialize (H1 true col). specialize (H2 true col).
  pose proof (cut_length (snd x) (cut (fst x) acc ++ text true (fst x) col ++ s ": ")) as C. pose proof (cut_length (fst x) acc).
  rewrite !app_length in C. change (length (s ": ")) with 2 in C. unfold str, char in *. lia.
Qed.
Lemma prim_id_le f id (b : bool) : f_id f = b -> length (prim_id f id) <= if b then match id with Some i => length i | None => 0 end + 3 else 0.
Proof. intros <-. unfold prim_id. destruct (f_id f), id as [i|]; cbn [length]; rewrite ?app_length; cbn; rewrite ?app_length; cbn; unfold str, char; lia. Qed.
Lemma nonprim_id_le f id (b : bool) : f_id f = b ->
  length (nonprim_id f id) <= (if (0 <? match id with Some i => length i | None => 0 end) && b then match id with Some i => length i | None => 0 end + 1 else 0) + match id with Some [] => 1 | _ => 0 end.
Proof. intros <-. unfold nonprim_id. destruct (f_id f), id as [[|c i]|]; cbn [length andb Nat.ltb Nat.leb]; rewrite ?app_length; cbn; unfold str, char; lia. Qed.
Lemma tuple_id_le f id (b : bool) : f_id f = b ->
  length (tuple_id f id) <= (if (0 <? match id with Some i => length i | None => 0 end) && b then match id with Some i => length i | None => 0 end + 1 else 0).
Proof. intros <-. unfold tuple_id. destruct (f_id f), id as [[|c i]|]; cbn [length andb Nat.ltb Nat.leb]; unfold str, char; lia. Qed.

Lemma inline_length cfg d : d_all (as_config cfg) d = true -> len_le cfg d.
Proof.
  induction d as [f id v IH] using dk_ind'. intros H top col. apply d_all_children in H as [A C].
  unfold as_config in A. apply andb_true_iff in A as [A1 A2]. apply repr_eqb_eq in A1. apply Bool.eqb_prop in A2. unfold d_line in A1. cbn [d_fmt d_val] in A1, A2.
  assert (F : Forall (len_le cfg) (d_children v)) by (rewrite Forall_forall in *; auto). clear IH C.
  rewrite !total_unfold. cbn [undeco kval].
  destruct v as [|b|n|t|b|l|m|l|m]; cbn [text prim_text iw]; rewrite ?A1; cbn [d_children flag] in *; cbn [vchildren]; unfold slack at 1; cbn [kval kid].
  - unfold inline_width, ident_len; cbn [kval kid]. destruct id as [[|c i]|]; cbn; rewrite ?app_length; cbn; unfold str, char; lia.
  - unfold inline_width, ident_len; cbn [kval kid]. pose proof (prim_id_le f id _ A2). rewrite app_length. destruct b; cbn [length s list_ascii_of_string map list_sum fold_right]; lia.
  - unfold inline_width, ident_len; cbn [kval kid]. pose proof (prim_id_le f id _ A2). rewrite app_length. cbn [map list_sum fold_right]. lia.
  - unfold inline_width, ident_len; cbn [kval kid]. pose proof (prim_id_le f id _ A2). pose proof (str_width t). rewrite app_length. cbn [map list_sum fold_right]. lia.
  - unfold inline_width, ident_len; cbn [kval kid]. pose proof (prim_id_le f id _ A2). pose proof (b91_width b) as B. rewrite !app_length. change (length (s "b91'")) with 4. change (length (s "'")) with 1.
    change (length FIELDS_SEPARATOR) with 2. destruct b as [|x [|y b]]; cbn [map list_sum fold_right] in *; lia.
  - rewrite app_length, pop2_length, !map_map. pose proof (items_le cfg l col F (tuple_id f id ++ s "(")) as E. rewrite app_length in E. change (length (s "(")) with 1 in E. change (length (s ")")) with 1.
    unfold inline_width, ident_len; cbn [kval kid]. rewrite map_length. change (length FIELDS_SEPARATOR) with 2. pose proof (tuple_id_le f id _ A2). rewrite nonempty_len. destruct l; cbn [length map list_sum fold_right] in *; lia.
  - rewrite app_length, pop2_length. rewrite Forall_map in F. pose proof (fields_le cfg m col F (nonprim_id f id ++ s "(")) as E. rewrite app_length in E. change (length (s "(")) with 1 in E. change (length (s ")")) with 1.
    unfold inline_width, ident_len; cbn [kval kid]. rewrite !map_map, map_length. cbn [fst snd]. change (length FIELDS_SEPARATOR) with 2. change (length FIELDS_ASSIGNER) with 2. pose proof (nonprim_id_le f id _ A2) as P. rewrite nonempty_len.
    destruct m; cbn [length map list_sum fold_right] in *; destruct id as [[|c i]|]; cbn [length] in *; unfold str, char in *; lia.
  - rewrite app_length, pop2_length, !map_map. pose proof (items_le cfg l col F (nonprim_id f id ++ s "[")) as E. rewrite app_length in E. change (length (s "[")) with 1 in E. change (length (s "]")) with 1.
    unfold inline_width, ident_len; cbn [kval kid]. rewrite map_length. change (length FIELDS_SEPARATOR) with 2. pose proof (nonprim_id_le f id _ A2). rewrite nonempty_len.
    destruct l; cbn [length map list_sum fold_right] in *; destruct id as [[|c i]|]; cbn [length] in *; unfold str, char in *; lia.
  - rewrite !app_length, pop2_length. apply Forall_entries in F.
    pose proof (entries_le cfg m col F (nonprim_id f id ++ s "{" ++ (if nonempty m then s " " else []))) as E. rewrite !app_length in E. change (length (s "{")) with 1 in E. change (length (s "}")) with 1.
    assert (T : forall g : kserd -> nat, list_sum (map (total g) (entry_list (map (fun e => (undeco (fst e), undeco (snd e))) m))) = list_sum (map (fun x => total g (undeco (fst x)) + total g (undeco (snd x))) m)).
    { intros g. clear. induction m as [|e m IHm]; [reflexivity|]. unfold entry_list in *. cbn [map flat_map app]. rewrite !list_sum_cons, IHm. cbn [fst snd]. lia. }
    rewrite !T. unfold inline_width, ident_len; cbn [kval kid]. rewrite !map_map, map_length. cbn [fst snd]. change (length FIELDS_SEPARATOR) with 2. change (length KEYS_ASSIGNER) with 1.
    pose proof (nonprim_id_le f id _ A2). rewrite nonempty_len. rewrite !list_sum_map_add in *.
    destruct m as [|e m']; cbn [nonempty map length] in *; change (length (s " ")) with 1 in *; destruct id as [[|c i]|]; cbn [length] in *; unfold str, char in *; lia.
Qed.
(** values which cannot be but inline *)
Lemma small_length cfg d : d_all (as_config cfg) d = true -> kind_max (undeco d) = Inline -> forall top col,
  length (text top d col) <= concise_width (undeco d) cfg + total slack (undeco d).
Proof.
  intros H K top col. pose proof (inline_length cfg d H top col) as L. destruct d as [f id v]. apply d_all_children in H as [A _].
  unfold as_config in A. apply andb_true_iff in A as [A1 A2]. apply repr_eqb_eq in A1. apply Bool.eqb_prop in A2. unfold d_line in A1. cbn [d_fmt d_val] in A1, A2.
  destruct v as [|b|n|t|b|l|m|l|m]; try (rewrite iw_unfold in L; cbn [undeco kval values_of keys_of map list_sum fold_right] in L; cbn [undeco concise_width kval]; unfold concise_width; cbn [kval undeco] in *; lia).
  - destruct l; [|discriminate K]. rewrite total_unfold. cbn [undeco map kval vchildren list_sum fold_right text pop2 nonempty fold_left]. rewrite A1. unfold concise_width, slack, ident_len. cbn [kval kid].
    rewrite !app_length. cbn [flag] in A2. unfold tuple_id. rewrite A2. destruct (id_on_tuples cfg), id; cbn; lia.
  - destruct m; [|discriminate K]. rewrite total_unfold. cbn [undeco map kval vchildren list_sum fold_right text pop2 nonempty fold_left]. rewrite A1. unfold concise_width, slack, ident_len. cbn [kval kid].
    rewrite !app_length. cbn [flag] in A2. unfold nonprim_id. rewrite A2. destruct (id_on_containers cfg), id; cbn; rewrite ?app_length; cbn; lia.
  - destruct l; [|discriminate K]. rewrite total_unfold. cbn [undeco map kval vchildren list_sum fold_right text pop2 nonempty fold_left]. rewrite A1. unfold concise_width, slack, ident_len. cbn [kval kid].
    rewrite !app_length. cbn [flag] in A2. unfold nonprim_id. rewrite A2. destruct (id_on_seqs cfg), id; cbn; rewrite ?app_length; cbn; lia.
  - destruct m; [|discriminate K]. rewrite total_unfold. cbn [undeco map kval vchildren list_sum fold_right text pop2 nonempty fold_left entry_list flat_map]. rewrite A1. unfold concise_width, slack, ident_len. cbn [kval kid].
    rewrite !app_length. cbn [flag] in A2. unfold nonprim_id. rewrite A2. destruct (id_on_maps cfg), id; cbn; rewrite ?app_length; cbn; lia.
Qed.
