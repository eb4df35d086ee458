(** Proofs about debug texts: the two styles, floats, and nodes. *)
From Verif Require Import Base BaseProps F64 F64Text F32Props Number NumberSpec NumberProps3 BTree Value ValueSpec ValueProps Nav NavSpec NavProps Debug DebugSpec DebugProps DebugProps2.
Open Scope N_scope.

(** ** one line *)
Lemma joined_body c l : l <> [] -> joined_with (s ", ") l ++ c = body false c l.
Proof.
  induction l as [|t l IH]; [easy|]. intros _. destruct l as [|u l]; [reflexivity|].
  change (joined_with (s ", ") (t :: u :: l)) with (t ++ s ", " ++ joined_with (s ", ") (u :: l)). change (body false c (t :: u :: l)) with (t ++ s ", " ++ body false c (u :: l)).
  rewrite <- !app_assoc. do 2 f_equal. now apply IH.
Qed.
Lemma struct_line name l : debug_struct false name l = flat_struct false name l.
Proof.
  unfold debug_struct, flat_struct, entries_text. destruct l as [|e l]; [reflexivity|]. do 2 f_equal. now apply joined_body.
Qed.
Lemma value_line plain fd {K} (d d' : K -> str) v : Forall (fun x => d x = d' x) (match v with VTuple l | VSeq l => l | VCntr m => map snd m | VMap m => entry_list m | _ => [] end) ->
  debug_value plain fd false d v = flat_value plain fd false d' v.
Proof.
  intros H. destruct v as [| | | | |l|m|l|m]; try reflexivity; cbn [debug_value flat_value].
  - unfold debug_tuple, flat_tuple, entries_text. rewrite (map_ext_in d d' l) by (now apply Forall_forall). destruct l as [|x l]; [reflexivity|]. cbn [map]. do 2 f_equal. now apply joined_body.
  - rewrite struct_line. f_equal. apply map_ext_in. intros e He. f_equal. rewrite Forall_forall in H. apply H. now apply in_map.
  - unfold debug_list, flat_list, entries_text. rewrite (map_ext_in d d' l) by (now apply Forall_forall). destruct l as [|x l]; [reflexivity|]. cbn [map]. f_equal. now apply joined_body.
  - unfold debug_map, flat_entries, entries_text.
    rewrite (map_ext_in (fun e => (d (fst e), d (snd e))) (fun e => (d' (fst e), d' (snd e))) m).
    2:{ intros e He. apply Forall_entries in H. rewrite Forall_forall in H. destruct (H e He) as [-> ->]. reflexivity. }
    destruct m as [|x m]; [reflexivity|]. cbn [map]. f_equal. now apply joined_body.
Qed.
Lemma debug_line plain fd k : debug plain fd false k = flat plain fd false k.
Proof.
  induction k as [i v IH] using kserd_ind'. cbn [debug flat]. rewrite struct_line. do 4 f_equal. now apply value_line.
Qed.

(** ** several lines *)
Lemma sq_entries l : forall u, Forall (fun t => begins t /\ after false t = false) l ->
  sq true (concat (map pretty_entry l) ++ u) = concat (map (fun t => sq false t ++ [44; 10]) l) ++ sq true u.
Proof.
  induction l as [|t l IH]; intros u H; [reflexivity|]. inversion H as [|? ? [B A] Hl]; subst. cbn [map concat]. rewrite <- app_assoc. unfold pretty_entry at 1.
  rewrite (proj1 (sq_pad _ _)). change (s "," ++ [10]) with [44; 10]. rewrite <- !app_assoc, sq_app. destruct (begins_sq t true B) as [-> ->]. rewrite A. cbn [app sq N.eqb Pos.eqb andb]. now rewrite IH.
Qed.
Lemma concat_body close l : l <> [] -> concat (map (fun t => t ++ [44; 10]) l) ++ close = body true (fin true close) l.
Proof.
  induction l as [|t l IH]; [easy|]. intros _. cbn [map concat body]. destruct l as [|u l]; [cbn; now rewrite app_nil_r, <- app_assoc|].
  rewrite <- !app_assoc. do 2 f_equal. rewrite <- app_assoc || idtac. now apply IH.
Qed.
Lemma sq_block c close l : Forall (fun t => begins t /\ after false t = false) l -> l <> [] -> c <> 10 -> c <> 32 ->
  sq false (entries_text true l ++ c :: close) = [10] ++ body true (fin true [c]) (map (sq false) l) ++ sq false close.
Proof.
  intros H NE N1 N2. unfold entries_text. cbn [app sq N.eqb Pos.eqb]. f_equal. rewrite sq_entries by exact H. cbn [sq]. rewrite (proj2 (N.eqb_neq _ _) N1), (proj2 (N.eqb_neq _ _) N2). cbn [andb].
  change (c :: sq false close) with ([c] ++ sq false close). rewrite app_assoc. rewrite <- (map_map (sq false) (fun t => t ++ [44; 10])).
  rewrite concat_body; [reflexivity|]. destruct l; [easy|discriminate].
Qed.
Lemma after_end b t c : c <> 10 -> c <> 32 -> after b (t ++ [c]) = false.
Proof. intros N1 N2. rewrite after_app. cbn [after]. rewrite (proj2 (N.eqb_neq _ _) N1), (proj2 (N.eqb_neq _ _) N2). now rewrite andb_false_r. Qed.
Lemma sq_field n v : name_ok true n -> after false v = false ->
  begins (n ++ s ": " ++ v) /\ after false (n ++ s ": " ++ v) = false /\ sq false (n ++ s ": " ++ v) = n ++ [58; 32] ++ sq false v.
Proof.
  unfold name_ok. intros H A. assert (O : one_line n = true).
  { unfold one_line. apply forallb_forall. intros c Hc. rewrite forallb_forall in H. specialize (H c Hc). now apply andb_true_iff in H as [_ H]. }
  destruct (one_line_sq n O) as [S1 S2]. split; [|split].
  - destruct n as [|c n]; [cbn; lia|]. cbn [forallb] in H. apply andb_true_iff in H as [H _]. apply andb_true_iff in H as [H1 H2]. cbn [andb] in H2. cbn [app begins].
    apply negb_true_iff, N.eqb_neq in H1, H2. auto.
  - rewrite after_app, S2, after_app. exact A.
  - rewrite sq_app, S1, S2, sq_app. reflexivity.
Qed.
Lemma struct_lines name l : one_line name = true -> Forall (fun e => name_ok true (fst e) /\ after false (snd e) = false) l ->
  sq false (debug_struct true name l) = flat_struct true name (map (fun e => (fst e, sq false (snd e))) l) /\ after false (debug_struct true name l) = false.
Proof.
  intros O H. destruct (one_line_sq name O) as [S1 S2]. unfold debug_struct, flat_struct. destruct l as [|e l]; [rewrite !app_nil_r; auto|].
  split.
  - rewrite sq_app, S1, S2. f_equal. change (s " {") with [32; 123]. change (s "}") with [125]. rewrite sq_app. change (sq false [32; 123]) with [32; 123]. change (after false [32; 123]) with false.
    rewrite sq_block; [|apply Forall_map; eapply Forall_impl; [|exact H]; intros x [Hn Hv]; destruct (sq_field _ _ Hn Hv) as (B & A & _); auto|discriminate|discriminate|discriminate].
    cbn [sq]. rewrite app_nil_r. cbn [map app]. do 3 f_equal. unfold end_struct. f_equal.
    rewrite !map_map. cbn [fst snd]. 
    assert (G : forall x, In x (e :: l) -> sq false (fst x ++ s ": " ++ snd x) = fst x ++ [58; 32] ++ sq false (snd x)).
    { intros x Hx. rewrite Forall_forall in H. destruct (H x Hx) as [Hn Hv]. now destruct (sq_field _ _ Hn Hv) as (_ & _ & ->). }
    f_equal; [apply G; now left|]. apply map_ext_in. intros x Hx. apply G. now right.
  - rewrite after_app. change (s "}") with [125]. rewrite app_assoc. now apply after_end.
Qed.
Lemma value_parts plain fd {K} (d : K -> str) v : one_line (debug_value plain fd true d v) = true ->
  sq false (debug_value plain fd true d v) = debug_value plain fd true d v /\ after false (debug_value plain fd true d v) = false.
Proof. apply one_line_sq. Qed.

Section Style.
Variable plain : char -> bool.
Variable f_debug : f64 -> str.
Hypothesis FD : float_debug f_debug.

Lemma str_line t : one_line (debug_str plain t) = true.
Proof.
  unfold debug_str. rewrite !one_line_app. replace (one_line (flat_map (escape_debug plain) t)) with true; [reflexivity|]. symmetry.
  induction t as [|c t IH]; [reflexivity|]. cbn [flat_map]. rewrite one_line_app, IH, andb_true_r. rewrite esc_num.
  repeat match goal with |- context [N.eqb c ?n] => destruct (N.eqb_spec c n) end; try reflexivity.
  destruct (plain c); [unfold one_line; cbn [forallb]; now rewrite (proj2 (N.eqb_neq c 10)) by assumption|].
  rewrite !one_line_app. replace (one_line (hex_of_N c)) with true; [reflexivity|]. symmetry. pose proof (hex_chars c) as H. apply forallb_forall. intros x Hx. rewrite forallb_forall in H. specialize (H x Hx). unfold mem in H. cbn [existsb] in H. destruct (x =? 10); [discriminate H|reflexivity].
Qed.
Lemma dec_line n : one_line (dec_of_N n) = true.
Proof.
  destruct (dec_of_N_spec n) as (_ & D & _). unfold one_line. apply forallb_forall. intros c Hc. rewrite forallb_forall in D. specialize (D c Hc). unfold is_digit in D.
  apply andb_true_iff in D as [D1 D2]. apply N.leb_le in D1. apply negb_true_iff, N.eqb_neq. lia.
Qed.
Lemma id_line i : one_line (debug_id plain i) = true.
Proof. destruct i as [t|]; [|reflexivity]. unfold debug_id. rewrite !one_line_app, str_line. reflexivity. Qed.
Definition primitive {K} (v : value K) : bool := match v with VTuple _ | VCntr _ | VSeq _ | VMap _ => false | _ => true end.
Lemma prim_line alt {K} (d : K -> str) v : primitive v = true -> one_line (debug_value plain f_debug alt d v) = true.
Proof.
  destruct v as [|b|n|t|b|l|m|l|m]; try discriminate; intros _; cbn [debug_value]; rewrite ?one_line_app; cbn [andb].
  - reflexivity.
  - now destruct b.
  - replace (one_line (debug_num f_debug n)) with true; [reflexivity|]. symmetry. unfold debug_num. destruct n as [x|x|x]; rewrite !one_line_app.
    + unfold Z_display. destruct (x <? 0)%Z; cbn [one_line forallb]; fold (one_line (dec_of_N (Z.to_N (- x)))); fold (one_line (dec_of_N (Z.to_N x))); now rewrite ?dec_line.
    + unfold Z_display. destruct (x <? 0)%Z; cbn [one_line forallb]; fold (one_line (dec_of_N (Z.to_N (- x)))); fold (one_line (dec_of_N (Z.to_N x))); now rewrite ?dec_line.
    + replace (one_line (f_debug x)) with true; [reflexivity|]. symmetry. destruct FD as [_ FC]. specialize (FC x). unfold one_line. apply forallb_forall. intros c Hc. rewrite forallb_forall in FC. specialize (FC c Hc).
      unfold mem in FC. cbn [existsb] in FC. destruct (c =? 10); [discriminate FC|reflexivity].
  - rewrite str_line. reflexivity.
  - replace (one_line (debug_bytes b)) with true; [reflexivity|]. symmetry. unfold debug_bytes. rewrite !one_line_app. replace (one_line (joined_with (s ", ") (map dec_of_N b))) with true; [reflexivity|]. symmetry.
    induction b as [|x b IH]; [reflexivity|]. destruct b as [|y b]; [apply dec_line|]. change (joined_with (s ", ") (map dec_of_N (x :: y :: b))) with (dec_of_N x ++ s ", " ++ joined_with (s ", ") (map dec_of_N (y :: b))). rewrite !one_line_app, dec_line, IH. reflexivity.
Qed.

Lemma kserd_begins k : begins (debug plain f_debug true k).
Proof. destruct k. cbn. lia. Qed.
Lemma value_lines v : (forall k, In k (vchildren v) -> sq false (debug plain f_debug true k) = flat plain f_debug true k /\ after false (debug plain f_debug true k) = false) ->
  plain_names true (Kserd None v) = true ->
  sq false (debug_value plain f_debug true (debug plain f_debug true) v) = flat_value plain f_debug true (flat plain f_debug true) v /\
  after false (debug_value plain f_debug true (debug plain f_debug true) v) = false.
Proof.
  intros IH P. destruct (primitive v) eqn:Q.
  { pose proof (prim_line true (debug plain f_debug true) v Q) as L. destruct (one_line_sq _ L) as [S1 S2]. split; [|exact S2]. rewrite S1. destruct v; try discriminate; reflexivity. }
  destruct v as [|b|n|t|b|l|m|l|m]; try discriminate; clear Q; cbn [debug_value flat_value vchildren] in *.
  - unfold debug_tuple, flat_tuple. change (s "Tuple") with (s "Tuple" ++ []). destruct l as [|x l]; [split; reflexivity|]. cbn [map].
    change (debug plain f_debug true x :: map (debug plain f_debug true) l) with (map (debug plain f_debug true) (x :: l)). rewrite !app_nil_r. change (s "(") with [40]. change (s ")") with [41].
    split; [|rewrite !app_assoc; now apply after_end].
    rewrite sq_app. change (sq false (s "Tuple")) with (s "Tuple"). change (after false (s "Tuple")) with false. f_equal. rewrite sq_app. change (sq false [40]) with [40]. change (after false [40]) with false. f_equal.
    rewrite sq_block; [|apply Forall_map, Forall_forall; intros y Hy; split; [apply kserd_begins|now apply IH]|discriminate|discriminate|discriminate].
    cbn [sq]. rewrite app_nil_r. unfold nl. do 2 f_equal. rewrite map_map. change (flat plain f_debug true x :: map (flat plain f_debug true) l) with (map (flat plain f_debug true) (x :: l)). apply map_ext_in. intros y Hy. now apply IH.
  - destruct (struct_lines (s "Cntr") (map (fun e => (fst e, debug plain f_debug true (snd e))) m)) as [S1 S2]; [reflexivity| |].
    + unfold plain_names in P. cbn [k_all kval] in P. apply andb_true_iff in P as [P _]. rewrite forallb_forall in P. apply Forall_map, Forall_forall. intros e He. cbn [fst snd]. split; [exact (P e He)|]. apply IH. now apply in_map.
    + split; [|exact S2]. rewrite S1. f_equal. rewrite map_map. apply map_ext_in. intros e He. cbn [fst snd]. f_equal. apply IH. now apply in_map.
  - unfold debug_list, flat_list. destruct l as [|x l]; [split; reflexivity|]. cbn [map].
    change (debug plain f_debug true x :: map (debug plain f_debug true) l) with (map (debug plain f_debug true) (x :: l)). change (s "[") with [91]. change (s "]") with [93].
    split; [|rewrite !app_assoc; now apply after_end].
    rewrite sq_app. change (sq false [91]) with [91]. change (after false [91]) with false. f_equal.
    rewrite sq_block; [|apply Forall_map, Forall_forall; intros y Hy; split; [apply kserd_begins|now apply IH]|discriminate|discriminate|discriminate].
    cbn [sq]. rewrite app_nil_r. unfold nl. do 2 f_equal. rewrite map_map. change (flat plain f_debug true x :: map (flat plain f_debug true) l) with (map (flat plain f_debug true) (x :: l)). apply map_ext_in. intros y Hy. now apply IH.
  - unfold debug_map, flat_entries. destruct m as [|x m]; [split; reflexivity|].
    change (s "{") with [123]. change (s "}") with [125].
    set (dd := fun e : kserd * kserd => debug plain f_debug true (fst e) ++ s ": " ++ debug plain f_debug true (snd e)).
    set (ff := fun e : kserd * kserd => flat plain f_debug true (fst e) ++ [58; 32] ++ flat plain f_debug true (snd e)).
    assert (HI : forall e, In e (x :: m) -> (sq false (dd e) = ff e /\ after false (dd e) = false) /\ begins (dd e)).
    { intros e He. assert (Hf : In (fst e) (entry_list (x :: m)) /\ In (snd e) (entry_list (x :: m))) by (split; apply in_flat_map; exists e; cbn; auto).
      destruct Hf as [Hf Hs]. destruct (IH _ Hf) as [F1 F2], (IH _ Hs) as [G1 G2]. unfold dd, ff. split; [|apply begins_app, kserd_begins].
      split; [rewrite sq_app, F1, F2, sq_app; change (after false (s ": ")) with false; rewrite G1; reflexivity|]. rewrite after_app, F2, after_app. exact G2. }
    assert (E1 : map (fun e => fst e ++ s ": " ++ snd e) (map (fun e => (debug plain f_debug true (fst e), debug plain f_debug true (snd e))) (x :: m)) = map dd (x :: m)) by (rewrite map_map; reflexivity).
    assert (E2 : map (fun e => fst e ++ [58; 32] ++ snd e) (map (fun e => (flat plain f_debug true (fst e), flat plain f_debug true (snd e))) (x :: m)) = map ff (x :: m)) by (rewrite map_map; reflexivity).
    change (map (fun e => (debug plain f_debug true (fst e), debug plain f_debug true (snd e))) (x :: m)) with ((debug plain f_debug true (fst x), debug plain f_debug true (snd x)) :: map (fun e => (debug plain f_debug true (fst e), debug plain f_debug true (snd e))) m) in *.
    change (map (fun e => (flat plain f_debug true (fst e), flat plain f_debug true (snd e))) (x :: m)) with ((flat plain f_debug true (fst x), flat plain f_debug true (snd x)) :: map (fun e => (flat plain f_debug true (fst e), flat plain f_debug true (snd e))) m) in *.
    cbv iota. rewrite E1, E2. clear E1 E2.
    split; [|rewrite !app_assoc; now apply after_end].
    rewrite sq_app. change (sq false [123]) with [123]. change (after false [123]) with false. f_equal.
    rewrite sq_block; [|apply Forall_map, Forall_forall; intros y Hy; destruct (HI y Hy) as [[_ A] B]; auto|discriminate|discriminate|discriminate].
    cbn [sq]. rewrite app_nil_r. unfold nl. do 2 f_equal. rewrite map_map. apply map_ext_in. intros y Hy. now apply HI.
Qed.
Lemma debug_lines k : plain_names true k = true -> sq false (debug plain f_debug true k) = flat plain f_debug true k /\ after false (debug plain f_debug true k) = false.
Proof.
  induction k as [i v IH] using kserd_ind'. intros P. rewrite Forall_forall in IH. cbn [debug flat].
  assert (PV : plain_names true (Kserd None v) = true) by exact P.
  destruct (value_lines v) as [V1 V2]; [|exact PV|].
  { intros k Hk. apply (IH k Hk). unfold plain_names in *. apply k_all_children in P as [_ P]. rewrite Forall_forall in P. now apply P. }
  destruct (one_line_sq _ (id_line i)) as [I1 I2].
  destruct (struct_lines (s "Kserd") [(s "id", debug_id plain i); (s "val", debug_value plain f_debug true (debug plain f_debug true) v)]) as [S1 S2]; [reflexivity|repeat constructor; assumption|].
  split; [|exact S2]. rewrite S1. cbn [map fst snd]. now rewrite I1, V1.
Qed.

(** ** the texts tell Kserds apart *)
Theorem debug_inj alt k1 k2 : k_typed k1 = true -> k_typed k2 = true -> plain_names alt k1 = true -> plain_names alt k2 = true ->
  debug plain f_debug alt k1 = debug plain f_debug alt k2 -> one_nans k1 = one_nans k2.
Proof.
  intros T1 T2 P1 P2 E.
  assert (F : flat plain f_debug alt k1 = flat plain f_debug alt k2).
  { destruct alt; [|now rewrite <- !debug_line]. rewrite <- (proj1 (debug_lines k1 P1)), <- (proj1 (debug_lines k2 P2)). now rewrite E. }
  destruct (flat_inj plain f_debug FD alt k1 (conj T1 P1) k2 [] [] (conj T2 P2)) as [H _]; [now rewrite F|exact H].
Qed.
Lemma debug_one_nan n : num_wf n = true -> debug_num f_debug (one_nan n) = debug_num f_debug n.
Proof.
  destruct FD as [FI _]. intros W. destruct n as [x|x|x]; try reflexivity. destruct x as [sg p| |]; try reflexivity. cbn [one_nan debug_num]. do 2 f_equal. apply FI; [reflexivity|exact W|right; auto].
Qed.
Lemma debug_one_nans alt k : k_typed k = true -> debug plain f_debug alt (one_nans k) = debug plain f_debug alt k.
Proof.
  induction k as [i v IH] using kserd_ind'. intros T. unfold k_typed in T. apply k_all_children in T as [T1 T2]. rewrite Forall_forall in IH, T2.
  assert (IH' : forall x, In x (vchildren v) -> debug plain f_debug alt (one_nans x) = debug plain f_debug alt x) by (intros x Hx; apply (IH x Hx); now apply T2).
  cbn [one_nans debug]. do 4 f_equal. clear IH T2.
  destruct v as [|b|n|t|b|l|m|l|m]; cbn [debug_value vchildren] in *; try reflexivity.
  - unfold typed_node in T1. cbn [kval] in T1. now rewrite debug_one_nan.
  - f_equal. rewrite map_map. now apply map_ext_in.
  - f_equal. rewrite map_map. apply map_ext_in. intros e He. cbn [fst snd]. f_equal. apply IH'. now apply in_map.
  - f_equal. rewrite map_map. now apply map_ext_in.
  - f_equal. rewrite map_map. apply map_ext_in. intros e He. cbn [fst snd]. f_equal; apply IH'; apply in_flat_map; exists e; cbn; auto.
Qed.
Theorem debug_same alt k1 k2 : k_typed k1 = true -> k_typed k2 = true -> plain_names alt k1 = true -> plain_names alt k2 = true ->
  (debug plain f_debug alt k1 = debug plain f_debug alt k2 <-> one_nans k1 = one_nans k2).
Proof.
  intros T1 T2 P1 P2. split; [now apply debug_inj|]. intros E. rewrite <- (debug_one_nans alt k1 T1), <- (debug_one_nans alt k2 T2). now rewrite E.
Qed.
End Style.

(** ** equality *)
Lemma num_eqb_one a b : num_eqb (one_nan a) (one_nan b) = num_eqb a b.
Proof.
  destruct a as [x|x|[sx px|sx|sx mx ex]], b as [y|y|[sy py|sy|sy my ey]]; cbn [one_nan num_eqb]; reflexivity.
Qed.
Lemma k_eqb_one a : forall b, k_eqb (one_nans a) (one_nans b) = k_eqb a b.
Proof.
  induction a as [id v IH] using kserd_ind'. intros [id' w].
  destruct v as [| | | | |l|m|l|m], w as [| | | | |l'|m'|l'|m']; cbn [one_nans k_eqb kval]; try reflexivity;
    cbn [vchildren] in IH; try (destruct l; reflexivity); try (destruct m; reflexivity).
  - apply num_eqb_one.
  - assert (G : list_eqb k_eqb (map one_nans l) (map one_nans l') = list_eqb k_eqb l l') by now apply list_eqb_map.
    destruct l; exact G.
  - destruct l, m'; reflexivity.
  - destruct m, l'; reflexivity.
  - destruct m as [|e m], m' as [|e' m']; try reflexivity.
    refine (list_eqb_map _ (fun e => (fst e, one_nans (snd e))) (e :: m) _ (e' :: m')).
    apply Forall_map_snd in IH. eapply Forall_impl; [|exact IH]. cbn beta. intros x Hx y. cbn [fst snd]. now rewrite Hx.
  - now apply list_eqb_map.
  - refine (list_eqb_map _ (fun e => (one_nans (fst e), one_nans (snd e))) m _ m').
    apply Forall_entries in IH. eapply Forall_impl; [|exact IH]. cbn beta. intros x [Hx Hy] y. cbn [fst snd]. now rewrite Hx, Hy.
Qed.
Theorem debug_unequal plain fd alt k1 k2 : float_debug fd -> k_typed k1 = true -> k_typed k2 = true -> plain_names alt k1 = true -> plain_names alt k2 = true ->
  k_eqb k1 k2 = false -> debug plain fd alt k1 <> debug plain fd alt k2.
Proof.
  intros FD T1 T2 P1 P2 N E. apply debug_inj in E; try assumption. rewrite <- k_eqb_one, E, k_eqb_refl in N. discriminate N.
Qed.
