(** Facts about the text: characters, length. *)
From Verif Require Import Base F64 Number BTree Value BaseProps F64Props F64Text NumberProps NumberProps3 BTreeProps ValueSpec ValueProps Base91 Base91Props Nav NavSpec NavProps NavProps2 Fmt Formatter FmtText FmtSpec FmtProps FormatterProps FormatterProps2.
Open Scope nat_scope.

Lemma k_all_preorder p k : k_all p k = true <-> Forall (fun x => p x = true) (preorder k).
Proof.
  induction k as [id v IH] using kserd_ind'. rewrite preorder_unfold, k_all_children. cbn [kval]. rewrite Forall_cons_iff.
  apply and_iff_compat_l. induction IH as [|x l H HF IHl]; cbn [flat_map]; [split; constructor|].
  rewrite Forall_cons_iff, Forall_app, H, IHl. reflexivity.
Qed.

(** ** characters of a number *)
Definition num_char (c : char) : bool := is_digit c || mem c (s "-.infNa").
Lemma digits_num ds : forallb is_digit ds = true -> forallb num_char ds = true.
Proof. rewrite !forallb_forall. intros H c Hc. unfold num_char. now rewrite (H c Hc). Qed.
Lemma dec_num n : forallb num_char (dec_of_N n) = true.
Proof. apply digits_num. now destruct (dec_of_N_spec n) as (_ & D & _). Qed.
Lemma forallb_firstn {A} (p : A -> bool) l n : forallb p l = true -> forallb p (firstn n l) = true.
Proof. rewrite !forallb_forall. intros H x Hx. apply H. rewrite <- (firstn_skipn n l). apply in_or_app. now left. Qed.
Lemma forallb_skipn {A} (p : A -> bool) l n : forallb p l = true -> forallb p (skipn n l) = true.
Proof. rewrite !forallb_forall. intros H x Hx. apply H. rewrite <- (firstn_skipn n l). apply in_or_app. now right. Qed.
Lemma zeros_num n : forallb num_char (zeros n) = true.
Proof. apply forallb_forall. intros c Hc. apply repeat_spec in Hc. now subst. Qed.
Lemma positional_num d t : forallb num_char (positional d t) = true.
Proof.
  unfold positional. destruct (0 <=? t)%Z; [now rewrite forallb_app, dec_num, zeros_num|].
  destruct (- t <? _)%Z; rewrite !forallb_app.
  - rewrite forallb_firstn, forallb_skipn by apply dec_num. reflexivity.
  - now rewrite dec_num, zeros_num.
Qed.
Lemma Z_display_num n : forallb num_char (Z_display n) = true.
Proof. destruct (Z_display_spec n) as (ds & -> & D & _). apply digits_num in D. destruct (n <? 0)%Z; cbn [forallb]; now rewrite D. Qed.
Lemma num_display_chars n : forallb num_char (num_display n) = true.
Proof.
  destruct n as [x|x|x]; cbn [num_display]; try apply Z_display_num.
  destruct x as [sg p|sg|sg m e]; cbn [f_display]; [reflexivity|destruct sg; reflexivity|].
  rewrite forallb_app. apply andb_true_iff. split; [destruct sg; reflexivity|].
  destruct (m =? 0)%Z; [reflexivity|]. destruct (exact_dec m e) as [d t]. destruct (shortest _ d t _) as [d1 t1]. destruct (strip0 _ d1 t1) as [d2 t2]. apply positional_num.
Qed.

(** ** characters of inline text *)
Section Chars.
  Variable ok : char -> Prop.
  Hypothesis ok_fixed : forall c, In c (s "(){}[]<>, =:'strb91truefals""") -> ok c.
  Hypothesis ok_num : forall c, num_char c = true -> ok c.
  Hypothesis ok_b91 : forall c, In c b91_alphabet -> ok c.
  Hypothesis ok_delim : forall c, In c delimiters -> ok c.
  Definition okt (t : str) : Prop := Forall ok t.

  (** the texts of a node itself *)
  Definition node_chars (d : dk) : Prop :=
    (forall i, d_id d = Some i -> okt i) /\
    match d_val d with
    | VStr t => okt t
    | VBarr b => Forall (fun x => x < 256)%N b
    | VCntr m => Forall (fun e => okt (fst e)) m
    | _ => True
    end.
  Fixpoint inline_chars (d : dk) : Prop :=
    d_line d = Inline /\ node_chars d /\
    match d with
    | DK _ _ v =>
        match v with
        | VTuple l | VSeq l => fold_right (fun x P => inline_chars x /\ P) True l
        | VCntr m => fold_right (fun e P => inline_chars (snd e) /\ P) True m
        | VMap m => fold_right (fun e P => (inline_chars (fst e) /\ inline_chars (snd e)) /\ P) True m
        | _ => True
        end
    end.

  Lemma okt_app a b : okt (a ++ b) <-> okt a /\ okt b.
  Proof. apply Forall_app. Qed.
  Lemma okt_pop a : okt a -> okt (pop a).
  Proof. intros H. destruct (list_eq_dec N.eq_dec a []) as [->|NE]; [exact H|]. unfold pop. rewrite (app_removelast_last 0%N NE) in H. now apply okt_app in H as [H _]. Qed.
  Lemma okt_cut d a : okt a -> okt (cut d a).
  Proof. unfold cut. destruct (drops d); [apply okt_pop|auto]. Qed.
  Lemma okt_pop2 {A} (l : list A) a : okt a -> okt (pop2 l a).
  Proof. unfold pop2. destruct (nonempty l); [|auto]. intros H. now apply okt_pop, okt_pop. Qed.
  Lemma okt_fixed t : forallb (fun c => mem c (s "(){}[]<>, =:'strb91truefals""")) t = true -> okt t.
  Proof. intros H. apply Forall_forall. intros c Hc. rewrite forallb_forall in H. apply ok_fixed. now apply mem_In, H. Qed.
  Ltac fixed := apply okt_fixed; reflexivity.
  Lemma okt_prim_id f id : (forall i, id = Some i -> okt i) -> okt (prim_id f id).
  Proof. intros H. unfold prim_id. destruct (f_id f), id as [i|]; try (apply Forall_nil). rewrite !okt_app. split; [fixed|split; [auto|fixed]]. Qed.
  Lemma okt_nonprim_id f id : (forall i, id = Some i -> okt i) -> okt (nonprim_id f id).
  Proof. intros H. unfold nonprim_id. destruct (f_id f), id as [i|]; try (apply Forall_nil). rewrite okt_app. split; [auto|fixed]. Qed.
  Lemma okt_tuple_id f id : (forall i, id = Some i -> okt i) -> okt (tuple_id f id).
  Proof. intros H. unfold tuple_id. destruct (f_id f), id as [i|]; try (apply Forall_nil). auto. Qed.
  Lemma fold_right_forall {A} (P : A -> Prop) l : fold_right (fun x Q => P x /\ Q) True l <-> Forall P l.
  Proof. induction l as [|x l IH]; cbn [fold_right]; [split; [constructor|trivial]|]. now rewrite Forall_cons_iff, IH. Qed.

  Lemma inline_text_chars d : inline_chars d -> forall top col, okt (text top d col).
  Proof.
    induction d as [f id v IH] using dk_ind'. intros H top col. cbn [inline_chars] in H. destruct H as (Hl & (Hid & Hn) & Hc).
    unfold d_line in Hl. cbn [d_fmt d_id d_val] in *.
    destruct v as [|b|n|t|b|l|m|l|m]; cbn [text prim_text]; rewrite ?Hl; cbn [d_children] in IH.
    - rewrite okt_app. split; [destruct id; [auto|constructor]|fixed].
    - rewrite okt_app. split; [now apply okt_prim_id|destruct b; fixed].
    - rewrite okt_app. split; [now apply okt_prim_id|]. apply Forall_forall. intros c Hc'. apply ok_num. pose proof (num_display_chars n) as N. rewrite forallb_forall in N. auto.
    - rewrite okt_app. split; [now apply okt_prim_id|]. unfold str_text, delimiter. destruct (find _ delimiters) as [d|] eqn:E; [|constructor]. apply find_some in E as [E _].
      assert (Hd : okt [d]) by (constructor; [now apply ok_delim|constructor]). rewrite !okt_app. split; [destruct (d =? 34)%N; [constructor|fixed]|]. auto.
    - rewrite !okt_app. split; [now apply okt_prim_id|]. split; [fixed|]. split; [|fixed]. apply b91_encode_alphabet in Hn. eapply Forall_impl; [|exact Hn]. auto.
    - rewrite okt_app. split; [|fixed]. apply okt_pop2. apply fold_inv with (P := okt).
      + apply fold_right_forall in Hc. rewrite Forall_forall in *. intros x Hx acc Ha. rewrite !okt_app. split; [now apply okt_cut|]. split; [now apply IH; [|apply Hc]|fixed].
      + rewrite okt_app. split; [now apply okt_tuple_id|fixed].
    - rewrite okt_app. split; [|fixed]. apply okt_pop2. apply fold_inv with (P := okt).
      + apply fold_right_forall in Hc. rewrite Forall_forall in *. intros x Hx acc Ha. rewrite !okt_app.
        split; [apply okt_cut; rewrite !okt_app; split; [exact Ha|split; [now apply Hn|fixed]]|].
        split; [apply IH; [now apply in_map|now apply Hc]|fixed].
      + rewrite okt_app. split; [now apply okt_nonprim_id|fixed].
    - rewrite okt_app. split; [|fixed]. apply okt_pop2. apply fold_inv with (P := okt).
      + apply fold_right_forall in Hc. rewrite Forall_forall in *. intros x Hx acc Ha. rewrite !okt_app. split; [now apply okt_cut|]. split; [now apply IH; [|apply Hc]|fixed].
      + rewrite okt_app. split; [now apply okt_nonprim_id|fixed].
    - rewrite !okt_app. split; [|split; [destruct (nonempty m); [fixed|constructor]|fixed]]. apply okt_pop2. apply fold_inv with (P := okt).
      + apply (fold_right_forall (fun e => inline_chars (fst e) /\ inline_chars (snd e))) in Hc. apply Forall_entries in IH. rewrite Forall_forall in *. intros x Hx acc Ha. destruct (IH x Hx) as [I1 I2]. destruct (Hc x Hx) as [C1 C2]. rewrite !okt_app.
        split; [apply okt_cut; rewrite !okt_app; split; [now apply okt_cut|split; [now apply I1|fixed]]|]. split; [now apply I2|fixed].
      + rewrite !okt_app. split; [now apply okt_nonprim_id|]. split; [fixed|]. destruct (nonempty m); [fixed|constructor].
  Qed.
End Chars.

(** ** length of inline text *)
Definition as_config (cfg : config) (d : dk) : bool := repr_eqb (d_line d) Inline && Bool.eqb (f_id (d_fmt d)) (flag cfg (d_val d)).

Lemma list_sum_cons x l : list_sum (x :: l) = x + list_sum l.
Proof. reflexivity. Qed.
Lemma list_sum_app' a b : list_sum (a ++ b) = list_sum a + list_sum b.
Proof. apply list_sum_app. Qed.
Lemma total_unfold g k : total g k = g k + list_sum (map (total g) (vchildren (kval k))).
Proof.
  unfold total. rewrite preorder_unfold. cbn [map]. rewrite list_sum_cons. f_equal. induction (vchildren (kval k)) as [|x l IH]; [reflexivity|].
  cbn [flat_map map]. rewrite map_app, list_sum_app', IH, list_sum_cons. reflexivity.
Qed.
Lemma length_pop (t : str) : length (pop t) = length t - 1.
Proof.
  destruct (list_eq_dec N.eq_dec t []) as [->|NE]; [reflexivity|]. unfold pop. rewrite (app_removelast_last 0%N NE) at 2. rewrite app_length. cbn [length]. symmetry. apply Nat.add_sub.
Qed.

(** plain characters: printable, no quote, no backslash *)
Lemma hex_digits_step f n : (n <? 16)%N = false -> hex_digits (S f) n = S (hex_digits f (n / 16)%N).
Proof. intros H. cbn [hex_digits]. now rewrite H. Qed.
Lemma div_ltb n a b : (b = 16 * a)%N -> (n / 16 <? a)%N = (n <? b)%N.
Proof.
  intros ->. destruct (N.ltb_spec n (16 * a)) as [H|H].
  - apply N.ltb_lt. apply N.div_lt_upper_bound; lia.
  - apply N.ltb_ge. apply N.div_le_lower_bound; lia.
Qed.
Lemma plain_escape c : (c <? 0x110000)%N = true -> escape_len c = 1 + escape_extra c.
Proof.
  intros H. unfold escape_len, escape_extra.
  replace (mem c [9; 13; 10; 39; 34; 92]%N) with (mem c [9; 10; 13; 34; 39; 92]%N).
  2: { destruct (mem c [9; 10; 13; 34; 39; 92]%N) eqn:E; symmetry; [apply mem_In in E; apply mem_In|apply mem_not_In in E; apply mem_not_In]; cbn in *; intuition. }
  destruct (mem c _); [reflexivity|]. destruct ((32 <=? c) && (c <=? 126))%N; [reflexivity|]. cbn [Nat.add]. do 4 f_equal.
  assert (ST : forall a f, hex_digits (S f) a = if (a <? 16)%N then 1 else S (hex_digits f (a / 16)%N)) by reflexivity.
  rewrite ST. destruct (N.ltb_spec c 0x10) as [?|G1]; [reflexivity|].
  rewrite ST, (div_ltb c 16 0x100) by reflexivity. destruct (N.ltb_spec c 0x100) as [?|G2]; [reflexivity|]. f_equal.
  rewrite ST, (div_ltb (c / 16) 16 0x100), (div_ltb c 0x100 0x1000) by reflexivity. destruct (N.ltb_spec c 0x1000) as [?|G3]; [reflexivity|]. f_equal.
  rewrite ST, (div_ltb (c / 16 / 16) 16 0x100), (div_ltb (c / 16) 0x100 0x1000), (div_ltb c 0x1000 0x10000) by reflexivity. destruct (N.ltb_spec c 0x10000) as [?|G4]; [reflexivity|]. f_equal.
  rewrite ST, (div_ltb (c / 16 / 16 / 16) 16 0x100), (div_ltb (c / 16 / 16) 0x100 0x1000), (div_ltb (c / 16) 0x1000 0x10000), (div_ltb c 0x10000 0x100000) by reflexivity.
  destruct (N.ltb_spec c 0x100000) as [?|G5]; [reflexivity|]. f_equal.
  rewrite ST, (div_ltb (c / 16 / 16 / 16 / 16) 16 0x100), (div_ltb (c / 16 / 16 / 16) 0x100 0x1000), (div_ltb (c / 16 / 16) 0x1000 0x10000), (div_ltb (c / 16) 0x10000 0x100000), (div_ltb c 0x100000 0x1000000) by reflexivity.
  apply N.ltb_lt in H. replace (c <? 0x1000000)%N with true by (symmetry; apply N.ltb_lt; lia). reflexivity.
Qed.
Lemma plain_string id t : str_ok (Kserd id (VStr t)) = true -> forallb (fun c => c <? 0x110000)%N t = true ->
  list_sum (map escape_len t) = length t + list_sum (map escape_extra t) /\
  length (str_text t) = 2 + length t + (if mem 34%N t then 3 else 0).
Proof.
  intros O H. rewrite forallb_forall in H. split.
  - clear O. induction t as [|c t IH]; [reflexivity|]. cbn [map length]. rewrite !list_sum_cons, plain_escape by (apply H; now left). rewrite IH by (intros; apply H; now right). lia.
  - unfold str_ok in O. cbn [kval] in O. unfold str_text, delimiter.
    change (s """'#`=|*^!%~&_\/:<>()") with (34%N :: tl delimiters) in O. change delimiters with (34%N :: tl delimiters). cbn [existsb find] in *.
    destruct (mem 34%N t) eqn:M; cbn [negb orb] in *.
    + destruct (find _ (tl delimiters)) as [d|] eqn:F.
      * replace (d =? 34)%N with false; [rewrite !app_length; change (length (s "str")) with 3; cbn [length]; lia|]. symmetry. apply N.eqb_neq. intros ->. apply find_some in F as [_ F]. now rewrite M in F.
      * exfalso. apply existsb_exists in O as (d & Hd & Nd). now rewrite (find_none _ _ F d Hd) in Nd.
    + change (34 =? 34)%N with true. cbv iota. cbn [app length]. rewrite app_length. cbn [length]. lia.
Qed.

Lemma cut_id d a : drops d = false -> cut d a = a.
Proof. unfold cut. now intros ->. Qed.
Definition len_ok (cfg : config) (d : dk) : Prop := forall top col,
  length (text top d col) + total (overestimate cfg) (undeco d) = iw cfg (undeco d) + total underestimate (undeco d).

Lemma list_sum_map_add {A} (f g : A -> nat) l : list_sum (map (fun x => f x + g x) l) = list_sum (map f l) + list_sum (map g l).
Proof. induction l as [|x l IH]; [reflexivity|]. cbn [map list_sum fold_right] in *. unfold list_sum in *. lia. Qed.

Lemma items_length cfg l col : Forall (fun x => drops x = false /\ len_ok cfg x) l -> forall acc,
  length (fold_left (fun acc x => cut x acc ++ text true x col ++ s ", ") l acc) + list_sum (map (fun x => total (overestimate cfg) (undeco x)) l)
  = length acc + list_sum (map (fun x => iw cfg (undeco x)) l) + list_sum (map (fun x => total underestimate (undeco x)) l) + 2 * length l.
Proof.
  induction 1 as [|x l [H1 H2] HF IH]; intros acc; cbn [fold_left map]; rewrite ?list_sum_cons; cbn [length]; [cbn; lia|].
  specialize (IH (cut x acc ++ text true x col ++ s ", ")). rewrite !(cut_id x) in IH |- * by exact H1. rewrite !app_length in IH. change (length (s ", ")) with 2 in IH; change (length (s ": ")) with 2 in IH; change (length (s " = ")) with 3 in IH. specialize (H2 true col). unfold str in *. unfold char in *. rewrite ?app_length in IH. change (length (s " = ")) with 3 in IH. lia.
Qed.
Lemma fields_length cfg (m : list (str * dk)) col : Forall (fun e => drops (snd e) = false /\ len_ok cfg (snd e)) m -> forall acc,
  length (fold_left (fun acc e => cut (snd e) (acc ++ fst e ++ s " = ") ++ text true (snd e) col ++ s ", ") m acc) + list_sum (map (fun x => total (overestimate cfg) (undeco (snd x))) m)
  = length acc + list_sum (map (fun x => iw cfg (undeco (snd x))) m) + list_sum (map (fun x => total underestimate (undeco (snd x))) m) + list_sum (map (fun e => length (fst e)) m) + 5 * length m.
Proof.
  induction 1 as [|x l [H1 H2] HF IH]; intros acc; cbn [fold_left map]; rewrite ?list_sum_cons; cbn [length]; [cbn; lia|].
  specialize (IH (cut (snd x) (acc ++ fst x ++ s " = ") ++ text true (snd x) col ++ s ", ")). rewrite !(cut_id (snd x)) in IH |- * by exact H1. rewrite !app_length in IH. change (length (s ", ")) with 2 in IH; change (length (s ": ")) with 2 in IH; change (length (s " = ")) with 3 in IH. specialize (H2 true col). unfold str in *. unfold char in *. rewrite ?app_length in IH. change (length (s " = ")) with 3 in IH. lia.
Qed.
Lemma entries_length cfg (m : list (dk * dk)) col : Forall (fun e => (drops (fst e) = false /\ len_ok cfg (fst e)) /\ drops (snd e) = false /\ len_ok cfg (snd e)) m -> forall acc,
  length (fold_left (fun acc e => cut (snd e) (cut (fst e) acc ++ text true (fst e) col ++ s ": ") ++ text true (snd e) col ++ s ", ") m acc)
    + list_sum (map (fun x => total (overestimate cfg) (undeco (fst x)) + total (overestimate cfg) (undeco (snd x))) m)
  = length acc + list_sum (map (fun x => iw cfg (undeco (fst x)) + iw cfg (undeco (snd x))) m)
    + list_sum (map (fun x => total underestimate (undeco (fst x)) + total underestimate (undeco (snd x))) m) + 4 * length m.
Proof.
  induction 1 as [|x l [[H1 H2] [H3 H4]] HF IH]; intros acc; cbn [fold_left map]; rewrite ?list_sum_cons; cbn [length]; [cbn; lia|].
  specialize (IH (cut (snd x) (cut (fst x) acc ++ text true (fst x) col ++ s ": ") ++ text true (snd x) col ++ s ", ")). rewrite !(cut_id (fst x)), !(cut_id (snd x)) in IH |- * by assumption. rewrite !app_length in IH. change (length (s ", ")) with 2 in IH; change (length (s ": ")) with 2 in IH; change (length (s " = ")) with 3 in IH. specialize (H2 true col). specialize (H4 true col). unfold str in *. unfold char in *. rewrite ?app_length in IH. change (length (s " = ")) with 3 in IH. lia.
Qed.

Lemma fold_min {A} (g : str -> A -> str) l : Forall (fun x => forall acc, length (g acc x) >= length acc + 2) l ->
  forall acc, length (fold_left g l acc) >= length acc + 2 * length l.
Proof. induction 1 as [|x l H HF IH]; intros acc; cbn [fold_left length]; [lia|]. specialize (H acc). specialize (IH (g acc x)). lia. Qed.

Fixpoint d_plain (cfg : config) (d : dk) {struct d} : Prop :=
  as_config cfg d = true /\ plain_node cfg (undeco d) = true /\
  match d with
  | DK _ _ v =>
      match v with
      | VTuple l | VSeq l => fold_right (fun x P => d_plain cfg x /\ P) True l
      | VCntr m => fold_right (fun e P => d_plain cfg (snd e) /\ P) True m
      | VMap m => fold_right (fun e P => (d_plain cfg (fst e) /\ d_plain cfg (snd e)) /\ P) True m
      | _ => True
      end
  end.
Lemma plain_no_drop cfg d : d_plain cfg d -> drops d = false.
Proof.
  destruct d as [f id v]. intros (A & B & _). unfold drops. destruct id as [i|]; [|reflexivity]. destruct v; try reflexivity.
  unfold as_config in A. apply andb_true_iff in A as [_ A]. cbn [d_fmt d_val flag] in A. apply Bool.eqb_prop in A. rewrite A.
  unfold plain_node in B. cbn [undeco kid kval] in B. destruct i; [discriminate|]. cbn [andb] in B. now rewrite B.
Qed.
Lemma pop2_length {A} (l : list A) t : length (pop2 l t) = length t - (if nonempty l then 2 else 0).
Proof. unfold pop2. destruct (nonempty l); [|lia]. rewrite !length_pop. lia. Qed.
Lemma nonempty_len {A} (l : list A) : (if nonempty l then 2 else 0) = 2 * length l - (length l - 1) * 2.
Proof. destruct l; cbn [nonempty length]; lia. Qed.

Lemma nonprim_id_length (b : bool) id r : match id with Some [] => false | _ => true end && r = true ->
  length (match b, id with true, Some i => i ++ s " " | _, _ => [] end) =
  (if (0 <? match id with Some i => length i | None => 0 end) && b then match id with Some i => length i | None => 0 end + 1 else 0).
Proof.
  intros H. destruct b, id as [[|c i]|]; cbn [andb Nat.ltb Nat.leb length] in *; try reflexivity; try discriminate.
  rewrite app_length. reflexivity.
Qed.

Lemma items_min cfg l col : Forall (fun x => drops x = false /\ len_ok cfg x) l -> forall acc,
  length (fold_left (fun acc x => cut x acc ++ text true x col ++ s ", ") l acc) >= length acc + 2 * length l.
Proof.
  intros H. apply fold_min. eapply Forall_impl; [|exact H]. cbn beta. intros x [D _] acc. rewrite cut_id, !app_length by exact D. change (length (s ", ")) with 2. lia.
Qed.
Lemma fields_min cfg (m : list (str * dk)) col : Forall (fun e => drops (snd e) = false /\ len_ok cfg (snd e)) m -> forall acc,
  length (fold_left (fun acc e => cut (snd e) (acc ++ fst e ++ s " = ") ++ text true (snd e) col ++ s ", ") m acc) >= length acc + 2 * length m.
Proof.
  intros H. apply fold_min. eapply Forall_impl; [|exact H]. cbn beta. intros x [D _] acc. rewrite cut_id, !app_length by exact D. change (length (s ", ")) with 2. unfold str, char in *. lia.
Qed.
Lemma entries_min cfg (m : list (dk * dk)) col : Forall (fun e => (drops (fst e) = false /\ len_ok cfg (fst e)) /\ drops (snd e) = false /\ len_ok cfg (snd e)) m -> forall acc,
  length (fold_left (fun acc e => cut (snd e) (cut (fst e) acc ++ text true (fst e) col ++ s ": ") ++ text true (snd e) col ++ s ", ") m acc) >= length acc + 2 * length m.
Proof.
  intros H. apply fold_min. eapply Forall_impl; [|exact H]. cbn beta. intros x [[D1 _] [D2 _]] acc. rewrite !cut_id, !app_length by assumption. change (length (s ", ")) with 2. lia.
Qed.
Lemma plain_length cfg d : d_plain cfg d -> len_ok cfg d.
Proof.
  induction d as [f id v IH] using dk_ind'. intros H top col.
  assert (H0 := H). destruct H as (A & B & C). unfold as_config in A. apply andb_true_iff in A as [A1 A2]. apply repr_eqb_eq in A1. apply Bool.eqb_prop in A2.
  unfold d_line in A1. cbn [d_fmt d_val] in A1, A2.
  assert (INL : forall l : list dk, Forall (fun d => d_plain cfg d -> len_ok cfg d) l -> Forall (d_plain cfg) l -> Forall (fun x => drops x = false /\ len_ok cfg x) l).
  { intros l H1 H2. rewrite Forall_forall in *. intros x Hx. split; [eapply plain_no_drop; eauto|auto]. }
  rewrite !total_unfold. cbn [undeco kval].
  destruct v as [|b|n|t|b|l|m|l|m]; cbn [text prim_text iw]; rewrite ?A1; cbn [d_children] in IH; cbn [vchildren];
    unfold overestimate at 1, underestimate at 1; cbn [kval kid].
  - unfold inline_width, ident_len; cbn [kval kid]. unfold plain_node in B; cbn [undeco kid kval] in B.
    destruct id as [[|c i]|]; cbn in B |- *; try discriminate; rewrite ?app_length; cbn; unfold char; lia.
  - unfold inline_width, ident_len; cbn [kval kid]. unfold plain_node in B; cbn [undeco kid kval] in B. unfold prim_id. cbn [flag] in A2. rewrite A2.
    destruct (id_on_primitives cfg), id as [[|c i]|], b; cbn in B |- *; try discriminate; rewrite ?app_length; cbn; unfold char; lia.
  - unfold inline_width, ident_len; cbn [kval kid]. unfold plain_node in B; cbn [undeco kid kval] in B. unfold prim_id. cbn [flag] in A2. rewrite A2.
    destruct (id_on_primitives cfg), id as [[|c i]|]; cbn in B |- *; try discriminate; rewrite ?app_length; cbn; unfold char; rewrite ?app_length; cbn; unfold char; lia.
  - unfold inline_width, ident_len; cbn [kval kid]. unfold plain_node in B; cbn [undeco kid kval] in B. apply andb_true_iff in B as [B1 B2]. apply andb_true_iff in B2 as [B2 B3]. destruct (plain_string _ _ B2 B3) as [E1 E2].
    rewrite app_length, E1, E2. clear E1 E2 B2 B3. unfold prim_id. cbn [flag] in A2. rewrite A2.
    destruct (id_on_primitives cfg), id as [[|c i]|]; cbn [map list_sum fold_right length app] in B1 |- *; try discriminate; rewrite ?app_length; cbn [length s app list_ascii_of_string map]; unfold char; rewrite ?app_length; cbn [length]; destruct (mem 34%N t); lia.
  - unfold inline_width, ident_len; cbn [kval kid]. unfold plain_node in B; cbn [undeco kid kval] in B. rewrite andb_true_r in B.
    rewrite !app_length. change (length (s "b91'")) with 4. change (length (s "'")) with 1. change (length FIELDS_SEPARATOR) with 2.
    unfold prim_id. cbn [flag] in A2. rewrite A2.
    destruct (id_on_primitives cfg), id as [[|c i]|]; cbn [map list_sum fold_right length app] in B |- *; try discriminate; rewrite ?app_length; cbn [length s app list_ascii_of_string map]; unfold char; rewrite ?app_length; cbn [length]; lia.
  - rewrite app_length, pop2_length. apply fold_right_forall in C. rewrite !map_map.
    pose proof (items_length cfg l col (INL l IH C) (tuple_id f id ++ s "(")) as E.
    pose proof (items_min cfg l col (INL l IH C) (tuple_id f id ++ s "(")) as EM. rewrite app_length in E. change (length (s "(")) with 1 in E. change (length (s ")")) with 1.
    unfold inline_width, ident_len; cbn [kval kid]. rewrite map_length. change (length FIELDS_SEPARATOR) with 2.
    rewrite nonempty_len. unfold plain_node in B; cbn [undeco kid kval] in B. unfold tuple_id in *. cbn [flag] in A2. rewrite A2 in *.
    destruct id as [[|c i]|]; [discriminate| |].
    + cbn [andb] in B. rewrite B in *. cbn [length Nat.ltb Nat.leb andb] in *. unfold str, char in *. lia.
    + cbn [Nat.ltb Nat.leb andb]. destruct (id_on_tuples cfg); cbn [length] in *; unfold str, char in *; lia.
  - rewrite app_length, pop2_length. apply (fold_right_forall (fun e => d_plain cfg (snd e))) in C. apply Forall_map in IH.
    assert (F : Forall (fun e : str * dk => drops (snd e) = false /\ len_ok cfg (snd e)) m).
    { rewrite Forall_forall in *. intros x Hx. split; [eapply plain_no_drop; eauto|apply IH; auto]. }
    pose proof (fields_length cfg m col F (nonprim_id f id ++ s "(")) as E.
    pose proof (fields_min cfg m col F (nonprim_id f id ++ s "(")) as EM. rewrite app_length in E. change (length (s "(")) with 1 in E. change (length (s ")")) with 1.
    unfold nonprim_id in *. cbn [flag] in A2. rewrite A2 in *. rewrite (nonprim_id_length _ _ _ B) in E. cbn [undeco kid kval] in E.
    unfold inline_width, ident_len; cbn [kval kid]. rewrite !map_map, map_length. cbn [fst snd]. change (length FIELDS_SEPARATOR) with 2. change (length FIELDS_ASSIGNER) with 2.
    rewrite nonempty_len. unfold str, char in *. lia.
  - rewrite app_length, pop2_length. apply fold_right_forall in C. rewrite !map_map.
    pose proof (items_length cfg l col (INL l IH C) (nonprim_id f id ++ s "[")) as E.
    pose proof (items_min cfg l col (INL l IH C) (nonprim_id f id ++ s "[")) as EM. rewrite app_length in E. change (length (s "[")) with 1 in E. change (length (s "]")) with 1.
    unfold inline_width, ident_len; cbn [kval kid]. rewrite map_length. change (length FIELDS_SEPARATOR) with 2.
    unfold nonprim_id in *. cbn [flag] in A2. rewrite A2 in *. rewrite (nonprim_id_length _ _ _ B) in E. cbn [undeco kid kval] in E.
    rewrite nonempty_len. unfold str, char in *. lia.
  - rewrite !app_length, pop2_length. apply (fold_right_forall (fun e => d_plain cfg (fst e) /\ d_plain cfg (snd e))) in C. apply Forall_entries in IH.
    assert (F : Forall (fun e : dk * dk => (drops (fst e) = false /\ len_ok cfg (fst e)) /\ drops (snd e) = false /\ len_ok cfg (snd e)) m).
    { rewrite Forall_forall in *. intros x Hx. destruct (C x Hx), (IH x Hx). split; (split; [eapply plain_no_drop; eauto|auto]). }
    pose proof (entries_length cfg m col F (nonprim_id f id ++ s "{" ++ (if nonempty m then s " " else []))) as E.
    pose proof (entries_min cfg m col F (nonprim_id f id ++ s "{" ++ (if nonempty m then s " " else []))) as EM. rewrite !app_length in E. change (length (s "{")) with 1 in E. change (length (s "}")) with 1.
    unfold nonprim_id in *. cbn [flag] in A2. rewrite A2 in *. rewrite (nonprim_id_length _ _ _ B) in E. cbn [undeco kid kval] in E.
    assert (T : forall g : kserd -> nat, list_sum (map (total g) (entry_list (map (fun e => (undeco (fst e), undeco (snd e))) m))) = list_sum (map (fun x => total g (undeco (fst x)) + total g (undeco (snd x))) m)).
    { intros g. clear. induction m as [|e m IHm]; [reflexivity|]. unfold entry_list in *. cbn [map flat_map app]. rewrite !list_sum_cons, IHm. cbn [fst snd]. lia. }
    rewrite !T. unfold inline_width, ident_len; cbn [kval kid]. rewrite !map_map, map_length. cbn [fst snd]. change (length FIELDS_SEPARATOR) with 2. change (length KEYS_ASSIGNER) with 1.
    rewrite nonempty_len.
    destruct m as [|e m']; [cbn in *; unfold str, char in *; lia|]. clear IH C F T INL. cbn [nonempty map length fold_left] in *. rewrite !list_sum_cons in *.
    rewrite !list_sum_map_add in *. change (length (s " ")) with 1 in *. unfold str, char in *. lia.
Qed.
