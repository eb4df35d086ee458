(** Proofs for C76: the texts of decoding errors. *)
From Verif Require Import Base BaseProps F64 F32 Number BTree Value Encode Own Deser DeserSpec DeserProps2 DeserProps3 Debug DebugProps DeserText DeserTextSpec.
From Verif Require FmtProps2.
Open Scope N_scope.

Section Texts.
Variable plain : char -> bool.
Variable f_text : f64 -> str.
Notation fails := (failure plain f_text).

Lemma called_unexp v i : unexp_text plain f_text (unexp_err v) = called plain f_text (OKserd i v).
Proof.
  unfold called. cbn [okval]. destruct v as [|[|]|[n|n|x]| | | | | |]; try reflexivity; cbn [unexp_err unexp_text small].
  - assert (S : fits64 false n = ((0 <=? n) && (n <? 2 ^ 64))%Z); [|rewrite <- S; now destruct (fits64 false n)].
    unfold fits64, in_ntype, ntype_min, ntype_max. cbn [ntype_signed ntype_bits]. destruct (Z.leb_spec 0 n), (Z.leb_spec n (2 ^ 64 - 1)), (Z.ltb_spec n (2 ^ 64)); try reflexivity; lia.
  - assert (S : fits64 true n = ((- 2 ^ 63 <=? n) && (n <? 2 ^ 63))%Z); [|rewrite <- S; now destruct (fits64 true n)].
    unfold fits64, in_ntype, ntype_min, ntype_max. cbn [ntype_signed ntype_bits]. destruct (Z.leb_spec (- 2 ^ 63) n), (Z.leb_spec n (2 ^ 63 - 1)), (Z.ltb_spec n (2 ^ 63)); try reflexivity; lia.
Qed.

Lemma fails_kind r k w : wants r = Some w -> has_name r k = true -> right_kind r k = false ->
  fails r k = Some (s "custom error: invalid type: " ++ called plain f_text k ++ s ", expected " ++ w).
Proof.
  intros W N K. destruct k as [i v]. rewrite <- (called_unexp v i). unfold failure. unfold right_kind in K. cbn [okval] in K.
  assert (G : forall u x, option_map decode_error_text (Some (invalid_type (texts plain f_text) u x)) = Some (s "custom error: invalid type: " ++ unexp_text plain f_text u ++ s ", expected " ++ x)) by reflexivity.
  destruct r as [m|a].
  - rewrite run_eq. cbn [start asks]. destruct m; try discriminate W; cbn [wants] in W; injection W as <-; cbn [decode].
    + destruct v; try discriminate K; apply G.
    + destruct v; try discriminate K; apply G.
    + destruct v; try discriminate K; apply G.
    + destruct v as [| | |t| | | | |]; try apply G. cbn [unexp_err]. destruct (cow_get t) as [|c [|d u]]; try discriminate K; apply G.
    + destruct v as [| | | | |[|x l]| | |]; try discriminate K; apply G.
  - destruct i as [i|]; [|discriminate N]. rewrite run_eq. cbn [start watch decode on_enum on_variant_name option_map].
    destruct a; cbn [wants] in W; injection W as <-; cbn [wrap].
    + destruct v as [| | | | |[|x l]| | |]; try discriminate K; apply G.
    + destruct v; try discriminate K; apply G.
    + destruct v; try discriminate K; apply G.
    + destruct v; try discriminate K; apply G.
Qed.
Lemma fails_name a v : fails (AskVariant a) (OKserd None v) = Some (s "custom error: enum but no identity is present").
Proof. reflexivity. Qed.
Lemma fails_newtype i l : length l <> 1%nat ->
  fails (AskVariant ANewtype) (OKserd (Some i) (OTuple l)) = Some (s "custom error: invalid length " ++ dec_of_N (N.of_nat (length l)) ++ s ", expected a tuple with a single element was expected").
Proof.
  intros H. unfold failure. rewrite run_eq. cbn [start watch decode on_enum on_variant_name option_map].
  destruct l as [|x [|y l]]; [reflexivity|now elim H|reflexivity].
Qed.
Lemma fails_tuple i l n : length l <> n ->
  fails (AskVariant (ATuple n)) (OKserd (Some i) (OTuple l)) =
  Some (s "custom error: invalid length " ++ dec_of_N (N.of_nat (length l)) ++ s ", expected a tuple with " ++ dec_of_N (N.of_nat n) ++ s " element(s) was expected").
Proof.
  intros H. unfold failure. rewrite run_eq. cbn [start watch decode on_enum on_variant_name option_map]. apply Nat.eqb_neq in H. rewrite H. reflexivity.
Qed.
Lemma fails_int t i n : fails (Ask (MInt t)) (OKserd i (ONum n)) =
  match (if ntype_signed t then as_i128 n else as_u128 n) with
  | None => Some (s "custom error: original number is outside integers range")
  | Some x => if in_ntype t x then None else Some (s "custom error: out of range integral type conversion attempted")
  end.
Proof. unfold failure. rewrite run_eq. cbn [start asks decode]. destruct (if ntype_signed t then _ else _) as [x|]; [|reflexivity]. destruct (in_ntype t x); reflexivity. Qed.

(** ** the text tells *)
Lemma digits_tick n r r' m : dec_of_N n ++ 96 :: r = dec_of_N m ++ 96 :: r' -> n = m /\ r = r'.
Proof. now apply dec_until. Qed.
Lemma Z_tick a b r r' : Z_display a ++ 96 :: r = Z_display b ++ 96 :: r' -> a = b /\ r = r'.
Proof.
  unfold Z_display. destruct (Z.ltb_spec a 0), (Z.ltb_spec b 0); cbn [app]; intros H1.
  - injection H1 as H1. apply digits_tick in H1 as [H1 ->]. split; [lia|reflexivity].
  - exfalso. destruct (dec_of_N_spec (Z.to_N b)) as (_ & D & NE). destruct (dec_of_N (Z.to_N b)) as [|c l]; [now destruct NE|]. injection H1 as <- _. discriminate D.
  - exfalso. destruct (dec_of_N_spec (Z.to_N a)) as (_ & D & NE). destruct (dec_of_N (Z.to_N a)) as [|c l]; [now destruct NE|]. injection H1 as -> _. discriminate D.
  - apply digits_tick in H1 as [H1 ->]. split; [lia|reflexivity].
Qed.
Lemma ints_tell (x y : Z) (b c : bool) r r' :
  (if b then s "integer `" ++ Z_display x ++ s "`" else s "integer `0`") ++ r = (if c then s "integer `" ++ Z_display y ++ s "`" else s "integer `0`") ++ r' -> (b = true -> c = true -> x = y) /\ r = r'.
Proof.
  assert (G : forall a : Z, (s "integer `" ++ Z_display a ++ s "`") = s "integer `" ++ Z_display a ++ [96]) by reflexivity.
  assert (Z0 : s "integer `0`" = s "integer `" ++ Z_display 0 ++ [96]) by reflexivity.
  assert (K : forall a a' : Z, (s "integer `" ++ Z_display a ++ [96]) ++ r = (s "integer `" ++ Z_display a' ++ [96]) ++ r' -> a = a' /\ r = r').
  { intros a a' H. rewrite <- !app_assoc in H. apply app_inv_head in H. cbn [app] in H. now apply Z_tick in H. }
  intros H. destruct b, c; rewrite ?G, ?Z0 in H; apply K in H as [H ->]; auto; split; auto; discriminate.
Qed.
Lemma float_int x (b : bool) y r r' : (s "floating point `" ++ f_text x ++ s "`") ++ r = (if b then s "integer `" ++ Z_display y ++ s "`" else s "integer `0`") ++ r' -> False.
Proof. destruct b; discriminate. Qed.
Lemma called_tells (FT : no_tick f_text) k k' r r' : called plain f_text k ++ s ", " ++ r = called plain f_text k' ++ s ", " ++ r' -> tells_same f_text k k' /\ r = r'.
Proof.
  unfold called, tells_same, kind_of. destruct k as [i v], k' as [i' v']. cbn [okval].
  assert (R : forall w w' : str, s ", " ++ w = s ", " ++ w' -> w = w') by (intros w w' H; now apply app_inv_head in H).
  destruct v as [|[|]|[n|n|x]|t|b|l|l|l|l], v' as [|[|]|[n'|n'|x']|t'|b'|l'|l'|l'|l']; intros H;
    try (match type of H with context [if _ then _ else _] => fail 1 | _ => discriminate H end);
    try (match type of H with context [if ?c then _ else _] => destruct c; discriminate H end);
    try (apply app_inv_head, R in H; repeat split; [exact H]).
  - apply ints_tell in H as [H1 H2]. apply R in H2. auto.
  - apply ints_tell in H as [H1 H2]. apply R in H2. auto.
  - apply ints_tell in H as [H1 H2]. apply R in H2. auto.
  - apply ints_tell in H as [H1 H2]. apply R in H2. auto.
  - rewrite <- !app_assoc in H. apply app_inv_head in H. apply (until_same 96 (fun c => negb (c =? 96)) eq_refl) in H as [H1 H2]; [|apply FT|apply FT]. apply R in H2. split; [|exact H2]. split; [reflexivity|]. exists x'. auto.
  - rewrite <- !app_assoc in H. apply app_inv_head in H. apply str_prefix in H as [H1 H2]. apply R in H2. auto.
Qed.
Lemma fails_tell (FT : no_tick f_text) r r' k k' w w' t : wants r = Some w -> has_name r k = true -> right_kind r k = false -> fails r k = Some t ->
  wants r' = Some w' -> has_name r' k' = true -> right_kind r' k' = false -> fails r' k' = Some t -> w = w' /\ tells_same f_text k k'.
Proof.
  intros W N K F W' N' K' F'. rewrite (fails_kind r k w W N K) in F. rewrite (fails_kind r' k' w' W' N' K') in F'. rewrite <- F' in F. injection F as F.
  repeat match type of F with _ :: _ = _ :: _ => injection F as F end.
  assert (G : called plain f_text k ++ s ", " ++ (s "expected " ++ w) = called plain f_text k' ++ s ", " ++ (s "expected " ++ w')) by exact F.
  destruct (called_tells FT _ _ _ _ G) as [T H]. apply app_inv_head in H. auto.
Qed.
End Texts.
Lemma display_no_tick : no_tick f_display.
Proof.
  intros x. pose proof (FmtProps2.num_display_chars (Float x)) as H. cbn [num_display] in H. rewrite forallb_forall in *. intros c I. specialize (H c I).
  destruct (N.eqb_spec c 96) as [->|]; [discriminate H|reflexivity].
Qed.
