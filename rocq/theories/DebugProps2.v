(** Proofs about debug texts: what is left of one without its indents tells Kserds apart. *)
From Verif Require Import Base BaseProps F64 Number NumberSpec NumberProps3 BTree Value ValueSpec ValueProps Nav Debug DebugSpec DebugProps.
Open Scope N_scope.

Ltac lits :=
  repeat match goal with
  | H : context [s ?x] |- _ => let v := eval vm_compute in (s x) in change (s x) with v in H
  | |- context [s ?x] => let v := eval vm_compute in (s x) in change (s x) with v
  end.

(** ** without indents *)
Fixpoint sq (b : bool) (t : str) : str :=
  match t with
  | [] => []
  | c :: r => if c =? 10 then c :: sq true r else if b && (c =? 32) then sq true r else c :: sq false r
  end.
Fixpoint after (b : bool) (t : str) : bool :=
  match t with
  | [] => b
  | c :: r => after ((c =? 10) || (b && (c =? 32))) r
  end.
Lemma sq_app t : forall b u, sq b (t ++ u) = sq b t ++ sq (after b t) u.
Proof.
  induction t as [|c t IH]; intros b u; [reflexivity|]. cbn [app sq after].
  destruct (c =? 10); cbn [orb app]; [now rewrite IH|]. destruct (b && (c =? 32)); cbn [app]; now rewrite IH.
Qed.
Lemma after_app t : forall b u, after b (t ++ u) = after (after b t) u.
Proof. induction t as [|c t IH]; intros b u; [reflexivity|]. cbn [app after]. apply IH. Qed.
Lemma sq_pad t u : sq true (pad_from true t ++ u) = sq true (t ++ u) /\ forall b, sq b (pad_from false t ++ u) = sq b (t ++ u).
Proof.
  induction t as [|c t [IH1 IH2]]; [split; reflexivity|].
  assert (G : forall b, sq b ((c :: pad_from (c =? 10) t) ++ u) = sq b ((c :: t) ++ u)).
  { intros b. cbn [app sq]. destruct (N.eqb_spec c 10) as [->|]; [now rewrite IH1|]. destruct (b && (c =? 32)); now rewrite IH2. }
  split.
  - cbn [pad_from]. change (s "    ") with [32; 32; 32; 32]. rewrite <- app_assoc. exact (G true).
  - intros b. exact (G b).
Qed.
(** a text without line breaks *)
Definition one_line (t : str) : bool := forallb (fun c => negb (c =? 10)) t.
Lemma one_line_sq t : one_line t = true -> sq false t = t /\ after false t = false.
Proof.
  unfold one_line. induction t as [|c t IH]; [auto|]. cbn [forallb sq after]. intros H. apply andb_true_iff in H as [H1 H2]. apply negb_true_iff in H1. rewrite H1. cbn [andb orb].
  destruct (IH H2) as [-> ->]. auto.
Qed.
Lemma one_line_app t u : one_line (t ++ u) = one_line t && one_line u.
Proof. apply forallb_app. Qed.
(** a text which begins with something else than a space or a line break *)
Definition begins (t : str) : Prop := match t with c :: _ => c <> 10 /\ c <> 32 | [] => False end.
Lemma begins_sq t b : begins t -> sq b t = sq false t /\ after b t = after false t.
Proof.
  destruct t as [|c t]; [intros []|]. intros [H1 H2]. cbn [sq after]. rewrite (proj2 (N.eqb_neq _ _) H1), (proj2 (N.eqb_neq _ _) H2).
  rewrite andb_false_r. auto.
Qed.
Lemma begins_app t u : begins t -> begins (t ++ u).
Proof. now destruct t. Qed.

Section Style.
Variable plain : char -> bool.
Variable f_debug : f64 -> str.
Hypothesis FD : float_debug f_debug.
Variable alt : bool.

Definition more : str := if alt then [44; 10] else [44; 32].
Definition fin (close : str) : str := if alt then [44; 10] ++ close else close.
Definition nl : str := if alt then [10] else [].
Definition end_struct : str := fin (if alt then [125] else [32; 125]).
Fixpoint body (f : str) (l : list str) : str :=
  match l with
  | [] => []
  | [t] => t ++ f
  | t :: r => t ++ more ++ body f r
  end.
Definition flat_struct (name : str) (fields : list (str * str)) : str :=
  name ++ match fields with
          | [] => []
          | _ => (if alt then [32; 123; 10] else [32; 123; 32]) ++ body end_struct (map (fun e => fst e ++ [58; 32] ++ snd e) fields)
          end.
Definition flat_tuple (name : str) (fields : list str) : str :=
  name ++ match fields with [] => [] | _ => [40] ++ nl ++ body (fin [41]) fields end.
Definition flat_list (l : list str) : str := [91] ++ match l with [] => [93] | _ => nl ++ body (fin [93]) l end.
Definition flat_entries (l : list (str * str)) : str :=
  [123] ++ match l with [] => [125] | _ => nl ++ body (fin [125]) (map (fun e => fst e ++ [58; 32] ++ snd e) l) end.
Definition flat_value {K} (d : K -> str) (v : value K) : str :=
  match v with
  | VTuple l => flat_tuple (s "Tuple") (map d l)
  | VCntr m => flat_struct (s "Cntr") (map (fun e => (fst e, d (snd e))) m)
  | VSeq l => flat_list (map d l)
  | VMap m => flat_entries (map (fun e => (d (fst e), d (snd e))) m)
  | _ => debug_value plain f_debug alt d v
  end.
Fixpoint flat (k : kserd) : str :=
  let 'Kserd i v := k in
  flat_struct (s "Kserd") [(s "id", debug_id plain i); (s "val", flat_value flat v)].
Definition flat_pre : str := s "Kserd" ++ (if alt then [32; 123; 10] else [32; 123; 32]) ++ s "id: ".
Lemma flat_eq i v : flat (Kserd i v) = flat_pre ++ debug_id plain i ++ more ++ s "val: " ++ flat_value flat v ++ end_struct.
Proof.
  cbn [flat]. unfold flat_struct, flat_pre. cbn [map body fst snd]. rewrite <- !app_assoc. reflexivity.
Qed.

Lemma body_app f x l : l <> [] -> body f l ++ x = body (f ++ x) l.
Proof.
  induction l as [|t l IH]; [easy|]. intros _. destruct l as [|u l]; cbn [body]; [now rewrite app_assoc|].
  rewrite <- !app_assoc. do 2 f_equal. now apply IH.
Qed.
Lemma body_inj {A B} (txt : A -> str) (ok : A -> Prop) (g : A -> B) f : (forall b r y, ok b -> more ++ txt b ++ r <> f ++ y) ->
  forall l1, Forall (fun a => forall b r r', ok b -> txt a ++ r = txt b ++ r' -> g a = g b /\ r = r') l1 -> Forall ok l1 ->
  forall l2 r1 r2, Forall ok l2 -> l1 <> [] -> l2 <> [] -> body f (map txt l1) ++ r1 = body f (map txt l2) ++ r2 -> map g l1 = map g l2 /\ r1 = r2.
Proof.
  intros HM. induction l1 as [|a l1 IH]; [easy|]. intros H K1 [|b l2] r1 r2 K _ NE E; [easy|]. inversion H as [|? ? Ha Hl]; subst. inversion K as [|? ? Kb Kl]; subst. inversion K1 as [|? ? Ka K1l]; subst.
  destruct l1 as [|a' l1], l2 as [|b' l2]; cbn [map body] in E; rewrite <- !app_assoc in E; apply (Ha _ _ _ Kb) in E as [Eg E].
  - apply app_inv_head in E. cbn. now rewrite Eg.
  - exfalso. symmetry in E. inversion Kl; subst.
    destruct l2; cbn [map body] in E; rewrite <- ?app_assoc in E; now apply HM in E.
  - exfalso. inversion K1l; subst.
    destruct l1; cbn [map body] in E; rewrite <- ?app_assoc in E; now apply HM in E.
  - apply app_inv_head in E. destruct (IH Hl K1l (b' :: l2) r1 r2 Kl ltac:(easy) ltac:(easy) E) as [Em Er]. split; [cbn [map] in *; now rewrite Eg, Em|exact Er].
Qed.

Lemma id_prefix i j r r' : debug_id plain i ++ r = debug_id plain j ++ r' -> i = j /\ r = r'.
Proof.
  unfold debug_id. destruct i as [t|], j as [u|]; intros E; lits.
  - rewrite <- !app_assoc in E. apply app_inv_head, str_prefix in E as [-> E]. apply app_inv_head in E. auto.
  - discriminate E.
  - discriminate E.
  - apply app_inv_head in E. auto.
Qed.
Lemma flat_head k : exists r, flat k = 75 :: r.
Proof. destruct k as [i v]. rewrite flat_eq. unfold flat_pre. lits. cbn [app]. eauto. Qed.

Lemma Z_until n m r r' : Z_display n ++ [41] ++ r = Z_display m ++ [41] ++ r' -> n = m /\ r = r'.
Proof.
  intros E. assert (P : forall k, forallb (fun c => negb (c =? 41)) (Z_display k) = true).
  { intros k. unfold Z_display. assert (G : forall q, forallb (fun c => negb (c =? 41)) (dec_of_N q) = true).
    { intros q. destruct (dec_of_N_spec q) as (_ & D & _). apply forallb_forall. intros c Hc. rewrite forallb_forall in D. specialize (D c Hc). unfold is_digit in D.
      apply andb_true_iff in D as [D1 D2]. apply N.leb_le in D1, D2. apply negb_true_iff, N.eqb_neq. lia. }
    destruct (k <? 0)%Z; cbn [app forallb]; rewrite ?G; reflexivity. }
  destruct (until_same 41 _ eq_refl _ _ _ _ (P n) (P m) E) as [E1 E2]. split; [|exact E2].
  unfold Z_display in E1.
  assert (G : forall q, exists c t, dec_of_N q = c :: t /\ c <> 45).
  { intros q. destruct (dec_of_N_spec q) as (_ & D & NE & _). destruct (dec_of_N q) as [|c t]; [easy|]. exists c, t. split; [reflexivity|]. cbn [forallb] in D. apply andb_true_iff in D as [D _]. unfold is_digit in D. apply andb_true_iff in D as [D1 D2]. apply N.leb_le in D1. lia. }
  assert (V : forall p q, dec_of_N p = dec_of_N q -> p = q).
  { intros p q Ep. destruct (dec_of_N_spec p) as (Vp & _), (dec_of_N_spec q) as (Vq & _). congruence. }
  destruct (Z.ltb_spec n 0), (Z.ltb_spec m 0).
  - injection E1 as E1. apply V in E1. lia.
  - destruct (G (Z.to_N m)) as (c & t & Ec & N). rewrite Ec in E1. injection E1 as E1 _. congruence.
  - destruct (G (Z.to_N n)) as (c & t & Ec & N). rewrite Ec in E1. injection E1 as E1 _. congruence.
  - apply V in E1. lia.
Qed.
Lemma num_prefix n m r r' : num_wf n = true -> num_wf m = true -> debug_num f_debug n ++ r = debug_num f_debug m ++ r' -> one_nan n = one_nan m /\ r = r'.
Proof.
  destruct FD as [FI FC]. intros Wn Wm E. unfold debug_num in E. destruct n as [x|x|x], m as [y|y|y]; lits; rewrite <- ?app_assoc in E; try discriminate E.
  - apply app_inv_head, Z_until in E as [-> E]. auto.
  - apply app_inv_head, Z_until in E as [-> E]. auto.
  - apply app_inv_head in E.
    assert (P : forall z, forallb (fun c => negb (c =? 41)) (f_debug z) = true).
    { intros z. specialize (FC z). apply forallb_forall. intros c Hc. rewrite forallb_forall in FC. specialize (FC c Hc). unfold mem in FC. cbn [existsb] in FC.
      destruct (c =? 10), (c =? 41); cbn in *; congruence. }
    destruct (until_same 41 _ eq_refl _ _ _ _ (P x) (P y) E) as [E1 E2]. split; [|exact E2].
    apply FI in E1; [|assumption..]. destruct E1 as [->|[N1 N2]]; [reflexivity|]. destruct x, y; try discriminate. reflexivity.
Qed.
Lemma bytes_prefix a : forall b r r', debug_bytes a ++ r = debug_bytes b ++ r' -> a = b /\ r = r'.
Proof.
  unfold debug_bytes. lits.
  assert (G : forall a b r r', joined_with [44; 32] (map dec_of_N a) ++ [93] ++ r = joined_with [44; 32] (map dec_of_N b) ++ [93] ++ r' -> a = b /\ r = r').
  2:{ intros b r r' E. rewrite <- !app_assoc in E. apply app_inv_head in E. now apply G in E. }
  clear a. assert (NE : forall q, exists c t, dec_of_N q = c :: t /\ is_digit c = true).
  { intros q. destruct (dec_of_N_spec q) as (_ & D & NE & _). destruct (dec_of_N q) as [|c t]; [easy|]. exists c, t. split; [reflexivity|]. cbn [forallb] in D. now apply andb_true_iff in D as [D _]. }
  assert (ST : forall q p c d r r', is_digit c = false -> is_digit d = false -> dec_of_N q ++ c :: r = dec_of_N p ++ d :: r' -> q = p /\ c = d /\ r = r').
  { intros q p c d r r' Hc Hd E. destruct (dec_of_N_spec q) as (V & D & _), (dec_of_N_spec p) as (V' & D' & _).
    assert (X : forall t u, forallb is_digit t = true -> forallb is_digit u = true -> t ++ c :: r = u ++ d :: r' -> t = u /\ c = d /\ r = r').
    { induction t as [|x t IH]; intros [|y u] Ht Hu Et; cbn [app forallb] in *.
      - injection Et as -> ->. auto.
      - injection Et as -> _. apply andb_true_iff in Hu as [Hu _]. congruence.
      - injection Et as -> _. apply andb_true_iff in Ht as [Ht _]. congruence.
      - injection Et as -> Et. apply andb_true_iff in Ht as [_ Ht], Hu as [_ Hu]. destruct (IH u Ht Hu Et) as (-> & -> & ->). auto. }
    destruct (X _ _ D D' E) as (E1 & E2 & E3). split; [congruence|auto]. }
  induction a as [|x a IH]; intros [|y b] r r' E; cbn [map joined_with app] in E.
  - injection E as E. auto.
  - exfalso. destruct (NE y) as (c & t & Ey & D). destruct b; cbn [map joined_with] in E; rewrite Ey in E; cbn [app] in E; injection E as E _; subst c; discriminate D.
  - exfalso. destruct (NE x) as (c & t & Ey & D). destruct a; cbn [map joined_with] in E; rewrite Ey in E; cbn [app] in E; injection E as E _; subst c; discriminate D.
  - destruct a as [|x' a], b as [|y' b]; cbn [map] in E; cbn [joined_with] in E; rewrite <- ?app_assoc in E; cbn [app] in E; apply ST in E as (-> & E1 & E2); try reflexivity.
    + auto.
    + discriminate E1.
    + discriminate E1.
    + injection E2 as E2. destruct (IH (y' :: b) r r') as [-> ->]; [exact E2|auto].
Qed.
Lemma bool_prefix a b r r' : debug_bool a ++ r = debug_bool b ++ r' -> a = b /\ r = r'.
Proof. destruct a, b; unfold debug_bool; lits; intros E; try discriminate E; apply app_inv_head in E; auto. Qed.

Definition name_ok (n : str) : Prop := forallb (fun c => negb (c =? 32) && negb (alt && (c =? 10))) n = true.
Lemma name_prefix n m r r' : name_ok n -> name_ok m -> n ++ [58; 32] ++ r = m ++ [58; 32] ++ r' -> n = m /\ r = r'.
Proof.
  intros Hn Hm E. assert (P : forall q, name_ok q -> forallb (fun c => negb (c =? 32)) (q ++ [58]) = true).
  { intros q Hq. rewrite forallb_app. cbn. rewrite andb_true_r. apply forallb_forall. intros c Hc. unfold name_ok in Hq. rewrite forallb_forall in Hq. specialize (Hq c Hc). now apply andb_true_iff in Hq as [Hq _]. }
  change (n ++ [58; 32] ++ r) with (n ++ [58] ++ 32 :: r) in E. change (m ++ [58; 32] ++ r') with (m ++ [58] ++ 32 :: r') in E. rewrite !app_assoc in E.
  destruct (until_same 32 _ eq_refl _ _ _ _ (P n Hn) (P m Hm) E) as [E1 E2]. apply app_inv_tail in E1. auto.
Qed.
(** a field is not taken for the end *)
Lemma name_end n r y : name_ok n -> more ++ (n ++ [58; 32] ++ r) <> (end_struct ++ end_struct) ++ y.
Proof.
  unfold end_struct, fin, more, name_ok. destruct alt; cbn [app]; [|discriminate].
  intros H E. injection E as E. destruct n as [|c n]; [discriminate E|]. cbn [app] in E. injection E as -> E.
  destruct n as [|c n]; [discriminate E|]. cbn [app] in E. injection E as -> E. destruct n as [|c n]; [discriminate E|]. cbn [app] in E. injection E as -> E. discriminate H.
Qed.

Definition okk (k : kserd) : Prop := k_typed k = true /\ plain_names alt k = true.
Lemma okk_parts i v : okk (Kserd i v) -> Forall okk (vchildren v).
Proof.
  intros [H1 H2]. unfold okk, k_typed, plain_names in *. cbn [k_all] in H1, H2. apply andb_true_iff in H1 as [_ H1], H2 as [_ H2].
  destruct v as [| | | | |l|m|l|m]; cbn [vchildren]; try constructor; rewrite ?forallb_forall in H1, H2; apply Forall_forall; intros x Hx.
  - auto.
  - apply in_map_iff in Hx as (e & <- & He). auto.
  - auto.
  - unfold entry_list in Hx. apply in_flat_map in Hx as (e & He & Hx). specialize (H1 e He). specialize (H2 e He). cbn beta in H1, H2. apply andb_true_iff in H1 as [? ?], H2 as [? ?].
    destruct Hx as [<-|[<-|[]]]; auto.
Qed.

Definition one_value (v : value kserd) : value kserd := kval (one_nans (Kserd None v)).
Lemma nonnil {A B} (f : A -> B) x l : map f (x :: l) <> [].
Proof. easy. Qed.
Definition solo (a : kserd) : Prop := forall b r r', okk b -> flat a ++ r = flat b ++ r' -> one_nans a = one_nans b /\ r = r'.
Lemma kserds_inj f l1 l2 r1 r2 : (forall r y, more ++ 75 :: r <> f ++ y) -> Forall solo l1 -> Forall okk l1 -> Forall okk l2 -> l1 <> [] -> l2 <> [] ->
  body f (map flat l1) ++ r1 = body f (map flat l2) ++ r2 -> map one_nans l1 = map one_nans l2 /\ r1 = r2.
Proof.
  intros HM HS O1 O2 N1 N2 E. refine (body_inj flat okk one_nans f _ l1 HS O1 l2 r1 r2 O2 N1 N2 E).
  intros b r y _. destruct (flat_head b) as [t ->]. cbn [app]. apply HM.
Qed.
Lemma value_inj v1 i1 i2 v2 r1 r2 : Forall solo (vchildren v1) -> okk (Kserd i1 v1) -> okk (Kserd i2 v2) ->
  flat_value flat v1 ++ end_struct ++ r1 = flat_value flat v2 ++ end_struct ++ r2 -> one_value v1 = one_value v2 /\ r1 = r2.
Proof.
  intros IH K1 K2 E. pose proof (okk_parts _ _ K1) as P1. pose proof (okk_parts _ _ K2) as P2. unfold one_value. cbn [one_nans kval].
  destruct v1 as [|b1|n1|t1|s1|l1|m1|l1|m1], v2 as [|b2|n2|t2|s2|l2|m2|l2|m2];
    cbn [flat_value debug_value] in E; unfold flat_tuple, flat_struct, flat_list, flat_entries in E; lits; rewrite <- ?app_assoc in E;
    try discriminate E; cbn [vchildren] in *.
  - apply app_inv_head, app_inv_head in E. auto.
  - apply app_inv_head, bool_prefix in E as [-> E]. apply app_inv_head, app_inv_head in E. auto.
  - destruct K1 as [T1 _], K2 as [T2 _]. unfold k_typed in T1, T2. cbn in T1, T2. rewrite andb_true_r in T1, T2.
    apply app_inv_head, num_prefix in E as [H E]; [|assumption..]. apply app_inv_head, app_inv_head in E. now rewrite H.
  - apply app_inv_head, str_prefix in E as [-> E]. apply app_inv_head, app_inv_head in E. auto.
  - apply app_inv_head, bytes_prefix in E as [-> E]. apply app_inv_head, app_inv_head in E. auto.
  - apply app_inv_head in E. destruct l1 as [|x1 l1], l2 as [|x2 l2].
    + cbn [map app] in E. apply app_inv_head in E. auto.
    + exfalso. unfold end_struct, fin in E. cbn [map] in E. destruct alt; cbn [app] in E; discriminate E.
    + exfalso. unfold end_struct, fin in E. cbn [map] in E. destruct alt; cbn [app] in E; discriminate E.
    + cbn [map] in E. rewrite <- ?app_assoc in E. apply app_inv_head, app_inv_head in E.
      destruct (kserds_inj (fin [41]) (x1 :: l1) (x2 :: l2) (end_struct ++ r1) (end_struct ++ r2)) as [H Er]; try assumption; try easy.
      { intros r y. unfold more, fin. destruct alt; cbn [app]; discriminate. }
      apply app_inv_head in Er. now rewrite H.
  - apply app_inv_head in E. destruct m1 as [|e1 m1], m2 as [|e2 m2].
    + cbn [map app] in E. apply app_inv_head in E. auto.
    + exfalso. unfold end_struct, fin in E. cbn [map] in E. destruct alt; cbn [app] in E; discriminate E.
    + exfalso. unfold end_struct, fin in E. cbn [map] in E. destruct alt; cbn [app] in E; discriminate E.
    + cbn [map] in E. rewrite <- ?app_assoc in E. apply app_inv_head in E. cbn [fst snd] in E.
      set (txt := fun e : str * kserd => fst e ++ [58; 32] ++ flat (snd e)).
      change (body end_struct (map txt (e1 :: m1)) ++ (end_struct ++ r1) = body end_struct (map txt (e2 :: m2)) ++ (end_struct ++ r2)) in E || idtac.
      assert (G : forall m : list (str * kserd), map (fun e => fst e ++ [58; 32] ++ snd e) (map (fun e => (fst e, flat (snd e))) m) = map txt m).
      { intros m. rewrite map_map. reflexivity. }
      rewrite !G in E. change (txt e1 :: map txt m1) with (map txt (e1 :: m1)) in E. change (txt e2 :: map txt m2) with (map txt (e2 :: m2)) in E.
      change ((fst e1 ++ [58; 32] ++ flat (snd e1)) :: map txt m1) with (map txt (e1 :: m1)) in E. change ((fst e2 ++ [58; 32] ++ flat (snd e2)) :: map txt m2) with (map txt (e2 :: m2)) in E.
      rewrite !app_assoc in E. rewrite !(body_app end_struct end_struct) in E by apply nonnil.
      assert (O : forall i m, okk (Kserd i (VCntr m)) -> Forall (fun e => name_ok (fst e) /\ okk (snd e)) m).
      { intros i m HK. pose proof (okk_parts _ _ HK) as HP. cbn [vchildren] in HP. destruct HK as [_ HK]. unfold plain_names in HK. cbn [k_all kval] in HK. apply andb_true_iff in HK as [HK _].
        apply Forall_forall. intros e He. rewrite forallb_forall in HK. split; [exact (HK e He)|]. rewrite Forall_forall in HP. apply HP. now apply in_map. }
      destruct (body_inj txt (fun e => name_ok (fst e) /\ okk (snd e)) (fun e => (fst e, one_nans (snd e))) (end_struct ++ end_struct)) with (l1 := e1 :: m1) (l2 := e2 :: m2) (r1 := r1) (r2 := r2) as [H Er].
      * intros b r y [Hb _]. unfold txt. rewrite <- !app_assoc. rewrite app_assoc with (n := y). now apply name_end.
      * pose proof (O _ _ K1) as O1. apply Forall_forall. intros a Ha b r r' [Hb Kb] Et. unfold txt in Et. rewrite <- !app_assoc in Et.
        rewrite Forall_forall in O1. destruct (O1 a Ha) as [Hna _]. apply name_prefix in Et as [En Et]; [|assumption..].
        rewrite Forall_forall in IH. destruct (IH (snd a) (in_map snd _ _ Ha) (snd b) r r' Kb Et) as [Ek Er]. now rewrite En, Ek.
      * exact (O _ _ K1).
      * exact (O _ _ K2).
      * easy.
      * easy.
      * exact E.
      * now rewrite H.
  - apply app_inv_head in E. destruct l1 as [|x1 l1], l2 as [|x2 l2].
    + cbn [map] in E. apply app_inv_head, app_inv_head in E. auto.
    + exfalso. cbn [map] in E. destruct (flat_head x2) as [t Ht]. unfold nl in E. destruct alt; [cbn [app] in E; discriminate E|]. destruct l2; cbn [map body] in E; rewrite Ht in E; cbn [app] in E; discriminate E.
    + exfalso. cbn [map] in E. destruct (flat_head x1) as [t Ht]. unfold nl in E. destruct alt; [cbn [app] in E; discriminate E|]. destruct l1; cbn [map body] in E; rewrite Ht in E; cbn [app] in E; discriminate E.
    + cbn [map] in E. rewrite <- ?app_assoc in E. apply app_inv_head in E.
      destruct (kserds_inj (fin [93]) (x1 :: l1) (x2 :: l2) (end_struct ++ r1) (end_struct ++ r2)) as [H Er]; try assumption; try easy.
      { intros r y. unfold more, fin. destruct alt; cbn [app]; discriminate. }
      apply app_inv_head in Er. now rewrite H.
  - apply app_inv_head in E.
    set (txt := fun e : kserd * kserd => flat (fst e) ++ [58; 32] ++ flat (snd e)).
    assert (G : forall m : list (kserd * kserd), map (fun e => fst e ++ [58; 32] ++ snd e) (map (fun e => (flat (fst e), flat (snd e))) m) = map txt m).
    { intros m. rewrite map_map. reflexivity. }
    assert (HT : forall e, exists t, txt e = 75 :: t). { intros e. unfold txt. destruct (flat_head (fst e)) as [t ->]. cbn [app]. eauto. }
    rewrite !G in E.
    destruct m1 as [|e1 m1], m2 as [|e2 m2].
    + cbn [map] in E. apply app_inv_head, app_inv_head in E. auto.
    + exfalso. destruct (HT e2) as [t Ht]. unfold nl in E. cbn [map] in E. destruct alt; [cbn [app] in E; discriminate E|]. destruct m2; cbn [map body] in E; rewrite Ht in E; cbn [app] in E; discriminate E.
    + exfalso. destruct (HT e1) as [t Ht]. unfold nl in E. cbn [map] in E. destruct alt; [cbn [app] in E; discriminate E|]. destruct m1; cbn [map body] in E; rewrite Ht in E; cbn [app] in E; discriminate E.
    + change (map (fun e => (flat (fst e), flat (snd e))) (e1 :: m1)) with ((flat (fst e1), flat (snd e1)) :: map (fun e => (flat (fst e), flat (snd e))) m1) in E.
      cbn [map] in E. rewrite <- ?app_assoc in E. apply app_inv_head in E.
      change (txt e1 :: map txt m1) with (map txt (e1 :: m1)) in E. change (txt e2 :: map txt m2) with (map txt (e2 :: m2)) in E.
      assert (O : forall m, Forall okk (entry_list m) -> Forall (fun e => okk (fst e) /\ okk (snd e)) m).
      { intros m HP. apply Forall_forall. intros e He. rewrite Forall_forall in HP. split; apply HP; apply in_flat_map; exists e; cbn; auto. }
      destruct (body_inj txt (fun e => okk (fst e) /\ okk (snd e)) (fun e => (one_nans (fst e), one_nans (snd e))) (fin [125])) with (l1 := e1 :: m1) (l2 := e2 :: m2) (r1 := end_struct ++ r1) (r2 := end_struct ++ r2) as [H Er].
      * intros b r y _. destruct (HT b) as [t ->]. unfold more, fin. destruct alt; cbn [app]; discriminate.
      * apply Forall_forall. intros a Ha b r r' [Kf Ks] Et. unfold txt in Et. rewrite <- !app_assoc in Et. rewrite Forall_forall in IH.
        assert (Hf : In (fst a) (entry_list (e1 :: m1)) /\ In (snd a) (entry_list (e1 :: m1))) by (split; apply in_flat_map; exists a; cbn; auto).
        destruct Hf as [Hf Hs]. destruct (IH _ Hf (fst b) _ _ Kf Et) as [Ef Et']. apply app_inv_head in Et'. destruct (IH _ Hs (snd b) _ _ Ks Et') as [Es Er]. now rewrite Ef, Es.
      * now apply O.
      * now apply O.
      * easy.
      * easy.
      * exact E.
      * apply app_inv_head in Er. now rewrite H.
Qed.

Lemma flat_inj k1 : okk k1 -> solo k1.
Proof.
  induction k1 as [i1 v1 IH] using kserd_ind'. intros K1 [i2 v2] r r' K2 E. rewrite !flat_eq, <- !app_assoc in E.
  apply app_inv_head, id_prefix in E as [-> E]. apply app_inv_head, app_inv_head in E.
  assert (IH' : Forall solo (vchildren v1)).
  { pose proof (okk_parts _ _ K1) as P. rewrite Forall_forall in *. auto. }
  destruct (value_inj v1 i2 i2 v2 r r' IH' K1 K2 E) as [Ev Er]. split; [|exact Er].
  unfold one_value in Ev. cbn [one_nans kval] in *. now rewrite Ev.
Qed.
End Style.
