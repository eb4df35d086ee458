(** The writers over the navigator produce [text]. *)
From Verif Require Import Base F64 Number BTree Value BaseProps BTreeProps ValueSpec ValueProps Base91 Nav NavSpec NavProps NavProps2 Fmt FmtText.
Open Scope nat_scope.

Lemma dk_ind' (P : dk -> Prop) :
  (forall f id v, Forall P (d_children v) -> P (DK f id v)) -> forall d, P d.
Proof.
  intros H. fix IH 1. intros [f id v]. apply H.
  destruct v as [| | | | |l|m|l|m]; try exact (@Forall_nil _ P).
  - exact ((fix go l : Forall P l := match l with
       | [] => Forall_nil P | x :: l' => Forall_cons x (IH x) (go l') end) l).
  - exact ((fix go m : Forall P (map snd m) := match m with
       | [] => Forall_nil P | (a, x) :: m' => Forall_cons x (IH x) (go m') end) m).
  - exact ((fix go l : Forall P l := match l with
       | [] => Forall_nil P | x :: l' => Forall_cons x (IH x) (go l') end) l).
  - exact ((fix go m : Forall P (entry_list m) := match m with
       | [] => Forall_nil P
       | (a, x) :: m' => Forall_cons a (IH a) (Forall_cons x (IH x) (go m')) end) m).
Qed.

(** ** the decorated tree in terms of the navigator's items *)
Definition D (fmts : list fmt) (it : item) : dk := deco fmts (fst it) (snd (snd it)).

Lemma deco_vinfos fmts p l : forall i off,
  (fix go i l := match l with [] => [] | x :: l => deco fmts i x :: go (i + ksize x) l end) off l
  = map (D fmts) (offl off (vinfos p i l)).
Proof.
  induction l as [|x l IH]; intros i off; [reflexivity|]. cbn [vinfos offl map snd]. f_equal. apply IH.
Qed.
Lemma deco_named fmts p (m : list (str * kserd)) : forall i off,
  (fix go i m := match m with [] => [] | e :: m => (fst e, deco fmts i (snd e)) :: go (i + ksize (snd e)) m end) off m
  = combine (map fst m) (map (D fmts) (offl off (vinfos p i (map snd m)))).
Proof.
  induction m as [|e m IH]; intros i off; [reflexivity|]. cbn [map vinfos offl snd combine]. f_equal. apply IH.
Qed.
Lemma deco_minfos fmts p (m : list (kserd * kserd)) : forall i off,
  (fix go i m := match m with
                 | [] => []
                 | e :: m => (deco fmts i (fst e), deco fmts (i + ksize (fst e)) (snd e)) :: go (i + ksize (fst e) + ksize (snd e)) m
                 end) off m
  = combine (map (D fmts) (filter (has i_key) (offl off (minfos p i m))))
            (map (D fmts) (filter (has i_value) (offl off (minfos p i m)))).
Proof.
  induction m as [|e m IH]; intros i off; [reflexivity|].
  cbn [map minfos offl snd fst filter has info_key info_value i_key i_value combine]. unfold D at 1 2; cbn [fst snd]. f_equal. apply IH.
Qed.

Lemma D_unfold fmts it :
  D fmts it = DK (nth (fst it) fmts (mkFmt true Inline)) (kid (snd (snd it)))
    (match kval (snd (snd it)) with
     | VUnit => VUnit
     | VBool b => VBool b
     | VNum n => VNum n
     | VStr t => VStr t
     | VBarr b => VBarr b
     | VTuple l => VTuple (map (D fmts) (vkids it))
     | VSeq l => VSeq (map (D fmts) (vkids it))
     | VCntr m => VCntr (combine (map fst m) (map (D fmts) (vkids it)))
     | VMap m => VMap (combine (map (D fmts) (kkids it)) (map (D fmts) (vkids it)))
     end).
Proof.
  destruct it as [i [inf [id v]]]. unfold D at 1, vkids, kkids, kids_of, kids. cbn [fst snd kid kval].
  destruct v as [| | | | |l|m|l|m]; cbn [deco]; f_equal.
  - cbn [kid_infos]. rewrite filter_vinfos_all. f_equal. apply deco_vinfos.
  - cbn [kid_infos]. rewrite filter_vinfos_all. f_equal. apply deco_named.
  - cbn [kid_infos]. rewrite filter_vinfos_all. f_equal. apply deco_vinfos.
  - cbn [kid_infos]. f_equal. apply deco_minfos.
Qed.

Lemma undeco_deco k : forall fmts i, undeco (deco fmts i k) = k.
Proof.
  induction k as [id v IH] using kserd_ind'. intros fmts i.
  destruct v as [| | | | |l|m|l|m]; cbn [deco undeco]; try reflexivity; do 2 f_equal; cbn [vchildren] in IH; generalize (S i).
  - induction l as [|x l IHl]; intros j; [reflexivity|]. inversion_clear IH as [|? ? H H']. cbn [map]. now rewrite H, IHl.
  - induction m as [|[n x] m IHm]; intros j; [reflexivity|]. inversion_clear IH as [|? ? H H']. cbn [map fst snd]. now rewrite H, IHm.
  - induction l as [|x l IHl]; intros j; [reflexivity|]. inversion_clear IH as [|? ? H H']. cbn [map]. now rewrite H, IHl.
  - induction m as [|[a x] m IHm]; intros j; [reflexivity|]. apply Forall_entries in IH. inversion_clear IH as [|? ? [H1 H2] H'].
    cbn [map fst snd] in *. rewrite H1, H2, IHm; [reflexivity|]. now apply Forall_entries.
Qed.

(** ** conditions under which the writers do not panic *)
Fixpoint d_all (p : dk -> bool) (d : dk) {struct d} : bool :=
  p d &&
  match d with
  | DK _ _ v =>
      match v with
      | VTuple l | VSeq l => forallb (d_all p) l
      | VCntr m => forallb (fun e => d_all p (snd e)) m
      | VMap m => forallb (fun e => d_all p (fst e) && d_all p (snd e)) m
      | _ => true
      end
  end.
Definition writable_node (d : dk) : bool :=
  match d_val d with
  | VStr t => match delimiter t with Some _ => true | None => false end
  | VTuple _ => negb (repr_eqb (d_line d) Verbose)
  | _ => true
  end.
Definition writable : dk -> bool := d_all writable_node.

Lemma d_all_unfold p f id v : d_all p (DK f id v) = p (DK f id v) && forallb (d_all p) (d_children v).
Proof.
  destruct v as [| | | | |l|m|l|m]; cbn [d_all d_children]; try reflexivity; f_equal.
  - induction m as [|e m IH]; [reflexivity|]. cbn [map forallb]. now rewrite IH.
  - induction m as [|e m IH]; [reflexivity|]. unfold entry_list in *. cbn [flat_map forallb app].
    rewrite IH. now rewrite andb_assoc.
Qed.
Lemma d_all_children p f id v : d_all p (DK f id v) = true <->
  p (DK f id v) = true /\ Forall (fun c => d_all p c = true) (d_children v).
Proof. rewrite d_all_unfold, andb_true_iff, forallb_forall, Forall_forall. reflexivity. Qed.

(** ** small facts *)
Lemma lbind_ret {A B} (a : A) (f : A -> lres B) : lbind (LRet a) f = f a.
Proof. reflexivity. Qed.
Lemma pop_app (a b : str) : b <> [] -> pop (a ++ b) = a ++ pop b.
Proof. apply removelast_app. Qed.
Lemma pop_snoc (a : str) c : pop (a ++ [c]) = a.
Proof. apply removelast_last. Qed.
Lemma cut_app d a b : b <> [] -> cut d (a ++ b) = a ++ cut d b.
Proof. unfold cut. destruct (drops d); [apply pop_app|reflexivity]. Qed.
Lemma app_ne_r {A} (a b : list A) : b <> [] -> a ++ b <> [].
Proof. destruct a; [auto|discriminate]. Qed.
Lemma app_ne_l {A} (a b : list A) : a <> [] -> a ++ b <> [].
Proof. destruct a; [congruence|discriminate]. Qed.

Lemma utf8_len_pos c : 1 <= utf8_len c.
Proof. unfold utf8_len. repeat destruct (_ <? _)%N; lia. Qed.
Lemma byte_drop_app a b : byte_drop (byte_len a) (a ++ b) = Some b.
Proof.
  induction a as [|c a IH]; [destruct b; reflexivity|].
  cbn [app byte_len fold_right]. fold (byte_len a). pose proof (utf8_len_pos c).
  destruct (utf8_len c + byte_len a) eqn:E; [lia|].
  cbn [byte_drop]. rewrite <- E. replace (utf8_len c <=? _) with true by (symmetry; apply Nat.leb_le; lia).
  replace (utf8_len c + byte_len a - utf8_len c) with (byte_len a) by lia. exact IH.
Qed.

(** a loop over nodes against a fold over decorated trees, behind a common prefix *)
Lemma lfold_fold {X N E} (f : str -> N -> lres str) (g : str -> E -> str) (n : X -> N) (d : X -> E) (P : str -> Prop) pre (l : list X) :
  Forall (fun x => forall acc, P acc -> f (pre ++ acc) (n x) = LRet (pre ++ g acc (d x)) /\ P (g acc (d x))) l ->
  forall acc, P acc -> lfold f (map n l) (pre ++ acc) = LRet (pre ++ fold_left g (map d l) acc).
Proof.
  induction 1 as [|x l H HF IH]; intros acc HP; [reflexivity|].
  cbn [map lfold fold_left]. destruct (H acc HP) as [-> HP']. cbn [lbind]. now apply IH.
Qed.

Lemma combine_map {A B C D} (f : A -> C) (g : B -> D) a : forall b,
  combine (map f a) (map g b) = map (fun e => (f (fst e), g (snd e))) (combine a b).
Proof. induction a as [|x a IH]; intros [|y b]; cbn [map combine fst snd]; f_equal; auto. Qed.
Lemma combine_map_r {A B D} (g : B -> D) (a : list A) : forall b,
  combine a (map g b) = map (fun e => (fst e, g (snd e))) (combine a b).
Proof. induction a as [|x a IH]; intros [|y b]; cbn [map combine fst snd]; f_equal; auto. Qed.
Lemma Forall_combine {A B} (P : A -> Prop) (Q : B -> Prop) (a : list A) (b : list B) :
  Forall P a -> Forall Q b -> Forall (fun e => P (fst e) /\ Q (snd e)) (combine a b).
Proof.
  intros Ha. revert b. induction Ha as [|x a H HF IH]; intros b Hb; [constructor|].
  destruct Hb; constructor; auto.
Qed.
Lemma Forall_combine_r {A B} (Q : B -> Prop) (a : list A) (b : list B) :
  Forall Q b -> Forall (fun e => Q (snd e)) (combine a b).
Proof.
  intros Hb. revert a. induction Hb as [|x b H HF IH]; intros [|y a]; constructor; auto.
Qed.

(** ** the writers *)
(** reading the format of an item *)
Lemma get_fmt_item root fmts it : length fmts = length (full root) -> ok_item root it ->
  get_fmt fmts (nd it) = LRet (d_fmt (D fmts it)).
Proof.
  intros L H. unfold get_fmt. cbn [nd mk_full n_idx]. rewrite D_unfold. cbn [d_fmt].
  pose proof (isz_le root it H) as B. pose proof (ksize_pos (snd (snd it))).
  rewrite (nth_error_nth' fmts (mkFmt true Inline)) by lia. reflexivity.
Qed.

Lemma item_val root it : ok_item root it ->
  node_val (full root) (nd it) =
    match kval (snd (snd it)) with
    | VTuple _ => NTuple (map nd (vkids it))
    | VSeq _ => NSeq (map nd (vkids it))
    | VCntr m => NCntr (map (fun e => (fst e, nd (snd e))) (combine (map fst m) (vkids it)))
    | VMap _ => NMap (map (fun e => (nd (fst e), nd (snd e))) (combine (kkids it) (vkids it)))
    | _ => NPrimitive
    end.
Proof.
  intros H. rewrite node_val_children by now apply ok_in.
  rewrite value_children_items, key_children_items by exact H. cbn [nd mk_full n_kserd].
  destruct (kval (snd (snd it))); try reflexivity.
  - f_equal. apply combine_map_r.
  - f_equal. apply combine_map.
Qed.

(** a tuple which drops starts with its bracket *)
Lemma fold_inv {A B} (P : B -> Prop) (g : B -> A -> B) l : Forall (fun x => forall acc, P acc -> P (g acc x)) l ->
  forall acc, P acc -> P (fold_left g l acc).
Proof. induction 1 as [|x l H HF IH]; intros acc HP; cbn [fold_left]; auto. Qed.
Definition opens (t : str) : Prop := exists r, t = 40%N :: r.
Lemma opens_app a b : opens a -> opens (a ++ b).
Proof. intros [r ->]. now eexists. Qed.
Lemma opens_pop a b : opens a -> b <> [] -> opens (pop (a ++ b)).
Proof. intros H N. rewrite pop_app by exact N. now apply opens_app. Qed.
Lemma opens_cut x a t : opens a -> (drops x = true -> opens t) -> opens (cut x a ++ t).
Proof.
  intros [r ->] H. unfold cut. destruct (drops x); [|now eexists].
  destruct r as [|c r]; [exact (H eq_refl)|]. change (40%N :: c :: r) with ([40%N] ++ c :: r). rewrite pop_app by discriminate. now eexists.
Qed.
Lemma drops_opens d : forall b col, drops d = true -> opens (text b d col).
Proof.
  induction d as [f id v IH] using dk_ind'. intros b col H.
  destruct id as [id|]; [|discriminate]. destruct v as [| | | | |l|m|l|m]; try discriminate.
  cbn [drops] in H. cbn [text].
  assert (T : tuple_id f (Some id) = []) by (unfold tuple_id; destruct (f_id f); [discriminate|reflexivity]).
  rewrite T. cbn [app]. cbn [d_children] in IH.
  assert (E1 : opens (s "(")) by (exists []; reflexivity). assert (E2 : opens (s "(" ++ nl)) by (exists nl; reflexivity).
  destruct (f_line f).
  - apply opens_app. destruct l as [|x0 l0] using rev_ind; [exact E1|]. clear IHl0.
    assert (NE : nonempty (l0 ++ [x0]) = true) by now destruct l0.
    unfold pop2. rewrite NE, fold_left_app. cbn [fold_left].
    apply Forall_app in IH as [I1 I2]. inversion_clear I2 as [|? ? I3 _].
    assert (P : opens (fold_left (fun acc x => cut x acc ++ text true x col ++ s ", ") l0 (s "("))).
    { apply fold_inv; [|exact E1]. eapply Forall_impl; [|exact I1]. intros x Hx acc Ha. rewrite app_assoc. apply opens_app.
      apply opens_cut; auto. }
    rewrite app_assoc. set (X := cut x0 _ ++ _) in *.
    replace (pop (pop (X ++ s ", "))) with X by (change (s ", ") with ([44%N] ++ [32%N]); rewrite app_assoc; now rewrite !pop_snoc).
    apply opens_cut; auto.
  - apply opens_app. apply fold_inv; [|exact E2]. apply Forall_forall. intros x Hx acc Ha.
    rewrite cut_app by (rewrite Nat.add_comm; discriminate). now do 2 apply opens_app.
  - apply opens_app. apply fold_inv; [|exact E2]. apply Forall_forall. intros x Hx acc Ha.
    rewrite cut_app by (rewrite Nat.add_comm; discriminate). now do 2 apply opens_app.
Qed.

Lemma nonprim_prefix f id (buf : str) (b : str) :
  maybe_write_nonprim_ident buf (f_id f) id ++ b = buf ++ (nonprim_id f id ++ b).
Proof.
  unfold maybe_write_nonprim_ident, nonprim_id. destruct (f_id f), id; rewrite <- ?app_assoc; reflexivity.
Qed.

Section Writers.
  Variable root : kserd.
  Variable fmts : list fmt.
  Hypothesis L : length fmts = length (full root).
  Variable rec : bool -> str -> node -> nat -> lres str.
  Variable size : nat.
  Definition good (it : item) : Prop := ok_item root it /\ ksize (snd (snd it)) <= size /\ writable (D fmts it) = true.
  Hypothesis Hrec : forall it, good it -> forall b buf col,
    rec b buf (nd it) col = LRet (cut (D fmts it) buf ++ text b (D fmts it) col).

  Lemma good_fmt it : good it -> get_fmt fmts (nd it) = LRet (d_fmt (D fmts it)).
  Proof. intros [H _]. now apply get_fmt_item with root. Qed.

  Lemma rec_app it b pre acc col : good it -> acc <> [] ->
    rec b (pre ++ acc) (nd it) col = LRet (pre ++ (cut (D fmts it) acc ++ text b (D fmts it) col)).
  Proof. intros H N. rewrite Hrec by exact H. now rewrite cut_app, <- app_assoc by exact N. Qed.

  Definition ginline (col : nat) (acc : str) (x : dk) : str := cut x acc ++ text true x col ++ s ", ".
  Lemma inline_items_text col items pre acc : Forall good items -> acc <> [] ->
    inline_items rec col (map nd items) (pre ++ acc)
    = LRet (pre ++ pop2 (map (D fmts) items) (fold_left (ginline col) (map (D fmts) items) acc)).
  Proof.
    intros H N. unfold inline_items.
    rewrite (lfold_fold _ (ginline col) nd (D fmts) (fun a => a <> []) pre).
    - cbn [lbind]. f_equal. unfold pop_separator, pop2.
      destruct items as [|x items] using rev_ind; [reflexivity|]. clear IHitems.
      assert (E1 : nonempty (map nd (items ++ [x])) = true) by (destruct items; reflexivity).
      assert (E2 : nonempty (map (D fmts) (items ++ [x])) = true) by (destruct items; reflexivity).
      rewrite E1, E2, map_app, fold_left_app. cbn [map fold_left]. unfold ginline at 1 3.
      set (F := fold_left _ _ _). change (s ", ") with ([44%N] ++ [32%N]).
      rewrite !app_assoc. rewrite !pop_snoc. now rewrite !app_assoc.
    - eapply Forall_impl; [|exact H]. intros x Hx a Ha. rewrite rec_app by auto. cbn [lbind]. unfold ginline, FIELDS_SEPARATOR.
      split; [now rewrite <- !app_assoc|]. now do 2 apply app_ne_r.
    - exact N.
  Qed.

  Definition gconcise (col : nat) (acc : str) (x : dk) : str := cut x (acc ++ sp (col + 4)) ++ text true x (col + 4) ++ nl.
  Lemma sp_ne n : sp (n + 4) <> [].
  Proof. rewrite Nat.add_comm. discriminate. Qed.
  Lemma concise_items_text col items pre acc : Forall good items ->
    concise_items rec col (map nd items) (pre ++ acc)
    = LRet (pre ++ (fold_left (gconcise col) (map (D fmts) items) (acc ++ nl) ++ sp col)).
  Proof.
    intros H. unfold concise_items. rewrite <- app_assoc.
    rewrite (lfold_fold _ (gconcise col) nd (D fmts) (fun a => True) pre).
    - cbn [lbind]. unfold write_indent, sp. now rewrite <- app_assoc.
    - eapply Forall_impl; [|exact H]. intros x Hx a _. unfold write_indent. rewrite <- app_assoc.
      fold (sp (col + INDENT)). change INDENT with 4.
      rewrite rec_app by (auto using app_ne_r, sp_ne). cbn [lbind]. unfold gconcise. split; [|exact I].
      f_equal. unfold nl. now rewrite <- !app_assoc.
    - exact I.
  Qed.

  Definition key_indent (kd : dk) (kt : str) : nat :=
    match d_line kd with Inline => length kt + 2 - (if drops kd then 1 else 0) | _ => 3 end.
  Lemma kv_text col k v pre acc c : good k -> good v -> utf8_len c = 1 ->
    let kd := D fmts k in let vd := D fmts v in let kt := text true kd col in
    key_and_value_concise fmts rec (pre ++ acc ++ [c]) (nd k) (nd v) col
    = LRet (pre ++ (cut vd (cut kd (acc ++ [c]) ++ kt ++ s ": ") ++ text true vd (col + key_indent kd kt) ++ nl)).
  Proof.
    intros Gk Gv Hc kd vd kt. unfold key_and_value_concise. rewrite good_fmt by exact Gk. cbn [lbind].
    rewrite rec_app by (auto; now apply app_ne_r). cbn [lbind]. fold kd kt. rewrite <- app_assoc.
    change (KEYS_ASSIGNER ++ s " ") with (s ": ").
    assert (NI : (if repr_eqb (f_line (d_fmt kd)) Inline
             then dl t <- lunwrap (byte_drop (byte_len (pre ++ acc ++ [c])) (pre ++ (cut kd (acc ++ [c]) ++ kt) ++ s ": ")) ; LRet (length t)
             else LRet (2 + length KEYS_ASSIGNER)) = LRet (key_indent kd kt)).
    { unfold key_indent, d_line. destruct (f_line (d_fmt kd)); try reflexivity. cbn [repr_eqb repr_n Nat.eqb].
      unfold cut. destruct (drops kd) eqn:Ed.
      - destruct (drops_opens kd true col Ed) as [r Hr]. fold kt in Hr. rewrite Hr, pop_snoc.
        replace (byte_len (pre ++ acc ++ [c])) with (byte_len (pre ++ acc ++ [40%N])).
        2: { rewrite !byte_len_app. cbn [byte_len fold_right]. now rewrite Hc. }
        replace (pre ++ (acc ++ 40%N :: r) ++ s ": ") with ((pre ++ acc ++ [40%N]) ++ (r ++ s ": ")) by now rewrite <- !app_assoc.
        rewrite byte_drop_app. cbn [lunwrap lbind Datatypes.length]. f_equal. rewrite app_length. cbn. unfold char. lia.
      - rewrite <- (app_assoc _ kt), (app_assoc pre (acc ++ [c])), byte_drop_app. cbn [lunwrap lbind]. f_equal. rewrite app_length. cbn. unfold char. lia. }
    rewrite NI. cbn [lbind].
    rewrite rec_app by (auto; now apply app_ne_r). cbn [lbind]. f_equal. unfold nl. fold vd.
    rewrite <- !app_assoc. reflexivity.
  Qed.

  Definition gkv (col : nat) (acc : str) (e : dk * dk) : str :=
    let kt := text true (fst e) col in
    cut (snd e) (cut (fst e) acc ++ kt ++ s ": ") ++ text true (snd e) (col + key_indent (fst e) kt) ++ nl.
  Definition goode (e : item * item) : Prop := good (fst e) /\ good (snd e).
  Definition nde (e : item * item) : node * node := (nd (fst e), nd (snd e)).
  Definition De (e : item * item) : dk * dk := (D fmts (fst e), D fmts (snd e)).

  Lemma sp_snoc n : sp (n + 4) = sp (n + 3) ++ [32%N].
  Proof. unfold sp. replace (n + 4) with (n + 3 + 1) by lia. now rewrite repeat_app. Qed.

  Lemma maps_concise_text col (m : list (item * item)) pre acc : Forall goode m ->
    lfold (fun buf e => key_and_value_concise fmts rec (write_indent buf (col + INDENT)) (fst e) (snd e) (col + INDENT))
      (map nde m) (pre ++ acc)
    = LRet (pre ++ fold_left (fun acc e => gkv (col + 4) (acc ++ sp (col + 4)) e) (map De m) acc).
  Proof.
    intros H. apply (lfold_fold _ _ nde De (fun _ => True) pre); [|exact I].
    eapply Forall_impl; [|exact H]. intros [k v] [Gk Gv] a _. split; [|exact I].
    unfold write_indent, nde, De. cbn [fst snd]. fold (sp (col + INDENT)). change INDENT with 4.
    rewrite <- app_assoc, sp_snoc, (app_assoc a).
    rewrite kv_text by auto. reflexivity.
  Qed.

  (** the four kinds of nodes, for the children [kids] of a node *)
  Variables (it : item) (f : fmt) (id : option str).
  Hypothesis Hf : get_fmt fmts (nd it) = LRet f.
  Hypothesis Hid : kid (n_kserd (nd it)) = id.

  Lemma tuples_text buf col items : Forall good items -> f_line f <> Verbose ->
    let d := DK f id (VTuple (map (D fmts) items)) in
    tuples_write fmts rec buf (nd it) col (map nd items) = LRet (cut d buf ++ text true d col).
  Proof.
    intros H NV d. unfold tuples_write. rewrite Hf, Hid. cbn [lbind].
    assert (P : forall z, tuple_prefix buf f id ++ z = cut d buf ++ (tuple_id f id ++ s "(") ++ z).
    { intros z. unfold tuple_prefix, maybe_write_nonprim_ident, cut, d, drops, tuple_id.
      destruct (f_id f), id as [i|]; cbn [negb]; rewrite <- ?app_assoc; try reflexivity.
      change (s " ") with [32%N]. rewrite (app_assoc buf), pop_snoc. now rewrite <- app_assoc. }
    assert (P0 : tuple_prefix buf f id = cut d buf ++ (tuple_id f id ++ s "(")).
    { rewrite <- (app_nil_r (tuple_prefix _ _ _)), P. now rewrite app_nil_r. }
    destruct (f_line f) eqn:E; [| |congruence]; rewrite P0.
    - rewrite inline_items_text by (auto; now apply app_ne_r). cbn [lbind]. f_equal. rewrite <- app_assoc. f_equal.
      unfold d. cbn [text]. rewrite E. reflexivity.
    - rewrite concise_items_text by auto. cbn [lbind]. f_equal. rewrite <- app_assoc. f_equal.
      unfold d. cbn [text]. rewrite E. rewrite <- !app_assoc. reflexivity.
  Qed.

  Lemma seqs_text buf col items name : Forall good items -> name = None \/ f_line f <> Verbose ->
    let d := DK f id (VSeq (map (D fmts) items)) in
    seqs_write fmts rec buf (nd it) col (map nd items) name = LRet (buf ++ text true d col).
  Proof.
    intros H NV d. unfold seqs_write. rewrite Hf, Hid. cbn [lbind]. rewrite nonprim_prefix.
    assert (C : (dl buf <- concise_items rec col (map nd items) (buf ++ nonprim_id f id ++ s "[") ; LRet (buf ++ s "]"))
              = LRet (buf ++ (fold_left (gconcise col) (map (D fmts) items) (nonprim_id f id ++ s "[" ++ nl) ++ sp col ++ s "]"))).
    { rewrite concise_items_text by auto. cbn [lbind]. rewrite <- !app_assoc. reflexivity. }
    unfold d; cbn [text]. destruct (f_line f) eqn:E.
    - rewrite inline_items_text by (auto; now apply app_ne_r). cbn [lbind]. f_equal. rewrite <- app_assoc. reflexivity.
    - rewrite C. reflexivity.
    - destruct NV as [->|]; [|congruence]. rewrite C. reflexivity.
  Qed.

  Definition gvseq (name : str) (col : nat) (acc : str) (x : dk) : str :=
    let acc := acc ++ sp col ++ s "[[" ++ name ++ s "]]" ++ nl in
    match d_line x with
    | Verbose => cut x acc ++ text true x (col + 4) ++ nl
    | _ => cut x (acc ++ sp col) ++ text true x col ++ nl ++ nl
    end.
  Lemma header_ne name : s "[[" ++ name ++ s "]]" ++ nl <> [].
  Proof. discriminate. Qed.
  Lemma seqs_verbose_text pre acc col items name : Forall good items -> f_line f = Verbose ->
    seqs_write fmts rec (pre ++ acc) (nd it) col (map nd items) (Some name)
    = LRet (pre ++ fold_left (gvseq name col) (map (D fmts) items) acc).
  Proof.
    intros H E. unfold seqs_write. rewrite Hf. cbn [lbind]. rewrite E.
    apply (lfold_fold _ _ nd (D fmts) (fun _ => True) pre); [|exact I].
    eapply Forall_impl; [|exact H]. intros x Hx a _. split; [|exact I].
    unfold write_indent. fold (sp col). rewrite <- !app_assoc.
    set (h := a ++ sp col ++ s "[[" ++ name ++ s "]]" ++ [10%N]).
    assert (Nh : h <> []) by (unfold h; now do 2 apply app_ne_r).
    rewrite good_fmt by exact Hx. cbn [lbind]. unfold gvseq, d_line. fold nl. fold h.
    destruct (f_line (d_fmt (D fmts x))).
    - match goal with |- context [rec true ?B _ _] => replace B with (pre ++ (h ++ sp col)) by (unfold h, nl; now rewrite <- !app_assoc) end.
      rewrite rec_app by (auto; now apply app_ne_l). cbn [lbind]. unfold h. rewrite <- !app_assoc. reflexivity.
    - match goal with |- context [rec true ?B _ _] => replace B with (pre ++ (h ++ sp col)) by (unfold h, nl; now rewrite <- !app_assoc) end.
      rewrite rec_app by (auto; now apply app_ne_l). cbn [lbind]. unfold h. rewrite <- !app_assoc. reflexivity.
    - match goal with |- context [rec true ?B _ _] => replace B with (pre ++ h) by (unfold h, nl; now rewrite <- ?app_assoc) end.
      rewrite rec_app by auto. cbn [lbind]. unfold h. rewrite <- !app_assoc. reflexivity.
  Qed.

  Lemma maps_text buf col (m : list (item * item)) name : Forall goode m -> name = None \/ f_line f <> Verbose ->
    let d := DK f id (VMap (map De m)) in
    maps_write fmts rec buf (nd it) col (map nde m) name = LRet (buf ++ text true d col).
  Proof.
    intros H NV d. unfold maps_write. rewrite Hf, Hid. cbn [lbind]. rewrite nonprim_prefix.
    assert (C : (dl buf <- lfold (fun buf e => key_and_value_concise fmts rec (write_indent buf (col + INDENT)) (fst e) (snd e) (col + INDENT))
                   (map nde m) ((buf ++ nonprim_id f id ++ s "{") ++ [10%N]) ;
                 LRet (write_indent buf col ++ s "}"))
              = LRet (buf ++ (fold_left (fun acc e => gkv (col + 4) (acc ++ sp (col + 4)) e) (map De m) (nonprim_id f id ++ s "{" ++ nl)
                              ++ sp col ++ s "}"))).
    { rewrite <- app_assoc, <- (app_assoc _ (s "{")). rewrite maps_concise_text by auto. cbn [lbind]. unfold write_indent, sp, nl.
      rewrite <- !app_assoc. reflexivity. }
    unfold d; cbn [text]. destruct (f_line f) eqn:E.
    - set (st := nonprim_id f id ++ s "{" ++ (if nonempty (map De m) then s " " else [])).
      assert (NE : nonempty (map nde m) = nonempty (map De m)) by (destruct m; reflexivity). rewrite NE.
      replace (if nonempty (map De m) then (buf ++ nonprim_id f id ++ s "{") ++ s " " else buf ++ nonprim_id f id ++ s "{") with (buf ++ st)
        by (unfold st; destruct (nonempty _); now rewrite <- ?app_assoc, ?app_nil_r).
      rewrite (lfold_fold _ (fun acc e => cut (snd e) (cut (fst e) acc ++ text true (fst e) col ++ s ": ") ++ text true (snd e) col ++ s ", ")
                 nde De (fun a => a <> []) buf).
      + cbn [lbind]. f_equal. unfold pop_separator, pop2.
        destruct m as [|e m0] using rev_ind; [cbn [map nonempty fold_left app]; now rewrite <- ?app_assoc|]. clear IHm0.
        assert (N2 : nonempty (map De (m0 ++ [e])) = true) by (destruct m0; reflexivity).
        rewrite N2, map_app, fold_left_app. cbn [map fold_left]. change (s ", ") with ([44%N] ++ [32%N]).
        rewrite !app_assoc, !pop_snoc. now rewrite <- !app_assoc.
      + eapply Forall_impl; [|exact H]. intros [k v] [Gk Gv] a Ha. unfold nde, De. cbn [fst snd] in *.
        rewrite rec_app by auto. cbn [lbind]. rewrite <- app_assoc. change (KEYS_ASSIGNER ++ s " ") with (s ": ").
        rewrite rec_app by (auto; now apply app_ne_r). cbn [lbind]. unfold FIELDS_SEPARATOR.
        split; [now rewrite <- !app_assoc|]. now do 2 apply app_ne_r.
      + unfold st. now do 1 apply app_ne_r.
    - rewrite C. reflexivity.
    - destruct NV as [->|]; [|congruence]. rewrite C. reflexivity.
  Qed.

  Definition gvmap (name : str) (col : nat) (acc : str) (e : dk * dk) : str :=
    let acc := acc ++ s "[[" ++ name ++ s "]]" ++ nl in
    match d_line (snd e) with
    | Verbose => cut (snd e) (cut (fst e) acc ++ text true (fst e) col ++ s ":" ++ nl) ++ text true (snd e) (col + 4) ++ nl
    | _ => gkv col acc e
    end.
  Lemma maps_verbose_text pre acc col (m : list (item * item)) name : Forall goode m -> f_line f = Verbose ->
    maps_write fmts rec (pre ++ acc) (nd it) col (map nde m) (Some name)
    = LRet (pre ++ fold_left (gvmap name col) (map De m) acc).
  Proof.
    intros H E. unfold maps_write. rewrite Hf. cbn [lbind]. rewrite E.
    apply (lfold_fold _ _ nde De (fun _ => True) pre); [|exact I].
    eapply Forall_impl; [|exact H]. intros [k v] [Gk Gv] a _. split; [|exact I]. unfold nde, De. cbn [fst snd] in *.
    rewrite good_fmt by exact Gv. cbn [lbind]. unfold gvmap, d_line. cbn [fst snd].
    set (h := a ++ s "[[" ++ name ++ s "]]").
    replace ((pre ++ a) ++ s "[[" ++ name ++ s "]]" ++ [10%N]) with (pre ++ (h ++ [10%N])) by (unfold h; now rewrite <- !app_assoc).
    replace (a ++ s "[[" ++ name ++ s "]]" ++ nl) with (h ++ [10%N]) by (unfold h; now rewrite <- !app_assoc).
    destruct (f_line (d_fmt (D fmts v))).
    - rewrite kv_text by auto. reflexivity.
    - rewrite kv_text by auto. reflexivity.
    - rewrite rec_app by (auto; now apply app_ne_r). cbn [lbind]. rewrite <- app_assoc. change (KEYS_ASSIGNER ++ [10%N]) with (s ":" ++ nl).
      rewrite rec_app by (auto; now apply app_ne_r). cbn [lbind]. rewrite <- !app_assoc. reflexivity.
  Qed.

  Definition gfield (col : nat) (acc : str) (name : str) (x : dk) : str :=
    cut x (acc ++ sp col ++ name ++ s " = ") ++ text true x (col + (length name + 3)) ++ nl.
  Lemma field_text col pre acc name c : good c ->
    field_mapping rec (write_indent (pre ++ acc) col) name (nd c) col = LRet (pre ++ gfield col acc name (D fmts c)).
  Proof.
    intros G. unfold field_mapping, write_indent. fold (sp col).
    change (FIELDS_ASSIGNER ++ s " ") with (s " = "). rewrite app_length. change (Datatypes.length (s " = ")) with 3.
    rewrite <- !app_assoc. rewrite rec_app by (auto; do 2 apply app_ne_r; now apply app_ne_r). cbn [lbind]. unfold gfield.
    rewrite <- !app_assoc. reflexivity.
  Qed.
  Definition ndn (e : str * item) : str * node := (fst e, nd (snd e)).
  Definition Dn (e : str * item) : str * dk := (fst e, D fmts (snd e)).
End Writers.

Section Writers2.
  Variable root : kserd.
  Variable fmts : list fmt.
  Hypothesis L : length fmts = length (full root).
  Variable rec : bool -> str -> node -> nat -> lres str.
  Variable size : nat.
  Local Notation good := (good root fmts size).
  Local Notation goode := (goode root fmts size).
  Hypothesis Hrec : forall it, good it -> forall b buf col,
    rec b buf (nd it) col = LRet (cut (D fmts it) buf ++ text b (D fmts it) col).

  Lemma D_children it : d_children (d_val (D fmts it)) =
    match kval (snd (snd it)) with
    | VMap _ => entry_list (combine (map (D fmts) (kkids it)) (map (D fmts) (vkids it)))
    | _ => map (D fmts) (vkids it)
    end.
  Proof.
    rewrite D_unfold. cbn [d_val]. pose proof (vkids_kserds it) as E. unfold values_of in E.
    destruct (kval (snd (snd it))); cbn [d_children]; try reflexivity;
      try (now apply map_eq_nil in E; rewrite E).
    assert (EL : length (map fst m) = length (map (D fmts) (vkids it))).
    { rewrite !map_length. apply (f_equal (@length _)) in E. rewrite !map_length in E. symmetry. exact E. }
    clear E. revert EL. generalize (map fst m) (map (D fmts) (vkids it)). clear.
    induction l as [|x l IH]; intros [|y l']; cbn; try discriminate; [reflexivity|]. intros H. f_equal. apply IH. congruence.
  Qed.

  Lemma entry_list_in {A} (a : list A) : forall b x, length a = length b -> In x (a ++ b) -> In x (entry_list (combine a b)).
  Proof.
    induction a as [|y a IH]; intros [|z b] x E H; try discriminate; [destruct H|].
    unfold entry_list in *. cbn [combine flat_map fst snd app]. cbn [app] in H. injection E as E.
    destruct H as [->|H]; [now left|]. right. apply in_app_or in H as [H|[->|H]].
    - right. apply IH; [exact E|]. apply in_or_app. now left.
    - now left.
    - right. apply IH; [exact E|]. apply in_or_app. now right.
  Qed.
  Lemma kids_lengths it m : kval (snd (snd it)) = VMap m -> length (kkids it) = length (vkids it).
  Proof.
    intros E. pose proof (vkids_kserds it) as A. pose proof (kkids_kserds it) as B. unfold values_of, keys_of in A, B.
    rewrite E in A, B. apply (f_equal (@length _)) in A, B. rewrite !map_length in A, B. congruence.
  Qed.

  Lemma kid_smaller it c : In c (kids_of it) -> ksize (snd (snd c)) < ksize (snd (snd it)).
  Proof.
    intros H. rewrite (isz_kids it). apply in_split in H as (a & b & ->). rewrite isz_app, isz_cons. lia.
  Qed.
  Lemma kid_good it c : ok_item root it -> ksize (snd (snd it)) <= S size -> writable (D fmts it) = true ->
    In c (kids_of it) -> good c.
  Proof.
    intros H1 H2 H3 Hc. split; [|split].
    - pose proof (ok_kids root it H1) as F. rewrite Forall_forall in F. now apply F.
    - pose proof (kid_smaller it c Hc). lia.
    - destruct (D fmts it) as [f id v] eqn:E. apply d_all_children in H3 as [_ F]. rewrite Forall_forall in F. apply F.
      pose proof (D_children it) as DC. rewrite E in DC. cbn [d_val] in DC. rewrite DC.
      apply kids_value_or_key in Hc. destruct (kval (snd (snd it))) eqn:Ek;
        try (destruct Hc as [Hc|Hc]; [now apply in_map|]; pose proof (kkids_kserds it) as KK; unfold keys_of in KK; rewrite Ek in KK;
             apply map_eq_nil in KK; rewrite KK in Hc; destruct Hc).
      apply entry_list_in; [rewrite !map_length; eapply kids_lengths; exact Ek|]. rewrite <- map_app. apply in_map. apply in_or_app.
      destruct Hc; auto.
  Qed.
  Lemma vkids_good it : ok_item root it -> ksize (snd (snd it)) <= S size -> writable (D fmts it) = true -> Forall good (vkids it).
  Proof.
    intros H1 H2 H3. apply Forall_forall. intros c Hc. eapply kid_good; eauto. apply kids_value_or_key. now left.
  Qed.
  Lemma kkids_good it : ok_item root it -> ksize (snd (snd it)) <= S size -> writable (D fmts it) = true -> Forall good (kkids it).
  Proof.
    intros H1 H2 H3. apply Forall_forall. intros c Hc. eapply kid_good; eauto. apply kids_value_or_key. now right.
  Qed.
  Lemma mkids_good it : ok_item root it -> ksize (snd (snd it)) <= S size -> writable (D fmts it) = true ->
    Forall goode (combine (kkids it) (vkids it)).
  Proof. intros. apply Forall_combine; [now apply kkids_good|now apply vkids_good]. Qed.

  Definition gvfield (col : nat) (acc : str) (e : str * dk) : str :=
    match e with (name, DK vf vid vv) =>
      match f_line vf, vv with
      | Verbose, VCntr _ =>
          acc ++ nl ++ sp col ++ s "[" ++ name ++
          (match f_id vf, vid with true, Some i => s ":" ++ i | _, _ => [] end) ++ s "]" ++ nl
          ++ text false (snd e) (col + 4)
      | Verbose, VSeq l => pop (fold_left (gvseq name col) l (acc ++ nl))
      | Verbose, VMap m => fold_left (gvmap name col) m (acc ++ nl)
      | _, _ => gfield col acc name (snd e)
      end
    end.

  Lemma gvseq_ne name col l : forall acc, acc <> [] -> fold_left (gvseq name col) l acc <> [].
  Proof.
    intros acc. apply (fold_inv (fun a => a <> [])). apply Forall_forall. intros x _ a Ha. unfold gvseq.
    destruct (d_line x); do 2 apply app_ne_r; discriminate.
  Qed.

  Lemma cntr_text it f id buf col top (m : list (str * item)) :
    get_fmt fmts (nd it) = LRet f -> kid (n_kserd (nd it)) = id -> Forall (fun e => good (snd e)) m ->
    let d := DK f id (VCntr (map (Dn fmts) m)) in
    cntr_write (full root) fmts rec buf (nd it) col top (map ndn m) = LRet (buf ++ text top d col).
  Proof.
    intros Hf Hid H d. unfold cntr_write. rewrite Hf, Hid. cbn [lbind]. unfold d; cbn [text].
    rewrite nonprim_prefix. destruct (f_line f) eqn:E.
    - rewrite (lfold_fold _ (fun acc e => cut (snd e) (acc ++ fst e ++ s " = ") ++ text true (snd e) col ++ s ", ")
                 ndn (Dn fmts) (fun _ => True) buf).
      + cbn [lbind]. f_equal. unfold pop_separator, pop2.
        destruct m as [|e m0] using rev_ind; [cbn [map nonempty fold_left app]; now rewrite <- ?app_assoc|]. clear IHm0.
        assert (N1 : nonempty (map ndn (m0 ++ [e])) = true) by (destruct m0; reflexivity).
        assert (N2 : nonempty (map (Dn fmts) (m0 ++ [e])) = true) by (destruct m0; reflexivity).
        rewrite N1, N2, !map_app, !fold_left_app. cbn [map fold_left]. change (s ", ") with ([44%N] ++ [32%N]).
        rewrite !app_assoc, !pop_snoc. now rewrite <- !app_assoc.
      + eapply Forall_impl; [|exact H]. intros [n c] G a _. unfold ndn, Dn. cbn [fst snd] in *. split; [|exact I].
        rewrite <- app_assoc. change (FIELDS_ASSIGNER ++ s " ") with (s " = ").
        rewrite (rec_app root fmts rec size Hrec) by (auto; do 2 apply app_ne_r; discriminate). cbn [lbind]. unfold FIELDS_SEPARATOR. now rewrite <- !app_assoc.
      + exact I.
    - rewrite <- app_assoc.
      rewrite (lfold_fold _ (fun acc e => cut (snd e) (acc ++ sp (col + 4) ++ fst e ++ s " = ") ++ text true (snd e) (col + 4 + (length (fst e) + 3)) ++ nl)
                 ndn (Dn fmts) (fun _ => True) buf).
      + cbn [lbind]. f_equal. unfold write_indent, sp, nl. rewrite <- !app_assoc. reflexivity.
      + eapply Forall_impl; [|exact H]. intros [n c] G a _. unfold ndn, Dn. cbn [fst snd] in *. split; [|exact I].
        rewrite (field_text root fmts rec size Hrec) by exact G. reflexivity.
      + exact I.
    - set (st := match f_id f && top, id with true, Some i => sp col ++ s ":" ++ i ++ nl | _, _ => [] end).
      replace (match f_id f && top, id with true, Some i => write_indent buf col ++ s ":" ++ i ++ [10%N] | _, _ => buf end) with (buf ++ st)
        by (unfold st, write_indent, sp, nl; destruct (f_id f && top), id; now rewrite <- ?app_assoc, ?app_nil_r).
      apply (lfold_fold _ (gvfield col) ndn (Dn fmts) (fun _ => True) buf); [|exact I].
      eapply Forall_impl; [|exact H]. intros [n c] G a _. split; [|exact I]. cbn [snd] in G. unfold ndn, Dn. cbn [fst snd].
      pose proof (good_fmt root fmts L size c G) as Gf. rewrite Gf. cbn [lbind].
      destruct G as (G1 & G2 & G3). assert (G2' : ksize (snd (snd c)) <= S size) by lia.
      pose proof (vkids_good c G1 G2' G3) as GV. pose proof (mkids_good c G1 G2' G3) as GM.
      assert (FM : field_mapping rec (write_indent (buf ++ a) col) n (nd c) col = LRet (buf ++ gfield col a n (D fmts c)))
        by (apply (field_text root fmts rec size Hrec); repeat split; auto).
      rewrite item_val by exact G1. rewrite D_unfold in *. cbn [d_fmt] in *. unfold gvfield. cbn [snd].
      set (vf := nth (fst c) fmts (mkFmt true Inline)) in *.
      destruct (f_line vf) eqn:Ev; [rewrite FM; reflexivity|rewrite FM; reflexivity|].
      destruct (kval (snd (snd c))) as [| | | | |l|m'|l|m'] eqn:Ek; try (rewrite FM; reflexivity).
      + assert (R : forall b, rec false b (nd c) (col + INDENT) = LRet (b ++ text false (D fmts c) (col + 4))).
        { intros b. rewrite Hrec by (repeat split; auto; rewrite D_unfold, Ek; exact G3). unfold cut.
          replace (drops (D fmts c)) with false; [reflexivity|]. rewrite D_unfold, Ek. cbn [drops]. destruct (kid (snd (snd c))); reflexivity. }
        rewrite R. rewrite (D_unfold fmts c), Ek. fold vf. f_equal. cbn [nd mk_full n_kserd].
        unfold write_indent, nl. fold (sp col). destruct (f_id vf), (kid (snd (snd c))); cbn [app]; rewrite <- ?app_assoc; reflexivity.
      + rewrite <- app_assoc. rewrite (seqs_verbose_text root fmts L rec size Hrec c vf Gf) by auto. cbn [lbind]. f_equal.
        apply pop_app. apply gvseq_ne. apply app_ne_r. discriminate.
      + rewrite <- app_assoc. change (fun e : item * item => (nd (fst e), nd (snd e))) with nde.
        rewrite (maps_verbose_text root fmts L rec size Hrec c vf Gf) by auto. f_equal. do 2 f_equal.
        unfold De. now rewrite combine_map.
  Qed.

  Lemma body_text it b buf col : ok_item root it -> ksize (snd (snd it)) <= S size -> writable (D fmts it) = true ->
    write_body (full root) fmts rec b buf (nd it) col = LRet (cut (D fmts it) buf ++ text b (D fmts it) col).
  Proof.
    intros H1 H2 H3. unfold write_body.
    pose proof (get_fmt_item root fmts it L H1) as Gf.
    assert (Hid : kid (n_kserd (nd it)) = kid (snd (snd it))) by reflexivity.
    pose proof (vkids_good it H1 H2 H3) as GV. pose proof (mkids_good it H1 H2 H3) as GM.
    rewrite item_val by exact H1. rewrite D_unfold in *. cbn [d_fmt] in *. set (f := nth (fst it) fmts (mkFmt true Inline)) in *.
    change (n_kserd (nd it)) with (snd (snd it)).
    assert (DR : forall v, (match v with VTuple _ => False | _ => True end) -> forall b, cut (DK f (kid (snd (snd it))) v) b = b).
    { intros v Hv b0. unfold cut. cbn [drops]. destruct (kid (snd (snd it))), v; try reflexivity. destruct Hv. }
    destruct (kval (snd (snd it))) as [|x|x|t|x|l|m|l|m] eqn:Ek.
    - rewrite Gf. cbn [lbind prims_write]. rewrite DR by exact I. f_equal. unfold fmt_unit. cbn [text prim_text].
      destruct (kid (snd (snd it))) as [[|c0 i]|]; reflexivity.
    - rewrite Gf. cbn [lbind prims_write]. rewrite DR by exact I. f_equal. unfold fmt_display, maybe_write_prim_ident. cbn [text prim_text].
      unfold prim_id. destruct (f_id f), (kid (snd (snd it))); rewrite <- ?app_assoc; reflexivity.
    - rewrite Gf. cbn [lbind prims_write]. rewrite DR by exact I. f_equal. unfold fmt_display, maybe_write_prim_ident. cbn [text prim_text].
      unfold prim_id. destruct (f_id f), (kid (snd (snd it))); rewrite <- ?app_assoc; reflexivity.
    - rewrite Gf. cbn [lbind prims_write]. rewrite DR by exact I. unfold fmt_str, maybe_write_prim_ident. cbn [text prim_text].
      apply d_all_children in H3 as [W _]. cbn [writable_node d_val] in W. unfold str_text.
      unfold delimiter in *. destruct (find _ delimiters) as [d|]; [|discriminate]. f_equal.
      unfold prim_id. destruct (f_id f), (kid (snd (snd it))); rewrite <- ?app_assoc; reflexivity.
    - rewrite Gf. cbn [lbind prims_write]. rewrite DR by exact I. f_equal. unfold fmt_byte_array, maybe_write_prim_ident. cbn [text prim_text].
      unfold prim_id. destruct (f_id f), (kid (snd (snd it))); rewrite <- ?app_assoc; reflexivity.
    - assert (NV : f_line f <> Verbose).
      { apply d_all_children in H3 as [W _]. unfold writable_node, d_line in W. cbn [d_val d_fmt] in W. intros E. rewrite E in W. discriminate. }
      rewrite (tuples_text root fmts rec size Hrec it f _ Gf Hid) by auto.
      destruct b; reflexivity.
    - rewrite DR by exact I. change (fun e : str * item => (fst e, nd (snd e))) with ndn.
      rewrite (cntr_text it f _ buf col b _ Gf Hid) by now apply Forall_combine_r.
      f_equal. do 3 f_equal. unfold Dn. now rewrite combine_map_r.
    - rewrite DR by exact I. rewrite (seqs_text root fmts rec size Hrec it f _ Gf Hid) by auto. reflexivity.
    - rewrite DR by exact I. change (fun e : item * item => (nd (fst e), nd (snd e))) with nde.
      rewrite (maps_text root fmts L rec size Hrec it f _ Gf Hid) by auto. f_equal. f_equal. unfold De. rewrite combine_map. reflexivity.
  Qed.
End Writers2.

(** ** the writer *)
Lemma write_text root fmts : length fmts = length (full root) ->
  forall fuel it, ok_item root it -> ksize (snd (snd it)) <= fuel -> writable (D fmts it) = true -> forall b buf col,
  write_node fuel (full root) fmts b buf (nd it) col = LRet (cut (D fmts it) buf ++ text b (D fmts it) col).
Proof.
  intros L. induction fuel as [|fuel IH]; intros it H1 H2 H3 b buf col.
  - pose proof (ksize_pos (snd (snd it))). lia.
  - cbn [write_node]. apply body_text with (size := fuel); auto. intros c (G1 & G2 & G3) b' buf' col'. now apply IH.
Qed.
