(** Proofs about decoding: each type follows its rule. *)
From Verif Require Import Base BaseProps F64 F32 Number BTree Value ValueSpec ValueProps Encode EncodeSpec EncodeProps EncodeProps2 EncodeProps3 EncodeProps4 EncodeProps6 EncodeProps7 DecodeSpec DecodeProps.
Open Scope N_scope.

Ltac any := cbn [deserialize_any visit_unit visit_bool visit_num visit_str visit_bytes visit_none visit_some visit_newtype visit_seq visit_map visit_fields].
Ltac tuples H := let x := fresh "x" in let y := fresh "y" in
  match type of H with context [match ?l with [] => _ | _ => _ end] => destruct l as [|x [|y ?]] end;
  repeat match type of H with context [match ?i with Some _ => _ | None => _ end] => destruct i end;
  repeat match type of H with context [if ?b then _ else _] => destruct b eqn:? end.

Section Rules.
  Context (E : decls).
  Definition sub : ty -> kserd -> data -> Prop := fun t k d => dec E t k = Some d.

  Lemma dec_name_iff t n d : dec_name E t n = Some d <-> key_text E t n d.
  Proof.
    destruct t; cbn [dec_name key_text]; try (split; [discriminate|intros []]).
    - split; [destruct n as [|c [|c' n]]; try discriminate; intros [= <-]; eauto|]. intros (c & -> & ->). reflexivity.
    - split; [now intros [= <-]|now intros ->].
    - split; [now intros [= <-]|now intros ->].
    - destruct (E n0) as [| | | |vs]; try (split; [discriminate|intros []]). destruct (position n vs) as [[i h]|] eqn:P.
      + split.
        * destruct h; try discriminate. intros [= <-]. exists i. split; [apply named_iff; now rewrite P|]. split; [now apply position_sound|reflexivity].
        * intros (j & N & X & ->). apply named_iff in N. rewrite P in N. injection N as <-. apply position_sound in P. rewrite P in X. injection X as ->. reflexivity.
      + split; [discriminate|]. intros (j & N & _). apply named_iff in N. rewrite P in N. discriminate.
  Qed.
  Lemma each_turn ts ks l : dec_each (dec E) ts ks = Some l <-> in_turn sub ts ks l.
  Proof. apply each_iff. Qed.
  Lemma seq_each (c : list data -> data) ts k d : deserialize_any (mkVisitor None no no no no None no no (fun l => option_map c (dec_each (dec E) ts l)) no no) k = Some d <->
    exists ks l, sequence k ks /\ d = c l /\ in_turn sub ts ks l.
  Proof.
    rewrite any_seq. split.
    - intros (ks & S & H). apply opt_map_iff in H as (l & H & ->). exists ks, l. split; [exact S|]. split; [reflexivity|]. now apply each_turn.
    - intros (ks & l & S & -> & H). exists ks. split; [exact S|]. apply opt_map_iff. exists l. split; [|reflexivity]. now apply each_turn.
  Qed.
  Lemma fields_rule fs m d : opt_bind (dec_struct (field_name fs) (dec E) m) (dec_record fs) = Some d <-> exists l, d = DRecord l /\ from_entries sub (named fs) fs m l.
  Proof. apply from_entries_iff; [apply named_ident|apply named_ty]. Qed.
  Lemma keys_rule fs m d : opt_bind (dec_struct (fun n => deserialize_any (field_visitor fs) n) (dec E) m) (dec_record fs) = Some d <-> exists l, d = DRecord l /\ from_entries sub (keyed fs) fs m l.
  Proof. apply from_entries_iff; [apply keyed_ident|apply keyed_ty]. Qed.

  Lemma dec_unfold t k : dec E t k =
  match t with
  | TyUnit => deserialize_any (mkVisitor (Some DUnit) no no no no None no no no no no) k
  | TyBool => deserialize_any (mkVisitor None (fun b => Some (DBool b)) no no no None no no no no no) k
  | TyInt t => option_map DInt (deserialize_int t k)
  | TyF64 => option_map DF64 (deserialize_f64 k)
  | TyF32 => option_map DF32 (deserialize_f32 k)
  | TyChar => option_map DChar (deserialize_char k)
  | TyString => deserialize_any (mkVisitor None no no (fun t => Some (DString t)) (fun b => option_map DString (from_utf8 b)) None no no no no no) k
  | TyBytes =>
      deserialize_any (mkVisitor None no no (fun t => Some (DBytes (utf8 t))) (fun b => Some (DBytes b)) None no no
        (fun l => option_map (fun b => DBytes (map Z.to_N b)) (dec_all (deserialize_int Tu8) l)) no no) k
  | TyOption t =>
      deserialize_any (mkVisitor (Some DNone) no no no no (Some DNone) (fun x => option_map DSome (dec E t x)) no no no no) k
  | TyTuple ts =>
      deserialize_any (mkVisitor None no no no no None no no (fun l => option_map DList (dec_each (dec E) ts l)) no no) k
  | TyVec t =>
      deserialize_any (mkVisitor None no no no no None no no (fun l => option_map DList (dec_all (dec E t) l)) no no) k
  | TyMap kt vt =>
      deserialize_any (mkVisitor None no no no no None no no no
        (fun m => option_map DMap (dec_entries (dec E kt) (dec E vt) m []))
        (fun m => option_map DMap (dec_named (dec_name E kt) (dec E vt) m []))) k
  | TyNamed n =>
      match E n with
      | DefUnit _ => if deserialize_unit_struct k then Some DUnit else None
      | DefNewtype _ t =>
          deserialize_any (mkVisitor None no no no no None no (fun x => option_map DNewtype (dec E t x))
            (fun l => match l with x :: _ => option_map DNewtype (dec E t x) | [] => None end) no no) k
      | DefTuple _ ts =>
          deserialize_any (mkVisitor None no no no no None no no (fun l => option_map DList (dec_each (dec E) ts l)) no no) k
      | DefStruct _ fs =>
          deserialize_any (mkVisitor None no no no no None no no
            (fun l => option_map DRecord (dec_each (dec E) (map snd fs) l))
            (fun m => opt_bind (dec_struct (fun n => deserialize_any (field_visitor fs) n) (dec E) m) (dec_record fs))
            (fun m => opt_bind (dec_struct (field_name fs) (dec E) m) (dec_record fs))) k
      | DefEnum vs =>
          opt_bind (variant_id k) (fun id => opt_bind (position id vs) (fun p =>
            option_map (DVariant (fst p))
              match snd p with
              | ShUnit => if unit_variant k then Some DUnit else None
              | ShNewtype t => match k with Kserd _ (VTuple [x]) => dec E t x | _ => None end
              | ShTuple ts =>
                  match k with
                  | Kserd _ (VTuple l) => if Nat.eqb (length l) (length ts) then option_map DList (dec_each (dec E) ts l) else None
                  | _ => None
                  end
              | ShStruct fs =>
                  match k with
                  | Kserd _ (VCntr m) => opt_bind (dec_struct (field_name fs) (dec E) m) (dec_record fs)
                  | _ => None
                  end
              end))
      end
  end.
  Proof. destruct k; reflexivity. Qed.

  Theorem dec_rules t k d : dec E t k = Some d <-> rule E sub t k d.
  Proof.
    rewrite dec_unfold. destruct t as [| |t| | | | | |t|ts|t|kt vt|q]; cbn [rule].
    - (* unit *) destruct k as [id v]. cbn [kval]. split; [|intros [-> ->]; reflexivity]. destruct v as [|b|[n|n|x]|u|b|l|m|l|m]; any; try discriminate; [intros [= <-]; auto|]. intros H. tuples H; discriminate H.
    - (* bool *) destruct k as [id v]. cbn [kval]. split; [|intros (b & -> & ->); reflexivity]. destruct v as [|b|[n|n|x]|u|b|l|m|l|m]; any; try discriminate; [intros [= <-]; eauto|]. intros H. tuples H; discriminate H.
    - (* int *) rewrite opt_map_iff. unfold deserialize_int. split.
      + intros (r & H & ->). destruct (kval k) as [|b|n|u|b|l|m|l|m]; try discriminate. apply opt_bind_iff in H as (x & H & G). destruct (in_ntype t x) eqn:R; [|discriminate]. injection G as <-.
        exists n, x. repeat (split; [reflexivity|]). split; [exact H|]. now apply in_range.
      + intros (n & r & -> & -> & H & R). exists r. split; [|reflexivity]. rewrite H. cbn [opt_bind]. now rewrite (proj2 (in_range t r) R).
    - (* f64 *) rewrite opt_map_iff. unfold deserialize_f64. split; [intros (x & H & ->); destruct (kval k); try discriminate; injection H as <-; eauto|intros (n & -> & ->); eauto].
    - (* f32 *) rewrite opt_map_iff. unfold deserialize_f32. split; [intros (x & H & ->); destruct (kval k); try discriminate; injection H as <-; eauto|intros (n & -> & ->); eauto].
    - (* char *) rewrite opt_map_iff. unfold deserialize_char. split; [intros (x & H & ->); destruct (kval k) as [| | |[|c [|]]| | | | |]; try discriminate; injection H as <-; eauto|intros (n & -> & ->); eauto].
    - (* string *) destruct k as [id v]. cbn [kval]. split.
      + destruct v as [|b|[n|n|x]|u|b|l|m|l|m]; any; try discriminate.
        * intros [= <-]. eauto.
        * intros H. apply opt_map_iff in H as (u & H & ->). apply from_utf8_iff in H. exists u. split; [reflexivity|]. right. exists b. auto.
        * intros H. tuples H; discriminate H.
      + intros (u & -> & [->|(b & -> & H)]); any; [reflexivity|]. apply from_utf8_iff in H. now rewrite H.
    - (* bytes *)
      assert (U8 : forall ks l, dec_all (deserialize_int Tu8) ks = Some l -> Forall2 (fun k x => sub (TyInt Tu8) k (DInt (Z.of_N x))) ks (map Z.to_N l)).
      { intros ks l H. apply dec_all_iff in H. induction H as [|k' r ks l H F IH]; cbn [map]; constructor; [|exact IH]. unfold sub. rewrite dec_unfold, H. cbn [option_map]. do 2 f_equal.
        unfold deserialize_int in H. destruct (kval k'); try discriminate. apply opt_bind_iff in H as (x & _ & H). destruct (in_ntype Tu8 x) eqn:R; [|discriminate]. injection H as <-. apply in_range in R. unfold int_range in R. cbn [ntype_signed] in R. lia. }
      assert (U8' : forall ks b, Forall2 (fun k x => sub (TyInt Tu8) k (DInt (Z.of_N x))) ks b -> exists l, dec_all (deserialize_int Tu8) ks = Some l /\ map Z.to_N l = b).
      { intros ks b F. exists (map Z.of_N b). split; [|rewrite map_map; rewrite <- (map_id b) at 2; apply map_ext; intros; apply N2Z.id]. apply dec_all_iff. induction F as [|k' x ks b H F IH]; cbn [map]; constructor; [|exact IH].
        unfold sub in H. rewrite dec_unfold in H. apply opt_map_iff in H as (r & H & [= ->]). exact H. }
      destruct k as [id v]. split.
      + intros H. cbn [kval]. destruct v as [|b|[n|n|x]|u|b|l|m|l|m].
        4:{ (* uint *) discriminate H. }
        all: try discriminate H.
        * injection H as <-. exists (utf8 u). split; [reflexivity|]. right. left. exists u. auto.
        * injection H as <-. exists b. auto.
        * pose proof (proj1 (any_seq (fun l => option_map (fun b => DBytes (map Z.to_N b)) (dec_all (deserialize_int Tu8) l)) (Kserd id (VTuple l)) d) H) as (ks & S & G). apply opt_map_iff in G as (b & G & ->). eauto 8.
        * pose proof (proj1 (any_seq (fun l => option_map (fun b => DBytes (map Z.to_N b)) (dec_all (deserialize_int Tu8) l)) (Kserd id (VSeq l)) d) H) as (ks & S & G). apply opt_map_iff in G as (b & G & ->). eauto 8.
      + cbn [kval]. intros (b & -> & [->|[(u & -> & ->)|(ks & S & F)]]); [reflexivity|reflexivity|]. destruct (U8' ks b F) as (l & D & <-).
        assert (G : deserialize_any (mkVisitor None no no no no None no no (fun l => option_map (fun b => DBytes (map Z.to_N b)) (dec_all (deserialize_int Tu8) l)) no no) (Kserd id v) = Some (DBytes (map Z.to_N l))).
        { apply any_seq. exists ks. split; [exact S|]. now rewrite D. }
        destruct S as [S|[S _]]; cbn [kval] in S; subst v; exact G.
    - (* option *) destruct k as [id v]. cbn [kval kid]. split.
      + destruct v as [|b|[n|n|x]|u|b|l|m|l|m]; any; try discriminate.
        * intros [= <-]. auto.
        * intros H. destruct l as [|x [|y l]]; [destruct id as [i|]; [destruct (str_eqb i _) eqn:X|]|destruct id as [i|]; [destruct (str_eqb i _) eqn:X|]|]; try discriminate H.
          -- injection H as <-. apply str_eqb_eq in X. subst i. left. auto.
          -- apply opt_map_iff in H as (e & H & ->). apply str_eqb_eq in X. subst i. right. exists x, e. auto.
      + intros [[-> [->|[-> ->]]]|(x & e & -> & -> & -> & H)]; [reflexivity|reflexivity|]. any. unfold sub in H. rewrite H. reflexivity.
    - (* tuple *) apply seq_each.
    - (* vec *) rewrite any_seq. split.
      + intros (ks & S & H). apply opt_map_iff in H as (l & H & ->). exists ks, l. split; [exact S|]. split; [reflexivity|]. now apply dec_all_iff.
      + intros (ks & l & S & -> & H). exists ks. split; [exact S|]. apply opt_map_iff. exists l. split; [|reflexivity]. now apply dec_all_iff.
    - (* map *) destruct k as [id v]. cbn [kval]. split.
      + destruct v as [|b|[n|n|x]|u|b|l|m|l|m]; any; try discriminate.
        * intros H. tuples H; discriminate H.
        * intros H. apply opt_map_iff in H as (l & H & ->). apply dec_named_iff in H as (es & F & ->). exists es. split; [reflexivity|]. right. exists m. split; [reflexivity|].
          clear - F. induction F as [|e g m es [H1 H2] F IH]; constructor; [|exact IH]. split; [now apply dec_name_iff|exact H2].
        * intros H. apply opt_map_iff in H as (l & H & ->). apply dec_entries_iff in H as (es & F & ->). exists es. split; [reflexivity|]. left. exists m. split; [reflexivity|exact F].
      + intros (es & -> & [(m & -> & F)|(m & -> & F)]); any; apply opt_map_iff; eexists; (split; [|reflexivity]).
        * apply dec_entries_iff. exists es. split; [exact F|reflexivity].
        * apply dec_named_iff. exists es. split; [|reflexivity]. clear - F. induction F as [|e g m es [H1 H2] F IH]; constructor; [|exact IH]. split; [now apply dec_name_iff|exact H2].
    - (* named *) destruct (E q) as [name|name t|name ts|name fs|vs]; cbn [def_rule].
      + unfold deserialize_unit_struct. split; [destruct (kval k) as [| | | | |[|]| | |]; try discriminate; intros [= <-]; auto|intros [-> ->]; reflexivity].
      + destruct k as [id v]. cbn [kval kid]. split.
        * intros H. destruct v as [|b|[n|n|x]|u|b|l|m|l|m]; try discriminate H.
          -- destruct l as [|x [|y l]].
             ++ exfalso. cbn in H. destruct id as [i|]; [destruct (str_eqb i _)|]; discriminate H.
             ++ revert H. any. destruct id as [i|].
                ** destruct (str_eqb i (s "Some")) eqn:X; [discriminate|]. intros H. apply opt_map_iff in H as (e & H & ->). exists x, e. repeat (split; [assumption || reflexivity|]). left. split; [reflexivity|]. split; [discriminate|].
                   intros [= ->]. rewrite (proj2 (str_eqb_eq _ _) eq_refl) in X. discriminate.
                ** intros H. apply opt_map_iff in H as (e & H & ->). exists x, e. repeat (split; [assumption || reflexivity|]). right. exists []. right. cbn [kval kid]. split; [reflexivity|]. split; [intros [Y _]; discriminate|]. intros [_ Y]. contradiction.
             ++ revert H. any. intros H. apply opt_map_iff in H as (e & H & ->). exists x, e. repeat (split; [assumption || reflexivity|]). right. exists (y :: l). right. cbn [kval kid]. split; [reflexivity|]. split; intros [Y _]; discriminate.
          -- revert H. any. destruct l as [|x l]; [discriminate|]. intros H. apply opt_map_iff in H as (e & H & ->). exists x, e. repeat (split; [assumption || reflexivity|]). right. exists l. now left.
        * intros (x & e & H & -> & [(-> & N1 & N2)|(l & [S|(S & N1 & N2)])]); cbn [kval kid] in *.
          -- any. destruct id as [i|]; [|contradiction]. destruct (str_eqb i (s "Some")) eqn:X; [apply str_eqb_eq in X; subst i; contradiction|]. unfold sub in H. now rewrite H.
          -- subst v. any. unfold sub in H. now rewrite H.
          -- subst v. any. unfold sub in H. destruct l as [|y l]; [|now rewrite H]. destruct id as [i|]; [exfalso; apply N2; split; [reflexivity|discriminate]|]. now rewrite H.
      + apply seq_each.
      + split.
        * intros H. destruct k as [id v]. cbn [kval].
          destruct v as [|b|[n|n|x]|u|b|l|m|l|m]; try discriminate H.
          -- destruct (proj1 (seq_each DRecord (map snd fs) (Kserd id (VTuple l)) d) H) as (ks & l' & S & -> & T). eauto 8.
          -- apply fields_rule in H as (l & -> & F). exists l. split; [reflexivity|]. right. left. eauto.
          -- destruct (proj1 (seq_each DRecord (map snd fs) (Kserd id (VSeq l)) d) H) as (ks & l' & S & -> & T). eauto 8.
          -- apply keys_rule in H as (l & -> & F). exists l. split; [reflexivity|]. right. right. eauto.
        * intros (l & -> & [(ks & S & T)|[(m & V & F)|(m & V & F)]]).
          -- pose proof (proj2 (seq_each DRecord (map snd fs) k (DRecord l))) as G. specialize (G ltac:(eauto 6)). destruct k as [id v]. destruct S as [S|[S _]]; cbn [kval] in S; subst v; exact G.
          -- destruct k as [id v]. cbn [kval] in V. subst v. any. apply fields_rule. eauto.
          -- destruct k as [id v]. cbn [kval] in V. subst v. any. apply keys_rule. eauto.
      + unfold variant_id. rewrite opt_bind_iff. split.
        * intros (name & I & H). apply opt_bind_iff in H as ([i h] & P & H). apply opt_map_iff in H as (e & H & ->). cbn [fst snd] in *. exists name, i, h, e. split; [exact I|].
          split; [apply named_iff; now rewrite P|]. split; [now apply position_sound|]. split; [reflexivity|]. destruct h as [|t|ts|fs]; cbn [variant_rule].
          -- unfold unit_variant in H. destruct (kval k) as [| | | | |[|]| | |]; try discriminate; injection H as <-; auto.
          -- destruct k as [id [| | | | |[|x [|]]| | |]]; try discriminate. exists x. auto.
          -- destruct k as [id [| | | | |l| | |]]; try discriminate. destruct (Nat.eqb_spec (length l) (length ts)) as [L|]; [|discriminate]. apply opt_map_iff in H as (l' & H & ->). exists l, l'. repeat (split; [assumption || reflexivity|]). now apply each_turn.
          -- destruct k as [id [| | | | | |m| |]]; try discriminate. apply fields_rule in H as (l & -> & F). exists m, l. repeat (split; [assumption || reflexivity|]). exact F.
        * intros (name & i & h & e & I & N & X & -> & V). exists name. split; [exact I|]. apply opt_bind_iff. apply named_iff in N. apply opt_map_iff in N as ([j h'] & P & J). cbn [fst] in J. subst j.
          pose proof (position_sound _ _ _ _ P) as X'. rewrite X in X'. injection X' as <-. exists (i, h). split; [exact P|]. apply opt_map_iff. exists e. split; [|reflexivity]. cbn [fst snd]. destruct k as [id v]. destruct h as [|t|ts|fs]; cbn [variant_rule kval] in V.
          -- destruct V as [-> [->| ->]]; reflexivity.
          -- destruct V as (x & -> & V). exact V.
          -- destruct V as (ks & l & -> & L & -> & V). apply Nat.eqb_eq in L. rewrite L. apply each_turn in V. now rewrite V.
          -- destruct V as (m & l & -> & -> & V). apply fields_rule. eauto.
  Qed.
End Rules.

(** ** the rules have one solution *)
Lemma Forall2_in {A B} (P Q : A -> B -> Prop) l m : Forall2 P l m -> (forall x y, In x l -> P x y -> Q x y) -> Forall2 Q l m.
Proof. induction 1 as [|x y l m H F IH]; intros G; constructor; [apply G; [now left|exact H]|]. apply IH. intros. apply G; [now right|assumption]. Qed.
Lemma sequence_in k l x : sequence k l -> In x l -> In x (vchildren (kval k)).
Proof. intros [S|[S _]]; rewrite S; auto. Qed.

Section Local.
  Context (E : decls) (P Q : ty -> kserd -> data -> Prop).
  Lemma turn_local (X : kserd -> Prop) ts ks l : (forall t x d, X x -> P t x d -> Q t x d) -> (forall x, In x ks -> X x) -> in_turn P ts ks l -> in_turn Q ts ks l.
  Proof. intros H I (L & L' & F). split; [exact L|]. split; [exact L'|]. intros j t k d T K D. apply H; [apply I; now apply nth_error_In in K|eauto]. Qed.
  Lemma entries_local {K} (X : kserd -> Prop) (key : K -> option nat -> Prop) fs (m : list (K * kserd)) l :
    (forall t x d, X x -> P t x d -> Q t x d) -> (forall e, In e m -> X (snd e)) -> from_entries P key fs m l -> from_entries Q key fs m l.
  Proof.
    intros H I (js & F & L & O & D & N). exists js. repeat (split; [assumption|]). split; [|exact N]. intros p e j n t d M J T V. apply H; [apply I; now apply nth_error_In in M|eauto].
  Qed.
  Lemma rule_local t k d : (forall t x d, In x (vchildren (kval k)) -> P t x d -> Q t x d) -> rule E P t k d -> rule E Q t k d.
  Proof.
    intros H. destruct t as [| |t| | | | | |t|ts|t|kt vt|q]; cbn [rule]; try exact (fun x => x).
    - intros (b & -> & [B|[B|(ks & S & F)]]); exists b; (split; [reflexivity|]); auto. right. right. exists ks. split; [exact S|]. apply (Forall2_in _ _ _ _ F). intros x y I. apply H. now apply (sequence_in k ks).
    - intros [N|(x & e & V & I & -> & G)]; [now left|]. right. exists x, e. repeat (split; [assumption || reflexivity|]). apply H; [|exact G]. rewrite V. now left.
    - intros (ks & l & S & -> & T). exists ks, l. split; [exact S|]. split; [reflexivity|]. apply (turn_local _ ts ks l H); [|exact T]. intros x. now apply sequence_in.
    - intros (ks & l & S & -> & F). exists ks, l. split; [exact S|]. split; [reflexivity|]. apply (Forall2_in _ _ _ _ F). intros x y I. apply H. now apply (sequence_in k ks).
    - intros (es & -> & [(m & V & F)|(m & V & F)]); exists es; (split; [reflexivity|]); rewrite V in H; cbn [vchildren] in H; [left|right]; exists m; (split; [exact V|]); apply (Forall2_in _ _ _ _ F); intros e g I [F1 F2].
      + split; apply H; try assumption; unfold entry_list; apply in_flat_map; exists e; (split; [exact I|]); cbn [In]; auto.
      + split; [exact F1|]. apply H; [now apply in_map|exact F2].
    - destruct (E q) as [name|name t|name ts|name fs|vs]; cbn [def_rule]; try exact (fun x => x).
      + intros (x & e & S & -> & G). exists x, e. split; [|split; [reflexivity|exact G]]. apply H; [|exact S]. destruct G as [(V & _)|(l & G)]; [rewrite V; now left|]. apply (sequence_in _ _ _ G). now left.
      + intros (ks & l & S & -> & T). exists ks, l. split; [exact S|]. split; [reflexivity|]. apply (turn_local _ ts ks l H); [|exact T]. intros x. now apply sequence_in.
      + intros (l & -> & G). exists l. split; [reflexivity|]. destruct G as [(ks & S & T)|[(m & V & F)|(m & V & F)]]; [left; exists ks|right; left; exists m|right; right; exists m]; (split; [assumption|]).
        * apply (turn_local _ _ ks l H); [|exact T]. intros x. now apply sequence_in.
        * apply (entries_local _ _ _ _ _ H); [|exact F]. intros e I. rewrite V. now apply in_map.
        * apply (entries_local _ _ _ _ _ H); [|exact F]. intros e I. rewrite V. cbn [vchildren]. unfold entry_list. apply in_flat_map. exists e. split; [exact I|]. cbn [In]. auto.
      + intros (name & i & h & e & I & N & X & -> & V). exists name, i, h, e. repeat (split; [assumption || reflexivity|]). destruct h as [|t|ts|fs]; cbn [variant_rule] in *.
        * exact V.
        * destruct V as (x & V & G). exists x. split; [exact V|]. apply H; [|exact G]. rewrite V. now left.
        * destruct V as (ks & l & V & L & -> & T). exists ks, l. repeat (split; [assumption || reflexivity|]). apply (turn_local _ _ ks l H); [|exact T]. intros x. now rewrite V.
        * destruct V as (m & l & V & -> & F). exists m, l. repeat (split; [assumption || reflexivity|]). apply (entries_local _ _ _ _ _ H); [|exact F]. intros y I'. rewrite V. now apply in_map.
  Qed.
End Local.

Theorem dec_only E (R : ty -> kserd -> data -> Prop) : (forall t k d, R t k d <-> rule E R t k d) -> forall k t d, dec E t k = Some d <-> R t k d.
Proof.
  intros H. induction k as [id v IH] using kserd_ind'. rewrite Forall_forall in IH. intros t d. rewrite dec_rules, H. split; apply rule_local; cbn [kval]; intros t' x d' I G; now apply (IH x I).
Qed.
Lemma utf8_encodes t : forallb scalar t = true -> utf8_text t (utf8 t).
Proof. intros S. now apply utf8_text_iff. Qed.
