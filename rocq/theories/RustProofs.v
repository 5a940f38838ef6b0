(** * RustProofs: the calls and the tree of plain Rust data *)

From Verif Require Import Base Event Tree FlatProofs DataModel DataProofs NestedModel NestedSpec FlattenModel FlattenProps DeriveModel StdModel StdSpec StdProps
  RustModel RustSpec.

(** ** The calls of a derived implementation are what the generated code does *)
Lemma sv_app {W} (out : W -> ev -> res W) w a b :
  stream_value out w (a ++ b) = stream_value out w a >>= fun w => stream_value out w b.
Proof.
  unfold stream_value. rewrite flat_app. destruct (flat a false) as [es [|]], (flat b false) as [es' ok']; cbn [fst snd].
  - rewrite run_app. destruct (run out w es); cbn [bind]; reflexivity.
  - destruct (run out w es); reflexivity.
Qed.
Lemma sv_ce {W} (out : W -> ev -> res W) w e cs : stream_value out w (CE e :: cs) = out w e >>= fun w => stream_value out w cs.
Proof.
  change (CE e :: cs) with ([CE e] ++ cs). rewrite sv_app. f_equal. unfold stream_value. cbn. destruct (out w e); reflexivity.
Qed.
Lemma sv_one {W} (out : W -> ev -> res W) w e : stream_value out w [CE e] = out w e.
Proof. rewrite sv_ce. destruct (out w e); reflexivity. Qed.
Lemma sv_cv {W} (out : W -> ev -> res W) w v cs : stream_value out w (CV v :: cs) = stream_value out w v >>= fun w => stream_value out w cs.
Proof.
  change (CV v :: cs) with ([CV v] ++ cs). rewrite sv_app. f_equal. unfold stream_value.
  rewrite flat_cons, flat1_CV. destruct (flat v false) as [es [|]]; cbn; rewrite ?app_nil_r; reflexivity.
Qed.
Lemma sv_nil {W} (out : W -> ev -> res W) w : stream_value out w [] = Ok w.
Proof. reflexivity. Qed.

Section Calls.
  Context {W : Type} (out : W -> ev -> res W) (r64 : float -> bytes).
  Lemma body_calls_exec body vs : forall c cs w, body_calls body vs c = Some cs ->
    exec out r64 body vs w c = stream_value out w cs.
  Proof.
    induction body as [|s body IH]; intros c cs w H; cbn [body_calls exec] in *.
    - injection H as <-. reflexivity.
    - destruct s as [kind t l i dt n|]; [|discriminate]. cbn [exec_stmt]. destruct (eval_index i c) as [[i' c']|]; [|discriminate].
      destruct (field_calls kind t l i') as [b e]. destruct (body_calls body vs c') as [cs'|] eqn:E; [|discriminate].
      injection H as <-. cbn [app]. rewrite sv_ce. destruct (out w b) as [w1| |]; cbn [bind]; try reflexivity.
      rewrite <- app_assoc, sv_app.
      replace (stream_value out w1 (value_calls dt (nth n vs []))) with (field_value out dt (nth n vs []) w1).
      2:{ unfold field_value, value_calls. destruct dt; rewrite ?sv_ce, ?sv_cv.
          - destruct (out w1 _); cbn [bind]; try reflexivity. rewrite sv_cv. destruct (stream_value out a _); cbn [bind]; try reflexivity.
            rewrite sv_one. reflexivity.
          - destruct (stream_value out w1 _); reflexivity. }
      destruct (field_value out dt _ w1) as [w2| |]; cbn [bind]; try reflexivity.
      cbn [app]. rewrite sv_ce. destruct (out w2 e) as [w3| |]; cbn [bind]; try reflexivity. apply IH. exact E.
  Qed.
  Lemma arm_calls_exec a vs cs w : arm_calls a vs = Some cs -> exec_arm out r64 a vs w = stream_value out w cs.
  Proof.
    destruct a as [t l i| |t l i|kind t l i n body]; cbn [arm_calls exec_arm]; intros H.
    - injection H as <-. rewrite sv_one. reflexivity.
    - injection H as <-. rewrite sv_cv. destruct (stream_value out w _); reflexivity.
    - injection H as <-. rewrite sv_ce. destruct (out w _); cbn [bind]; try reflexivity. rewrite sv_cv.
      destruct (stream_value out a _); cbn [bind]; try reflexivity. rewrite sv_one. reflexivity.
    - destruct (body_calls body vs 0) as [cs'|] eqn:E; [|discriminate]. injection H as <-.
      destruct kind; rewrite ?sv_ce; destruct (out w _) as [w1| |]; cbn [bind]; try reflexivity;
        rewrite ?sv_ce; try (destruct (out w1 _) as [w2| |]; cbn [bind]; try reflexivity);
        rewrite sv_app, (body_calls_exec _ _ _ _ _ E);
        (match goal with |- context [stream_value out ?w cs'] => destruct (stream_value out w cs') as [w3| |] end); cbn [bind]; try reflexivity;
        rewrite ?sv_ce; destruct (out w3 _) as [w4| |]; cbn [bind]; try reflexivity; rewrite ?sv_one; reflexivity.
  Qed.
  Theorem impl_calls_stream m variant vs cs w : impl_calls m variant vs = Some cs ->
    derived_stream out r64 m variant vs w = stream_value out w cs.
  Proof.
    unfold impl_calls, derived_stream. destruct (nth_error (im_arms m) variant) as [a|]; [|intros [= <-]; reflexivity].
    destruct (im_enum m) as [[[t l] i]|]; [|apply arm_calls_exec].
    destruct (arm_calls a vs) as [cs'|] eqn:E; [|discriminate]. intros [= <-]. rewrite sv_ce.
    destruct (out w _) as [w1| |]; cbn [bind]; try reflexivity. rewrite sv_app, (arm_calls_exec _ _ _ _ E).
    destruct (stream_value out w1 cs') as [w3| |]; cbn [bind]; try reflexivity. rewrite sv_one. reflexivity.
  Qed.
End Calls.

(** ** Induction *)
Section DatumInd.
  Variable P : datum -> Prop.
  Hypothesis HUnit : P VUnit.
  Hypothesis HBool : forall b, P (VBool b).
  Hypothesis HInt : forall t z, P (VInt t z).
  Hypothesis HF32 : forall f, P (VF32 f).
  Hypothesis HF64 : forall f, P (VF64 f).
  Hypothesis HChar : forall c, P (VChar c).
  Hypothesis HStr : forall s, P (VStr s).
  Hypothesis HNone : P VNone.
  Hypothesis HSome : forall v, P v -> P (VSome v).
  Hypothesis HVec : forall vs, Forall P vs -> P (VVec vs).
  Hypothesis HArray : forall vs, Forall P vs -> P (VArray vs).
  Hypothesis HTup : forall vs, Forall P vs -> P (VTup vs).
  Hypothesis HMap : forall es, Forall (fun kv => P (fst kv) /\ P (snd kv)) es -> P (VMap es).
  Hypothesis HRef : forall v, P v -> P (VRef v).
  Hypothesis HData : forall d i fs, Forall P fs -> P (VData d i fs).
  Fixpoint datum_ind' (v : datum) : P v :=
    let all := fix go (vs : list datum) : Forall P vs :=
      match vs with [] => Forall_nil _ | v :: vs' => Forall_cons v (datum_ind' v) (go vs') end in
    match v with
    | VUnit => HUnit | VBool b => HBool b | VInt t z => HInt t z | VF32 f => HF32 f | VF64 f => HF64 f
    | VChar c => HChar c | VStr s => HStr s | VNone => HNone
    | VSome v => HSome v (datum_ind' v)
    | VVec vs => HVec vs (all vs) | VArray vs => HArray vs (all vs) | VTup vs => HTup vs (all vs)
    | VMap es => HMap es ((fix go (es : list (datum * datum)) : Forall (fun kv => P (fst kv) /\ P (snd kv)) es :=
        match es with
        | [] => Forall_nil _
        | kv :: es' => Forall_cons kv (match kv as kv return P (fst kv) /\ P (snd kv) with (k, v) => conj (datum_ind' k) (datum_ind' v) end) (go es')
        end) es)
    | VRef v => HRef v (datum_ind' v)
    | VData d i fs => HData d i fs (all fs)
    end.
End DatumInd.

(** ** What the macro makes of a plain definition *)
Definition stmts (kind : fkind) (labels : list label) (k : nat) : list stmt :=
  map (fun p => SField kind None (snd p) (MImplicit XCounter) None (fst p)) (combine (seq k (List.length labels)) labels).
Lemma fits_le a b : (0 <= a <= b)%Z -> fits I64 b = true -> fits isize a = true.
Proof. intros L H. apply (fits_between 0 a b); try assumption; reflexivity || lia. Qed.

Lemma loop_named names : forall p k tgt c body, (0 <= p)%Z -> fits I64 (p + Z.of_nat (List.length names)) = true ->
  field_loop false false (MkLoop (MkAlloc p false) tgt c c c true body) k (map (fun n => plain_field (Some n)) names) =
  Some (MkLoop (MkAlloc (p + Z.of_nat (List.length names)) false) (match names with [] => tgt | _ => FRecTup end)
          (c + len names) (c + len names) (c + len names) true (body ++ stmts FRecTup (map quote_ident names) k)).
Proof.
  induction names as [|n names IH]; intros p k tgt c body Hp F; cbn [map field_loop].
  - unfold stmts, len. cbn. rewrite app_nil_r, Z.add_0_r, N.add_0_r. reflexivity.
  - unfold field_iter. cbn [fd_skip plain_field flag fd_label fd_index absent negb andb fd_name optional_label_or_ident option_map lo_alloc].
    unfold next_computed_index, next_const_index. cbn [al_next al_explicit].
    cbn [List.length] in F. rewrite Nat2Z.inj_succ in F.
    rewrite (fits_le (p + 1) (p + Z.succ (Z.of_nat (List.length names)))) by (try assumption; lia).
    cbn [option_map fd_flatten flag lo_count lo_labeled lo_indexed lo_const lo_body negb andb fd_tag fd_data_tag].
    rewrite IH by (try lia; replace (p + 1 + Z.of_nat (List.length names))%Z with (p + Z.succ (Z.of_nat (List.length names)))%Z by lia; exact F).
    cbn [List.length]. f_equal. f_equal; [f_equal; lia|destruct names; reflexivity|unfold len; cbn [List.length]; lia..|].
    rewrite <- app_assoc. reflexivity.
Qed.
Lemma loop_tuple n : forall p k tgt c body, (0 <= p)%Z -> fits I64 (p + Z.of_nat n) = true ->
  field_loop false false (MkLoop (MkAlloc p false) tgt c 0 c true body) k (repeat (plain_field None) n) =
  Some (MkLoop (MkAlloc (p + Z.of_nat n) false) (match n with O => tgt | _ => FTuple end)
          (c + N.of_nat n) 0 (c + N.of_nat n) true (body ++ stmts FTuple (repeat no_label n) k)).
Proof.
  induction n as [|n IH]; intros p k tgt c body Hp F; cbn [repeat field_loop].
  - unfold stmts. cbn. rewrite app_nil_r, Z.add_0_r, N.add_0_r. reflexivity.
  - unfold field_iter. cbn [fd_skip plain_field flag fd_label fd_index absent negb andb fd_name optional_label_or_ident option_map lo_alloc].
    unfold next_computed_index, next_const_index. cbn [al_next al_explicit].
    rewrite Nat2Z.inj_succ in F.
    rewrite (fits_le (p + 1) (p + Z.succ (Z.of_nat n))) by (try assumption; lia).
    cbn [option_map fd_flatten flag lo_count lo_labeled lo_indexed lo_const lo_body negb andb fd_tag fd_data_tag].
    rewrite IH by (try lia; replace (p + 1 + Z.of_nat n)%Z with (p + Z.succ (Z.of_nat n))%Z by lia; exact F).
    f_equal. f_equal; [f_equal; lia|destruct n; reflexivity|lia..|].
    rewrite <- app_assoc. reflexivity.
Qed.

Definition plain_arm (l : label) (i : option mindex) (s : style) : arm :=
  match s with
  | PUnit => ATag None (Some l) i
  | PTuple 1 => ANewtype None (Some l) i
  | PTuple n => AFields FTuple None (Some l) i (Some (N.of_nat n)) (stmts FTuple (repeat no_label n) 0)
  | PNamed names => AFields FRecTup None (Some l) i (Some (len names)) (stmts FRecTup (map quote_ident names) 0)
  end.
Lemma record_named l i names : sized (List.length names) = true ->
  stream_record_tuple FRecTup (map (fun n => plain_field (Some n)) names) None (Some l) i false false = Some (plain_arm l i (PNamed names)).
Proof.
  intros H. unfold stream_record_tuple, alloc_new. rewrite loop_named by (try lia; exact H). cbn [lo_labeled lo_count lo_indexed lo_const lo_target lo_body app].
  rewrite N.eqb_refl, !orb_true_r. cbn [andb plain_arm]. rewrite N.add_0_l. destruct names; reflexivity.
Qed.
Lemma record_tuple l i n : n <> 1%nat -> sized n = true ->
  stream_record_tuple FTuple (repeat (plain_field None) n) None (Some l) i false false = Some (plain_arm l i (PTuple n)).
Proof.
  intros N1 H. unfold stream_record_tuple, alloc_new. rewrite loop_tuple by (try lia; exact H). cbn [lo_labeled lo_count lo_indexed lo_const lo_target lo_body app].
  rewrite !N.eqb_refl, !orb_true_r. cbn [orb andb]. rewrite N.add_0_l. destruct n as [|[|n]]; [reflexivity|congruence|reflexivity].
Qed.
(** The pattern match of [derive_struct] and [variant_iter]. *)
Lemma plain_match {A} (s : style) (u : A) (nt : A) (nm tp : list field_def -> A) :
  match plain_fields s with FsUnit => u | FsUnnamed [f] => nt | FsNamed fs => nm fs | FsUnnamed fs => tp fs end =
  match s with PUnit => u | PTuple 1 => nt | PTuple n => tp (repeat (plain_field None) n)
             | PNamed names => nm (map (fun n => plain_field (Some n)) names) end.
Proof. destruct s as [|[|[|n]]|names]; reflexivity. Qed.
Lemma derive_plain_struct name s : style_ok s = true ->
  derive (def_of (PStruct name s)) = Some (MkImpl None [plain_arm (quote_ident name) None s] (Some None)).
Proof.
  unfold style_ok. rewrite andb_true_iff. intros (S & _). cbn [def_of derive]. unfold derive_struct. cbn [at_label at_index plain_attrs at_tag option_map label_or_ident].
  destruct s as [|[|[|n]]|names]; cbn [plain_fields repeat plain_arm]; try reflexivity.
  - change (plain_field None :: plain_field None :: repeat (plain_field None) n) with (repeat (plain_field None) (Datatypes.S (Datatypes.S n))).
    cbn [struct_attrs plain_attrs at_transparent absent at_unlabeled at_unindexed flag]. rewrite record_tuple by (try discriminate; exact S). reflexivity.
  - cbn [struct_attrs plain_attrs at_transparent absent at_unlabeled at_unindexed flag]. rewrite record_named by exact S. reflexivity.
Qed.
Lemma variant_plain p v : (0 <= p)%Z -> fits isize (p + 1) = true -> style_ok (snd v) = true ->
  variant_iter (MkEnumAttrs None None None None None None) (MkAlloc p false) (plain_variant v) =
  Some (plain_arm (quote_ident (fst v)) (Some (MImplicit (XLit p))) (snd v), MkAlloc (p + 1) false).
Proof.
  unfold style_ok. rewrite andb_true_iff. intros Hp F (S & _). destruct v as [name s]. cbn [fst snd] in *.
  unfold variant_iter. cbn [vd_attrs plain_variant fst snd plain_attrs at_transparent absent negb vd_disc disc_value at_index option_map variant_index
    ea_dynamic ea_unindexed flag orb]. unfold next_const_index. cbn [al_next al_explicit]. rewrite F. cbn [option_map].
  unfold variant_label, unit_variant_label. cbn [ea_dynamic ea_unlabeled flag orb at_label label_or_ident plain_variant plain_attrs fst snd vd_name vd_fields at_tag].
  destruct s as [|[|[|n]]|names]; cbn [plain_fields repeat plain_arm]; try reflexivity.
  - change (plain_field None :: plain_field None :: repeat (plain_field None) n) with (repeat (plain_field None) (Datatypes.S (Datatypes.S n))).
    cbn [at_unlabeled at_unindexed flag plain_attrs at_tag]. rewrite record_tuple by (try discriminate; exact S). reflexivity.
  - cbn [at_unlabeled at_unindexed flag plain_attrs at_tag]. rewrite record_named by exact S. reflexivity.
Qed.
Definition plain_arms (p : nat) (vs : list (bytes * style)) : list arm :=
  map (fun kv => plain_arm (quote_ident (fst (snd kv))) (Some (MImplicit (XLit (Z.of_nat (fst kv))))) (snd (snd kv))) (combine (seq p (List.length vs)) vs).
Lemma variants_plain vs : forall p, fits I64 (Z.of_nat (p + List.length vs)) = true -> forallb (fun v => style_ok (snd v)) vs = true ->
  variant_loop (MkEnumAttrs None None None None None None) (MkAlloc (Z.of_nat p) false) (map plain_variant vs) = Some (plain_arms p vs).
Proof.
  induction vs as [|v vs IH]; intros p F S; [reflexivity|]. cbn [map variant_loop forallb List.length] in *. apply andb_true_iff in S as (S1 & S2).
  rewrite variant_plain by (try lia; try exact S1; try (apply (fits_le _ (Z.of_nat (p + Datatypes.S (List.length vs)))); [lia|exact F])).
  replace (Z.of_nat p + 1)%Z with (Z.of_nat (Datatypes.S p)) by lia.
  rewrite IH; [reflexivity| |exact S2]. replace (Datatypes.S p + List.length vs)%nat with (p + Datatypes.S (List.length vs))%nat by lia. exact F.
Qed.
Lemma derive_plain_enum name vs : sized (List.length vs) = true -> forallb (fun v => style_ok (snd v)) vs = true -> vs <> [] ->
  derive (def_of (PEnum name vs)) = Some (MkImpl (Some (None, Some (quote_ident name), None)) (plain_arms 0 vs) (Some None)).
Proof.
  intros F S N. cbn [def_of derive]. unfold derive_enum. destruct (map plain_variant vs) as [|v0 vs0] eqn:E; [destruct vs; [congruence|discriminate]|].
  rewrite <- E. cbn [enum_attrs_ok ea_dynamic flag negb orb]. change alloc_new with (MkAlloc (Z.of_nat 0) false).
  rewrite variants_plain by assumption. reflexivity.
Qed.

(** ** The calls of plain data *)
Definition place (k : Z) : index := MkIndex k (Some VALUE_OFFSET).
Definition name_label (s : bytes) : label := MkLabel s LStatic (Some VALUE_IDENT).
Definition plain_calls (name : bytes) (i : option index) (s : style) (vs : list (list call)) : list call :=
  let l := Some (name_label name) in
  match s with
  | PUnit => [CE (ETag None l i)]
  | PTuple 1 => [CE (ETaggedBegin None l i); CV (nth 0 vs []); CE (ETaggedEnd None l i)]
  | PTuple n =>
      CE (ETupleBegin None l i (Some (N.of_nat n))) ::
      flat_map (fun p => [CE (ETupleValBegin None (place (fst p))); CV (snd p); CE (ETupleValEnd None (place (fst p)))]) (from 0 vs) ++
      [CE (ETupleEnd None l i)]
  | PNamed names =>
      CE (ERecTupBegin None l i (Some (len names))) ::
      flat_map (fun p => let '(n, (k, v)) := p in
        [CE (ERecTupValBegin None (name_label n) (place k)); CV v; CE (ERecTupValEnd None (name_label n) (place k))]) (combine names (from 0 vs)) ++
      [CE (ERecTupEnd None l i)]
  end.

Lemma skipn_nth {A} (d : A) l k : (k < List.length l)%nat -> skipn k l = nth k l d :: skipn (Datatypes.S k) l.
Proof.
  revert k. induction l as [|a l IH]; intros k H; [cbn in H; lia|]. destruct k; [reflexivity|]. cbn [skipn nth]. apply IH. cbn in H. lia.
Qed.
Lemma body_named names vs : forall k, (k + List.length names = List.length vs)%nat -> fits I64 (Z.of_nat (List.length vs)) = true ->
  body_calls (stmts FRecTup (map quote_ident names) k) vs (Z.of_nat k) =
  Some (flat_map (fun p => let '(n, (k, v)) := p in
    [CE (ERecTupValBegin None (name_label n) (place k)); CV v; CE (ERecTupValEnd None (name_label n) (place k))]) (combine names (from (Z.of_nat k) (skipn k vs)))).
Proof.
  induction names as [|n names IH]; intros k L F; [reflexivity|]. cbn [List.length] in L.
  unfold stmts. cbn [map List.length seq combine body_calls fst snd]. cbn [eval_index eval_expr].
  rewrite (fits_le _ (Z.of_nat (List.length vs))) by (try assumption; lia). cbn [field_calls value_calls].
  replace (Z.of_nat k + 1)%Z with (Z.of_nat (Datatypes.S k)) by lia.
  specialize (IH (Datatypes.S k) ltac:(lia) F). unfold stmts in IH. rewrite IH. cbn [option_map].
  rewrite (skipn_nth [] vs k) by lia. cbn [from combine flat_map].
  replace (Z.of_nat k + 1)%Z with (Z.of_nat (Datatypes.S k)) by lia. reflexivity.
Qed.
Lemma body_tuple n vs : forall k, (k + n = List.length vs)%nat -> fits I64 (Z.of_nat (List.length vs)) = true ->
  body_calls (stmts FTuple (repeat no_label n) k) vs (Z.of_nat k) =
  Some (flat_map (fun p => [CE (ETupleValBegin None (place (fst p))); CV (snd p); CE (ETupleValEnd None (place (fst p)))]) (from (Z.of_nat k) (skipn k vs))).
Proof.
  induction n as [|n IH]; intros k L F.
  - rewrite skipn_all2 by lia. reflexivity.
  - unfold stmts. cbn [repeat map List.length seq combine body_calls fst snd]. cbn [eval_index eval_expr].
    rewrite (fits_le _ (Z.of_nat (List.length vs))) by (try assumption; lia). cbn [field_calls value_calls].
    replace (Z.of_nat k + 1)%Z with (Z.of_nat (Datatypes.S k)) by lia.
    specialize (IH (Datatypes.S k) ltac:(lia) F). unfold stmts in IH. rewrite IH. cbn [option_map].
    rewrite (skipn_nth [] vs k) by lia. cbn [from flat_map fst snd].
    replace (Z.of_nat k + 1)%Z with (Z.of_nat (Datatypes.S k)) by lia. reflexivity.
Qed.
Lemma arm_plain name i s vs : List.length vs = arity s -> sized (arity s) = true ->
  arm_calls (plain_arm (quote_ident name) i s) vs = Some (plain_calls name (eval_const i) s vs).
Proof.
  intros L S. rewrite <- L in S. destruct s as [|[|[|n]]|names]; cbn [plain_arm arm_calls arity] in *; try reflexivity.
  - destruct vs; [reflexivity|discriminate].
  - pose proof (body_tuple (Datatypes.S (Datatypes.S n)) vs 0 ltac:(cbn; lia) S) as B. cbn [Z.of_nat] in B. rewrite B. reflexivity.
  - pose proof (body_named names vs 0 ltac:(cbn; lia) S) as B. cbn [Z.of_nat] in B. rewrite B. reflexivity.
Qed.
Lemma combine_nth_error {A B} (a : list A) (b : list B) : forall i x y, nth_error a i = Some x -> nth_error b i = Some y ->
  nth_error (combine a b) i = Some (x, y).
Proof.
  revert b. induction a as [|x0 a IH]; intros [|y0 b] [|i] x y HA HB; cbn in *; try discriminate; [congruence|]. apply IH; assumption.
Qed.
Lemma nth_error_seq k n i : (i < n)%nat -> nth_error (seq k n) i = Some (k + i)%nat.
Proof.
  revert k i. induction n as [|n IH]; intros k i H; [lia|]. destruct i; cbn [seq nth_error]; [f_equal; lia|]. rewrite IH by lia. f_equal. lia.
Qed.

(** The name, index and fields of a value; and the enum around it. *)
Definition data_calls (d : decl) (i : nat) (vs : list (list call)) : list call :=
  match variant_of d i with
  | Some (name, s) =>
      match d with
      | PStruct _ _ => plain_calls name None s vs
      | PEnum e _ =>
          CE (EEnumBegin None (Some (name_label e)) None) :: plain_calls name (Some (place (Z.of_nat i))) s vs ++
          [CE (EEnumEnd None (Some (name_label e)) None)]
      end
  | None => []
  end.
Lemma style_of_decl d i name s : decl_ok d = true -> variant_of d i = Some (name, s) -> style_ok s = true /\ identifier name = true.
Proof.
  destruct d as [n s'|n vs]; cbn [decl_ok variant_of]; intros D V.
  - destruct i; [|discriminate]. injection V as -> ->. apply andb_true_iff in D. tauto.
  - apply andb_true_iff in D as (_ & D). rewrite forallb_forall in D. specialize (D _ (nth_error_In _ _ V)). cbn [fst snd] in D.
    apply andb_true_iff in D. tauto.
Qed.
Theorem derived_calls d i vs name s : decl_ok d = true -> variant_of d i = Some (name, s) -> List.length vs = arity s ->
  exists m, derive (def_of d) = Some m /\ impl_calls m i vs = Some (data_calls d i vs).
Proof.
  intros D V L. destruct (style_of_decl _ _ _ _ D V) as (S & _). unfold data_calls. rewrite V. destruct d as [n s'|n evs].
  - cbn [variant_of] in V. destruct i; [|discriminate]. injection V as -> ->.
    eexists. split; [apply derive_plain_struct; exact S|]. unfold impl_calls. cbn [im_arms nth_error im_enum].
    unfold style_ok in S. apply andb_true_iff in S as (S & _). rewrite arm_plain by assumption. reflexivity.
  - cbn [variant_of decl_ok] in *. apply andb_true_iff in D as (D & D3). apply andb_true_iff in D as (D1 & D2).
    eexists. split.
    + apply derive_plain_enum; [exact D2| |intros ->; destruct i; discriminate]. rewrite forallb_forall in *. intros v I.
      specialize (D3 v I). apply andb_true_iff in D3. tauto.
    + unfold impl_calls. cbn [im_arms im_enum]. unfold plain_arms.
      assert (LT : (i < List.length evs)%nat) by (apply nth_error_Some; congruence).
      erewrite map_nth_error; [|apply combine_nth_error; [apply nth_error_seq; exact LT|exact V]]. cbn [fst snd plus].
      unfold style_ok in S. apply andb_true_iff in S as (S & _). rewrite arm_plain by assumption. reflexivity.
Qed.

(** ** The tree of plain data *)
Definition plain_tree (name : bytes) (i : option index) (s : style) (ts : list tree) : tree :=
  let l := Some (name_label name) in
  match s with
  | PUnit => TTag None l i
  | PTuple 1 => TTagged None l i (nth 0 ts TNull)
  | PTuple n => TTuple None l i (Some (N.of_nat n)) (map (fun p => (None, place (fst p), snd p)) (from 0 ts))
  | PNamed names =>
      TRecTup None l i (Some (len names)) (map (fun p => let '(n, (k, t)) := p in (None, name_label n, place k, t)) (combine names (from 0 ts)))
  end.
Definition data_tree (d : decl) (i : nat) (ts : list tree) : tree :=
  match variant_of d i with
  | Some (name, s) =>
      match d with
      | PStruct _ _ => plain_tree name None s ts
      | PEnum e _ => TEnum None (Some (name_label e)) None (plain_tree name (Some (place (Z.of_nat i))) s ts)
      end
  | None => TNull
  end.
Fixpoint dtree (v : datum) : tree :=
  match v with
  | VUnit => shape RUnit
  | VBool b => TBool b
  | VInt t z => TInt t z
  | VF32 f => TF32 f
  | VF64 f => TF64 f
  | VChar c => shape (RChar c)
  | VStr s => shape (RString s)
  | VNone => shape RNone
  | VSome v => shape (RSome (ROther [] (dtree v)))
  | VVec vs => TSeq (Some (len vs)) (map dtree vs)
  | VArray vs => constant_size (TSeq (Some (len vs)) (map dtree vs))
  | VTup vs => TTuple None None None (Some (len vs)) (map (fun p => (None, place (fst p), snd p)) (from 0 (map dtree vs)))
  | VMap es => TMap (Some (len es)) (map (fun kv => match kv with (k, v) => (dtree k, dtree v) end) es)
  | VRef v => dtree v
  | VData d i fs => data_tree d i (map dtree fs)
  end.

Definition holds (v : list call) (t : tree) : Prop := streams v t /\ whole v.
Lemma from_forall2 {A B} (R : A -> B -> Prop) la lb : Forall2 R la lb -> forall i,
  Forall2 (fun p q => fst p = fst q /\ R (snd p) (snd q)) (from i la) (from i lb).
Proof. induction 1; intros i; cbn [from]; constructor; auto. Qed.
Lemma holds_plain name i s vs ts : Forall2 holds vs ts -> List.length vs = arity s -> holds (plain_calls name i s vs) (plain_tree name i s ts).
Proof.
  intros H L.
  assert (Hw : forall cs, holds cs (nth 0 ts TNull) -> whole_call (CV cs)) by (intros cs (A & B); econstructor; eassumption).
  destruct s as [|[|[|n]]|names]; cbn [plain_calls plain_tree arity] in *.
  - split; [reflexivity|repeat constructor].
  - destruct vs; [|discriminate]. inversion H; subst. split; [reflexivity|repeat constructor].
  - destruct vs as [|v [|? ?]]; try discriminate. inversion H as [|? t ? ? HV HN]; subst. cbn [nth] in *. inversion HN; subst.
    split; [|repeat constructor; apply Hw; exact HV]. destruct HV as (HV & _). apply does_ce. apply does_cv; [exact HV|reflexivity].
  - clear Hw. split.
    + apply does_ce. apply does_app; [|reflexivity]. rewrite flat_map_map'. apply does_flat_map.
      pose proof (from_forall2 holds _ _ H 0) as H'. clear H L. revert H'. generalize (from 0 vs) (from 0 ts). intros la lb.
      induction 1 as [|[a x] [b y] la lb [E [S _]] _ IH]; constructor; auto. cbn [fst snd] in *. subst b.
      apply does_ce. apply does_cv; [exact S|reflexivity].
    + constructor; [constructor|]. apply Forall_app. split; [|repeat constructor].
      pose proof (from_forall2 holds _ _ H 0) as H'. clear H L. revert H'. generalize (from 0 vs) (from 0 ts). intros la lb.
      induction 1 as [|[a x] [b y] la lb [E [S Wh]] _ IH]; cbn [flat_map]; [constructor|]. cbn [fst snd] in *.
      constructor; [constructor|]. constructor; [econstructor; eassumption|]. constructor; [constructor|]. exact IH.
  - clear Hw L. split.
    + apply does_ce. apply does_app; [|reflexivity]. rewrite flat_map_map'. apply does_flat_map.
      pose proof (from_forall2 holds _ _ H 0) as H'. clear H. revert names H'. generalize (from 0 vs) (from 0 ts). intros la lb names H'. revert names.
      induction H' as [|[a x] [b y] la lb [E [S _]] _ IH]; intros [|n names]; cbn [combine]; constructor; auto. cbn [fst snd] in *. subst b.
      apply does_ce. apply does_cv; [exact S|reflexivity].
    + constructor; [constructor|]. apply Forall_app. split; [|repeat constructor].
      pose proof (from_forall2 holds _ _ H 0) as H'. clear H. revert names H'. generalize (from 0 vs) (from 0 ts). intros la lb names H'. revert names.
      induction H' as [|[a x] [b y] la lb [E [S Wh]] _ IH]; intros [|n names]; cbn [combine flat_map]; try constructor; cbn [fst snd] in *;
        [constructor|]. constructor; [econstructor; eassumption|]. constructor; [constructor|]. apply IH.
Qed.
Lemma holds_data d i vs ts name s : variant_of d i = Some (name, s) -> Forall2 holds vs ts -> List.length vs = arity s ->
  holds (data_calls d i vs) (data_tree d i ts).
Proof.
  intros V H L. unfold data_calls, data_tree. rewrite V. destruct d; [apply holds_plain; assumption|].
  destruct (holds_plain name (Some (place (Z.of_nat i))) s vs ts H L) as (S & Wh). split.
  - apply does_ce. apply does_app; [exact S|reflexivity].
  - constructor; [constructor|]. apply Forall_app. split; [exact Wh|repeat constructor].
Qed.

Lemma typed_all vs : fold_right and True (map typed vs) -> Forall typed vs.
Proof. induction vs; cbn; intros; constructor; tauto. Qed.

Lemma calls_elems {A} (f : A -> list call) (g : A -> tree) vs : map calls (map (fun v => elem (f v)) vs) = map calls (map (fun v => ROther (f v) (g v)) vs).
Proof. rewrite !map_map. reflexivity. Qed.
Lemma shape_elems {A} (f : A -> list call) (g : A -> tree) vs : map shape (map (fun v => ROther (f v) (g v)) vs) = map g vs.
Proof. rewrite map_map. reflexivity. Qed.
Lemma whole_seq cs ts : Forall2 holds cs ts -> whole (seq_calls (fun c => [CV c]) cs).
Proof.
  intros H. unfold seq_calls. constructor; [constructor|]. apply Forall_app. split; [|repeat constructor].
  induction H as [|c t cs ts [S Wh] _ IH]; cbn [flat_map]; [constructor|]. constructor; [constructor|]. constructor; [econstructor; eassumption|]. constructor; [constructor|]. exact IH.
Qed.

Lemma forall2_map {A B C} (R : B -> C -> Prop) (f : A -> B) (g : A -> C) l : Forall (fun a => R (f a) (g a)) l -> Forall2 R (map f l) (map g l).
Proof. induction 1; constructor; assumption. Qed.

Theorem rust_holds v : typed v -> holds (rust v) (dtree v).
Proof.
  induction v using datum_ind'; intros T; cbn [typed] in T; cbn [rust dtree]; try (split; [reflexivity|repeat constructor]; fail).
  - (* Some *) specialize (IHv T). destruct IHv as (S & Wh). split.
    + apply does_ce. apply does_cv; [exact S|reflexivity].
    + constructor; [constructor|]. constructor; [econstructor; eassumption|]. repeat constructor.
  - (* Vec *)
    assert (HF : Forall (fun v => holds (rust v) (dtree v)) vs).
    { apply typed_all in T. rewrite Forall_forall in *. auto. }
    split.
    + cbn [calls]. rewrite (calls_elems rust dtree). change (map calls (map (fun v => ROther (rust v) (dtree v)) vs)) with (map calls (map (fun v => ROther (rust v) (dtree v)) vs)).
      pose proof (does_seq (map (fun v => ROther (rust v) (dtree v)) vs)) as D. rewrite shape_elems in D.
      unfold len in D. rewrite map_length in D. apply D. rewrite Forall_map. eapply Forall_impl; [|exact HF]. intros a (S & _). exact S.
    + cbn [calls]. rewrite map_map. cbn [calls elem]. apply (whole_seq _ (map dtree vs)). apply forall2_map. exact HF.
  - (* array *)
    assert (HF : Forall (fun v => holds (rust v) (dtree v)) vs).
    { apply typed_all in T. rewrite Forall_forall in *. auto. }
    assert (D : does (seq_calls (fun c => [CV c]) (map calls (map (fun v => elem (rust v)) vs))) (emit (TSeq (Some (len vs)) (map dtree vs)))).
    { rewrite (calls_elems rust dtree). pose proof (does_seq (map (fun v => ROther (rust v) (dtree v)) vs)) as D. rewrite shape_elems in D.
      unfold len in *. rewrite map_length in D. apply D. rewrite Forall_map. eapply Forall_impl; [|exact HF]. intros a (S & _). exact S. }
    split.
    + cbn [calls]. unfold constant_size. apply does_ce. apply does_cv; [exact D|reflexivity].
    + cbn [calls]. constructor; [constructor|]. constructor; [|repeat constructor]. econstructor; [|exact D].
      rewrite map_map. cbn [calls elem]. apply (whole_seq _ (map dtree vs)). apply forall2_map. exact HF.
  - (* tuple *)
    destruct T as (L & T).
    assert (HF : Forall (fun v => holds (rust v) (dtree v)) vs).
    { apply typed_all in T. rewrite Forall_forall in *. auto. }
    split.
    + pose proof (does_tuple (map (fun v => ROther (rust v) (dtree v)) vs)) as D. rewrite map_length in D. specialize (D L).
      cbn [calls shape] in *. rewrite (calls_elems rust dtree). rewrite shape_elems in D. unfold len in D. rewrite map_length in D. apply D.
      rewrite Forall_map. eapply Forall_impl; [|exact HF]. intros a (S & _). exact S.
    + cbn [calls]. unfold tuple_calls. rewrite !map_length, (tuple_impl_spec _ L). constructor; [constructor|]. apply Forall_app. split; [|repeat constructor].
      generalize (map Z.of_nat (seq 0 (List.length vs))). intros is. clear L T H. revert is.
      induction HF as [|v vs (S & Wh) HF IH]; intros [|i is]; cbn [map combine flat_map]; try constructor; [constructor|].
      cbn [app fst snd calls elem]. constructor; [econstructor; eassumption|]. constructor; [constructor|]. apply IH.
  - (* map *)
    assert (HF : Forall (fun kv => holds (rust (fst kv)) (dtree (fst kv)) /\ holds (rust (snd kv)) (dtree (snd kv))) es).
    { clear - H T. induction es as [|[k v] es IH]; [constructor|]. inversion H; subst. cbn [map fold_right fst snd] in *. constructor; [|apply IH; tauto]. cbn [fst snd]. tauto. }
    split.
    + pose proof (does_map (map (fun kv => match kv with (k, v) => (ROther (rust k) (dtree k), ROther (rust v) (dtree v)) end) es)) as D.
      unfold len in D. rewrite map_length in D. rewrite !map_map in D. cbn [calls]. rewrite map_map.
      replace (map (fun x : datum * datum => let (k, v) := let (k, v) := x in (elem (rust k), elem (rust v)) in (calls k, calls v)) es)
        with (map (fun x : datum * datum => let (k, v) := let (k, v) := x in (ROther (rust k) (dtree k), ROther (rust v) (dtree v)) in (calls k, calls v)) es)
        by (apply map_ext; intros [k v]; reflexivity).
      replace (map (fun kv : datum * datum => let (k, v) := kv in (dtree k, dtree v)) es)
        with (map (fun x : datum * datum => let (k, v) := let (k, v) := x in (ROther (rust k) (dtree k), ROther (rust v) (dtree v)) in (shape k, shape v)) es)
        by (apply map_ext; intros [k v]; reflexivity).
      apply D. rewrite Forall_map. eapply Forall_impl; [|exact HF]. intros [k v] ((S1 & _) & (S2 & _)). split; assumption.
    + cbn [calls]. rewrite map_map. unfold map_calls. constructor; [constructor|]. apply Forall_app. split; [|repeat constructor].
      clear T H. induction HF as [|[k v] es ((S1 & W1) & (S2 & W2)) HF IH]; cbn [map flat_map]; [constructor|]. cbn [fst snd calls elem] in *.
      constructor; [constructor|]. constructor; [econstructor; eassumption|]. constructor; [constructor|]. constructor; [constructor|].
      constructor; [econstructor; eassumption|]. constructor; [constructor|]. exact IH.
  - (* reference *) exact (IHv T).
  - (* derived *)
    destruct T as (D & L & T). destruct (variant_of d i) as [[name s]|] eqn:V; [|contradiction].
    assert (L' : List.length (map rust fs) = arity s) by (rewrite map_length; exact L).
    destruct (derived_calls d i (map rust fs) name s D V L') as (m & -> & ->).
    apply (holds_data d i _ _ name s V); [|exact L']. apply forall2_map. apply typed_all in T. rewrite Forall_forall in *. auto.
Qed.
