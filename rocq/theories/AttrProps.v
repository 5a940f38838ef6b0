(** * AttrProps: the attributes a definition carries are the ones it means *)

From Verif Require Import Base Event DataModel FlattenModel DeriveModel AttrModel AttrSpec.
From Coq Require Import Permutation.

(** ** Reading the items *)

Lemma sval_items_spec ats : sval_items ats = Some (items ats) /\ parses ats \/ sval_items ats = None /\ ~ parses ats.
Proof.
  unfold parses. induction ats as [|a ats IH]; [left; split; [reflexivity|constructor]|]. cbn [sval_items items flat_map].
  fold (items ats). destruct (bytes_eqb (a_path a) (bs "sval")) eqn:E.
  - apply bytes_eqb_eq in E. destruct (a_items a) as [is|] eqn:I.
    + destruct IH as [[-> P]|[-> P]]; [left|right].
      * split; [reflexivity|]. constructor; [rewrite I; discriminate|exact P].
      * split; [reflexivity|]. intros F. inversion F; auto.
    + right. split; [reflexivity|]. intros F. inversion F; subst. apply H1; [exact E|exact I].
  - assert (N : a_path a <> bs "sval") by (intros E'; rewrite E', bytes_eqb_refl in E; discriminate).
    destruct IH as [[-> P]|[-> P]]; [left|right].
    + split; [reflexivity|]. constructor; [intros E'; contradiction|exact P].
    + split; [reflexivity|]. intros F. inversion F; auto.
Qed.

Lemma mem_In k ks : mem k ks = true <-> In k ks.
Proof.
  unfold mem. rewrite existsb_exists. split.
  - intros (x & I & E). apply bytes_eqb_eq in E. subst. exact I.
  - intros I. exists k. split; [exact I|apply bytes_eqb_refl].
Qed.
Lemma mem_not k ks : mem k ks = false <-> ~ In k ks.
Proof. rewrite <- mem_In. destruct (mem k ks); split; congruence. Qed.

Lemma check_loop_spec al is : forall seen, check_loop al seen is = true <->
  Forall (fun i => In (fst i) al) is /\ NoDup (map fst is) /\ (forall k, In k (map fst is) -> ~ In k seen).
Proof.
  induction is as [|[k e] is IH]; intros seen; cbn [check_loop map fst].
  - split; [|reflexivity]. intros _. repeat split; [constructor|constructor|contradiction].
  - rewrite !andb_true_iff, IH, mem_In, negb_true_iff, mem_not. split.
    + intros ((A & S) & F & N & D). repeat split.
      * constructor; assumption.
      * constructor; [|exact N]. intros I. apply (D _ I). left. reflexivity.
      * intros k' [<-|I]; [exact S|]. intros I'. apply (D _ I). right. exact I'.
    + intros (F & N & D). inversion F; subst. inversion N; subst. repeat split; auto.
      * apply D. left. reflexivity.
      * intros k' I [<-|I']; [contradiction|]. apply (D k'); [right; exact I|exact I'].
Qed.
Lemma check_spec al is : check al is = true <->
  Forall (fun i => In (fst i) al) is /\ NoDup (map fst is).
Proof.
  unfold check. rewrite check_loop_spec. split; [tauto|]. intros (F & N). repeat split; auto.
Qed.

Lemma check_perm al a b : Permutation a b -> check al a = check al b.
Proof.
  intros P. apply eq_true_iff_eq. rewrite !check_spec.
  assert (Q : Permutation (map fst a) (map fst b)) by (apply Permutation_map; exact P).
  split; intros (F & N); split.
  - eapply Permutation_Forall; eassumption.
  - eapply Permutation_NoDup; eassumption.
  - eapply Permutation_Forall; [apply Permutation_sym|]; eassumption.
  - eapply Permutation_NoDup; [apply Permutation_sym|]; eassumption.
Qed.

(** The one item with a key is the one that is read. *)
Lemma find_item_In k e is : NoDup (map fst is) -> (find_item k is = Some e <-> In (k, e) is).
Proof.
  induction is as [|[k' e'] is IH]; intros N; cbn [find_item]; [split; [discriminate|contradiction]|].
  inversion N; subst. cbn [fst] in *. destruct (bytes_eqb k' k) eqn:E.
  - apply bytes_eqb_eq in E. subst k'. split; [intros [= ->]; left; reflexivity|].
    intros [[= ->]|I]; [reflexivity|]. exfalso. apply H1. apply (in_map fst) in I. exact I.
  - rewrite IH by assumption. split; [intros I; right; exact I|]. intros [[= -> ->]|I]; [|exact I].
    rewrite bytes_eqb_refl in E. discriminate.
Qed.
Lemma find_item_perm k a b : NoDup (map fst a) -> Permutation a b -> find_item k a = find_item k b.
Proof.
  intros N P. assert (N' : NoDup (map fst b)) by (eapply Permutation_NoDup; [apply Permutation_map|]; eassumption).
  destruct (find_item k a) as [e|] eqn:A.
  - apply find_item_In in A; [|exact N]. symmetry. apply find_item_In; [exact N'|]. eapply Permutation_in; eassumption.
  - destruct (find_item k b) as [e|] eqn:B; [|reflexivity]. apply find_item_In in B; [|exact N'].
    apply Permutation_sym in P. apply (Permutation_in _ P) in B. apply (find_item_In _ _ _ N) in B. congruence.
Qed.
Lemma get_perm {A} (read : expr -> option A) k a b : NoDup (map fst a) -> Permutation a b -> get read k a = get read k b.
Proof. intros N P. unfold get. rewrite (find_item_perm _ _ _ N P). reflexivity. Qed.

Section Attrs.
  Variable path_ok : bytes -> bool.
  Variable tag_at : bytes -> tag.
  Variable label_at : bytes -> label.
  Variable index_at : bytes -> index.
  Notation parse_attrs := (parse_attrs path_ok tag_at label_at index_at).
  Notation parse_enum_attrs := (parse_enum_attrs path_ok tag_at label_at index_at).
  Notation parse_field := (parse_field path_ok tag_at label_at index_at).
  Notation parse_fields := (parse_fields path_ok tag_at label_at index_at).
  Notation parse_variant := (parse_variant path_ok tag_at label_at index_at).
  Notation parse_def := (parse_def path_ok tag_at label_at index_at).
  Notation derive_raw := (derive_raw path_ok tag_at label_at index_at).

  (** ** The order does not matter *)

  Lemma reordered_items a b : reordered a b -> sval_items a = Some (items a) /\ sval_items b = Some (items b).
  Proof.
    intros (A & B & _). destruct (sval_items_spec a) as [[-> _]|[_ N]]; [|contradiction].
    destruct (sval_items_spec b) as [[-> _]|[_ N]]; [|contradiction]. split; reflexivity.
  Qed.

  Ltac checked P :=
    match goal with
    | |- context [check ?al ?a] =>
        rewrite <- (check_perm al _ _ P); destruct (check al a) eqn:?C; [|reflexivity];
        apply check_spec in C; destruct C as [_ ?N];
        rewrite <- ?(get_perm _ _ _ _ N P)
    end.

  Lemma parse_attrs_perm fs gs a b : length (match fs with RFUnnamed l => l | _ => [] end) = length (match gs with RFUnnamed l => l | _ => [] end) ->
    match fs, gs with RFUnit, RFUnit => True | RFNamed _, RFNamed _ => True | RFUnnamed _, RFUnnamed _ => True | _, _ => False end ->
    Permutation a b -> parse_attrs fs a = parse_attrs gs b.
  Proof.
    intros L K P. destruct fs as [|fs|fs], gs as [|gs|gs]; try contradiction; unfold AttrModel.parse_attrs.
    - checked P. reflexivity.
    - checked P. reflexivity.
    - destruct fs as [|f [|f' fs]], gs as [|g [|g' gs]]; try discriminate; checked P; reflexivity.
  Qed.
  Lemma parse_field_reordered f g : reordered_field f g -> parse_field f = parse_field g.
  Proof.
    intros (Nm & R). unfold AttrModel.parse_field. destruct (reordered_items _ _ R) as [-> ->].
    destruct R as (_ & _ & P). rewrite Nm. checked P. reflexivity.
  Qed.
  Lemma parse_newtype_field_reordered f g : reordered_field f g -> parse_newtype_field f = parse_newtype_field g.
  Proof.
    intros (Nm & R). unfold parse_newtype_field. destruct (reordered_items _ _ R) as [-> ->].
    destruct R as (_ & _ & P). rewrite Nm. apply Permutation_length in P.
    destruct (items (rf_attrs f)), (items (rf_attrs g)); try discriminate; reflexivity.
  Qed.
  Lemma parse_all_same {A B} (p : A -> option B) (R : A -> A -> Prop) : (forall a b, R a b -> p a = p b) ->
    forall l m, Forall2 R l m -> parse_all p l = parse_all p m.
  Proof. intros H l m F. induction F as [|a b l m E F IH]; [reflexivity|]. cbn [parse_all]. rewrite (H _ _ E), IH. reflexivity. Qed.
  Lemma parse_fields_reordered fs gs : reordered_fields fs gs -> parse_fields fs = parse_fields gs.
  Proof.
    intros [|fs' gs' F|fs' gs' F]; [reflexivity| |]; unfold AttrModel.parse_fields.
    - rewrite (parse_all_same _ _ parse_field_reordered _ _ F). reflexivity.
    - inversion F as [|f g fs2 gs2 E F' E1 E2]; subst; [reflexivity|]. inversion F' as [|? ? ? ? ? F2 E1 E2]; subst.
      + rewrite (parse_newtype_field_reordered _ _ E). reflexivity.
      + rewrite (parse_all_same _ _ parse_field_reordered _ _ F). reflexivity.
  Qed.
  Lemma attrs_reordered fs gs a b : reordered_fields fs gs -> Permutation a b -> parse_attrs fs a = parse_attrs gs b.
  Proof.
    intros R P. apply parse_attrs_perm; [| |exact P].
    - destruct R as [| |? ? F]; try reflexivity. induction F; cbn [length]; congruence.
    - destruct R; exact I.
  Qed.
  Lemma parse_variant_reordered v w : reordered_variant v w -> parse_variant v = parse_variant w.
  Proof.
    intros (Nm & R & D & F). unfold AttrModel.parse_variant. destruct (reordered_items _ _ R) as [-> ->].
    destruct R as (_ & _ & P). rewrite Nm, D, (parse_fields_reordered _ _ F), (attrs_reordered _ _ _ _ F P).
    rewrite (check_perm _ _ _ P). reflexivity.
  Qed.

  (** C61: the order of the attributes on an item, and how they are spread over [#[sval(..)]]
      lists, do not matter; nor do the attributes of others. *)
  Theorem C61_order : forall d e, reordered_def d e -> derive_raw d = derive_raw e.
  Proof.
    intros d e H. unfold AttrModel.derive_raw. f_equal. enough (parse_def d = parse_def e) as -> by reflexivity.
    destruct H as [name a b fs gs R F|name a b vs ws R F|name]; [| |reflexivity]; cbn [AttrModel.parse_def];
      destruct (reordered_items _ _ R) as [-> ->]; destruct R as (_ & _ & P).
    - rewrite (attrs_reordered _ _ _ _ F P), (parse_fields_reordered _ _ F). reflexivity.
    - rewrite (parse_all_same _ _ parse_variant_reordered _ _ F).
      assert (V : (match vs with [] => true | _ => false end) = (match ws with [] => true | _ => false end))
        by (inversion F; reflexivity). rewrite V.
      assert (E : parse_enum_attrs (match ws with [] => true | _ => false end) (items a) =
                  parse_enum_attrs (match ws with [] => true | _ => false end) (items b)).
      { unfold AttrModel.parse_enum_attrs. destruct ws; [|checked P; reflexivity].
        apply Permutation_length in P. destruct (items a), (items b); try discriminate; reflexivity. }
      rewrite E. reflexivity.
  Qed.

  (** ** Nothing unknown, nothing twice *)

  Lemma some_items ats is : sval_items ats = Some is -> parses ats /\ is = items ats.
  Proof. intros H. destruct (sval_items_spec ats) as [[E P]|[E P]]; [|congruence]. split; [exact P|congruence]. Qed.

  Ltac bind H :=
    match type of H with
    | match ?m with Some _ => _ | None => None end = Some _ => let E := fresh "E" in destruct m eqn:E; [|discriminate H]
    | (if ?m then _ else None) = Some _ => let E := fresh "E" in destruct m eqn:E; [|discriminate H]
    end.

  Lemma checked_proper p ats al : parses ats -> check al (items ats) = true -> incl al (allowed p) -> proper (p, ats).
  Proof.
    intros P C I. apply check_spec in C. destruct C as [F N]. repeat split; [exact P|exact N|].
    cbn [fst snd]. eapply Forall_impl; [|exact F]. intros i H. apply I. exact H.
  Qed.
  Lemma empty_proper p ats : parses ats -> ensure_empty (items ats) = true -> proper (p, ats).
  Proof.
    intros P E. unfold proper. cbn [fst snd]. destruct (items ats); [|discriminate]. repeat split; [exact P|constructor|constructor].
  Qed.

  Lemma struct_proper fs ats a : parses ats -> parse_attrs fs (items ats) = Some a -> proper (struct_place fs, ats).
  Proof.
    intros P H. unfold AttrModel.parse_attrs in H.
    destruct fs as [|fs|[|f [|f' fs]]]; bind H; (eapply checked_proper; [exact P|exact E|]); apply incl_refl.
  Qed.
  Lemma variant_proper fs ats a : parses ats ->
    check [bs "tag"; bs "label"; bs "index"; bs "unlabeled_fields"; bs "unindexed_fields"] (items ats) = true ->
    parse_attrs fs (items ats) = Some a -> proper (variant_place fs, ats).
  Proof.
    intros P C H. pose proof (struct_proper _ _ _ P H) as (_ & N & F). unfold proper. cbn [fst snd] in *.
    apply check_spec in C. destruct C as [F' _]. repeat split; [exact P|exact N|].
    rewrite Forall_forall in *. intros i I. specialize (F i I). specialize (F' i I). clear - F F'. destruct i as [k e]. cbn [fst] in *.
    destruct fs as [|fs|[|f [|f' fs]]]; try exact F. cbn [struct_place variant_place allowed] in *.
    destruct F as [<-|[<-|[<-|[<-|[]]]]]; try (cbn; tauto).
    exfalso. destruct F' as [F'|[F'|[F'|[F'|[F'|[]]]]]]; vm_compute in F'; discriminate F'.
  Qed.
  Lemma parse_all_Forall {A B} (p : A -> option B) (Q : A -> Prop) : (forall a b, p a = Some b -> Q a) ->
    forall l m, parse_all p l = Some m -> Forall Q l.
  Proof.
    intros H l. induction l as [|a l IH]; intros m E; [constructor|]. cbn [parse_all] in E. bind E. bind E.
    constructor; eauto.
  Qed.
  Lemma field_proper f g : parse_field f = Some g -> proper (PField, rf_attrs f).
  Proof.
    intros H. unfold AttrModel.parse_field in H. bind H. apply some_items in E. destruct E as [P ->]. bind H.
    eapply checked_proper; [exact P|exact E|apply incl_refl].
  Qed.
  Lemma newtype_field_proper f g : parse_newtype_field f = Some g -> proper (PNewtypeField, rf_attrs f).
  Proof.
    intros H. unfold parse_newtype_field in H. bind H. apply some_items in E. destruct E as [P ->]. bind H.
    eapply empty_proper; [exact P|exact E].
  Qed.
  Lemma fields_proper fs g : parse_fields fs = Some g -> Forall proper (field_places fs).
  Proof.
    assert (A : forall l m, parse_all parse_field l = Some m -> Forall proper (map (fun f => (PField, rf_attrs f)) l)).
    { intros l m H. rewrite Forall_map. eapply parse_all_Forall; [|exact H]. exact field_proper. }
    intros H. destruct fs as [|fs|[|f [|f' fs]]]; cbn [AttrModel.parse_fields] in H; cbn [field_places].
    - constructor.
    - destruct (parse_all parse_field fs) eqn:E; [|discriminate]. eapply A. exact E.
    - constructor.
    - destruct (parse_newtype_field f) eqn:E; [|discriminate]. constructor; [|constructor]. eapply newtype_field_proper. exact E.
    - destruct (parse_all parse_field (f :: f' :: fs)) eqn:E; [|discriminate]. eapply A. exact E.
  Qed.
  Lemma variant_places_proper v g : parse_variant v = Some g ->
    Forall proper ((variant_place (rv_fields v), rv_attrs v) :: field_places (rv_fields v)).
  Proof.
    intros H. unfold AttrModel.parse_variant in H. bind H. apply some_items in E. destruct E as [P ->]. bind H. bind H. bind H.
    constructor; [eapply variant_proper; eassumption|eapply fields_proper; eassumption].
  Qed.

  (** C61: a definition that compiles has, in every place, only attributes that are known there, and none of them twice. *)
  Theorem C61_only_known_once : forall d im, derive_raw d = Some im -> Forall proper (places d).
  Proof.
    intros d im H. unfold AttrModel.derive_raw in H. bind H. clear H. destruct d as [name ats fs|name ats vs|name]; cbn [AttrModel.parse_def] in E.
    - bind E. apply some_items in E0. destruct E0 as [P ->]. bind E. bind E. cbn [places].
      constructor; [eapply struct_proper; eassumption|eapply fields_proper; eassumption].
    - bind E. apply some_items in E0. destruct E0 as [P ->]. bind E. bind E. cbn [places]. constructor.
      + unfold AttrModel.parse_enum_attrs in E0. destruct vs; bind E0; [eapply empty_proper; eassumption|].
        eapply checked_proper; [exact P|exact E2|apply incl_refl].
      + rewrite Forall_flat_map. eapply parse_all_Forall; [|exact E1]. exact variant_places_proper.
    - discriminate.
  Qed.

  (** ** Values *)

  Lemma get_some {A} (read : expr -> option A) k is o : NoDup (map fst is) -> get read k is = Some o ->
    forall e, In (k, e) is -> exists a, read e = Some a /\ o = Some a.
  Proof.
    intros N H e I. apply find_item_In in I; [|exact N]. unfold get in H. rewrite I in H.
    destruct (read e) as [a|]; [|discriminate]. exists a. split; [reflexivity|congruence].
  Qed.
  Lemma tag_kind e t : read_tag path_ok tag_at e = Some t -> (exists s, e = ELit (LStr s)) \/ (exists p, e = EPath p).
  Proof. destruct e as [[]| | |]; try discriminate; intros _; [left|right]; eexists; reflexivity. Qed.
  Lemma label_kind e t : read_label label_at e = Some t -> (exists s, e = ELit (LStr s)) \/ (exists p, e = EPath p).
  Proof. destruct e as [[]| | |]; try discriminate; intros _; [left|right]; eexists; reflexivity. Qed.
  Lemma index_kind e t : read_index index_at e = Some t ->
    (exists n, e = ELit (LInt n)) \/ (exists n, e = ENeg (ELit (LInt n))) \/ (exists p, e = EPath p).
  Proof.
    unfold read_index. destruct e as [[]| |[[]| | |]|]; try discriminate; intros _; eauto.
  Qed.
  Lemma flag_kind e t : read_flag e = Some t -> exists b, e = ELit (LBool b).
  Proof. destruct e as [[]| | |]; try discriminate; eauto. Qed.

  Ltac kinds :=
    repeat match goal with
    | H : get _ ?k ?is = Some _, N : NoDup (map fst ?is) |- _ =>
        let G := fresh "G" in pose proof (get_some _ _ _ _ N H) as G; clear H
    end.
  Ltac kind_of_value :=
    match goal with
    | I : In (?k, ?e) ?is, G : forall e, In (?k, e) ?is -> _ |- _ =>
        let R := fresh "R" in destruct (G _ I) as (? & R & _); unfold value_kind;
        match goal with |- context [existsb ?f ?l] => let b := eval vm_compute in (existsb f l) in replace (existsb f l) with b by reflexivity end;
        cbv iota;
        try match goal with |- context [bytes_eqb ?x ?y] => let b := eval vm_compute in (bytes_eqb x y) in replace (bytes_eqb x y) with b by reflexivity end;
        cbv iota;
        first [exact (tag_kind _ _ R)|exact (label_kind _ _ R)|exact (index_kind _ _ R)|exact (flag_kind _ _ R)]
    end.
  Ltac all_kinds C :=
    let F := fresh "F" in let N := fresh "N" in
    apply check_spec in C; destruct C as [F N]; kinds; rewrite Forall_forall in *;
    intros [k e] I; specialize (F _ I); cbn [fst snd] in *;
    repeat (destruct F as [<-|F]; [kind_of_value|]); contradiction F.

  Definition kinds_ok (pa : place * list attribute) : Prop :=
    Forall (fun i => value_kind (fst i) (snd i)) (items (snd pa)).

  Lemma attrs_kinds p fs ats a : parse_attrs fs (items ats) = Some a -> kinds_ok (p, ats).
  Proof.
    intros H. unfold AttrModel.parse_attrs in H. unfold kinds_ok. cbn [snd].
    destruct fs as [|fs|[|f [|f' fs]]]; repeat bind H; all_kinds E.
  Qed.
  Lemma enum_kinds p void ats a : parse_enum_attrs void (items ats) = Some a -> kinds_ok (p, ats).
  Proof.
    intros H. unfold AttrModel.parse_enum_attrs in H. unfold kinds_ok. cbn [snd]. destruct void; repeat bind H.
    - destruct (items ats); [constructor|discriminate].
    - all_kinds E.
  Qed.
  Lemma field_kinds f g : parse_field f = Some g -> ~ skipped (rf_attrs f) -> kinds_ok (PField, rf_attrs f).
  Proof.
    intros H S. unfold AttrModel.parse_field in H. bind H. apply some_items in E. destruct E as [_ ->]. bind H. bind H.
    destruct (flag o) eqn:FL.
    - exfalso. apply S. apply check_spec in E. destruct E as [_ N]. unfold get in E0.
      destruct (find_item (bs "skip") (items (rf_attrs f))) eqn:FI; [|injection E0 as <-; discriminate].
      apply find_item_In in FI; [|exact N]. destruct (read_flag e) eqn:RF; [|discriminate].
      injection E0 as <-. cbn in FL. subst b. unfold skipped. destruct e as [[]| | |]; try discriminate. injection RF as ->. exact FI.
    - repeat bind H. unfold kinds_ok. cbn [snd]. all_kinds E.
  Qed.
  Lemma newtype_field_kinds f g : parse_newtype_field f = Some g -> kinds_ok (PNewtypeField, rf_attrs f).
  Proof.
    intros H. unfold parse_newtype_field in H. bind H. apply some_items in E. destruct E as [_ ->]. bind H.
    unfold kinds_ok. cbn [snd]. destruct (items (rf_attrs f)); [constructor|discriminate].
  Qed.
  Definition kinds_unless_skipped (pa : place * list attribute) : Prop :=
    ~ (fst pa = PField /\ skipped (snd pa)) -> kinds_ok pa.
  Lemma fields_kinds fs g : parse_fields fs = Some g -> Forall kinds_unless_skipped (field_places fs).
  Proof.
    assert (A : forall l m, parse_all parse_field l = Some m -> Forall kinds_unless_skipped (map (fun f => (PField, rf_attrs f)) l)).
    { intros l m H. rewrite Forall_map. eapply parse_all_Forall; [|exact H].
      intros f h E N. eapply field_kinds; [exact E|]. intros S. apply N. split; [reflexivity|exact S]. }
    intros H. destruct fs as [|fs|[|f [|f' fs]]]; cbn [AttrModel.parse_fields] in H; cbn [field_places].
    - constructor.
    - destruct (parse_all parse_field fs) eqn:E; [|discriminate]. eapply A. exact E.
    - constructor.
    - destruct (parse_newtype_field f) eqn:E; [|discriminate]. constructor; [|constructor]. intros _. eapply newtype_field_kinds. exact E.
    - destruct (parse_all parse_field (f :: f' :: fs)) eqn:E; [|discriminate]. eapply A. exact E.
  Qed.

  (** C61: a definition that compiles gives every attribute a value of its kind... *)
  Definition C61_value_kinds : Prop := forall d im, derive_raw d = Some im ->
    forall p ats, In (p, ats) (places d) -> forall k e, In (k, e) (items ats) -> value_kind k e.
  (** ... but the other attributes of a skipped field are not looked at. *)
  Theorem C61_value_kinds_refuted : ~ C61_value_kinds.
  Proof.
    intros H.
    specialize (H (RStruct (bs "S") [] (RFNamed [MkRawField (Some (bs "a")) [sval [(bs "skip", None); (bs "label", Some (ELit (LInt 1)))]]]))
      _ eq_refl PField _ (or_intror (or_introl eq_refl)) (bs "label") (ELit (LInt 1)) (or_intror (or_introl eq_refl))).
    unfold value_kind in H. cbn in H. destruct H as [[s H]|[p H]]; discriminate.
  Qed.
  Theorem C61_value_kinds_partial : forall d im, derive_raw d = Some im ->
    forall p ats, In (p, ats) (places d) -> ~ (p = PField /\ skipped ats) ->
    forall k e, In (k, e) (items ats) -> value_kind k e.
  Proof.
    intros d im H. enough (A : Forall kinds_unless_skipped (places d)).
    { intros p ats I N k e J. rewrite Forall_forall in A. specialize (A _ I N). unfold kinds_ok in A.
      rewrite Forall_forall in A. exact (A _ J). }
    unfold AttrModel.derive_raw in H. bind H. clear H. destruct d as [name ats fs|name ats vs|name]; cbn [AttrModel.parse_def] in E.
    - bind E. apply some_items in E0. destruct E0 as [P ->]. bind E. bind E. cbn [places].
      constructor; [intros _; eapply attrs_kinds; eassumption|eapply fields_kinds; eassumption].
    - bind E. apply some_items in E0. destruct E0 as [P ->]. bind E. bind E. cbn [places]. constructor.
      + intros _. eapply enum_kinds. eassumption.
      + rewrite Forall_flat_map. eapply parse_all_Forall; [|exact E1]. intros v w H.
        unfold AttrModel.parse_variant in H. bind H. apply some_items in E2. destruct E2 as [_ ->]. bind H. bind H. bind H.
        constructor; [intros _; eapply attrs_kinds; eassumption|eapply fields_kinds; eassumption].
    - discriminate.
  Qed.

  (** ** Index literals *)

  Lemma read_written z : fits isize z = true -> z <> (-9223372036854775808)%Z ->
    try_index index_at (written z) = Some (Some (IConst z)).
  Proof.
    intros F N. unfold fits in F. apply andb_prop in F. destruct F as [F1 F2]. apply Z.leb_le in F1. apply Z.leb_le in F2.
    cbn in F1, F2. unfold written. destruct (Z.ltb_spec z 0); cbn [try_index const_from_lit].
    - rewrite Z2N.id by lia. assert (B : fits isize (- z) = true).
      { unfold fits. apply andb_true_intro. split; apply Z.leb_le; cbn; lia. }
      rewrite B. cbn [option_map]. rewrite Z.opp_involutive. reflexivity.
    - rewrite Z2N.id by lia. assert (B : fits isize z = true).
      { unfold fits. apply andb_true_intro. split; apply Z.leb_le; cbn; lia. }
      rewrite B. reflexivity.
  Qed.
  (** C61: any [isize] can be written as an index... *)
  Definition C61_index_literals : Prop := forall name z, fits isize z = true ->
    exists im, derive_raw (RStruct name [sval [(bs "index", Some (written z))]] RFUnit) = Some im /\
      im_arms im = [ATag None (Some (quote_ident name)) (Some (MExplicit (XLit z)))].
  (** ... but the least one. *)
  Theorem C61_index_literals_refuted : ~ C61_index_literals.
  Proof. intros H. destruct (H (bs "S") (-9223372036854775808)%Z eq_refl) as (im & E & _). vm_compute in E. discriminate. Qed.
  Theorem C61_index_literals_partial : forall name z, fits isize z = true -> z <> (-9223372036854775808)%Z ->
    exists im, derive_raw (RStruct name [sval [(bs "index", Some (written z))]] RFUnit) = Some im /\
      im_arms im = [ATag None (Some (quote_ident name)) (Some (MExplicit (XLit z)))].
  Proof.
    intros name z F N. eexists.
    assert (R : read_index index_at (written z) = Some (IConst z))
      by (unfold read_index; rewrite (read_written z F N); reflexivity).
    remember (written z) as e eqn:W. clear W.
    split; [|shelve]. unfold AttrModel.derive_raw. cbn [AttrModel.parse_def].
    match goal with |- context [sval_items ?x] => change (sval_items x) with (Some [(bs "index", e)]) end. cbv iota beta.
    unfold AttrModel.parse_attrs.
    replace (check _ _) with true by reflexivity. cbv iota.
    change (get ?r (bs "tag") _) with (@Some (option tag) None).
    change (get (read_label label_at) (bs "label") _) with (@Some (option label_value) None).
    unfold get. change (find_item (bs "index") _) with (Some e). cbv iota beta. rewrite R. reflexivity.
    Unshelve. reflexivity.
  Qed.

  (** C61: constants of the program can be given for all three, and a path in quotes for the
      tag; what is not given is the default. *)
  Definition given {A} (k : bytes) (e : A -> expr) (o : option A) : list (bytes * option expr) :=
    match o with Some a => [(k, Some (e a))] | None => [] end.
  Theorem C61_paths : forall name t quoted l i, (forall p, t = Some p -> quoted = true -> path_ok p = true) ->
    exists im, derive_raw (RStruct name [sval (
        given (bs "tag") (fun p => if quoted : bool then ELit (LStr p) else EPath p) t ++
        given (bs "label") EPath l ++ given (bs "index") EPath i)] RFUnit) = Some im /\
      im_arms im = [ATag (option_map tag_at t)
        (Some (match l with Some p => label_at p | None => quote_ident name end))
        (option_map (fun p => MExplicit (XPath (index_at p))) i)].
  Proof.
    intros name t quoted l i Q. unfold AttrModel.derive_raw. cbn [AttrModel.parse_def].
    destruct t as [t|]; [|clear Q; destruct l as [l|], i as [i|]; eexists; split; reflexivity].
    destruct quoted; [|clear Q; destruct l as [l|], i as [i|]; eexists; split; reflexivity].
    specialize (Q t eq_refl eq_refl).
    destruct l as [l|], i as [i|]; cbn -[bs]; unfold AttrModel.parse_attrs, get; cbn; rewrite Q; eexists; split; reflexivity.
  Qed.

  (** C61: and so it is for discriminants, where the greatest is refused as well. *)
  Theorem C61_discriminant_literals : forall name variant z, fits isize z = true ->
    (derive_raw (REnum name [] [MkRawVariant variant [] (Some (written z, z)) RFUnit]) = None <->
     z = (-9223372036854775808)%Z \/ z = 9223372036854775807%Z).
  Proof.
    intros name variant z F. destruct (Z.eq_dec z (-9223372036854775808)) as [->|N].
    { split; [left; reflexivity|]. intros _. reflexivity. }
    unfold AttrModel.derive_raw. cbn [AttrModel.parse_def parse_all]. unfold AttrModel.parse_variant, AttrModel.parse_attrs.
    cbn [rv_attrs rv_fields rv_name rv_disc sval_items option_map AttrModel.parse_fields].
    unfold parse_disc. cbn [fst snd]. rewrite (read_written z F N).
    cbn -[fits Z.add]. destruct (fits isize (z + 1)) eqn:G.
    - split; [discriminate|]. intros [->| ->]; [congruence|]. vm_compute in G. discriminate.
    - split; [intros _; right|reflexivity].
      unfold fits in F, G. apply andb_prop in F. destruct F as [F1 F2]. apply Z.leb_le in F1. apply Z.leb_le in F2.
      cbn in F1, F2. apply andb_false_iff in G. rewrite !Z.leb_gt in G. cbn in G. lia.
  Qed.

  (** ** What is written is what is used *)

  Lemma get_label is o s : NoDup (map fst is) -> get (read_label label_at) (bs "label") is = Some o ->
    In (bs "label", ELit (LStr s)) is -> o = Some (LConst s).
  Proof. intros N G I. destruct (get_some _ _ _ _ N G _ I) as (a & [= <-] & ->). reflexivity. Qed.
  Lemma get_flag k ats o : NoDup (map fst (items ats)) -> get read_flag k (items ats) = Some o ->
    flag o = true -> says k ats.
  Proof.
    intros N G F. unfold get in G. destruct (find_item k (items ats)) eqn:FI; [|injection G as <-; discriminate].
    apply find_item_In in FI; [|exact N]. destruct (read_flag e) eqn:RF; [|discriminate].
    injection G as <-. cbn in F. subst b. unfold says. destruct e as [[]| | |]; try discriminate. injection RF as ->. exact FI.
  Qed.
  Lemma unset k ats o : NoDup (map fst (items ats)) -> get read_flag k (items ats) = Some o ->
    ~ says k ats -> flag o = false.
  Proof. intros N G S. destruct (flag o) eqn:F; [|reflexivity]. exfalso. apply S. eapply get_flag; eassumption. Qed.

  Lemma attrs_label fs ats a s : parse_attrs fs (items ats) = Some a ->
    In (bs "label", ELit (LStr s)) (items ats) -> at_label a = Some (LConst s).
  Proof.
    intros H I. unfold AttrModel.parse_attrs in H.
    destruct fs as [|fs|[|f [|f' fs]]]; repeat bind H; injection H as <-; cbn [at_label];
      apply check_spec in E; destruct E as [_ N]; eapply get_label; eassumption.
  Qed.

  (** The arms of an enum, one for each variant. *)
  Lemma loop_arms ea vs : forall al arms, variant_loop ea al vs = Some arms ->
    forall n v, nth_error vs n = Some v -> exists al' a al'', variant_iter ea al' v = Some (a, al'') /\ nth_error arms n = Some a.
  Proof.
    induction vs as [|v vs IH]; intros al arms H n w I; [destruct n; discriminate|]. cbn [variant_loop] in H.
    destruct (variant_iter ea al v) as [[a al1]|] eqn:E; [|discriminate].
    destruct (variant_loop ea al1 vs) as [as_|] eqn:L; [|discriminate]. injection H as <-.
    destruct n as [|n]; cbn [nth_error] in *; [injection I as <-; eauto|]. eapply IH; eassumption.
  Qed.
  Lemma parse_all_nth {A B} (p : A -> option B) : forall l m, parse_all p l = Some m ->
    forall n a, nth_error l n = Some a -> exists b, p a = Some b /\ nth_error m n = Some b.
  Proof.
    induction l as [|x l IH]; intros m H n a I; [destruct n; discriminate|]. cbn [parse_all] in H. bind H. bind H. injection H as <-.
    destruct n as [|n]; cbn [nth_error] in *; [injection I as <-; eauto|]. eapply IH; [reflexivity|exact I].
  Qed.
  Lemma iter_label ea al v a al' s : variant_iter ea al v = Some (a, al') ->
    at_label (vd_attrs v) = Some (LConst s) -> flag (ea_dynamic ea) = false -> flag (ea_unlabeled ea) = false ->
    arm_label a = Some (label_new s).
  Proof.
    intros H L D U. unfold variant_iter in H. unfold variant_label, unit_variant_label in H.
    rewrite L, D, U in H. cbn [orb label_or_ident quote_explicit] in H.
    destruct (negb _); [discriminate|]. destruct (disc_value _); [|discriminate].
    destruct (variant_index _ _ _ _) as [[i al1]|]; [|discriminate].
    assert (S : forall k fs b1 b2 x, stream_record_tuple k fs (at_tag (vd_attrs v)) (Some (label_new s)) i b1 b2 = Some x ->
                arm_label x = Some (label_new s)).
    { intros k fs b1 b2 x HS. unfold stream_record_tuple in HS. destruct (field_loop _ _ _ _ _); [|discriminate].
      destruct (_ && _); [|discriminate]. injection HS as <-. reflexivity. }
    match type of H with match ?x with _ => _ end = _ => destruct x as [x0|] eqn:X; [|discriminate] end.
    injection H as -> _. destruct (vd_fields v) as [|fs|[|f [|f' fs]]].
    - destruct (unit_attrs _); [|discriminate]. injection X as <-. reflexivity.
    - eapply S. exact X.
    - eapply S. exact X.
    - destruct (_ && _); [|discriminate]. injection X as <-. reflexivity.
    - eapply S. exact X.
  Qed.

  (** C61: the label written on a variant is the one it is streamed with... *)
  Definition C61_variant_labels : Prop := forall name ats vs im, derive_raw (REnum name ats vs) = Some im ->
    forall n v s, nth_error vs n = Some v -> In (bs "label", ELit (LStr s)) (items (rv_attrs v)) ->
    exists a, nth_error (im_arms im) n = Some a /\ arm_label a = Some (label_new s).
  (** ... but for variants of a dynamic enum, and under [unlabeled_variants], where it is
      accepted and not used. *)
  Definition labelled_newtype : raw_variant :=
    MkRawVariant (bs "A") [sval [(bs "label", Some (ELit (LStr (bs "a"))))]] None (RFUnnamed [MkRawField None []]).
  Theorem C61_variant_labels_refuted : ~ C61_variant_labels.
  Proof.
    intros H. destruct (H (bs "E") [sval [(bs "dynamic", None)]] [labelled_newtype] _ eq_refl 0 _ (bs "a") eq_refl (or_introl eq_refl))
      as (a & E & L). cbn in E. injection E as <-. discriminate.
  Qed.
  Theorem C61_variant_labels_unlabeled : exists im,
    derive_raw (REnum (bs "E") [sval [(bs "unlabeled_variants", None)]] [labelled_newtype]) = Some im /\
    map arm_label (im_arms im) = [None].
  Proof. eexists. split; reflexivity. Qed.
  Theorem C61_variant_labels_partial : forall name ats vs im, derive_raw (REnum name ats vs) = Some im ->
    ~ says (bs "dynamic") ats -> ~ says (bs "unlabeled_variants") ats ->
    forall n v s, nth_error vs n = Some v -> In (bs "label", ELit (LStr s)) (items (rv_attrs v)) ->
    exists a, nth_error (im_arms im) n = Some a /\ arm_label a = Some (label_new s).
  Proof.
    intros name ats vs im H ND NU n v s I L. unfold AttrModel.derive_raw in H. cbn [AttrModel.parse_def] in H.
    destruct (sval_items ats) as [is|] eqn:SI; [|discriminate]. apply some_items in SI. destruct SI as [_ ->].
    destruct (parse_enum_attrs _ (items ats)) as [ea|] eqn:EA; [|discriminate].
    destruct (parse_all parse_variant vs) as [ws|] eqn:PV; [|discriminate]. cbn [derive] in H.
    destruct (parse_all_nth _ _ _ PV _ _ I) as (w & PW & NW).
    destruct vs as [|v0 vs]; [destruct n; discriminate|]. destruct ws as [|w0 ws]; [destruct n; discriminate|].
    unfold derive_enum in H. destruct (enum_attrs_ok ea); [|discriminate].
    destruct (variant_loop ea alloc_new (w0 :: ws)) as [arms|] eqn:VL; [|discriminate].
    unfold AttrModel.parse_enum_attrs in EA. repeat bind EA. injection EA as <-.
    apply check_spec in E. destruct E as [_ N]. cbn [ea_dynamic] in H.
    rewrite (unset _ _ _ N E5 ND) in H. injection H as <-. cbn [im_arms].
    destruct (loop_arms _ _ _ _ VL _ _ NW) as (al & a & al' & VI & NA). exists a. split; [exact NA|].
    eapply iter_label; [exact VI| | |].
    - unfold AttrModel.parse_variant in PW. bind PW. apply some_items in E. destruct E as [_ ->]. bind PW. bind PW. bind PW.
      injection PW as <-. cbn [vd_attrs]. eapply attrs_label; eassumption.
    - cbn [ea_dynamic]. eapply unset; eassumption.
    - cbn [ea_unlabeled]. eapply unset; eassumption.
  Qed.

  Lemma field_loop_body unl uni fs : forall lo n lo', field_loop unl uni lo n fs = Some lo' ->
    (forall s, In s (lo_body lo) -> In s (lo_body lo')) /\
    forall m f, nth_error fs m = Some f -> flag (fd_skip f) = false -> flag (fd_flatten f) = false ->
      exists k l i, In (SField k (fd_tag f) l i (fd_data_tag f) (n + m)) (lo_body lo') /\
        (fd_name f <> None -> unl && uni = false -> In k [FRecTup; FTuple; FRecord]).
  Proof.
    induction fs as [|f fs IH]; intros lo n lo' H; cbn [field_loop] in H.
    { injection H as <-. split; [auto|]. intros [|]; discriminate. }
    destruct (field_iter unl uni lo n f) as [lo1|] eqn:E; [|discriminate].
    destruct (IH _ _ _ H) as (K & P).
    unfold field_iter in E. split.
    - intros s I. apply K. destruct (flag (fd_skip f)); [injection E as <-; exact I|].
      do 2 match type of E with (if ?c then None else _) = _ => destruct c; [discriminate|] end.
      match type of E with match ?x with _ => _ end = _ => destruct x as [[ix al]|]; [|discriminate] end.
      injection E as <-. cbn [lo_body]. apply in_or_app. left. exact I.
    - intros [|m] g I S F; cbn [nth_error] in I.
      + injection I as <-. rewrite S in E. rewrite F in E. rewrite Nat.add_0_r.
        do 2 match type of E with (if ?c then None else _) = _ => destruct c; [discriminate|] end.
        match type of E with match ?x with _ => _ end = _ => destruct x as [[ix al]|] eqn:X; [|discriminate] end.
        injection E as <-. cbn [lo_body] in K.
        eexists _, _, _. split; [apply K; apply in_or_app; right; left; reflexivity|].
        intros Nm B. destruct unl.
        * destruct uni; [discriminate|]. destruct (next_computed_index (lo_alloc lo) (fd_index f)) as [[]|]; [|discriminate].
          injection X as <- _. cbn. tauto.
        * destruct (fd_name f) as [nm|]; [|congruence].
          destruct (fd_label f); cbn; destruct ix; tauto.
      + rewrite <- Nat.add_succ_comm. eapply P; eassumption.
  Qed.

  (** C61: a tag written on a field is the one its value is streamed with... *)
  Definition C61_field_tags : Prop := forall name ats fs im, derive_raw (RStruct name ats (RFNamed fs)) = Some im ->
    forall n f p, nth_error fs n = Some f -> rf_name f <> None ->
    In (bs "tag", EPath p) (items (rf_attrs f)) -> ~ skipped (rf_attrs f) ->
    exists a, im_arms im = [a] /\ tags_field (tag_at p) n a.
  (** ... unless the field is flattened, or the fields have neither labels nor indexes. *)
  Theorem C61_field_tags_refuted : ~ C61_field_tags.
  Proof.
    intros H. set (f := MkRawField (Some (bs "a")) [sval [(bs "flatten", None); (bs "tag", Some (EPath (bs "T")))]]).
    assert (N1 : rf_name f <> None) by (intros E; discriminate E).
    assert (N2 : ~ skipped (rf_attrs f)) by (intros [S|[S|[]]]; vm_compute in S; discriminate S).
    destruct (H (bs "S") [] [f] _ eq_refl 0 f (bs "T") eq_refl N1 (or_intror (or_introl eq_refl)) N2) as (a & E & L).
    cbn in E. injection E as <-. destruct L as (? & ? & ? & ? & [L|[]] & _). discriminate.
  Qed.
  Theorem C61_field_tags_sequence : exists im,
    derive_raw (RStruct (bs "S") [sval [(bs "unlabeled_fields", None); (bs "unindexed_fields", None)]]
      (RFNamed [MkRawField (Some (bs "a")) [sval [(bs "tag", Some (EPath (bs "T")))]]])) = Some im /\
    forall a, In a (im_arms im) -> ~ tags_field (tag_at (bs "T")) 0 a.
  Proof.
    eexists. split; [reflexivity|]. intros a [<-|[]] (k & l & i & d & [E|[]] & K). injection E as <- <- <- <-.
    destruct K as [K|[K|[K|[]]]]; discriminate.
  Qed.
  Theorem C61_field_tags_partial : forall name ats fs im, derive_raw (RStruct name ats (RFNamed fs)) = Some im ->
    ~ (says (bs "unlabeled_fields") ats /\ says (bs "unindexed_fields") ats) ->
    forall n f p, nth_error fs n = Some f -> rf_name f <> None ->
    In (bs "tag", EPath p) (items (rf_attrs f)) -> ~ skipped (rf_attrs f) -> ~ says (bs "flatten") (rf_attrs f) ->
    exists a, im_arms im = [a] /\ tags_field (tag_at p) n a.
  Proof.
    intros name ats fs im H NB n f p I Nm T NS NF. unfold AttrModel.derive_raw in H. cbn [AttrModel.parse_def AttrModel.parse_fields] in H.
    destruct (sval_items ats) as [is|] eqn:SI; [|discriminate]. apply some_items in SI. destruct SI as [_ ->].
    destruct (parse_attrs _ (items ats)) as [a|] eqn:EA; [|discriminate].
    destruct (parse_all parse_field fs) as [gs|] eqn:PF; [|discriminate]. cbn [option_map derive] in H.
    destruct (parse_all_nth _ _ _ PF _ _ I) as (g & PG & NG).
    unfold derive_struct in H. destruct (struct_attrs a); [|discriminate].
    destruct (stream_record_tuple _ _ _ _ _ _ _) as [arm|] eqn:SR; [|discriminate]. injection H as <-. cbn [im_arms].
    exists arm. split; [reflexivity|]. unfold stream_record_tuple in SR.
    destruct (field_loop _ _ _ _ _) as [lo|] eqn:FL; [|discriminate]. destruct (_ && _); [|discriminate].
    injection SR as <-. cbn [tags_field].
    unfold AttrModel.parse_field in PG. bind PG. apply some_items in E. destruct E as [_ ->]. bind PG. bind PG.
    apply check_spec in E. destruct E as [_ N]. rewrite (unset _ _ _ N E0 NS) in PG. repeat bind PG. injection PG as <-.
    destruct (field_loop_body _ _ _ _ _ _ FL) as [_ B].
    destruct (B n _ NG) as (k & l & i & J & K); [cbn [fd_skip]; eapply unset; eassumption|cbn [fd_flatten]; eapply unset; eassumption|].
    cbn [fd_tag fd_data_tag fd_name] in J, K.
    destruct (get_some _ _ _ _ N E _ T) as (t & [= <-] & ->). exists k, l, i. eexists. split; [exact J|].
    apply K; [exact Nm|]. unfold AttrModel.parse_attrs in EA. repeat bind EA. injection EA as <-. cbn [at_unlabeled at_unindexed].
    apply check_spec in E5. destruct E5 as [_ N']. destruct (flag o7) eqn:F1; [|reflexivity]. destruct (flag o8) eqn:F2; [|reflexivity].
    exfalso. apply NB. split; eapply get_flag; eassumption.
  Qed.
End Attrs.

(** ** Cases *)

Definition any_tag (p : bytes) : tag := VALUE_IDENT.
Definition any_label (p : bytes) : label := label_new p.
Definition any_index (p : bytes) : index := index_new 0.
Notation derive_it := (derive_raw (fun _ => true) any_tag any_label any_index).

(** A struct with an attribute for everything, in one order and one list; and in another order and several. *)
Definition one_list : raw_def :=
  RStruct (bs "S") [sval [(bs "label", Some (ELit (LStr (bs "s")))); (bs "index", Some (written (-3))); (bs "tag", Some (EPath (bs "T")))]]
    (RFNamed [MkRawField (Some (bs "a")) [sval [(bs "tag", Some (ELit (LStr (bs "T")))); (bs "data_tag", Some (EPath (bs "T"))); (bs "index", Some (written 7))]];
              MkRawField (Some (bs "b")) [sval [(bs "skip", None)]]]).
Definition many_lists : raw_def :=
  RStruct (bs "S") [sval [(bs "tag", Some (EPath (bs "T")))]; MkAttribute (bs "doc") None;
                    sval [(bs "label", Some (ELit (LStr (bs "s")))); (bs "index", Some (written (-3)))]]
    (RFNamed [MkRawField (Some (bs "a")) [sval [(bs "index", Some (written 7)); (bs "data_tag", Some (EPath (bs "T")))]; sval [(bs "tag", Some (ELit (LStr (bs "T"))))]];
              MkRawField (Some (bs "b")) [sval [(bs "skip", Some (ELit (LBool true)))]]]).
Example C61_order_example : reordered_def one_list many_lists.
Proof.
  apply ro_struct.
  - split; [|split]; [repeat constructor; discriminate|repeat constructor; discriminate|].
    cbn [items flat_map]. change (Permutation
      ([(bs "label", ELit (LStr (bs "s"))); (bs "index", written (-3))] ++ [(bs "tag", EPath (bs "T"))])
      ([(bs "tag", EPath (bs "T"))] ++ [(bs "label", ELit (LStr (bs "s"))); (bs "index", written (-3))])).
    apply Permutation_app_comm.
  - apply ro_named. constructor; [|constructor; [|constructor]]; (split; [reflexivity|]).
    + split; [|split]; [repeat constructor; discriminate|repeat constructor; discriminate|].
      change (Permutation ([(bs "tag", ELit (LStr (bs "T")))] ++ [(bs "data_tag", EPath (bs "T")); (bs "index", written 7)])
                ([(bs "index", written 7); (bs "data_tag", EPath (bs "T"))] ++ [(bs "tag", ELit (LStr (bs "T")))])).
      rewrite Permutation_app_comm. apply Permutation_app_tail. apply perm_swap.
    + split; [|split]; [repeat constructor; discriminate|repeat constructor; discriminate|]. apply Permutation_refl.
Qed.
Example C61_order_compiles : exists im, derive_it one_list = Some im /\ derive_it many_lists = Some im.
Proof. eexists. split; reflexivity. Qed.
(** Twice, in separate lists; unknown; known elsewhere. *)
Example C61_refused :
  map derive_it
    [RStruct (bs "S") [sval [(bs "tag", Some (EPath (bs "T")))]; sval [(bs "tag", Some (EPath (bs "T")))]] RFUnit;
     RStruct (bs "S") [sval [(bs "lable", Some (ELit (LStr (bs "s"))))]] RFUnit;
     RStruct (bs "S") [sval [(bs "skip", None)]] RFUnit;
     REnum (bs "E") [] [MkRawVariant (bs "A") [sval [(bs "transparent", None)]] None (RFUnnamed [MkRawField None []])];
     RStruct (bs "S") [sval [(bs "label", None)]] RFUnit;
     RUnion (bs "U")] = [None; None; None; None; None; None].
Proof. reflexivity. Qed.
Example C61_variant_labels_example : exists im, derive_it (REnum (bs "E") [] [labelled_newtype]) = Some im /\
  map arm_label (im_arms im) = [Some (label_new (bs "a"))].
Proof. eexists. split; reflexivity. Qed.

Print Assumptions C61_order.
Print Assumptions C61_only_known_once.
Print Assumptions C61_value_kinds_refuted.
Print Assumptions C61_value_kinds_partial.
Print Assumptions C61_index_literals_refuted.
Print Assumptions C61_index_literals_partial.
Print Assumptions C61_discriminant_literals.
Print Assumptions C61_variant_labels_refuted.
Print Assumptions C61_variant_labels_unlabeled.
Print Assumptions C61_variant_labels_partial.
Print Assumptions C61_field_tags_refuted.
Print Assumptions C61_field_tags_sequence.
Print Assumptions C61_field_tags_partial.
Print Assumptions C61_paths.
