(** * AttrExactProps: what a definition with attributes means, exactly (C61) *)

From Verif Require Import Base Event DataModel FlattenModel DeriveModel AttrModel AttrSpec AttrProps
  DeriveAcceptSpec DeriveAcceptProps.

(** ** Specification *)
Section Spec.
  Variable path_ok : bytes -> bool.
  Variable tag_at : bytes -> tag.
  Variable label_at : bytes -> label.
  Variable index_at : bytes -> index.

  (** What a written value stands for, for each kind of attribute. *)
  Inductive tag_means : expr -> tag -> Prop :=
  | tm_path p : tag_means (EPath p) (tag_at p)
  | tm_quoted p : path_ok p = true -> tag_means (ELit (LStr p)) (tag_at p).
  Inductive label_means : expr -> label_value -> Prop :=
  | lm_path p : label_means (EPath p) (LIdent (label_at p))
  | lm_text s : label_means (ELit (LStr s)) (LConst s).
  Inductive index_means : expr -> index_value -> Prop :=
  | im_path p : index_means (EPath p) (IIdent (index_at p))
  | im_number n : (Z.of_N n < 2 ^ 63)%Z -> index_means (ELit (LInt n)) (IConst (Z.of_N n))
  | im_negative n : (Z.of_N n < 2 ^ 63)%Z -> index_means (ENeg (ELit (LInt n))) (IConst (- Z.of_N n)).
  Inductive flag_means : expr -> bool -> Prop := fm b : flag_means (ELit (LBool b)) b.

  (** The attribute [k] is absent, or is there and stands for [a]. *)
  Definition gives {A} (means : expr -> A -> Prop) (k : string) (ats : list attribute) (o : option A) : Prop :=
    match o with
    | None => forall e, ~ In (bs k, e) (items ats)
    | Some a => exists e, In (bs k, e) (items ats) /\ means e a
    end.

  (** The attributes on a struct or a variant. *)
  Record attrs_mean (ats : list attribute) (a : attrs) : Prop := {
    am_tag : gives tag_means "tag" ats (at_tag a);
    am_label : gives label_means "label" ats (at_label a);
    am_index : gives index_means "index" ats (at_index a);
    am_unlabeled : gives flag_means "unlabeled_fields" ats (at_unlabeled a);
    am_unindexed : gives flag_means "unindexed_fields" ats (at_unindexed a);
    am_transparent : gives flag_means "transparent" ats (at_transparent a) }.
  (** On an enum. *)
  Record enum_mean (ats : list attribute) (a : enum_attrs) : Prop := {
    em_tag : gives tag_means "tag" ats (ea_tag a);
    em_label : gives label_means "label" ats (ea_label a);
    em_index : gives index_means "index" ats (ea_index a);
    em_unlabeled : gives flag_means "unlabeled_variants" ats (ea_unlabeled a);
    em_unindexed : gives flag_means "unindexed_variants" ats (ea_unindexed a);
    em_dynamic : gives flag_means "dynamic" ats (ea_dynamic a) }.
  (** On a field: a skipped one is as if nothing else was written there. *)
  Definition field_means (f : raw_field) (g : field_def) : Prop :=
    proper (PField, rf_attrs f) /\ fd_name g = rf_name f /\
    gives flag_means "skip" (rf_attrs f) (fd_skip g) /\
    (fd_skip g = Some true ->
       fd_tag g = None /\ fd_data_tag g = None /\ fd_label g = None /\ fd_index g = None /\ fd_flatten g = None) /\
    (fd_skip g <> Some true ->
       gives tag_means "tag" (rf_attrs f) (fd_tag g) /\
       gives tag_means "data_tag" (rf_attrs f) (fd_data_tag g) /\
       gives label_means "label" (rf_attrs f) (fd_label g) /\
       gives index_means "index" (rf_attrs f) (fd_index g) /\
       gives flag_means "flatten" (rf_attrs f) (fd_flatten g)).
  Inductive fields_mean : raw_fields -> fields_def -> Prop :=
  | fsm_unit : fields_mean RFUnit FsUnit
  | fsm_named fs gs : Forall2 field_means fs gs -> fields_mean (RFNamed fs) (FsNamed gs)
  | fsm_one f : proper (PNewtypeField, rf_attrs f) ->
      fields_mean (RFUnnamed [f]) (FsUnnamed [MkField (rf_name f) None None None None None None])
  | fsm_unnamed fs gs : List.length fs <> 1 -> Forall2 field_means fs gs -> fields_mean (RFUnnamed fs) (FsUnnamed gs).
  (** A discriminant is a number, a constant, or something the macro does not look into;
      any other literal is kept as the mistake it is. *)
  Inductive disc_means : option (expr * Z) -> option discriminant -> Prop :=
  | dm_none : disc_means None None
  | dm_number e z k : index_means e (IConst k) -> disc_means (Some (e, z)) (Some (DLit k))
  | dm_path p z : disc_means (Some (EPath p, z)) (Some (DPath (index_at p)))
  | dm_lit l z : (forall k, ~ index_means (ELit l) k) -> disc_means (Some (ELit l, z)) (Some (DOtherLit z))
  | dm_neg_lit l z : (forall k, ~ index_means (ENeg (ELit l)) k) -> disc_means (Some (ENeg (ELit l), z)) (Some (DOtherLit z))
  | dm_neg e z : (forall l, e <> ELit l) -> disc_means (Some (ENeg e, z)) (Some (DExpr z))
  | dm_other z : disc_means (Some (EOther, z)) (Some (DExpr z)).
  Definition variant_means (v : raw_variant) (w : variant_def) : Prop :=
    proper (variant_place (rv_fields v), rv_attrs v) /\ vd_name w = rv_name v /\
    attrs_mean (rv_attrs v) (vd_attrs w) /\ disc_means (rv_disc v) (vd_disc w) /\ fields_mean (rv_fields v) (vd_fields w).
  Inductive def_means : raw_def -> type_def -> Prop :=
  | defm_struct name ats fs a gs : proper (struct_place fs, ats) -> attrs_mean ats a -> fields_mean fs gs ->
      def_means (RStruct name ats fs) (DStruct name a gs)
  | defm_enum name ats vs a ws : proper (match vs with [] => PVoid | _ => PEnum end, ats) -> enum_mean ats a ->
      Forall2 variant_means vs ws -> def_means (REnum name ats vs) (DEnum name a ws).
End Spec.

(** ** Proofs *)
Section Proofs.
  Variable path_ok : bytes -> bool.
  Variable tag_at : bytes -> tag.
  Variable label_at : bytes -> label.
  Variable index_at : bytes -> index.
  Notation tag_means := (tag_means path_ok tag_at).
  Notation label_means := (label_means label_at).
  Notation index_means := (index_means index_at).

  Lemma read_tag_means e a : read_tag path_ok tag_at e = Some a <-> tag_means e a.
  Proof.
    split.
    - destruct e as [[s|n|b|]|p|e|]; cbn [read_tag]; try discriminate.
      + destruct (path_ok s) eqn:P; [|discriminate]. intros [= <-]. constructor. exact P.
      + intros [= <-]. constructor.
    - intros [p|p P]; cbn [read_tag]; [|rewrite P]; reflexivity.
  Qed.
  Lemma read_label_means e a : read_label label_at e = Some a <-> label_means e a.
  Proof.
    split.
    - destruct e as [[s|n|b|]|p|e|]; cbn [read_label]; try discriminate; intros [= <-]; constructor.
    - intros [p|p]; reflexivity.
  Qed.
  Lemma fits_isize_N n : fits isize (Z.of_N n) = true <-> (Z.of_N n < 2 ^ 63)%Z.
  Proof.
    unfold fits. rewrite andb_true_iff, !Z.leb_le. change (ity_min isize) with (-9223372036854775808)%Z.
    change (ity_max isize) with 9223372036854775807%Z. change (2 ^ 63)%Z with 9223372036854775808%Z. lia.
  Qed.
  Lemma try_index_means e a : try_index index_at e = Some (Some a) <-> index_means e a.
  Proof.
    split.
    - destruct e as [l|p|e|]; cbn [try_index]; try discriminate.
      + destruct l as [s|n|b|]; cbn [const_from_lit option_map]; try discriminate.
        destruct (fits isize (Z.of_N n)) eqn:F; [|discriminate]. intros [= <-]. constructor. apply fits_isize_N. exact F.
      + intros [= <-]. constructor.
      + destruct e as [l|p|e|]; try discriminate. destruct l as [s|n|b|]; cbn [const_from_lit option_map]; try discriminate.
        destruct (fits isize (Z.of_N n)) eqn:F; [|discriminate]. intros [= <-]. constructor. apply fits_isize_N. exact F.
    - intros [p|n F|n F]; cbn [try_index const_from_lit]; [reflexivity| |]; apply fits_isize_N in F; rewrite F; reflexivity.
  Qed.
  Lemma read_index_means e a : read_index index_at e = Some a <-> index_means e a.
  Proof.
    rewrite <- try_index_means. unfold read_index. destruct (try_index index_at e) as [[v|]|]; split; congruence.
  Qed.
  Lemma read_flag_means e a : read_flag e = Some a <-> flag_means e a.
  Proof.
    split.
    - destruct e as [[s|n|b|]|p|e|]; cbn [read_flag]; try discriminate; intros [= <-]; constructor.
    - intros []; reflexivity.
  Qed.

  Lemma get_gives {A} (read : expr -> option A) means k ats o : (forall e a, read e = Some a <-> means e a) ->
    NoDup (map fst (items ats)) ->
    (get read (bs k) (items ats) = Some o <-> gives means k ats o).
  Proof.
    intros R N. unfold get, gives. destruct (find_item (bs k) (items ats)) as [e|] eqn:F.
    - apply find_item_In in F; [|exact N]. destruct (read e) as [a|] eqn:E.
      + apply R in E. destruct o as [b|]; split.
        * intros [= <-]. eauto.
        * intros (e' & I & M). apply R in M. pose proof (proj2 (find_item_In _ _ _ N) I) as F'.
          rewrite (proj2 (find_item_In _ _ _ N) F) in F'. injection F' as ->. apply R in E. congruence.
        * discriminate.
        * intros H. destruct (H _ F).
      + split; [discriminate|]. destruct o as [b|].
        * intros (e' & I & M). apply R in M. pose proof (proj2 (find_item_In _ _ _ N) I) as F'.
          rewrite (proj2 (find_item_In _ _ _ N) F) in F'. injection F' as ->. congruence.
        * intros H. destruct (H _ F).
    - assert (X : forall e, ~ In (bs k, e) (items ats)).
      { intros e I. apply (find_item_In _ _ _ N) in I. congruence. }
      destruct o as [b|]; split; try discriminate; try reflexivity; auto.
      intros (e & I & _). destruct (X _ I).
  Qed.
  (** What may not be written is not. *)
  Lemma not_allowed {A} (means : expr -> A -> Prop) k p ats : proper (p, ats) -> ~ In (bs k) (allowed p) -> gives means k ats None.
  Proof.
    intros (_ & _ & F) N e I. cbn [fst snd] in F. rewrite Forall_forall in F. apply N. exact (F _ I).
  Qed.
  Lemma only_none {A} (means : expr -> A -> Prop) k p ats o : proper (p, ats) -> ~ In (bs k) (allowed p) -> gives means k ats o -> o = None.
  Proof.
    intros P N G. destruct o as [a|]; [|reflexivity]. destruct G as (e & I & _).
    destruct (@not_allowed A means k p ats P N e I).
  Qed.
  Lemma proper_check p ats : proper (p, ats) <-> parses ats /\ check (allowed p) (items ats) = true.
  Proof. rewrite check_spec. unfold proper. cbn [fst snd]. tauto. Qed.
  Lemma proper_nodup p ats : proper (p, ats) -> NoDup (map fst (items ats)).
  Proof. intros (_ & N & _). exact N. Qed.
  Lemma items_of ats is : sval_items ats = Some is <-> parses ats /\ is = items ats.
  Proof.
    destruct (sval_items_spec ats) as [[E P]|[E P]]; rewrite E; split.
    - intros [= <-]. auto.
    - intros [_ ->]. reflexivity.
    - discriminate.
    - intros [Q _]. contradiction.
  Qed.

  Ltac bind H :=
    match type of H with
    | match ?m with Some _ => _ | None => None end = Some _ => let E := fresh "E" in destruct m eqn:E; [|discriminate H]
    | (if ?m then _ else None) = Some _ => let E := fresh "E" in destruct m eqn:E; [|discriminate H]
    end.
  Ltac no_such := let I := fresh in cbn [allowed In]; intros I;
    repeat match goal with H : _ \/ _ |- _ => destruct H end; try contradiction;
    match goal with H : _ = _ |- _ => vm_compute in H; discriminate H end.
  Ltac got N :=
    repeat match goal with
    | E : get (read_tag _ _) _ _ = Some _ |- _ => apply (get_gives _ _ _ _ _ read_tag_means N) in E
    | E : get (read_label _) _ _ = Some _ |- _ => apply (get_gives _ _ _ _ _ read_label_means N) in E
    | E : get (read_index _) _ _ = Some _ |- _ => apply (get_gives _ _ _ _ _ read_index_means N) in E
    | E : get read_flag _ _ = Some _ |- _ => apply (get_gives _ _ _ _ _ read_flag_means N) in E
    end.
  Ltac back N :=
    repeat match goal with
    | E : gives tag_means _ _ _ |- _ => apply (get_gives _ _ _ _ _ read_tag_means N) in E; rewrite E; clear E
    | E : gives label_means _ _ _ |- _ => apply (get_gives _ _ _ _ _ read_label_means N) in E; rewrite E; clear E
    | E : gives index_means _ _ _ |- _ => apply (get_gives _ _ _ _ _ read_index_means N) in E; rewrite E; clear E
    | E : gives flag_means _ _ _ |- _ => apply (get_gives _ _ _ _ _ read_flag_means N) in E; rewrite E; clear E
    end.

  Lemma parse_attrs_exact fs ats a : parses ats ->
    (parse_attrs path_ok tag_at label_at index_at fs (items ats) = Some a <->
     proper (struct_place fs, ats) /\ attrs_mean path_ok tag_at label_at index_at ats a).
  Proof.
    intros P. split.
    - intros H. assert (Q : proper (struct_place fs, ats)) by (eapply struct_proper; eassumption).
      split; [exact Q|]. pose proof (proper_nodup _ _ Q) as N.
      unfold parse_attrs in H. destruct fs as [|fs|[|f [|g fs]]]; cbn [struct_place] in Q;
        repeat bind H; injection H as <-; got N; constructor;
        cbn [at_tag at_label at_index at_unlabeled at_unindexed at_transparent]; try assumption;
        (eapply not_allowed; [exact Q|no_such]).
    - intros [Q M]. pose proof (proper_nodup _ _ Q) as N. pose proof Q as Q'. apply proper_check in Q'. destruct Q' as [_ C].
      destruct a as [t l i ul ui x]. destruct M as [M1 M2 M3 M4 M5 M6]. cbn in M1, M2, M3, M4, M5, M6.
      unfold parse_attrs. destruct fs as [|fs|[|f [|g fs]]]; cbn [struct_place allowed] in C; rewrite C; cbn [struct_place] in Q.
      + assert (ul = None) by (eapply only_none; [exact Q| |exact M4]; no_such).
        assert (ui = None) by (eapply only_none; [exact Q| |exact M5]; no_such).
        assert (x = None) by (eapply only_none; [exact Q| |exact M6]; no_such).
        subst. clear M4 M5 M6. back N. reflexivity.
      + assert (x = None) by (eapply only_none; [exact Q| |exact M6]; no_such). subst. clear M6. back N. reflexivity.
      + assert (x = None) by (eapply only_none; [exact Q| |exact M6]; no_such). subst. clear M6. back N. reflexivity.
      + assert (ul = None) by (eapply only_none; [exact Q| |exact M4]; no_such).
        assert (ui = None) by (eapply only_none; [exact Q| |exact M5]; no_such). subst. clear M4 M5. back N. reflexivity.
      + assert (x = None) by (eapply only_none; [exact Q| |exact M6]; no_such). subst. clear M6. back N. reflexivity.
  Qed.

  Lemma parse_enum_exact v ats a : parses ats ->
    (parse_enum_attrs path_ok tag_at label_at index_at v (items ats) = Some a <->
     proper ((if v then PVoid else PEnum), ats) /\ enum_mean path_ok tag_at label_at index_at ats a).
  Proof.
    intros P. unfold parse_enum_attrs. destruct v.
    - split.
      + intros H. bind H. injection H as <-. unfold ensure_empty in E. destruct (items ats) eqn:I; [|discriminate].
        split; [|constructor; cbn; intros e J; rewrite I in J; destruct J].
        unfold proper. cbn [fst snd]. rewrite I. repeat split; [exact P|constructor|constructor].
      + intros [Q M]. assert (I : items ats = []).
        { destruct Q as (_ & _ & F). cbn [fst snd allowed] in F. destruct (items ats) as [|i is]; [reflexivity|]. inversion F; subst. contradiction. }
        rewrite I. cbn [ensure_empty]. destruct a as [t l i ul ui d].
        destruct M as [M1 M2 M3 M4 M5 M6]. cbn in M1, M2, M3, M4, M5, M6.
        assert (X : forall B (m : expr -> B -> Prop) k o, gives m k ats o -> o = None).
        { intros B m k o G. destruct o as [b|]; [|reflexivity]. destruct G as (e & J & _). rewrite I in J. destruct J. }
        rewrite (X _ _ _ _ M1), (X _ _ _ _ M2), (X _ _ _ _ M3), (X _ _ _ _ M4), (X _ _ _ _ M5), (X _ _ _ _ M6). reflexivity.
    - split.
      + intros H. bind H. assert (Q : proper (PEnum, ats)) by (apply proper_check; auto). pose proof (proper_nodup _ _ Q) as N.
        repeat bind H. injection H as <-. got N. split; [exact Q|]. constructor; assumption.
      + intros [Q M]. pose proof (proper_nodup _ _ Q) as N. apply proper_check in Q. destruct Q as [_ C]. cbn [allowed] in C. rewrite C.
        destruct a as [t l i ul ui d]. destruct M as [M1 M2 M3 M4 M5 M6]. cbn in M1, M2, M3, M4, M5, M6. back N. reflexivity.
  Qed.

  Lemma flag_true o : flag o = true <-> o = Some true.
  Proof. destruct o as [[|]|]; cbn; split; congruence. Qed.

  Lemma parse_field_exact f g : parse_field path_ok tag_at label_at index_at f = Some g <->
    field_means path_ok tag_at label_at index_at f g.
  Proof.
    unfold parse_field, field_means. split.
    - intros H. bind H. apply items_of in E as [P ->]. bind H.
      assert (Q : proper (PField, rf_attrs f)) by (apply proper_check; auto). pose proof (proper_nodup _ _ Q) as N.
      split; [exact Q|]. bind H. rename o into s. destruct (flag s) eqn:F.
      + apply flag_true in F. subst s. injection H as <-. cbn. got N.
        split; [reflexivity|]. split; [assumption|]. split; [auto 6|congruence].
      + assert (NS : s <> Some true) by (intros X; apply flag_true in X; congruence).
        repeat bind H. injection H as <-. cbn. got N.
        split; [reflexivity|]. split; [assumption|]. split; [congruence|auto 6].
    - intros (Q & Nm & S & Y & Z). pose proof (proper_nodup _ _ Q) as N. apply proper_check in Q. destruct Q as [P C].
      rewrite (proj2 (items_of _ _) (conj P eq_refl)). cbn [allowed] in C. rewrite C.
      apply (get_gives _ _ _ _ _ read_flag_means N) in S. rewrite S.
      destruct g as [n t d l i s fl]. cbn in Nm, Y, Z. subst n. cbn [fd_skip]. destruct (flag s) eqn:F.
      + apply flag_true in F. subst s. destruct (Y eq_refl) as (-> & -> & -> & -> & ->). reflexivity.
      + assert (NS : s <> Some true) by (intros X; apply flag_true in X; congruence).
        destruct (Z NS) as (Z1 & Z2 & Z3 & Z4 & Z5). back N. reflexivity.
  Qed.
  Lemma parse_newtype_field_exact f g : parse_newtype_field f = Some g <->
    proper (PNewtypeField, rf_attrs f) /\ g = MkField (rf_name f) None None None None None None.
  Proof.
    unfold parse_newtype_field. split.
    - intros H. bind H. apply items_of in E as [P ->]. bind H. injection H as <-. split; [|reflexivity].
      eapply empty_proper; eassumption.
    - intros [Q ->]. destruct Q as (P & _ & F). cbn [fst snd allowed] in *.
      rewrite (proj2 (items_of _ _) (conj P eq_refl)).
      destruct (items (rf_attrs f)) as [|i is]; [reflexivity|]. inversion F; subst. contradiction.
  Qed.
  Lemma parse_all_exact {A B} (p : A -> option B) (R : A -> B -> Prop) : (forall a b, p a = Some b <-> R a b) ->
    forall l m, parse_all p l = Some m <-> Forall2 R l m.
  Proof.
    intros H l. induction l as [|a l IH]; intros m; cbn [parse_all].
    - split; [intros [= <-]; constructor|]. intros F. inversion F; reflexivity.
    - split.
      + intros E. bind E. bind E. injection E as <-. constructor; [apply H; assumption|apply IH; reflexivity].
      + intros F. inversion F as [|? ? ? ? X Y]; subst. apply H in X. apply IH in Y. rewrite X, Y. reflexivity.
  Qed.
  Lemma parse_fields_exact fs gs : parse_fields path_ok tag_at label_at index_at fs = Some gs <->
    fields_mean path_ok tag_at label_at index_at fs gs.
  Proof.
    pose proof (parse_all_exact _ _ parse_field_exact) as A.
    split.
    - destruct fs as [|fs|[|f [|f' fs]]]; cbn [parse_fields]; intros H.
      + injection H as <-. constructor.
      + destruct (parse_all _ _) eqn:E in H; [|discriminate]. injection H as <-. constructor. apply A. exact E.
      + destruct (parse_all _ _) eqn:E in H; [|discriminate]. injection H as <-. constructor; [discriminate|]. apply A. exact E.
      + destruct (parse_newtype_field f) eqn:E in H; [|discriminate]. injection H as <-.
        apply parse_newtype_field_exact in E as [Q ->]. constructor. exact Q.
      + destruct (parse_all _ _) eqn:E in H; [|discriminate]. injection H as <-. constructor; [discriminate|]. apply A. exact E.
    - intros [|fs' gs' F|f Q|fs' gs' L F].
      + reflexivity.
      + cbn [parse_fields]. apply A in F. rewrite F. reflexivity.
      + cbn [parse_fields]. rewrite (proj2 (parse_newtype_field_exact f _) (conj Q eq_refl)). reflexivity.
      + apply A in F. unfold parse_fields. destruct fs' as [|f [|f' fs']]; [| exfalso; apply L; reflexivity|]; rewrite F; reflexivity.
  Qed.
  Lemma index_number_not_path e i : try_index index_at e = Some (Some (IIdent i)) -> exists p, e = EPath p /\ i = index_at p.
  Proof.
    intros H. apply try_index_means in H. inversion H; subst. eauto.
  Qed.
  Lemma parse_disc_exact d d' : option_map (parse_disc index_at) d = d' <-> disc_means index_at d d'.
  Proof.
    assert (T : forall e, (try_index index_at e = None -> forall k, ~ index_means e k)).
    { intros e E k M. apply try_index_means in M. congruence. }
    split.
    - intros <-. destruct d as [[e z]|]; [|constructor]. cbn [option_map]. unfold parse_disc. cbn [fst snd].
      destruct (try_index index_at e) as [[[k|i]|]|] eqn:E.
      + constructor. apply try_index_means. exact E.
      + destruct (index_number_not_path _ _ E) as (p & -> & ->). constructor.
      + destruct e as [l|p|e|]; try discriminate.
        * cbn [try_index] in E. destruct (const_from_lit l); discriminate.
        * destruct e as [l|p|e|]; try (constructor; intros l'; discriminate).
          cbn [try_index] in E. destruct (const_from_lit l); discriminate.
        * constructor.
      + destruct e as [l|p|e|]; try discriminate.
        * constructor. apply T. exact E.
        * destruct e as [l|p|e|]; try discriminate. constructor. apply T. exact E.
    - intros [|e z k M|p z|l z M|l z M|e z M|z]; try reflexivity.
      + cbn [option_map]. unfold parse_disc. cbn [fst snd]. apply try_index_means in M. rewrite M. reflexivity.
      + cbn [option_map]. unfold parse_disc. cbn [fst snd]. destruct (try_index index_at (ELit l)) as [[k|]|] eqn:E; [| |reflexivity].
        * apply try_index_means in E. destruct (M _ E).
        * cbn [try_index] in E. destruct (const_from_lit l); discriminate.
      + cbn [option_map]. unfold parse_disc. cbn [fst snd]. destruct (try_index index_at (ENeg (ELit l))) as [[k|]|] eqn:E; [| |reflexivity].
        * apply try_index_means in E. destruct (M _ E).
        * cbn [try_index] in E. destruct (const_from_lit l); discriminate.
      + cbn [option_map]. unfold parse_disc. cbn [fst snd]. destruct e as [l|p|e|]; try reflexivity. destruct (M l eq_refl).
  Qed.

  Lemma parse_variant_exact v w : parse_variant path_ok tag_at label_at index_at v = Some w <->
    variant_means path_ok tag_at label_at index_at v w.
  Proof.
    unfold variant_means. split.
    - intros H. unfold parse_variant in H. bind H. apply items_of in E as [P ->]. bind H. bind H. bind H. injection H as <-. cbn.
      split; [eapply variant_proper; eassumption|]. split; [reflexivity|].
      apply parse_attrs_exact in E0 as [_ M]; [|exact P]. split; [exact M|]. split; [apply parse_disc_exact; reflexivity|].
      apply parse_fields_exact. assumption.
    - intros (Q & Nm & M & D & F). destruct w as [n a d fs]. cbn in Nm, M, D, F. subst n.
      pose proof Q as (P & N & A). cbn [fst snd] in P, N, A.
      unfold parse_variant. rewrite (proj2 (items_of _ _) (conj P eq_refl)).
      assert (C : forall al, incl (allowed (variant_place (rv_fields v))) al -> check al (items (rv_attrs v)) = true).
      { intros al I. apply check_spec. split; [|exact N]. eapply Forall_impl; [|exact A]. intros i J. apply I. exact J. }
      assert (S : proper (struct_place (rv_fields v), rv_attrs v)).
      { apply proper_check. split; [exact P|]. apply C. destruct (rv_fields v) as [|fs'|[|f [|f' fs']]]; intros k I; cbn in *; tauto. }
      rewrite C by (destruct (rv_fields v) as [|fs'|[|f [|f' fs']]]; intros k I; cbn in *; tauto).
      rewrite (proj2 (parse_attrs_exact _ _ _ P) (conj S M)). apply parse_fields_exact in F. rewrite F.
      apply parse_disc_exact in D. rewrite D. reflexivity.
  Qed.

  Lemma parse_def_exact d t : parse_def path_ok tag_at label_at index_at d = Some t <->
    def_means path_ok tag_at label_at index_at d t.
  Proof.
    split.
    - intros H. destruct d as [name ats fs|name ats vs|name]; cbn [parse_def] in H; [| |discriminate].
      + bind H. apply items_of in E as [P ->]. bind H. bind H. injection H as <-.
        apply parse_attrs_exact in E as [Q M]; [|exact P]. constructor; [exact Q|exact M|]. apply parse_fields_exact. assumption.
      + bind H. apply items_of in E as [P ->]. bind H. bind H. injection H as <-.
        apply parse_enum_exact in E as [Q M]; [|exact P]. constructor; [destruct vs; exact Q|exact M|].
        apply (parse_all_exact _ _ parse_variant_exact). assumption.
    - intros [name ats fs a gs Q M F|name ats vs a ws Q M F]; cbn [parse_def];
        assert (P : parses ats) by (destruct Q as (P & _); exact P); rewrite (proj2 (items_of _ _) (conj P eq_refl)).
      + rewrite (proj2 (parse_attrs_exact _ _ _ P) (conj Q M)). apply parse_fields_exact in F. rewrite F. reflexivity.
      + assert (Q' : proper ((if match vs with [] => true | _ => false end then PVoid else PEnum), ats)) by (destruct vs; exact Q).
        rewrite (proj2 (parse_enum_exact _ _ _ P) (conj Q' M)).
        apply (parse_all_exact _ _ parse_variant_exact) in F. rewrite F. reflexivity.
  Qed.
End Proofs.

(** ** C61 *)

(** A definition compiles to an implementation exactly when it means a definition without
    attribute syntax that is turned into that implementation: every attribute is read for what it
    says, and nothing else is. *)
Theorem C61_read_exactly : forall path_ok tag_at label_at index_at d im,
  derive_raw path_ok tag_at label_at index_at d = Some im <->
  exists t, def_means path_ok tag_at label_at index_at d t /\ derive t = Some im.
Proof.
  intros pk ta la ia d im. unfold derive_raw. split.
  - intros H. destruct (parse_def _ _ _ _ d) as [t|] eqn:E; [|discriminate]. apply parse_def_exact in E. eauto.
  - intros (t & M & D). apply parse_def_exact in M. rewrite M. exact D.
Qed.
(** It means at most one... *)
Theorem C61_one_meaning : forall path_ok tag_at label_at index_at d t t',
  def_means path_ok tag_at label_at index_at d t -> def_means path_ok tag_at label_at index_at d t' -> t = t'.
Proof. intros pk ta la ia d t t' M M'. apply parse_def_exact in M. apply parse_def_exact in M'. congruence. Qed.
(** ... and compiles exactly when that is acceptable. *)
Theorem C61_compiles_exactly : forall path_ok tag_at label_at index_at d,
  (exists im, derive_raw path_ok tag_at label_at index_at d = Some im) <->
  exists t, def_means path_ok tag_at label_at index_at d t /\ acceptable t.
Proof.
  intros pk ta la ia d. split.
  - intros (im & H). apply C61_read_exactly in H as (t & M & D). exists t. split; [exact M|]. apply C68_accepted. congruence.
  - intros (t & M & A). apply C68_accepted in A. destruct (derive t) as [im|] eqn:D; [|congruence].
    exists im. apply C61_read_exactly. eauto.
Qed.

(** A transparent newtype, read for what it says. *)
Example C61_read_exactly_example :
  exists t, def_means (fun _ => true) any_tag any_label any_index (RStruct (bs "W") [sval [(bs "transparent", None)]] (RFUnnamed [MkRawField None []])) t
    /\ at_transparent (match t with DStruct _ a _ => a | _ => MkAttrs None None None None None None end) = Some true.
Proof.
  eexists. split; [apply parse_def_exact; reflexivity|reflexivity].
Qed.

Print Assumptions C61_read_exactly.
Print Assumptions C61_one_meaning.
Print Assumptions C61_compiles_exactly.
