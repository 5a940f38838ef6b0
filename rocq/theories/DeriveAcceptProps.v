(** * DeriveAcceptProps: C68, which definitions [#[derive(Value)]] accepts *)

From Verif Require Import Base Event Tree DataModel FlattenModel DeriveModel DeriveSpec DeriveProofs DeriveAcceptSpec DeriveProps.

Lemma flag_true o : flag o = true <-> o = Some true.
Proof. destruct o as [[]|]; cbn; split; congruence. Qed.
Lemma flag_false o : flag o = false <-> o <> Some true.
Proof. destruct o as [[]|]; cbn; split; congruence. Qed.
Lemma absent_true {A} (o : option A) : absent o = true <-> o = None.
Proof. destruct o; cbn; split; congruence. Qed.

(** ** Numbering *)
Definition countable_from (before given : list (option index_value)) : Prop :=
  forall b a, given = b ++ a -> b <> [] -> fits isize (next_number (rev b ++ before)) = true.
Lemma countable_cons before g gs :
  countable_from before (g :: gs) <-> fits isize (next_number (g :: before)) = true /\ countable_from (g :: before) gs.
Proof.
  split.
  - intros H. split; [apply (H [g] gs eq_refl); discriminate|].
    intros b a -> NB. specialize (H (g :: b) a eq_refl). cbn [rev] in H. rewrite <- app_assoc in H. apply H. discriminate.
  - intros (H1 & H2) b a E NB. destruct b as [|x b]; [congruence|]. injection E as <- E. cbn [rev]. rewrite <- app_assoc.
    destruct b as [|y b]; [exact H1|]. apply (H2 (y :: b) a E). discriminate.
Qed.
Lemma countable_start gs : countable gs <-> countable_from [] gs.
Proof. unfold countable, countable_from. split; intros H b a E NB; specialize (H b a E NB); rewrite app_nil_r in *; exact H. Qed.
Lemma countable_nil before : countable_from before [].
Proof. intros [|x b] a E NB; [congruence|discriminate E]. Qed.

Lemma next_const_some before a v : tracks before a ->
  (next_const_index a v <> None <-> fits isize (next_number (v :: before)) = true).
Proof.
  intros (TN & _). unfold next_const_index. destruct v as [[k|x]|]; cbn [next_number]; rewrite ?TN;
    destruct (fits isize _); split; congruence.
Qed.
Lemma next_computed_some before a v : tracks before a ->
  (next_computed_index a v <> None <-> fits isize (next_number (v :: before)) = true).
Proof.
  intros T. rewrite <- (next_const_some before a v T). unfold next_computed_index.
  destruct (next_const_index a v) as [[[]]|]; split; congruence.
Qed.

(** ** Fields *)
Lemma loop_some unl uni fs : forall lo n before, tracks before (lo_alloc lo) ->
  (field_loop unl uni lo n fs <> None <->
   (unl = true -> forall f, In f (filter streamed fs) -> fd_label f = None) /\
   (uni = true -> forall f, In f (filter streamed fs) -> fd_index f = None) /\
   (uni = false -> countable_from before (map fd_index (filter streamed fs)))).
Proof.
  induction fs as [|f fs IH]; intros lo n before T.
  - cbn. split; [intros _|discriminate]. repeat split; try contradiction. intros _. apply countable_nil.
  - cbn [field_loop filter]. unfold field_iter.
    assert (SS : streamed f = negb (flag (fd_skip f))) by reflexivity.
    destruct (flag (fd_skip f)) eqn:SK; cbn [negb] in SS; rewrite !SS.
    { apply IH, T. }
    destruct (unl && negb (absent (fd_label f))) eqn:EL.
    { apply andb_prop in EL as (-> & EL). split; [congruence|]. intros (H & _).
      specialize (H eq_refl f (or_introl eq_refl)). rewrite H in EL. discriminate EL. }
    assert (LL : unl = true -> fd_label f = None).
    { intros ->. destruct (fd_label f); [discriminate EL|reflexivity]. }
    destruct (uni && negb (absent (fd_index f))) eqn:EI.
    { apply andb_prop in EI as (-> & EI). split; [congruence|]. intros (_ & H & _).
      specialize (H eq_refl f (or_introl eq_refl)). rewrite H in EI. discriminate EI. }
    assert (II : uni = true -> fd_index f = None).
    { intros ->. destruct (fd_index f); [discriminate EI|reflexivity]. }
    cbn [map]. destruct uni.
    + cbn [option_map]. cbv zeta. rewrite (IH _ _ before) by (destruct (if unl then None else _); exact T).
      split.
      * intros (H1 & H2 & _). repeat split; try discriminate.
        -- intros U g [<- | G]; [exact (LL U)|exact (H1 U g G)].
        -- intros U g [<- | G]; [exact (II U)|exact (H2 U g G)].
      * intros (H1 & H2 & _). repeat split; try discriminate.
        -- intros U g G. apply (H1 U). right. exact G.
        -- intros U g G. apply (H2 U). right. exact G.
    + pose proof (next_computed_some before (lo_alloc lo) (fd_index f) T) as NS.
      destruct (next_computed_index (lo_alloc lo) (fd_index f)) as [[i a]|] eqn:EN; cbn [option_map].
      * destruct (next_computed_tracks _ _ _ _ _ T EN) as (T' & _). cbv zeta.
        rewrite (IH _ _ (fd_index f :: before)) by (destruct (if unl then None else _); exact T').
        rewrite countable_cons. assert (FT : fits isize (next_number (fd_index f :: before)) = true) by (apply NS; discriminate).
        split.
        -- intros (H1 & _ & H3). repeat split; try discriminate; try assumption; try (apply H3; reflexivity).
           intros U g [<- | G]; [exact (LL U)|exact (H1 U g G)].
        -- intros (H1 & _ & H3). repeat split; try discriminate; try (intros; apply H3; reflexivity).
           intros U g G. apply (H1 U). right. exact G.
      * split; [congruence|]. intros (_ & _ & H3). specialize (H3 eq_refl). apply countable_cons in H3 as (H3 & _).
        apply NS in H3. congruence.
Qed.

Lemma loop_indexed unl uni fs : forall lo n lo', field_loop unl uni lo n fs = Some lo' ->
  lo_indexed lo' = (lo_indexed lo + if uni then 0 else count streamed fs)%N.
Proof.
  induction fs as [|f fs IH]; intros lo n lo' H.
  - inversion H; subst. unfold count. cbn. destruct uni; lia.
  - cbn [field_loop] in H. destruct (field_iter unl uni lo n f) as [lo1|] eqn:E; [|discriminate H].
    rewrite (IH _ _ _ H), count_cons. unfold field_iter in E.
    assert (SS : streamed f = negb (flag (fd_skip f))) by reflexivity.
    destruct (flag (fd_skip f)); cbn [negb] in SS; rewrite SS.
    { inversion E; subst. destruct uni; lia. }
    destruct (unl && _); [discriminate E|]. destruct (uni && _); [discriminate E|].
    destruct uni; [|destruct (next_computed_index (lo_alloc lo) (fd_index f)) as [[i a]|]; [|discriminate E]];
      cbn [option_map] in E; inversion E; subst; clear E; cbn [lo_indexed]; lia.
Qed.

Lemma count_none {A} (p : A -> bool) l : (forall x, In x l -> p x = false) -> count p l = 0%N.
Proof.
  induction l as [|x l IH]; intros H; [reflexivity|]. rewrite count_cons, IH by (intros; apply H; right; assumption).
  rewrite (H x (or_introl eq_refl)). reflexivity.
Qed.
Lemma count_same {A} (p q : A -> bool) l : (forall x, In x l -> p x = q x) -> count p l = count q l.
Proof.
  induction l as [|x l IH]; intros H; [reflexivity|]. rewrite !count_cons, IH by (intros; apply H; right; assumption).
  rewrite (H x (or_introl eq_refl)). reflexivity.
Qed.

Lemma fields_some target a fs t l i :
  stream_record_tuple target fs t l i (flag (at_unlabeled a)) (flag (at_unindexed a)) <> None <-> good_fields a fs.
Proof.
  unfold stream_record_tuple, good_fields. cbv zeta.
  set (unl := flag (at_unlabeled a)). set (uni := flag (at_unindexed a)).
  pose proof (loop_some unl uni fs (MkLoop alloc_new target 0 0 0 true []) 0 [] (conj eq_refl eq_refl)) as LS.
  rewrite <- countable_start in LS. rewrite <- (flag_true (at_unlabeled a)), <- (flag_true (at_unindexed a)).
  fold unl uni. rewrite (not_true_iff_false uni).
  destruct (field_loop unl uni _ 0 fs) as [lo|] eqn:L.
  - destruct (proj1 LS ltac:(discriminate)) as (H1 & H2 & H3). clear LS.
    destruct (loop_counts _ _ _ _ _ _ L) as (C & B & _ & _). pose proof (loop_indexed _ _ _ _ _ _ L) as X.
    cbn [lo_count lo_labeled lo_indexed] in C, B, X. rewrite N.add_0_l in C, B, X. rewrite C, B, X.
    assert (E : ((if uni then 0 else count streamed fs) =? 0)%N || ((if uni then 0 else count streamed fs) =? count streamed fs)%N = true).
    { destruct uni; [reflexivity|]. rewrite N.eqb_refl. apply orb_true_r. }
    rewrite E, andb_true_r.
    assert (FI : forall P : field_def -> Prop, (forall f, In f (filter streamed fs) -> P f) <-> (forall f, In f fs -> streamed f = true -> P f)).
    { intros P. split; intros H f; [intros IF SF; apply H; apply filter_In; auto|intros IF; apply filter_In in IF as (IF & SF); auto]. }
    destruct ((count (fun f => streamed f && labelled unl f) fs =? 0)%N || _) eqn:K.
    + split; [|discriminate]. intros _. split; [exact H1|]. split; [exact H2|]. split; [|exact H3].
      rewrite !FI. apply orb_prop in K as [K|K]; apply N.eqb_eq in K.
      * right. intros f IF SF. pose proof (count_zero _ _ K f IF) as Z. cbn in Z. rewrite SF in Z. exact Z.
      * left. intros f IF SF. exact (count_full _ _ _ K f IF SF).
    + split; [congruence|]. intros (_ & _ & H & _). rewrite !FI in H. apply orb_false_elim in K as (K1 & K2).
      apply N.eqb_neq in K1, K2. destruct H as [H|H].
      * exfalso. apply K2. apply count_same. intros f IF. destruct (streamed f) eqn:SF; [|reflexivity]. apply (H f IF SF).
      * exfalso. apply K1. apply count_none. intros f IF. destruct (streamed f) eqn:SF; [|reflexivity]. apply (H f IF SF).
  - split; [congruence|]. intros (H1 & H2 & _ & H3). exfalso. apply (proj2 LS); [auto|reflexivity].
Qed.

(** ** Bodies *)
Lemma bare f : no_attrs f = true <-> f = MkField (fd_name f) None None None None None None.
Proof.
  unfold no_attrs. destruct f as [n t d l i s fl]. cbn.
  destruct t, d, l, i, s, fl; cbn; split; intros H; try discriminate H; try reflexivity.
Qed.
Lemma newtype_ok a : newtype_attrs a = true <->
  at_unlabeled a = None /\ at_unindexed a = None /\
  (at_transparent a = Some true -> at_tag a = None /\ at_label a = None /\ at_index a = None).
Proof.
  unfold newtype_attrs. destruct a as [t l i u n tr]. cbn.
  destruct u, n; cbn; try (split; [discriminate|intros (? & ? & ?); discriminate]).
  destruct tr as [[]|]; cbn; [|split; [repeat split; intros; discriminate|reflexivity]..].
  destruct t, l, i; cbn; split; try discriminate; try reflexivity; try (intros _; repeat split; reflexivity);
    intros (_ & _ & H); destruct (H eq_refl) as (? & ? & ?); discriminate.
Qed.
Lemma unit_ok a : unit_attrs a = true <-> at_unlabeled a = None /\ at_unindexed a = None /\ at_transparent a = None.
Proof.
  unfold unit_attrs. destruct a as [t l i u n tr]. cbn.
  destruct u, n, tr; cbn; split; try discriminate; try reflexivity; try (intros (? & ? & ?); discriminate). intros _. repeat split.
Qed.

Lemma struct_some name a fs : derive_struct name a fs <> None <-> good_body a fs.
Proof.
  unfold derive_struct, good_body.
  assert (F : forall target fs, (match (if struct_attrs a
              then stream_record_tuple target fs (at_tag a) (Some (label_or_ident (at_label a) name)) (option_map const_index_of (at_index a))
                     (flag (at_unlabeled a)) (flag (at_unindexed a)) else None)
            with Some arm => Some (MkImpl None [arm] (Some (at_tag a))) | None => None end <> None)
            <-> at_transparent a = None /\ good_fields a fs).
  { intros target gs. rewrite <- (fields_some target a gs (at_tag a) (Some (label_or_ident (at_label a) name)) (option_map const_index_of (at_index a))).
    rewrite <- (absent_true (at_transparent a)). unfold struct_attrs. destruct (absent (at_transparent a)); [|split; [congruence|intros (? & _); discriminate]].
    destruct (stream_record_tuple _ _ _ _ _ _ _); split; try congruence; [intros _; split; congruence|intros (_ & H) _; exact (H eq_refl)]. }
  destruct fs as [|fs|[|f [|g fs]]]; try apply F.
  - rewrite <- unit_ok. destruct (unit_attrs a); split; congruence.
  - rewrite <- bare. assert (R : forall A B C D : Prop, (A /\ B /\ C /\ D) <-> ((A /\ B /\ C) /\ D)) by tauto.
    rewrite R, <- newtype_ok. destruct (newtype_attrs a), (no_attrs f); cbn [andb]; split; try congruence; try (intros; split; reflexivity);
      intros (? & ?); discriminate.
Qed.

(** ** Variants *)
Lemma disc_some v : disc_value (vd_disc v) = None <-> exists z, vd_disc v = Some (DOtherLit z).
Proof.
  destruct (vd_disc v) as [[]|]; cbn; split; try discriminate; try (intros (? & ?); discriminate); eauto.
Qed.
Lemma disc_eq v d : disc_value (vd_disc v) = Some d -> d = disc_given v.
Proof. unfold disc_given. destruct (vd_disc v) as [[]|]; cbn; congruence. Qed.

Definition arm_of (ea : enum_attrs) (v : variant_def) (i : option mindex) : option arm :=
  let a := vd_attrs v in
  let l := variant_label ea (at_label a) (vd_name v) in
  match vd_fields v with
  | FsUnnamed [f] =>
      if newtype_attrs a && no_attrs f
      then Some (if flag (ea_dynamic ea) then ATransparent else ANewtype (at_tag a) l i) else None
  | FsUnit =>
      if unit_attrs a
      then Some (ATag (at_tag a) (unit_variant_label ea (at_label a) (vd_name v)) i) else None
  | FsNamed fs => stream_record_tuple FRecTup fs (at_tag a) l i (flag (at_unlabeled a)) (flag (at_unindexed a))
  | FsUnnamed fs => stream_record_tuple FTuple fs (at_tag a) l i (flag (at_unlabeled a)) (flag (at_unindexed a))
  end.
Lemma arm_some ea v i : at_transparent (vd_attrs v) = None ->
  (arm_of ea v i <> None <-> good_body (vd_attrs v) (vd_fields v)).
Proof.
  intros NT. unfold arm_of, good_body. cbv zeta. destruct (vd_fields v) as [|fs|[|f [|g fs]]].
  - rewrite <- unit_ok. destruct (unit_attrs (vd_attrs v)); split; congruence.
  - rewrite fields_some. tauto.
  - rewrite fields_some. tauto.
  - rewrite <- bare. assert (R : forall A B C D : Prop, (A /\ B /\ C /\ D) <-> ((A /\ B /\ C) /\ D)) by tauto.
    rewrite R, <- newtype_ok. destruct (newtype_attrs (vd_attrs v)), (no_attrs f); cbn [andb]; split; try congruence; try (intros; split; reflexivity);
      intros (? & ?); discriminate.
  - rewrite fields_some. tauto.
Qed.

Definition numbers (ea : enum_attrs) : bool := negb (flag (ea_dynamic ea) || flag (ea_unindexed ea)).
Definition unnumbered (v : variant_def) : bool := absent (at_index (vd_attrs v)).
Definition good_variant (v : variant_def) : Prop :=
  good_body (vd_attrs v) (vd_fields v) /\ at_transparent (vd_attrs v) = None /\ (forall z, vd_disc v <> Some (DOtherLit z)).

Lemma loop_variants ea vs : forall al before, tracks before al ->
  (variant_loop ea al vs <> None <->
   (forall v, In v vs -> good_variant v) /\
   (numbers ea = true -> countable_from before (map disc_given (filter unnumbered vs)))).
Proof.
  induction vs as [|v vs IH]; intros al before T.
  - cbn. split; [intros _; split; [contradiction|intros _; apply countable_nil]|discriminate].
  - cbn [variant_loop].
    unfold variant_iter.
    destruct (absent (at_transparent (vd_attrs v))) eqn:NT; cbn [negb].
    2:{ split; [congruence|]. intros (H & _). destruct (H v (or_introl eq_refl)) as (_ & H' & _). rewrite H' in NT. discriminate NT. }
    apply absent_true in NT.
    destruct (disc_value (vd_disc v)) as [d|] eqn:ED.
    2:{ split; [congruence|]. intros (H & _). destruct (H v (or_introl eq_refl)) as (_ & _ & H').
        apply disc_some in ED as (z & ED). elim (H' z ED). }
    assert (ND : forall z, vd_disc v <> Some (DOtherLit z)).
    { intros z E. assert (X : disc_value (vd_disc v) = None) by (apply disc_some; eauto). congruence. }
    pose proof (disc_eq v d ED) as ->.
    assert (G : forall i al' before', variant_index ea al (option_map const_index_of (at_index (vd_attrs v))) (disc_given v) = Some (i, al') ->
        tracks before' al' ->
        (match (match arm_of ea v i with Some arm => Some (arm, al') | None => None end) with
         | Some (arm, al) => option_map (cons arm) (variant_loop ea al vs) | None => None end <> None <->
         good_variant v /\ (forall v, In v vs -> good_variant v) /\
         (numbers ea = true -> countable_from before' (map disc_given (filter unnumbered vs))))).
    { intros i al' before' _ T'. rewrite <- (IH al' before' T'). unfold good_variant at 1. rewrite <- (arm_some ea v i NT).
      destruct (arm_of ea v i) as [ar|]; [|split; [congruence|tauto]].
      destruct (variant_loop ea al' vs); cbn [option_map]; split; try congruence; try tauto.
      intros _. repeat split; try congruence. }
    assert (Cons : forall P : variant_def -> Prop, (forall x, In x (v :: vs) -> P x) <-> P v /\ (forall x, In x vs -> P x)).
    { intros P. split; [intros H; split; [apply H; left; reflexivity|intros x Hx; apply H; right; exact Hx]|].
      intros (H1 & H2) x [<- | Hx]; auto. }
    rewrite (Cons good_variant). unfold variant_index. cbn [filter].
    assert (UN : unnumbered v = absent (at_index (vd_attrs v))) by reflexivity.
    destruct (at_index (vd_attrs v)) as [x|] eqn:EX; cbn [option_map absent] in *; rewrite UN.
    { fold (arm_of ea v (Some (const_index_of x))). rewrite (G _ al before); [| |exact T].
      1: tauto.
      reflexivity. }
    destruct (flag (ea_dynamic ea) || flag (ea_unindexed ea)) eqn:NN.
    { fold (arm_of ea v None). rewrite (G _ al before); [| |exact T].
      - unfold numbers. rewrite NN. cbn [negb]. split; [intros (A & B & _); split; [split; assumption|discriminate]|].
        intros ((A & B) & _); split; [exact A|split; [exact B|discriminate]].
      - unfold variant_index. cbn [option_map]. rewrite NN. reflexivity. }
    assert (NU : numbers ea = true) by (unfold numbers; rewrite NN; reflexivity).
    pose proof (next_const_some before al (disc_given v) T) as NS. cbn [map].
    destruct (next_const_index al (disc_given v)) as [[i al']|] eqn:EN; cbn [option_map].
    + destruct (next_const_tracks _ _ _ _ _ T EN) as (T' & _). fold (arm_of ea v (Some i)).
      rewrite (G _ al' (disc_given v :: before)); [| |exact T'].
      * rewrite countable_cons. assert (FT : fits isize (next_number (disc_given v :: before)) = true) by (apply NS; discriminate).
        tauto.
      * unfold variant_index. cbn [option_map]. rewrite NN, EN. reflexivity.
    + split; [congruence|]. intros (_ & H). specialize (H NU). apply countable_cons in H as (H & _). apply NS in H. congruence.
Qed.

(** ** The theorem *)
Theorem C68_accepted : forall d, derive d <> None <-> acceptable d.
Proof.
  intros [name a fs|name ea vs]; [apply struct_some|]. cbn [derive acceptable]. unfold derive_enum. destruct vs as [|v vs].
  - destruct ea as [t l i u n dy]. cbn.
    destruct t, l, i, u, n, dy; cbn; split; try congruence; intros H; discriminate H.
  - pose proof (loop_variants ea (v :: vs) alloc_new [] (conj eq_refl eq_refl)) as LV.
    set (ws := v :: vs) in *. clearbody ws. rewrite <- countable_start in LV.
    assert (E : enum_attrs_ok ea = true <->
                (ea_dynamic ea = Some true ->
                   ea_tag ea = None /\ ea_label ea = None /\ ea_index ea = None /\
                   ea_unlabeled ea <> Some true /\ ea_unindexed ea <> Some true)).
    { unfold enum_attrs_ok. destruct ea as [t l i u n dy]. cbn. destruct dy as [[]|]; cbn; [|split; [discriminate|reflexivity]..].
      destruct t, l, i; cbn; try (split; [discriminate|intros H; destruct (H eq_refl) as (? & ? & ? & _); discriminate]).
      destruct u as [[]|], n as [[]|]; cbn; split; try discriminate; try reflexivity; try (intros _ _; repeat split; congruence);
        intros H; destruct (H eq_refl) as (_ & _ & _ & ? & ?); congruence. }
    rewrite <- E.
    assert (NM : numbers ea = true <-> ea_dynamic ea <> Some true /\ ea_unindexed ea <> Some true).
    { rewrite <- !flag_false. unfold numbers. destruct (flag (ea_dynamic ea)), (flag (ea_unindexed ea)); cbn; split; try discriminate; try tauto;
        intros (? & ?); discriminate. }
    destruct (enum_attrs_ok ea); [|split; [congruence|intros (? & _); discriminate]].
    unfold good_variant in LV. destruct (variant_loop ea alloc_new ws).
    + destruct (proj1 LV ltac:(discriminate)) as (H1 & H2). split; [intros _|destruct (flag (ea_dynamic ea)); discriminate].
      split; [reflexivity|]. split; [exact H1|]. intros A B. apply H2, NM. auto.
    + split; [congruence|]. intros (_ & H1 & H2). exfalso. apply (proj2 LV); [|reflexivity]. split; [exact H1|].
      intros N. apply NM in N as (A & B). exact (H2 A B).
Qed.

(** Consequences, one for each way a definition is refused. *)
Corollary C68_newtype_field_takes_no_attributes : forall name a f m,
  derive (DStruct name a (FsUnnamed [f])) = Some m -> f = MkField (fd_name f) None None None None None None.
Proof.
  intros name a f m H. assert (A : acceptable (DStruct name a (FsUnnamed [f]))) by (apply C68_accepted; congruence).
  exact (proj2 (proj2 (proj2 A))).
Qed.

(** ** Examples *)
Definition huge : type_def := DEnum (bs "E") no_enum_attrs [MkVariant (bs "A") plain (Some (DLit (2 ^ 63 - 1))) FsUnit].
Example C68_applies :
  acceptable sample /\ acceptable shape_enum /\ ~ acceptable huge /\ derive huge = None /\
  derive (DStruct (bs "N") plain (FsUnnamed [MkField None None None None None None (Some true)])) = None.
Proof.
  assert (H : derive huge = None) by reflexivity.
  split; [apply C68_accepted; discriminate|]. split; [apply C68_accepted; discriminate|].
  split; [rewrite <- C68_accepted; intros X; exact (X H)|]. split; [exact H|reflexivity].
Qed.

Print Assumptions C68_accepted.
Print Assumptions C68_newtype_field_takes_no_attributes.
