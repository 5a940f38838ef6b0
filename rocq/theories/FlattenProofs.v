(** * FlattenProofs: the [Flattener] followed on a well-formed value *)

From Verif Require Import Base Event Tree LowerModel FlatProofs LowerProofs MethProofs DataModel DataProofs
  FlattenModel FlattenSpec.

(** ** Key texts *)

Section Keys.
  Variable r64 : float -> bytes.

  Definition lb_state (b : lbuf) : bytes * bool :=
    match b with
    | LBEmpty => ([], false)
    | LBText s => (s, false)
    | LBI128 z | LBU128 z => (dec z, true)
    | LBF64 f => (r64 f, true)
    end.
  Definition keep (s : bytes * bool) (p : part) : bytes * bool :=
    match p with
    | PNum t => (t, true)
    | PText t => (if snd s then t else fst s ++ t, false)
    end.
  Lemma kept_fold ps : forall s n, kept s n ps = fst (fold_left keep ps (s, n)).
  Proof. induction ps as [|[t|t] ps IH]; intros s n; cbn; auto. Qed.

  Lemma lb_text_state b s : lb_state (lb_text b s) = keep (lb_state b) (PText s).
  Proof. destruct b; reflexivity. Qed.

  Lemma index_to_isize i : index_to isize i = if fits I64 (i_val i) then Some (i_val i) else None.
  Proof. unfold isize. apply index_to_spec. discriminate. Qed.
  Lemma index_to_usize i : index_to usize i = if fits U64 (i_val i) then Some (i_val i) else None.
  Proof. unfold usize. apply index_to_spec. discriminate. Qed.

  Lemma lb_index_state b i : lb_state (lb_index b i) = keep (lb_state b) (index_part i).
  Proof.
    unfold lb_index, index_part. rewrite index_to_isize, index_to_usize.
    destruct (fits I64 (i_val i)); [reflexivity|]. destruct (fits U64 (i_val i)); [reflexivity|].
    cbn [orb]. apply lb_text_state.
  Qed.

  Definition ev_parts (e : ev) : list part :=
    match e with
    | ENull => [PText (bs "null")]
    | EBool b => [PText (if b then bs "true" else bs "false")]
    | ETextFrag s | ETextFragC s => [PText s]
    | EBinFrag s | EBinFragC s => map (fun b => PNum (dec (byte_val b))) s
    | EInt _ z => [PNum (dec z)]
    | EF32 f => [PNum (r64 (f32_to_f64 f))]
    | EF64 f => [PNum (r64 f)]
    | ETag _ (Some l) _ => [PText (l_text l)]
    | ETag _ None (Some i) => [index_part i]
    | ETag _ None None => [PText (bs "null")]
    | ERecordValBegin _ l | ERecTupValBegin _ l _ => [PText (l_text l)]
    | _ => []
    end.

  Definition lbm := meth lb_overrides lb_step.

  Definition keeps (b : lbuf) (r : res lbuf) (ps : list part) : Prop :=
    exists b', r = Ok b' /\ lb_state b' = fold_left keep ps (lb_state b).

  Lemma keeps_run es : (forall b e, In e es -> keeps b (lbm b e) (ev_parts e)) ->
    forall b, keeps b (run lbm b es) (flat_map ev_parts es).
  Proof.
    induction es as [|e es IH]; intros H b; [exists b; split; reflexivity|].
    cbn [flat_map]. rewrite run_cons.
    destruct (H b e (or_introl eq_refl)) as (b1 & -> & S1). cbn [bind].
    destruct (IH (fun b e I => H b e (or_intror I)) b1) as (b2 & -> & S2).
    exists b2. split; [reflexivity|]. rewrite fold_left_app, <- S1. exact S2.
  Qed.

  Lemma lb_over b e : lb_overrides e = true -> keeps b (lbm b e) (ev_parts e).
  Proof.
    intros O. unfold lbm. rewrite meth_unfold, O.
    destruct e; try discriminate O; cbn [lb_step ev_parts];
      try (exists b; split; reflexivity);
      try (eexists; split; [reflexivity|cbn [fold_left]; apply lb_text_state]).
    - destruct t; try discriminate O; eexists; split; reflexivity.
    - eexists; split; reflexivity.
    - destruct l as [l|]; [|destruct i as [i|]]; eexists; (split; [reflexivity|]); cbn [fold_left];
        first [apply lb_text_state|apply lb_index_state].
  Qed.

  Lemma lb_via b e ds : lb_overrides e = false -> default_evs e = Some ds ->
    flat_map ev_parts ds = ev_parts e ->
    (forall b e, In e ds -> keeps b (lbm b e) (ev_parts e)) ->
    keeps b (lbm b e) (ev_parts e).
  Proof.
    intros O D P H. unfold lbm. rewrite meth_unfold, O, D.
    change (keeps b (run lbm b ds) (ev_parts e)). rewrite <- P. apply keeps_run. exact H.
  Qed.

  Lemma default_parts e ds : lb_overrides e = false -> default_evs e = Some ds ->
    flat_map ev_parts ds = ev_parts e.
  Proof.
    intros O D. unfold default_evs in D.
    destruct e; try discriminate O; try (injection D as <-; reflexivity).
    - injection D as <-. apply app_nil_r.
    - cbn [default_calls option_map] in D. rewrite bin_calls_flat in D. injection D as <-. cbn [ev_parts fst].
      clear O. induction s as [|c s IH]; [reflexivity|].
      cbn [map flat_map]. rewrite <- IH. reflexivity.
    - destruct t; try discriminate O; injection D as <-; reflexivity.
    - injection D as <-. unfold label_calls, as_static_str. destruct (l_kind l); cbn; reflexivity.
  Qed.

  Lemma lb_event n : forall b e, rank e < n -> keeps b (lbm b e) (ev_parts e).
  Proof.
    induction n as [|n IH]; intros b e R; [lia|].
    destruct (lb_overrides e) eqn:O; [apply lb_over; exact O|].
    destruct (default_evs e) as [ds|] eqn:D.
    - apply (lb_via b e ds O D (default_parts e ds O D)). intros b0 d I.
      apply IH. pose proof (default_rank e ds D) as F. rewrite Forall_forall in F. specialize (F d I). lia.
    - exfalso. unfold default_evs in D.
      destruct e; try discriminate D; try discriminate O; destruct t; try discriminate D; try discriminate O;
        cbn [default_calls] in D; destruct (fits I64 z); discriminate D.
  Qed.

  Lemma ev_parts_emit t : flat_map ev_parts (emit t) = key_parts r64 t.
  Proof.
    induction t using tree_ind'; try reflexivity; cbn [emit key_parts flat_map ev_parts app].
    - rewrite flat_map_app. cbn. rewrite app_nil_r. induction fs as [|[[|] s] fs IH]; cbn; congruence.
    - rewrite flat_map_app. cbn. rewrite app_nil_r. induction fs as [|[[|] s] fs IH]; cbn; congruence.
    - destruct l as [l|]; [|destruct i]; reflexivity.
    - exact IHt.
    - rewrite flat_map_app. cbn. rewrite app_nil_r. exact IHt.
    - rewrite flat_map_app. cbn. rewrite app_nil_r. exact IHt.
    - rewrite flat_map_app. cbn. rewrite app_nil_r.
      induction H as [|v vs Hv _ IH]; [reflexivity|]. cbn [flat_map].
      rewrite flat_map_app, IH. cbn. rewrite flat_map_app. cbn. rewrite app_nil_r, Hv. reflexivity.
    - rewrite flat_map_app. cbn. rewrite app_nil_r.
      induction H as [|[k v] vs [Hk Hv] _ IH]; [reflexivity|]. cbn [flat_map fst snd] in *.
      rewrite flat_map_app, IH. cbn. rewrite flat_map_app. cbn. rewrite flat_map_app. cbn.
      rewrite app_nil_r, Hv, Hk. reflexivity.
    - rewrite flat_map_app. cbn. rewrite app_nil_r.
      induction H as [|[[ft fl] v] vs Hv _ IH]; [reflexivity|]. cbn [flat_map fst snd] in *.
      rewrite flat_map_app, IH. cbn. rewrite flat_map_app. cbn. rewrite app_nil_r, Hv. reflexivity.
    - rewrite flat_map_app. cbn. rewrite app_nil_r.
      induction H as [|[[ft fl] v] vs Hv _ IH]; [reflexivity|]. cbn [flat_map fst snd] in *.
      rewrite flat_map_app, IH. cbn. rewrite flat_map_app. cbn. rewrite app_nil_r, Hv. reflexivity.
    - rewrite flat_map_app. cbn. rewrite app_nil_r.
      induction H as [|[[[ft fl] fi] v] vs Hv _ IH]; [reflexivity|]. cbn [flat_map fst snd] in *.
      rewrite flat_map_app, IH. cbn. rewrite flat_map_app. cbn. rewrite app_nil_r, Hv. reflexivity.
  Qed.

  Lemma lb_emit b t : keeps b (run lbm b (emit t)) (key_parts r64 t).
  Proof.
    rewrite <- ev_parts_emit. apply keeps_run. intros b0 e _. apply (lb_event (S (rank e))). lia.
  Qed.

  Lemma lb_label_text b : lb_label r64 b = label_new_computed (fst (lb_state b)).
  Proof. destruct b; reflexivity. Qed.

  Lemma index_label_text i : index_label r64 i None = label_new_computed (dec (i_val i)).
  Proof.
    unfold index_label. rewrite lb_label_text, lb_index_state. unfold index_part.
    destruct (fits I64 (i_val i) || fits U64 (i_val i)); reflexivity.
  Qed.
End Keys.

(** ** Below the root *)

Lemma kind_cases (k : fkind) : k = FMap \/ (k = FSeq \/ k = FTuple) \/ (k = FRecord \/ k = FRecTup).
Proof. destruct k; auto. Qed.

Section Follow.
  Variable W : Type.
  Variable out : W -> ev -> res W.
  Variable r64 : float -> bytes.
  Variable kind : fkind.

  Notation st := (fst_t W).
  Notation step := (f_step out r64 kind).
  Notation sd := (f_set_depth W).

  (** Events below the root go to the label stream ([m]: inside a key) or to the
      wrapped stream. *)
  Definition below (m : bool) (g : st) (e : ev) : res st :=
    if m then f_labels W out kind e g else f_stream W out kind (key_end_as_begin e) g.

  Definition rmap {A} (f : A -> A) (r : res A) : res A :=
    match r with Ok a => Ok (f a) | Err a => Err (f a) | Panic => Panic end.

  Lemma send_depth d e g : f_send W out e (sd d g) = rmap (sd d) (f_send W out e g).
  Proof. unfold f_send, f_lift. cbn. destruct (out (f_w g) e); reflexivity. Qed.
  Lemma stream_depth d e g : f_stream W out kind e (sd d g) = rmap (sd d) (f_stream W out kind e g).
  Proof.
    unfold f_stream. destruct kind; try apply send_depth.
    destruct e; try apply send_depth; rewrite <- send_depth; reflexivity.
  Qed.
  Lemma below_depth m d e g : below m (sd d g) e = rmap (sd d) (below m g e).
  Proof.
    unfold below. destruct m; [|apply stream_depth]. unfold f_labels. destruct kind eqn:Kd;
      try (rewrite <- Kd; apply stream_depth); try reflexivity; cbn [f_set_depth f_label];
      match goal with |- context [meth ?a ?b ?c ?d] => destruct (meth a b c d) end; reflexivity.
  Qed.

  (** What calls below the root leave alone. *)
  Definition same (g g' : st) : Prop :=
    f_initial W g' = f_initial W g /\ f_current g' = f_current g /\ f_key W g' = f_key W g /\    f_depth W g' = f_depth W g /\ f_enum W g' = f_enum W g /\ f_inkey W g' = f_inkey W g.
  Lemma same_refl g : same g g.
  Proof. unfold same; repeat split. Qed.
  Lemma same_trans a b c : same a b -> same b c -> same a c.
  Proof. unfold same; intuition congruence. Qed.

  Lemma send_same e g g' : f_send W out e g = Ok g' -> same g g'.
  Proof. unfold f_send, f_lift. destruct (out (f_w g) e); intros E; inversion E; subst. repeat split. Qed.
  Lemma stream_same e g g' : f_stream W out kind e g = Ok g' -> same g g'.
  Proof.
    unfold f_stream. destruct kind; try apply send_same.
    destruct e; try apply send_same; intros E; apply send_same in E; exact E.
  Qed.
  Lemma below_same m g e g' : below m g e = Ok g' -> same g g'.
  Proof.
    unfold below. destruct m; [|apply stream_same]. unfold f_labels. destruct kind eqn:Kd;
      try (rewrite <- Kd; apply stream_same); intros E; try (inversion E; subst; apply same_refl).
    all: match goal with H : context [meth ?a ?b ?c ?d] |- _ => destruct (meth a b c d) end; inversion E; subst; repeat split.
  Qed.
  Lemma run_below_same m es : forall g g', run (below m) g es = Ok g' -> same g g'.
  Proof.
    induction es as [|e es IH]; intros g g' E; [inversion E; apply same_refl|].
    rewrite run_cons in E. destruct (below m g e) as [g1| |] eqn:E1; try discriminate E.
    eapply same_trans; [eapply below_same; exact E1|apply IH; exact E].
  Qed.

  (** [r] is [r'] at nesting depth [d]. *)
  Definition at_depth (d : nat) (r r' : res st) : Prop :=
    match r' with
    | Ok g => r = Ok (sd d g)
    | Err g => exists g', r = Err g' /\ f_w g' = f_w g
    | Panic => r = Panic
    end.

  Lemma at_depth_bind d d' r r' k k' :
    at_depth d r r' -> (forall g, r' = Ok g -> at_depth d' (k (sd d g)) (k' g)) ->
    at_depth d' (r >>= k) (r' >>= k').
  Proof.
    intros H K. destruct r' as [g|g|]; cbn in *.
    - rewrite H. cbn. apply K. reflexivity.
    - destruct H as (g' & -> & E). exists g'. split; [reflexivity|exact E].
    - rewrite H. reflexivity.
  Qed.

  Lemma at_depth_map d r : at_depth d (rmap (sd d) r) r.
  Proof. destruct r; cbn; try reflexivity. eexists; split; reflexivity. Qed.

  Lemma sd_sd a b g : sd a (sd b g) = sd a g.
  Proof. reflexivity. Qed.

  (** The event kinds. *)
  Definition leaf (e : ev) : bool :=
    match e with
    | ENull | EBool _ | ETextBegin _ | ETextFrag _ | ETextFragC _ | ETextEnd
    | EBinBegin _ | EBinFrag _ | EBinFragC _ | EBinEnd
    | EInt _ _ | EF32 _ | EF64 _ | ETag _ _ _ | ETagHint _ | EEnumBegin _ _ _ | EEnumEnd _ _ _ => true
    | _ => false
    end.
  Definition opens (e : ev) : bool :=
    match e with
    | EMapBegin _ | ESeqBegin _ | ERecordBegin _ _ _ _ | ETupleBegin _ _ _ _ | ERecTupBegin _ _ _ _ => true
    | _ => false
    end.
  Definition closes (e : ev) : bool :=
    match e with
    | EMapEnd | ESeqEnd | ERecordEnd _ _ _ | ETupleEnd _ _ _ | ERecTupEnd _ _ _ => true
    | _ => false
    end.
  Definition between (e : ev) : bool :=
    match e with
    | EMapKeyBegin | EMapKeyEnd | EMapValBegin | EMapValEnd | ESeqValBegin | ESeqValEnd
    | ERecordValBegin _ _ | ERecordValEnd _ _ | ETupleValBegin _ _ | ETupleValEnd _ _
    | ERecTupValBegin _ _ _ | ERecTupValEnd _ _ _ => true
    | _ => false
    end.

  Lemma leaf_step m d g e : leaf e = true -> f_inkey W g = m ->
    at_depth (S d) (step (sd (S d) g) e) (below m g e).
  Proof.
    intros L K.
    assert (E : step (sd (S d) g) e = below m (sd (S d) g) e).
    { destruct e; try discriminate L; cbn; rewrite K; destruct m; reflexivity. }
    rewrite E, below_depth. apply at_depth_map.
  Qed.
  Lemma between_step m d g e : between e = true -> f_inkey W g = m ->
    at_depth (S (S d)) (step (sd (S (S d)) g) e) (below m g e).
  Proof.
    intros L K.
    assert (E : step (sd (S (S d)) g) e = below m (sd (S (S d)) g) e).
    { destruct e; try discriminate L; cbn; rewrite K; destruct m; reflexivity. }
    rewrite E, below_depth. apply at_depth_map.
  Qed.
  Lemma opens_step m d g e : opens e = true -> f_inkey W g = m ->
    at_depth (S (S d)) (step (sd (S d) g) e) (below m g e).
  Proof.
    intros L K.
    assert (E : step (sd (S d) g) e = below m (sd (S (S d)) g) e).
    { destruct e; try discriminate L; cbn; unfold flattenable_begin; cbn; rewrite K; destruct m; reflexivity. }
    rewrite E, below_depth. apply at_depth_map.
  Qed.
  Lemma closes_step m d g e : closes e = true -> f_inkey W g = m ->
    at_depth (S d) (step (sd (S (S d)) g) e) (below m g e).
  Proof.
    intros L K.
    assert (E : step (sd (S (S d)) g) e =
                (below m (sd (S (S d)) g) e >>= fun g => match f_depth W g with O => Panic | S d => Ok (sd d g) end)).
    { destruct e; try discriminate L; cbn; unfold flattenable_end; cbn; rewrite K; destruct m; reflexivity. }
    rewrite E, below_depth. destruct (below m g e); cbn; try reflexivity. eexists; split; reflexivity.
  Qed.
  Lemma tagged_begin_step m d g t l i : f_inkey W g = m ->
    at_depth (if f_enum W g then S (S d) else S d) (step (sd (S d) g) (ETaggedBegin t l i))
             (below m g (ETaggedBegin t l i)).
  Proof.
    intros K. cbn [f_step]. change (f_enum W (sd (S d) g)) with (f_enum W g).
    destruct (f_enum W g).
    - unfold flattenable_begin. cbn. rewrite K.
      replace (if m then _ else _) with (below m (sd (S (S d)) g) (ETaggedBegin t l i)) by (destruct m; reflexivity).
      rewrite below_depth. apply at_depth_map.
    - unfold f_value, value_at_root. cbn. rewrite K.
      replace (if m then _ else _) with (below m (sd (S d) g) (ETaggedBegin t l i)) by (destruct m; reflexivity).
      rewrite below_depth. apply at_depth_map.
  Qed.
  Lemma tagged_end_step m d g t l i : f_inkey W g = m ->
    at_depth (S d) (step (sd (if f_enum W g then S (S d) else S d) g) (ETaggedEnd t l i))
             (below m g (ETaggedEnd t l i)).
  Proof.
    intros K. cbn [f_step]. change (f_enum W (sd ?d g)) with (f_enum W g).
    destruct (f_enum W g) eqn:En; cbn; rewrite ?En.
    - unfold flattenable_end. cbn. rewrite K.
      replace (if m then _ else _) with (below m (sd (S (S d)) g) (ETaggedEnd t l i)) by (destruct m; reflexivity).
      rewrite below_depth. destruct (below m g _); cbn; try reflexivity. eexists; split; reflexivity.
    - unfold f_value, value_at_root. cbn. rewrite K.
      replace (if m then _ else _) with (below m (sd (S d) g) (ETaggedEnd t l i)) by (destruct m; reflexivity).
      rewrite below_depth. apply at_depth_map.
  Qed.

  Lemma run_cons_at m d d' d'' g e es :
    at_depth d' (step (sd d g) e) (below m g e) ->
    (forall g', below m g e = Ok g' -> same g g' ->
       at_depth d'' (run step (sd d' g') es) (run (below m) g' es)) ->
    at_depth d'' (run step (sd d g) (e :: es)) (run (below m) g (e :: es)).
  Proof.
    intros H K. rewrite !run_cons. eapply at_depth_bind; [exact H|].
    intros g' E. apply K; [exact E|eapply below_same; exact E].
  Qed.
  Lemma run_app_at m d d' d'' g a b :
    at_depth d' (run step (sd d g) a) (run (below m) g a) ->
    (forall g', same g g' -> at_depth d'' (run step (sd d' g') b) (run (below m) g' b)) ->
    at_depth d'' (run step (sd d g) (a ++ b)) (run (below m) g (a ++ b)).
  Proof.
    intros H K. rewrite !run_app. eapply at_depth_bind; [exact H|].
    intros g' E. apply K. eapply run_below_same; exact E.
  Qed.
  Lemma run_nil_at m d g : at_depth d (run step (sd d g) []) (run (below m) g []).
  Proof. reflexivity. Qed.
  Lemma run_one_at m d d' g e :
    at_depth d' (step (sd d g) e) (below m g e) ->
    at_depth d' (run step (sd d g) [e]) (run (below m) g [e]).
  Proof. intros H. rewrite !run_one. exact H. Qed.
  Lemma run_leaves_at m d es : forallb leaf es = true -> forall g, f_inkey W g = m ->
    at_depth (S d) (run step (sd (S d) g) es) (run (below m) g es).
  Proof.
    induction es as [|e es IH]; intros L g K; [reflexivity|]. cbn in L. apply andb_prop in L as [L1 L2].
    eapply run_cons_at; [apply leaf_step; assumption|].
    intros g' _ (_ & _ & _ & _ & _ & K'). apply IH; [exact L2|congruence].
  Qed.
  Lemma run_flat_map_at {A} m d (f : A -> list ev) (vs : list A) :
    Forall (fun v => forall g, f_inkey W g = m -> at_depth d (run step (sd d g) (f v)) (run (below m) g (f v))) vs ->
    forall g, f_inkey W g = m ->
    at_depth d (run step (sd d g) (flat_map f vs)) (run (below m) g (flat_map f vs)).
  Proof.
    induction 1 as [|v vs Hv _ IH]; intros g K; [reflexivity|]. cbn [flat_map].
    eapply run_app_at; [apply Hv; exact K|]. intros g' (_ & _ & _ & _ & _ & K'). apply IH. congruence.
  Qed.
  (** One child: [b], its value, [e]. *)
  Lemma run_entry_at m d b e v g :
    between b = true -> between e = true ->
    (forall d g, f_inkey W g = m -> at_depth (S d) (run step (sd (S d) g) (emit v)) (run (below m) g (emit v))) ->
    f_inkey W g = m ->
    at_depth (S (S d)) (run step (sd (S (S d)) g) (b :: emit v ++ [e])) (run (below m) g (b :: emit v ++ [e])).
  Proof.
    intros B E V K. eapply run_cons_at; [apply between_step; assumption|].
    intros g1 _ (_ & _ & _ & _ & _ & K1). eapply run_app_at; [apply V; congruence|].
    intros g2 (_ & _ & _ & _ & _ & K2). apply run_one_at, between_step; [exact E|congruence].
  Qed.
  Lemma run_block_at {A} m d b e (f : A -> list ev) vs g :
    opens b = true -> closes e = true ->
    Forall (fun v => forall d g, f_inkey W g = m ->
      at_depth (S (S d)) (run step (sd (S (S d)) g) (f v)) (run (below m) g (f v))) vs ->
    f_inkey W g = m ->
    at_depth (S d) (run step (sd (S d) g) (b :: flat_map f vs ++ [e]))
                   (run (below m) g (b :: flat_map f vs ++ [e])).
  Proof.
    intros B E V K. eapply run_cons_at; [apply opens_step; assumption|].
    intros g1 _ (_ & _ & _ & _ & _ & K1). eapply run_app_at.
    - apply run_flat_map_at; [|congruence]. eapply Forall_impl; [|exact V]. intros v H. apply H.
    - intros g2 (_ & _ & _ & _ & _ & K2). apply run_one_at, closes_step; [exact E|congruence].
  Qed.

  Lemma emit_at m v : forall d g, f_inkey W g = m ->
    at_depth (S d) (run step (sd (S d) g) (emit v)) (run (below m) g (emit v)).
  Proof.
    induction v using tree_ind'; intros d g K; cbn [emit];
      try (apply run_leaves_at; [reflexivity|exact K]).
    - apply run_leaves_at; [|exact K]. cbn. rewrite forallb_app. cbn. rewrite andb_true_r.
      induction fs as [|[[|] s] fs IH]; cbn; auto.
    - apply run_leaves_at; [|exact K]. cbn. rewrite forallb_app. cbn. rewrite andb_true_r.
      induction fs as [|[[|] s] fs IH]; cbn; auto.
    - eapply run_cons_at; [apply leaf_step; [reflexivity|exact K]|].
      intros g1 _ (_ & _ & _ & _ & _ & K1). apply IHv. congruence.
    - eapply run_cons_at; [apply tagged_begin_step; exact K|].
      intros g1 _ (_ & _ & _ & _ & E1 & K1). rewrite <- E1.
      eapply run_app_at.
      + instantiate (1 := if f_enum W g1 then S (S d) else S d).
        destruct (f_enum W g1); apply IHv; congruence.
      + intros g2 (_ & _ & _ & _ & E2 & K2). rewrite <- E2. apply run_one_at, tagged_end_step. congruence.
    - eapply run_cons_at; [apply leaf_step; [reflexivity|exact K]|].
      intros g1 _ (_ & _ & _ & _ & _ & K1). eapply run_app_at; [apply IHv; congruence|].
      intros g2 (_ & _ & _ & _ & _ & K2). apply run_one_at, leaf_step; [reflexivity|congruence].
    - apply run_block_at; try reflexivity; [|exact K]. eapply Forall_impl; [|exact H].
      intros v V d' g' K'. apply run_entry_at; try reflexivity; assumption.
    - apply run_block_at; try reflexivity; [|exact K]. eapply Forall_impl; [|exact H].
      intros [k v] [HK HV] d' g' K'. cbn [fst snd] in *.
      change (EMapKeyBegin :: emit k ++ EMapKeyEnd :: EMapValBegin :: emit v ++ [EMapValEnd])
        with (EMapKeyBegin :: emit k ++ [EMapKeyEnd] ++ EMapValBegin :: emit v ++ [EMapValEnd]).
      rewrite app_assoc, app_comm_cons.
      eapply run_app_at; [apply run_entry_at; try reflexivity; assumption|].
      intros g2 (_ & _ & _ & _ & _ & K2). apply run_entry_at; try reflexivity; [assumption|congruence].
    - apply run_block_at; try reflexivity; [|exact K]. eapply Forall_impl; [|exact H].
      intros [[ft fl] v] V d' g' K'. apply run_entry_at; try reflexivity; assumption.
    - apply run_block_at; try reflexivity; [|exact K]. eapply Forall_impl; [|exact H].
      intros [[ft fl] v] V d' g' K'. apply run_entry_at; try reflexivity; assumption.
    - apply run_block_at; try reflexivity; [|exact K]. eapply Forall_impl; [|exact H].
      intros [[[ft fl] fi] v] V d' g' K'. apply run_entry_at; try reflexivity; assumption.
  Qed.

  (** ** Where the calls go *)

  (** [r] does to the wrapped stream what [r'] does, and ends in a state with [P]. *)
  Definition does (r : res st) (P : st -> Prop) (r' : res W) : Prop :=
    match r' with
    | Ok w => exists g, r = Ok g /\ f_w g = w /\ P g
    | Err w => exists g, r = Err g /\ f_w g = w
    | Panic => r = Panic
    end.
  Lemma does_bind r P r' k Q es :
    does r P r' -> (forall g, P g -> does (k g) Q (run out (f_w g) es)) ->
    does (r >>= k) Q (r' >>= fun w => run out w es).
  Proof.
    intros H K. destruct r' as [w|w|]; cbn in *.
    - destruct H as (g & -> & <- & G). cbn. apply K. exact G.
    - destruct H as (g & -> & E). exists g. split; [reflexivity|exact E].
    - rewrite H. reflexivity.
  Qed.
  Lemma does_weaken r (P Q : st -> Prop) r' : does r P r' -> (forall g, P g -> Q g) -> does r Q r'.
  Proof. destruct r'; cbn; [|tauto|tauto]. intros (g & E & F & G) H. exists g. auto. Qed.
  Lemma does_run_app g a b P es fs Q :
    does (run step g a) P (run out (f_w g) es) ->
    (forall g', P g' -> does (run step g' b) Q (run out (f_w g') fs)) ->
    does (run step g (a ++ b)) Q (run out (f_w g) (es ++ fs)).
  Proof. intros H K. rewrite !run_app. eapply does_bind; [exact H|exact K]. Qed.

  Lemma does_send e g : does (f_send W out e g) (fun g' => g' = f_set_w W (f_w g') g) (run out (f_w g) [e]).
  Proof.
    rewrite run_one. unfold f_send, f_lift. destruct (out (f_w g) e); cbn; try reflexivity;
      eexists; repeat split.
  Qed.

  (** Calls passed through to the wrapped stream. *)
  Lemma run_through es : forall g, f_seen W g = false ->
    does (run (below false) g es) (fun g' => g' = f_set_w W (f_w g') g)
         (run out (f_w g) (map key_end_as_begin es)).
  Proof.
    induction es as [|e es IH]; intros g S.
    - cbn. exists g. repeat split. destruct g; reflexivity.
    - rewrite run_cons. cbn [map].
      change (key_end_as_begin e :: map key_end_as_begin es)
        with ([key_end_as_begin e] ++ map key_end_as_begin es). rewrite run_app.
      eapply does_bind with (P := fun g' => g' = f_set_w W (f_w g') g).
      + unfold below, f_stream. destruct kind; try apply does_send.
        destruct e; try apply does_send; cbn [key_end_as_begin];
        (replace (f_set_seen W false g) with g by (destruct g; cbn in *; subst; reflexivity)); apply does_send.
      + intros g' E. assert (S' : f_seen W g' = false) by (rewrite E; exact S).
        eapply does_weaken; [apply (IH g' S')|]. intros g2 E2. rewrite E2, E. reflexivity.
  Qed.

  Definition upto_seen (g g' : st) : Prop := g' = f_set_seen W (f_seen W g') (f_set_w W (f_w g') g).

  (** Calls of a key, onto a map. *)
  Lemma run_map_key es : kind = FMap -> forall g,
    does (run (below true) g es) (upto_seen g) (run out (f_w g) es).
  Proof.
    intros Kd. induction es as [|e es IH]; intros g.
    - cbn. exists g. repeat split. unfold upto_seen. destruct g; reflexivity.
    - rewrite run_cons. change (e :: es) with ([e] ++ es). rewrite run_app.
      eapply does_bind with (P := upto_seen g).
      + unfold below, f_labels, f_stream. rewrite Kd.
        destruct e; (eapply does_weaken;
          [match goal with |- does (f_send _ _ ?e ?h) _ _ => exact (does_send e h) end|]); intros g' E; unfold upto_seen; rewrite E; destruct g; reflexivity.
      + intros g' E. eapply does_weaken; [apply (IH g')|]. intros g2 E2. unfold upto_seen in *.
        rewrite E2, E. reflexivity.
  Qed.

  (** Calls of a key, onto a sequence or a tuple. *)
  Lemma run_no_key es : (kind = FSeq \/ kind = FTuple) -> forall g, run (below true) g es = Ok g.
  Proof.
    intros Kd. induction es as [|e es IH]; intros g; [reflexivity|]. rewrite run_cons.
    unfold below at 1, f_labels. destruct Kd as [-> | ->]; cbn [bind]; apply IH.
  Qed.

  (** Calls of a key, onto a record or a record tuple. *)
  Lemma run_label_key es : (kind = FRecord \/ kind = FRecTup) -> forall g,
    run (below true) g es =
    match run (lbm) (f_label W g) es with
    | Ok b => Ok (f_set_label W b g)
    | Err b => Err (f_set_label W b g)
    | Panic => Panic
    end.
  Proof.
    intros Kd. induction es as [|e es IH]; intros g.
    - destruct g; reflexivity.
    - rewrite !run_cons. unfold below at 1, f_labels, lbm at 1.
      replace (match kind with FMap => _ | FSeq | FTuple => _ | FRecord | FRecTup => _ end) with
        (match meth lb_overrides lb_step (f_label W g) e with
         | Ok b => Ok (f_set_label W b g) | Err b => Err (f_set_label W b g) | Panic => Panic end)
        by (destruct Kd as [-> | ->]; reflexivity).
      destruct (meth lb_overrides lb_step (f_label W g) e) as [b|b|]; cbn [bind]; try reflexivity.
      rewrite IH. cbn [f_set_label f_label]. destruct (run lbm b es); reflexivity.
  Qed.

  (** A whole child value. *)
  Lemma does_at d r r' (P : st -> Prop) rw : at_depth d r r' -> does r' P rw ->
    does r (fun g => exists g', g = sd d g' /\ P g') rw.
  Proof.
    intros A D. destruct rw as [w|w|]; cbn in *.
    - destruct D as (g & -> & E & G). cbn in A. exists (sd d g). repeat split; [exact A|exact E|]. exists g; auto.
    - destruct D as (g & -> & E). cbn in A. destruct A as (g' & -> & E'). exists g'. split; congruence.
    - subst r'. exact A.
  Qed.
  Lemma child_through v g d : f_depth W g = S d -> f_inkey W g = false -> f_seen W g = false ->
    does (run step g (emit v)) (fun g' => g' = f_set_w W (f_w g') g)
         (run out (f_w g) (map key_end_as_begin (emit v))).
  Proof.
    intros D K S. eapply does_weaken.
    - eapply does_at; [|apply run_through; exact S].
      pose proof (emit_at false v d g K) as A. rewrite <- D in A.
      replace (sd (f_depth W g) g) with g in A by (destruct g; reflexivity). exact A.
    - cbn. intros g' (g1 & -> & ->). destruct g; reflexivity.
  Qed.

  Lemma flat_label l : fst (flat (label_calls l) false) = text_of_label l.
  Proof. unfold label_calls, as_static_str, text_of_label. destruct (l_kind l); reflexivity. Qed.

  Section Fields.
    Variable offset : Z.

    (** Between two children. *)
    Definition ready (d : nat) (b : bool) (next : Z) (g : st) : Prop :=
      f_depth W g = d /\ f_inkey W g = false /\ f_seen W g = false /\ f_label W g = LBEmpty /\
      f_initial W g = offset /\ f_current g = next /\ f_enum W g = b.

    Definition fits_place (i : option index) : bool :=
      match i with
      | Some i => if otag_is (i_tag i) VALUE_OFFSET && fits I64 (i_val i)
                  then fits I64 (i_val i + offset) else true
      | None => true
      end.

    Lemma next_begin_place g i next : f_initial W g = offset -> f_current g = next ->
      fits_place i = true -> next_begin W g i = Some (place offset next i).
    Proof.
      intros I C F. unfold next_begin, place, fits_place in *. destruct i as [i|]; [|rewrite C; reflexivity].
      rewrite index_to_isize, I. destruct (otag_is (i_tag i) VALUE_OFFSET); cbn [andb] in *; [|reflexivity].
      destruct (fits I64 (i_val i)); [|reflexivity]. unfold isize. rewrite F. reflexivity.
    Qed.
    Lemma next_end_place g i next : f_initial W g = offset -> f_current g = next ->
      fits_place i = true -> fits I64 (next_free next (place offset next i)) = true ->
      next_end W g i =
      Some (place offset next i, f_set_current W (next_free next (place offset next i)) g).
    Proof.
      intros I C F N. unfold next_end. rewrite (next_begin_place _ _ _ I C F), index_to_isize, C.
      unfold next_free in *. unfold isize.
      destruct (fits I64 (i_val (place offset next i))); rewrite N; reflexivity.
    Qed.

    Lemma bind_assoc {A} (r : res A) f h : (r >>= f) >>= h = r >>= (fun x => f x >>= h).
    Proof. destruct r; reflexivity. Qed.

    Lemma does_stream e g : kind = FMap -> e <> EMapKeyEnd ->
      f_seen W g = false ->
      does (f_stream W out kind e g) (fun g' => g' = f_set_w W (f_w g') g) (run out (f_w g) [e]).
    Proof.
      intros Kd NE S. unfold f_stream. rewrite Kd. destruct e; try apply does_send; [congruence|].
      replace (f_set_seen W false g) with g by (destruct g; cbn in *; subst; reflexivity). apply does_send.
    Qed.

    (** How a child that brings no key of its own begins and ends. *)
    Definition begin_evs (t : option tag) (l : label) (i : index) : list ev :=
      match kind with
      | FMap => EMapKeyBegin :: text_of_label l ++ [EMapKeyEnd; EMapValBegin]
      | FSeq => [ESeqValBegin]
      | FTuple => [ETupleValBegin t i]
      | FRecord => [ERecordValBegin t l]
      | FRecTup => [ERecTupValBegin t l i]
      end.
    Definition end_ev (t : option tag) (l : label) (i : index) : ev :=
      match kind with
      | FMap => EMapValEnd
      | FSeq => ESeqValEnd
      | FTuple => ETupleValEnd t i
      | FRecord => ERecordValEnd t l
      | FRecTup => ERecTupValEnd t l i
      end.
    Lemma field_begin_does t l i g : f_seen W g = false ->
      does (field_begin W out kind t l i g) (fun g' => g' = f_set_w W (f_w g') g)
           (run out (f_w g) (begin_evs t l i)).
    Proof.
      intros S. unfold field_begin, begin_evs. destruct kind eqn:Kd; try apply does_send.
      rewrite S, flat_label. rewrite !bind_assoc.
      change (EMapKeyBegin :: text_of_label l ++ [EMapKeyEnd; EMapValBegin])
        with ([EMapKeyBegin] ++ text_of_label l ++ [EMapKeyEnd] ++ [EMapValBegin]).
      rewrite run_app. eapply does_bind; [apply (does_send EMapKeyBegin)|]. cbn beta. intros g1 G1.
      rewrite run_app.
      eapply does_bind with (P := fun g' => g' = f_set_w W (f_w g') g).
      { unfold f_lift. destruct (run out (f_w g1) (text_of_label l)); cbn; try reflexivity;
          eexists; repeat split. rewrite G1. reflexivity. }
      intros g2 G2. rewrite run_app.
      eapply does_bind with (P := fun g' => g' = f_set_seen W true (f_set_w W (f_w g') g)).
      { eapply does_weaken; [exact (does_send EMapKeyEnd (f_set_seen W true g2))|].
        intros g3 G3. rewrite G3, G2. reflexivity. }
      intros g3 G3.
      eapply does_weaken; [exact (does_send EMapValBegin (f_set_seen W false g3))|].
      intros g4 G4. rewrite G4, G3. destruct g; cbn in *; subst; reflexivity.
    Qed.
    Lemma field_end_does t l i g : f_seen W g = false ->
      does (field_end W out kind t l i g) (fun g' => g' = f_set_w W (f_w g') g)
           (run out (f_w g) [end_ev t l i]).
    Proof.
      intros S. unfold field_end, end_ev. destruct kind eqn:Kd; apply does_send.
    Qed.

    Notation body := (fun v => map key_end_as_begin (emit v)).
    Notation klabel := (fun k => kept [] false (key_parts r64 k)).

    Lemma field_plain n t i v ix : (forall k, n <> NKey k) ->
      field klabel kind body (MkChild t n i v, ix) =
      begin_evs t (label_for klabel n ix) ix ++ body v ++ [end_ev t (label_for klabel n ix) ix].
    Proof.
      intros NK. unfold field, begin_evs, end_ev. cbn [c_value c_tag c_name].
      destruct kind; try reflexivity.
      replace (match n with NKey k => _ | _ => _ end) with (text_of_label (label_for klabel n ix))
        by (destruct n as [l| |k]; [reflexivity|reflexivity|exfalso; exact (NK k eq_refl)]).
      cbn [app]. rewrite <- app_assoc. reflexivity.
    Qed.

    (** From the end of the opening to the end of the closing. *)
    Lemma tail_does t l i v d b next g g' :
      fits_place i = true -> fits I64 (next_free next (place offset next i)) = true ->
      ready (S d) b next g -> g' = f_set_w W (f_w g') g ->
      does (run step g' (emit v) >>= close_field W out r64 kind t l i)
           (ready (S d) b (next_free next (place offset next i)))
           (run out (f_w g') (body v ++
              [end_ev t (index_label r64 (place offset next i) l) (place offset next i)])).
    Proof.
      intros F N (D & K & S & L & I & C & E) G.
      rewrite run_app. eapply does_bind.
      - eapply child_through; rewrite G; [exact D|exact K|exact S].
      - cbn beta. intros g2 G2. unfold close_field.
        rewrite (next_end_place g2 i next); [|rewrite G2, G; exact I|rewrite G2, G; exact C|exact F|exact N].
        set (nx := next_free next (place offset next i)).
        eapply does_weaken; [apply (field_end_does t _ _ (f_set_current W nx g2)); rewrite G2, G; exact S|].
        intros g3 G3. rewrite G3, G2, G. repeat split; try assumption.
    Qed.

    Lemma field_does n t i v d b next g :
      (forall k, n <> NKey k) ->
      fits_place i = true -> fits I64 (next_free next (place offset next i)) = true ->
      ready (S d) b next g ->
      does (open_field W out r64 kind t (match n with NLabel l => Some l | _ => None end) i g
            >>= (fun g => run step g (emit v))
            >>= close_field W out r64 kind t (match n with NLabel l => Some l | _ => None end) i)
           (ready (S d) b (next_free next (place offset next i)))
           (run out (f_w g) (field klabel kind body (MkChild t n i v, place offset next i))).
    Proof.
      intros NK F N R. pose proof R as (D & K & S & L & I & C & E).
      rewrite (field_plain _ _ _ _ _ NK).
      replace (label_for klabel n (place offset next i))
        with (index_label r64 (place offset next i) (match n with NLabel l => Some l | _ => None end))
        by (destruct n as [l| |k]; cbn [label_for]; [reflexivity|apply index_label_text|exfalso; exact (NK k eq_refl)]).
      unfold open_field. rewrite (next_begin_place _ _ _ I C F).
      rewrite run_app, bind_assoc. eapply does_bind; [apply field_begin_does; exact S|].
      cbn beta. intros g' G. eapply tail_does; eassumption.
    Qed.

    (** A map entry: its key, and the opening of its value. *)
    Definition entry_begin (k : tree) (ix : index) : list ev :=
      match kind with
      | FMap => EMapKeyBegin :: emit k ++ [EMapKeyEnd; EMapValBegin]
      | _ => begin_evs None (label_for klabel (NKey k) ix) ix
      end.
    Lemma field_entry k v ix :
      field klabel kind body (MkChild None (NKey k) None v, ix) =
      entry_begin k ix ++ body v ++ [end_ev None (label_for klabel (NKey k) ix) ix].
    Proof.
      unfold field, entry_begin, begin_evs, end_ev. cbn [c_value c_tag c_name].
      destruct kind; try reflexivity. cbn [app]. rewrite <- app_assoc. reflexivity.
    Qed.

    Definition keyed (k : tree) (g g' : st) : Prop :=
      exists b, g' = f_set_key W b (f_set_w W (f_w g') g) /\
        (kind = FRecord \/ kind = FRecTup -> lb_label r64 b = label_new_computed (klabel k)).

    Lemma key_does k b next g : ready 1 b next g ->
      does (run step g (EMapKeyBegin :: emit k ++ [EMapKeyEnd; EMapValBegin])) (keyed k g)
           (run out (f_w g) (entry_begin k (place offset next None))).
    Proof.
      intros (D & K & S & L & I & C & E).
      assert (Hb : forall g, f_depth W g = 1 ->
        step g EMapKeyBegin = (f_labels W out kind EMapKeyBegin g >>= fun g => Ok (f_set_inkey W true g))).
      { intros g0 D0. cbn. unfold flattenable_value. rewrite D0. reflexivity. }
      assert (He : forall g, f_depth W g = 1 ->
        step g EMapKeyEnd = (f_labels W out kind EMapKeyEnd g >>= fun g => Ok (f_set_inkey W false g))).
      { intros g0 D0. cbn. unfold flattenable_value. rewrite D0. reflexivity. }
      assert (Hv : forall g, f_depth W g = 1 ->
        step g EMapValBegin = (let (b, g) := f_take W kind g in
            let g := f_set_key W b g in open_field W out r64 kind None (Some (lb_label r64 (f_key W g))) None g)).
      { intros g0 D0. cbn. unfold flattenable_value. rewrite D0. reflexivity. }
      assert (Hk : forall g, f_depth W g = 1 -> f_inkey W g = true ->
        at_depth 1 (run step g (emit k)) (run (below true) g (emit k))).
      { intros g0 D0 K0. pose proof (emit_at true k 0 g0 K0) as A.
        replace (sd 1 g0) with g0 in A by (destruct g0; cbn in *; subst; reflexivity). exact A. }
      rewrite run_cons, (Hb g D). unfold entry_begin.
      destruct (kind_cases kind) as [Kd|[Kd|Kd]].
      - (* onto a map *)
        replace (match kind with FMap => _ | _ => _ end)
          with ([EMapKeyBegin] ++ emit k ++ [EMapKeyEnd] ++ [EMapValBegin]) by (rewrite Kd; reflexivity).
        rewrite run_app, bind_assoc. eapply does_bind.
        { unfold f_labels. rewrite Kd. rewrite <- Kd. apply does_stream; [exact Kd|discriminate|exact S]. }
        cbn beta. intros g1 G1. cbn [bind]. rewrite !run_app.
        eapply does_bind with (P := fun g' => exists s, g' = f_set_seen W s (f_set_inkey W true (f_set_w W (f_w g') g))).
        { eapply does_weaken.
          - eapply does_at; [apply (Hk (f_set_inkey W true g1)); rewrite G1; [exact D|reflexivity]|].
            exact (run_map_key (emit k) Kd (f_set_inkey W true g1)).
          - cbn beta. intros g' (g2 & -> & G2). unfold upto_seen in G2. exists (f_seen W g2).
            rewrite G2, G1. destruct g; cbn in *; subst; reflexivity. }
        intros g2 (s & G2). change ([EMapKeyEnd; EMapValBegin]) with ([EMapKeyEnd] ++ [EMapValBegin]).
        rewrite (run_app step), (run_one step), He by (rewrite G2; exact D). rewrite bind_assoc.
        eapply does_bind with (P := fun g' => g' = f_set_seen W true (f_set_inkey W true (f_set_w W (f_w g') g))).
        { unfold f_labels, f_stream. rewrite Kd, <- (run_one out).
          eapply does_weaken; [exact (does_send EMapKeyEnd (f_set_seen W true g2))|].
          intros g3 G3. rewrite G3, G2. reflexivity. }
        intros g3 G3. cbn [bind]. rewrite (run_one step), Hv by (rewrite G3; exact D).
        unfold f_take. rewrite Kd. unfold open_field, next_begin, field_begin.
        replace (f_seen W (f_set_key W LBEmpty (f_set_inkey W false g3))) with true by (rewrite G3; reflexivity).
        cbn [bind f_stream].
        eapply does_weaken; [exact (does_send EMapValBegin (f_set_seen W false (f_set_key W LBEmpty (f_set_inkey W false g3))))|].
        intros g4 G4. exists LBEmpty. split; [|rewrite Kd; intros [H|H]; discriminate H].
        rewrite G4, G3. destruct g; cbn in *; subst; reflexivity.
      - (* keys are dropped *)
        assert (Hl : forall e g, f_labels W out kind e g = Ok g)
          by (intros; unfold f_labels; destruct Kd as [-> | ->]; reflexivity).
        rewrite Hl. cbn [bind]. rewrite run_app.
        pose proof (Hk (f_set_inkey W true g) D eq_refl) as A.
        rewrite (run_no_key (emit k) Kd) in A. cbn in A. rewrite A. cbn [bind].
        rewrite run_cons, He by reflexivity. rewrite Hl. cbn [bind].
        rewrite run_one, Hv by reflexivity.
        assert (Ht : forall g, f_take W kind g = (LBEmpty, g))
          by (intros; unfold f_take; destruct Kd as [-> | ->]; reflexivity).
        rewrite Ht. cbn zeta. unfold open_field.
        set (g2 := f_set_key W LBEmpty _).
        rewrite (next_begin_place g2 None next) by (try exact I; try exact C; reflexivity).
        cbn [index_label].
        replace (match kind with FMap => _ | _ => _ end) with (begin_evs None (lb_label r64 (f_key W g2)) (place offset next None))
          by (unfold begin_evs; destruct Kd as [-> | ->]; reflexivity).
        eapply does_weaken; [exact (field_begin_does None _ _ g2 S)|].
        intros g3 G3. exists LBEmpty. split; [|intros H; destruct Kd as [Kd|Kd]; rewrite Kd in H; destruct H as [H|H]; discriminate H].
        rewrite G3. unfold g2. destruct g; cbn in *; subst; reflexivity.
      - (* keys become labels *)
        assert (Hl : forall e g, f_labels W out kind e g =
          match lbm (f_label W g) e with
          | Ok b => Ok (f_set_label W b g) | Err b => Err (f_set_label W b g) | Panic => Panic end)
          by (intros; unfold f_labels; destruct Kd as [-> | ->]; reflexivity).
        destruct (lb_event r64 9 (f_label W g) EMapKeyBegin) as (b1 & E1 & S1); [cbn; lia|].
        rewrite Hl, E1. cbn [bind]. rewrite run_app.
        set (g1 := f_set_inkey W true (f_set_label W b1 g)).
        pose proof (Hk g1 D eq_refl) as A.
        rewrite (run_label_key (emit k) Kd) in A.
        destruct (lb_emit r64 (f_label W g1) k) as (b2 & E2 & S2). rewrite E2 in A. cbn [at_depth] in A.
        rewrite A. cbn [bind]. rewrite run_cons, He by reflexivity. rewrite Hl.
        cbn [f_set_depth f_set_label f_label].
        destruct (lb_event r64 9 b2 EMapKeyEnd) as (b3 & E3 & S3); [cbn; lia|].
        rewrite E3. cbn [bind]. rewrite run_one, Hv by reflexivity.
        assert (Ht : forall g, f_take W kind g = (f_label W g, f_set_label W LBEmpty g))
          by (intros; unfold f_take; destruct Kd as [-> | ->]; reflexivity).
        rewrite Ht. cbn zeta. unfold open_field.
        set (g2 := f_set_key W _ _).
        rewrite (next_begin_place g2 None next) by (try exact I; try exact C; reflexivity).
        cbn [index_label].
        assert (Hb3 : lb_label r64 b3 = label_new_computed (klabel k)).
        { rewrite lb_label_text, S3. cbn [fold_left ev_parts]. rewrite S2.
          change (f_label W g1) with b1. rewrite S1. cbn [fold_left ev_parts]. rewrite L.
          rewrite kept_fold. reflexivity. }
        change (f_key W g2) with b3. rewrite Hb3.
        replace (match kind with FMap => _ | _ => _ end) with (begin_evs None (label_for klabel (NKey k) (place offset next None)) (place offset next None))
          by (destruct Kd as [-> | ->]; reflexivity).
        eapply does_weaken; [exact (field_begin_does None _ _ g2 S)|].
        intros g3 G3. exists b3. split; [|intros _; exact Hb3].
        rewrite G3. unfold g2. destruct g; cbn in *; subst; reflexivity.
    Qed.

    Lemma entry_does k v b next g :
      fits I64 (next_free next (place offset next None)) = true ->
      ready 1 b next g ->
      does (run step g (EMapKeyBegin :: emit k ++ EMapKeyEnd :: EMapValBegin :: emit v ++ [EMapValEnd]))
           (ready 1 b (next_free next (place offset next None)))
           (run out (f_w g) (field klabel kind body (MkChild None (NKey k) None v, place offset next None))).
    Proof.
      intros N R.
      replace (EMapKeyBegin :: emit k ++ EMapKeyEnd :: EMapValBegin :: emit v ++ [EMapValEnd])
        with ((EMapKeyBegin :: emit k ++ [EMapKeyEnd; EMapValBegin]) ++ emit v ++ [EMapValEnd])
        by (cbn [app]; rewrite <- app_assoc; reflexivity).
      rewrite field_entry, run_app, (run_app out). eapply does_bind; [eapply key_does; exact R|].
      intros g1 (b1 & G1 & B1). rewrite run_app.
      replace (run step g1 (emit v) >>= (fun s' => run step s' [EMapValEnd]))
        with (run step g1 (emit v) >>= close_field W out r64 kind None (Some (lb_label r64 b1)) None).
      - eapply does_weaken.
        + pose proof (tail_does None (Some (lb_label r64 b1)) None v 0 b next (f_set_key W b1 g) g1 eq_refl N) as T.
          cbn [index_label] in T.
          replace (end_ev None (label_for klabel (NKey k) (place offset next None)) (place offset next None))
            with (end_ev None (lb_label r64 b1) (place offset next None)).
          * apply T; [destruct R as (D & K & S & L & I & C & E); repeat split; assumption|].
            rewrite G1. reflexivity.
          * unfold end_ev. destruct kind; try reflexivity; rewrite B1 by (auto); reflexivity.
        + intros g2 G2. exact G2.
      - pose proof R as (D & K & S & L & I & C & E).
        assert (Hc : does (run step g1 (emit v)) (fun g' => g' = f_set_w W (f_w g') g1)
                       (run out (f_w g1) (map key_end_as_begin (emit v)))).
        { eapply child_through with (d := 0); rewrite G1; [exact D|exact K|exact S]. }
        destruct (run step g1 (emit v)) as [g2|g2|] eqn:ER; cbn [bind]; try reflexivity.
        destruct (run out (f_w g1) (map key_end_as_begin (emit v))); cbn in Hc.
        + destruct Hc as (g3 & G3 & _ & G4). inversion G3; subst g3. rewrite run_one. cbn [f_step].
          unfold flattenable_value.
          replace (f_depth W g2) with 1 by (rewrite G4, G1; symmetry; exact D). cbn [Nat.eqb].
          replace (f_key W g2) with b1 by (rewrite G4, G1; reflexivity). reflexivity.
        + destruct Hc as (g3 & G3 & _). discriminate G3.
        + discriminate Hc.
    Qed.

    Lemma does_cont r P rw k1 k2 : does r P rw -> (forall g, P g -> k1 g = k2 g) -> r >>= k1 = r >>= k2.
    Proof.
      intros H K. destruct rw; cbn in H.
      - destruct H as (g & -> & _ & G). apply K. exact G.
      - destruct H as (g & -> & _). reflexivity.
      - rewrite H. reflexivity.
    Qed.
    Lemma after_value t l i v d b next g k1 k2 :
      ready (S d) b next g -> fits_place i = true ->
      (forall g2, g2 = f_set_w W (f_w g2) g -> k1 g2 = k2 g2) ->
      open_field W out r64 kind t l i g >>= (fun g => run step g (emit v)) >>= k1 =
      open_field W out r64 kind t l i g >>= (fun g => run step g (emit v)) >>= k2.
    Proof.
      intros (D & K & S & L & I & C & E) F H. unfold open_field.
      rewrite (next_begin_place _ _ _ I C F), !bind_assoc.
      eapply does_cont; [apply field_begin_does; exact S|]. cbn beta. intros g1 G1.
      eapply does_cont; [eapply child_through; rewrite G1; [exact D|exact K|exact S]|].
      cbn beta. intros g2 G2. apply H. rewrite G2, G1. reflexivity.
    Qed.

    (** One child of a container at the root. *)
    Lemma plain_does n t i v b next g eb ee :
      (forall k, n <> NKey k) ->
      (forall g, f_depth W g = 1 ->
         step g eb = open_field W out r64 kind t (match n with NLabel l => Some l | _ => None end) i g) ->
      (forall g, f_depth W g = 1 ->
         step g ee = close_field W out r64 kind t (match n with NLabel l => Some l | _ => None end) i g) ->
      fits_place i = true -> fits I64 (next_free next (place offset next i)) = true ->
      ready 1 b next g ->
      does (run step g (eb :: emit v ++ [ee]))
           (ready 1 b (next_free next (place offset next i)))
           (run out (f_w g) (field klabel kind body (MkChild t n i v, place offset next i))).
    Proof.
      intros NK HB HE F N R. pose proof R as (D & _).
      rewrite run_cons, (HB g D).
      replace (open_field W out r64 kind t _ i g >>= (fun s' => run step s' (emit v ++ [ee])))
        with (open_field W out r64 kind t (match n with NLabel l => Some l | _ => None end) i g
              >>= (fun g => run step g (emit v))
              >>= close_field W out r64 kind t (match n with NLabel l => Some l | _ => None end) i).
      - apply field_does; assumption.
      - rewrite (after_value _ _ _ _ 0 b next _ _ (fun g => run step g [ee]) R F).
        + rewrite bind_assoc. destruct (open_field _ _ _ _ _ _ _ _); cbn [bind]; try reflexivity.
          rewrite run_app. reflexivity.
        + intros g2 G2. rewrite run_one. symmetry. apply HE. rewrite G2. exact D.
    Qed.

    Lemma fields_does {A} (f : A -> list ev) (c : A -> child) b vs :
      (forall v next g, fits_place (c_index (c v)) = true ->
         fits I64 (next_free next (place offset next (c_index (c v)))) = true ->
         ready 1 b next g ->
         does (run step g (f v)) (ready 1 b (next_free next (place offset next (c_index (c v)))))
              (run out (f_w g) (field klabel kind body (c v, place offset next (c_index (c v)))))) ->
      forall next g, ready 1 b next g -> room offset next (map c vs) = true ->
      does (run step g (flat_map f vs)) (ready 1 b (end_offset offset next (map c vs)))
           (run out (f_w g) (flat_map (field klabel kind body) (placed offset next (map c vs)))).
    Proof.
      intros H. induction vs as [|v vs IH]; intros next g R Ro.
      - cbn. exists g. repeat split; apply R.
      - cbn [map flat_map placed end_offset room] in *.
        apply andb_prop in Ro as [Ro Ro3]. apply andb_prop in Ro as [Ro1 Ro2].
        eapply does_run_app; [apply H; assumption|]. cbn beta. intros g1 R1. apply IH; assumption.
    Qed.

    Lemma block_does {A} b (f : A -> list ev) (c : A -> child) vs o e next g :
      opens o = true -> closes e = true ->
      (forall v next g, fits_place (c_index (c v)) = true ->
         fits I64 (next_free next (place offset next (c_index (c v)))) = true ->
         ready 1 b next g ->
         does (run step g (f v)) (ready 1 b (next_free next (place offset next (c_index (c v)))))
              (run out (f_w g) (field klabel kind body (c v, place offset next (c_index (c v)))))) ->
      ready 0 b next g -> room offset next (map c vs) = true ->
      does (run step g (o :: flat_map f vs ++ [e])) (ready 0 b (end_offset offset next (map c vs)))
           (run out (f_w g) (flat_map (field klabel kind body) (placed offset next (map c vs)))).
    Proof.
      intros O C H (D & K & S & L & I & Cu & E) Ro.
      assert (EO : step g o = Ok (sd 1 g)).
      { destruct o; try discriminate O; cbn; unfold flattenable_begin; cbn; rewrite K, D; reflexivity. }
      rewrite run_cons, EO. cbn [bind].
      rewrite <- (app_nil_r (flat_map (field klabel kind body) _)).
      eapply (does_run_app (sd 1 g)).
      - apply (fields_does f c b vs H next (sd 1 g)); [repeat split; assumption|exact Ro].
      - intros g1 (D1 & K1 & S1 & L1 & I1 & C1 & E1). rewrite run_one.
        assert (EC : step g1 e = Ok (sd 0 g1)).
        { destruct e; try discriminate C; cbn; unfold flattenable_end; cbn; rewrite K1, D1; cbn; rewrite D1; reflexivity. }
        rewrite EC. cbn. exists (sd 0 g1). repeat split; assumption.
    Qed.

    Definition rooted (b : bool) (t : tree) (next : Z) (g : st) : Prop :=
      ready 0 (b || enum_below t) (end_offset offset next (children b t)) g.

    Lemma leaf_root es g : forallb leaf es = true -> f_depth W g = 0 ->
      (forall e, In e es -> match e with EEnumBegin _ _ _ | EEnumEnd _ _ _ => False | _ => True end) ->
      run step g es = Ok g.
    Proof.
      intros L D. induction es as [|e es IH]; intros NE; [reflexivity|].
      cbn in L. apply andb_prop in L as [L1 L2]. rewrite run_cons.
      replace (step g e) with (Ok g).
      - cbn [bind]. apply IH; [exact L2|]. intros e' I. apply NE. right; exact I.
      - pose proof (NE e (or_introl eq_refl)) as N.
        destruct e; try discriminate L1; try contradiction; cbn; unfold f_value, value_at_root; rewrite D; reflexivity.
    Qed.
    Lemma leaf_does es t b next g : forallb leaf es = true ->
      (forall e, In e es -> match e with EEnumBegin _ _ _ | EEnumEnd _ _ _ => False | _ => True end) ->
      children b t = [] -> enum_below t = false -> ready 0 b next g ->
      does (run step g es) (rooted b t next)
           (run out (f_w g) (flat_map (field klabel kind body) (placed offset next (children b t)))).
    Proof.
      intros L N C B R. rewrite leaf_root by (try assumption; apply R). unfold rooted. rewrite C, B, orb_false_r. cbn.
      exists g. repeat split; apply R.
    Qed.

    Lemma enum_below_tagged t : enum_below t = false -> tagged_enum t = false.
    Proof. induction t using tree_ind'; cbn; auto. Qed.

    Lemma block_rooted r b t next rw : enum_below t = false ->
      does r (ready 0 b (end_offset offset next (children b t))) rw -> does r (rooted b t next) rw.
    Proof. intros B H. eapply does_weaken; [exact H|]. intros g G. unfold rooted. rewrite B, orb_false_r. exact G. Qed.

    Lemma root_does t : forall b next g,
      b || negb (tagged_enum t) = true ->
      room offset next (children b t) = true ->
      ready 0 b next g ->
      does (run step g (emit t)) (rooted b t next)
           (run out (f_w g) (flat_map (field klabel kind body) (placed offset next (children b t)))).
    Proof.
      induction t using tree_ind'; intros b' next g T Ro R; pose proof R as (D & K & S & L & I & C & E);
        try (apply leaf_does; [reflexivity| |reflexivity|reflexivity|exact R];
             intros e0 [<-|[]]; exact Logic.I).
      - apply leaf_does; [| |reflexivity|reflexivity|exact R].
        + cbn. rewrite forallb_app. cbn. rewrite andb_true_r. clear. induction fs as [|[[|] s] fs IH]; cbn; auto.
        + intros e0 I0. cbn in I0. rewrite in_app_iff, in_map_iff in I0.
          destruct I0 as [<-|[([[|] s] & <- & _)|[<-|[]]]]; exact Logic.I.
      - apply leaf_does; [| |reflexivity|reflexivity|exact R].
        + cbn. rewrite forallb_app. cbn. rewrite andb_true_r. clear. induction fs as [|[[|] s] fs IH]; cbn; auto.
        + intros e0 I0. cbn in I0. rewrite in_app_iff, in_map_iff in I0.
          destruct I0 as [<-|[([[|] s] & <- & _)|[<-|[]]]]; exact Logic.I.
      - (* hint *)
        cbn [emit children] in *. rewrite run_cons.
        replace (step g (ETagHint t)) with (Ok g)
          by (cbn; unfold f_value, value_at_root; rewrite D; reflexivity).
        cbn [bind]. apply IHt; assumption.
      - (* tagged *)
        cbn [emit]. destruct b'.
        + (* the child of an enum *)
          cbn [children room placed end_offset flat_map] in *. rewrite app_nil_r.
          set (n := match l with Some l => NLabel l | None => NIndex end) in *.
          assert (EN : l = match n with NLabel l => Some l | _ => None end) by (destruct l; reflexivity).
          apply andb_prop in Ro as [Ro _]. apply andb_prop in Ro as [Ro1 Ro2]. cbn [c_index] in *.
          assert (R1 : ready 1 true next (sd 1 g)) by (repeat split; assumption).
          rewrite run_cons.
          replace (step g (ETaggedBegin t l i)) with (open_field W out r64 kind None l i (sd 1 g))
            by (cbn; rewrite E; unfold flattenable_begin; cbn; rewrite K, D; reflexivity).
          replace (open_field W out r64 kind None l i (sd 1 g) >>= (fun s' => run step s' (emit t0 ++ [ETaggedEnd t l i])))
            with ((open_field W out r64 kind None l i (sd 1 g)
                   >>= (fun g => run step g (emit t0))
                   >>= close_field W out r64 kind None l i)
                  >>= fun g => match f_depth W g with O => Panic | Datatypes.S d => Ok (sd d g) end).
          * rewrite EN.
            assert (NK : forall k, n <> NKey k) by (intros k; unfold n; destruct l; discriminate).
            pose proof (field_does n None i t0 0 true next (sd 1 g) NK Ro1 Ro2 R1) as FD.
            change (f_w (sd 1 g)) with (f_w g) in FD.
            destruct (run out (f_w g) _) as [w|w|]; cbn in FD |- *.
            -- destruct FD as (g1 & -> & W1 & R2). cbn [bind]. pose proof R2 as (D2 & K2 & S2 & L2 & I2 & C2 & E2).
               rewrite D2. exists (sd 0 g1). repeat split; try assumption.
            -- destruct FD as (g1 & -> & W1). exists g1. split; [reflexivity|exact W1].
            -- rewrite FD. reflexivity.
          * rewrite bind_assoc.
            rewrite (after_value None l i t0 0 true next (sd 1 g) _ (fun g => run step g [ETaggedEnd t l i]) R1 Ro1).
            -- rewrite bind_assoc. destruct (open_field _ _ _ _ _ _ _ _); cbn [bind]; try reflexivity.
               rewrite run_app. reflexivity.
            -- intros g2 G2. rewrite run_one.
               cbn [f_step]. replace (f_enum W g2) with true by (rewrite G2; symmetry; exact E).
               unfold flattenable_end. replace (f_inkey W g2) with false by (rewrite G2; symmetry; exact K).
               replace (f_depth W g2) with 1 by (rewrite G2; reflexivity). reflexivity.
        + (* looked through *)
          cbn [orb tagged_enum] in T. apply negb_true_iff in T.
          cbn [children] in *. rewrite run_cons.
          replace (step g (ETaggedBegin t l i)) with (Ok g) by (cbn; rewrite E, D; reflexivity).
          cbn [bind]. rewrite <- (app_nil_r (flat_map _ _)).
          eapply does_run_app.
          * apply IHt; [|exact Ro|exact R]. cbn. rewrite enum_below_tagged by exact T. reflexivity.
          * intros g1 R1. unfold rooted in R1. rewrite T in R1. cbn [orb] in R1. rewrite run_one.
            pose proof R1 as (D1 & K1 & S1 & L1 & I1 & C1 & E1).
            replace (step g1 (ETaggedEnd t l i)) with (Ok g1) by (cbn; rewrite E1, D1; reflexivity).
            cbn. exists g1. split; [reflexivity|]. split; [reflexivity|]. unfold rooted. cbn. rewrite T. exact R1.
      - (* enum *)
        cbn [emit children] in *. rewrite run_cons.
        replace (step g (EEnumBegin t l i)) with (Ok (f_set_enum W true g))
          by (cbn; unfold value_at_root; rewrite D; reflexivity).
        cbn [bind]. rewrite <- (app_nil_r (flat_map _ _)).
        eapply (does_run_app (f_set_enum W true g)).
        + apply IHt; [reflexivity|exact Ro|repeat split; assumption].
        + intros g1 R1. rewrite run_one.
          pose proof R1 as (D1 & K1 & S1 & L1 & I1 & C1 & E1).
          replace (step g1 (EEnumEnd t l i)) with (Ok g1)
            by (cbn; unfold value_at_root; rewrite D1; reflexivity).
          cbn. exists g1. split; [reflexivity|]. split; [reflexivity|].
          unfold rooted. cbn [children enum_below]. rewrite orb_true_r. exact R1.
      - apply block_rooted; [reflexivity|]. cbn [emit children] in *.
        apply block_does; try reflexivity; try assumption.
        intros v nx g1 F N R1. apply (plain_does NIndex); try assumption; try discriminate;
          intros g0 D0; cbn; unfold flattenable_value; rewrite D0; reflexivity.
      - apply block_rooted; [reflexivity|]. cbn [emit children] in *.
        apply block_does; try reflexivity; try assumption.
        intros [k v] nx g1 F N R1. apply entry_does; assumption.
      - apply block_rooted; [reflexivity|]. cbn [emit children] in *.
        apply block_does; try reflexivity; try assumption.
        intros [[ft fl] v] nx g1 F N R1. apply (plain_does (NLabel fl)); try assumption; try discriminate;
          intros g0 D0; cbn; unfold flattenable_value; rewrite D0; reflexivity.
      - apply block_rooted; [reflexivity|]. cbn [emit children] in *.
        apply block_does; try reflexivity; try assumption.
        intros [[ft fi] v] nx g1 F N R1. apply (plain_does NIndex); try assumption; try discriminate;
          intros g0 D0; cbn; unfold flattenable_value; rewrite D0; reflexivity.
      - apply block_rooted; [reflexivity|]. cbn [emit children] in *.
        apply block_does; try reflexivity; try assumption.
        intros [[[ft fl] fi] v] nx g1 F N R1. apply (plain_does (NLabel fl)); try assumption; try discriminate;
          intros g0 D0; cbn; unfold flattenable_value; rewrite D0; reflexivity.
    Qed.

    (** A tagged value with an enum inside: the enum's end leaves the flag set,
        so the end of the tagged value is taken for the end of a variant. *)
    Lemma tagged_enum_panics t : (forall w e, exists w', out w e = Ok w') ->
      forall next g, tagged_enum t = true -> room offset next (children false t) = true ->
      ready 0 false next g -> run step g (emit t) = Panic.
    Proof.
      intros Inf.
      assert (Infr : forall es w, exists w', run out w es = Ok w').
      { induction es as [|e es IH]; intros w; [exists w; reflexivity|].
        rewrite run_cons. destruct (Inf w e) as (w' & ->). apply IH. }
      induction t using tree_ind'; intros next g T Ro R; try discriminate T;
        pose proof R as (D & K & S & L & I & C & E); cbn [emit children tagged_enum] in *; rewrite run_cons.
      - replace (step g (ETagHint t)) with (Ok g)
          by (cbn; unfold f_value, value_at_root; rewrite D; reflexivity).
        cbn [bind]. eapply IHt; eassumption.
      - replace (step g (ETaggedBegin t l i)) with (Ok g) by (cbn; rewrite E, D; reflexivity).
        cbn [bind]. rewrite run_app. destruct (tagged_enum t0) eqn:T0.
        + rewrite (IHt next g eq_refl Ro R). reflexivity.
        + pose proof (root_does t0 false next g) as RD. cbn [orb] in RD.
          rewrite T0 in RD. specialize (RD eq_refl Ro R).
          destruct (Infr (flat_map (field klabel kind body) (placed offset next (children false t0))) (f_w g)) as (w' & EW).
          rewrite EW in RD. cbn in RD. destruct RD as (g1 & -> & _ & R1). cbn [bind]. rewrite run_one.
          unfold rooted in R1. rewrite T in R1. destruct R1 as (D1 & K1 & S1 & L1 & I1 & C1 & E1).
          cbn [f_step]. rewrite E1. cbn [orb]. unfold flattenable_end. rewrite K1, D1. cbn [Nat.eqb].
          assert (P : exists g2, f_stream W out kind (ETaggedEnd t l i) g1 = Ok g2 /\ f_depth W g2 = 0).
          { destruct (Inf (f_w g1) (ETaggedEnd t l i)) as (w2 & E2).
            exists (f_set_w W w2 g1). split; [|exact D1].
            unfold f_stream, f_send, f_lift. destruct kind; rewrite E2; reflexivity. }
          destruct P as (g2 & -> & D2). cbn [bind]. rewrite D2. reflexivity.
    Qed.

    (** Whatever the wrapped stream does, such a value is never flattened to the end. *)
    Lemma tagged_enum_never_ok t : forall next g, tagged_enum t = true ->
      room offset next (children false t) = true ->
      ready 0 false next g -> forall g', run step g (emit t) <> Ok g'.
    Proof.
      induction t using tree_ind'; intros next g T Ro R g'; try discriminate T;
        pose proof R as (D & K & S & L & I & C & E); cbn [emit children tagged_enum] in *; rewrite run_cons.
      - replace (step g (ETagHint t)) with (Ok g)
          by (cbn; unfold f_value, value_at_root; rewrite D; reflexivity).
        cbn [bind]. eapply IHt; eassumption.
      - replace (step g (ETaggedBegin t l i)) with (Ok g) by (cbn; rewrite E, D; reflexivity).
        cbn [bind]. rewrite run_app. destruct (tagged_enum t0) eqn:T0.
        + pose proof (IHt next g eq_refl Ro R) as N.
          destruct (run step g (emit t0)) as [g1|g1|]; cbn [bind]; [exfalso; exact (N g1 eq_refl)|discriminate|discriminate].
        + pose proof (root_does t0 false next g) as RD. cbn [orb] in RD.
          rewrite T0 in RD. specialize (RD eq_refl Ro R).
          destruct (run out (f_w g) _) as [w1|w1|]; cbn in RD.
          2: destruct RD as (g1 & -> & _); discriminate.
          2: rewrite RD; discriminate.
          destruct RD as (g1 & -> & _ & R1). cbn [bind]. rewrite run_one.
          unfold rooted in R1. rewrite T in R1. destruct R1 as (D1 & K1 & S1 & L1 & I1 & C1 & E1).
          cbn [f_step]. rewrite E1. cbn [orb]. unfold flattenable_end. rewrite K1, D1. cbn [Nat.eqb].
          destruct (f_stream W out kind (ETaggedEnd t l i) g1) as [g2|g2|] eqn:ES; cbn [bind]; try discriminate.
          apply stream_same in ES. destruct ES as (_ & _ & _ & D2 & _). rewrite D2, D1. discriminate.
    Qed.
  End Fields.
End Follow.
