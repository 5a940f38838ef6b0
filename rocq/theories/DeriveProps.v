(** * DeriveProps: C38, C39, C52 *)

From Coq Require FinFun.
From Verif Require Import Base Event Tree FlatProofs LowerModel DataModel DataProofs ExtractSpec
  FlattenModel FlattenSpec FlattenProofs FlattenProps DeriveModel DeriveSpec DeriveProofs.

(** ** C38: derived implementations stream well-formed values *)

Definition C38_derived_well_formed : Prop :=
  forall W (out : W -> ev -> res W) r64 d m variant vs ts t w,
  derive d = Some m -> Forall2 streams vs ts -> length ts = field_count d variant ->
  derived_tree (label_kept r64) d variant ts = Some t ->
  derived_stream out r64 m variant vs w = run out w (emit t).

Lemma flat_map_map {A B C} (f : A -> B) (g : B -> list C) l : flat_map g (map f l) = flat_map (fun x => g (f x)) l.
Proof. induction l as [|x l IH]; [reflexivity|]. cbn. rewrite IH. reflexivity. Qed.

Lemma emit_fields kind t l i n ss : kind <> FMap ->
  emit (fields_tree kind t l i n ss) =
  match kind with
  | FRecTup => ERecTupBegin t l i n :: flat_map (slot_calls kind) ss ++ [ERecTupEnd t l i]
  | FTuple => ETupleBegin t l i n :: flat_map (slot_calls kind) ss ++ [ETupleEnd t l i]
  | FRecord => ERecordBegin t l i n :: flat_map (slot_calls kind) ss ++ [ERecordEnd t l i]
  | _ => ETaggedBegin t l i :: ESeqBegin n :: flat_map (slot_calls kind) ss ++ [ESeqEnd; ETaggedEnd t l i]
  end.
Proof.
  intros K. destruct kind; try contradiction; cbn [fields_tree emit]; rewrite ?flat_map_map; try reflexivity.
  cbn [app]. rewrite <- app_assoc. reflexivity.
Qed.

Lemma run_one {S} (step : S -> ev -> res S) s e : run step s [e] = step s e.
Proof. cbn. destruct (step s e); reflexivity. Qed.

Lemma run_around {W} (out : W -> ev -> res W) w b es e (f : W -> res W) :
  (forall w, f w = run out w es) ->
  out w b >>= f >>= (fun w => out w e) = run out w (b :: es ++ [e]).
Proof.
  intros F. rewrite run_cons. destruct (out w b) as [w1|w1|]; cbn [bind]; try reflexivity.
  rewrite F, run_app. destruct (run out w1 es); cbn [bind]; try reflexivity. rewrite run_one. reflexivity.
Qed.

Lemma quote_label_spec v name : label_or_ident v name = type_label v name.
Proof. destruct v as [[]|]; reflexivity. Qed.
Lemma const_index_spec i : eval_const (option_map const_index_of i) = option_map given_index i.
Proof. destruct i as [[]|]; reflexivity. Qed.

Lemma Forall2_nth vs ts : Forall2 streams vs ts -> forall j t, nth_error ts j = Some t -> streams (nth j vs []) t.
Proof.
  induction 1 as [|v t vs ts H HF IH]; intros [|j] x E; try discriminate E.
  - inversion E; subst. exact H.
  - exact (IH j x E).
Qed.

Lemma streamed_nil fs ts : length ts = length fs -> filter streamed fs = [] -> streamed_fields fs ts = [].
Proof.
  unfold streamed_fields. revert ts. induction fs as [|f fs IH]; intros [|t ts] L E; try reflexivity; try discriminate L.
  cbn in *. destruct (streamed f); [discriminate E|]. apply IH; [lia|exact E].
Qed.

(** A struct's or variant's fields. *)
Lemma record_streams {W} (out : W -> ev -> res W) r64 target fs a l i ar vs ts w :
  target = FRecTup \/ target = FTuple ->
  stream_record_tuple target fs (at_tag a) l i (flag (at_unlabeled a)) (flag (at_unindexed a)) = Some ar ->
  Forall2 streams vs ts -> length ts = length fs ->
  fields_ok (fields_kind target a fs) (streamed_fields fs ts) = true ->
  exec_arm out r64 ar vs w = run out w (emit (record_tree (label_kept r64) target a l (eval_const i) fs ts)).
Proof.
  intros TG H HV HL HO. unfold stream_record_tuple in H.
  set (unl := flag (at_unlabeled a)) in *. set (uni := flag (at_unindexed a)) in *.
  destruct (field_loop unl uni _ 0 fs) as [lo|] eqn:E; [|discriminate H].
  destruct ((lo_labeled lo =? 0) || _)%N eqn:A1; [|discriminate H].
  destruct ((lo_indexed lo =? 0) || _)%N; [|discriminate H]. cbn [andb] in H. inversion H; subst ar; clear H.
  destruct (loop_counts _ _ _ _ _ _ E) as (CN & _ & CC & CT). cbn [lo_count lo_const lo_target] in *.
  set (K := fields_kind target a fs) in *.
  assert (HK : forall f, In f fs -> streamed f = true -> kind_of unl uni f = K).
  { intros f IF SF. unfold K, fields_kind. fold unl uni. destruct (filter streamed fs) as [|g gs] eqn:FS.
    - exfalso. assert (IN : In f (filter streamed fs)) by (apply filter_In; auto). rewrite FS in IN. exact IN.
    - assert (IN : In g (filter streamed fs)) by (rewrite FS; left; reflexivity). apply filter_In in IN as (IG & SG).
      eapply (uniform unl uni fs _ _ _ E); auto. }
  assert (KT : lo_target lo = K).
  { rewrite CT, (last_kind_uniform unl uni target K fs HK). unfold K, fields_kind.
    destruct (filter streamed fs); reflexivity. }
  assert (KM : K <> FMap).
  { unfold K, fields_kind. destruct (filter streamed fs).
    - destruct TG; subst; discriminate.
    - unfold kind_of. destruct (labelled _ _), (flag (at_unindexed a)); discriminate. }
  destruct (loop_exec out r64 unl uni K vs fs ts _ 0 lo [] 0%Z E HK HL) as (body & EB & EX).
  { exact (Forall2_nth _ _ HV). }
  { intros _. split; reflexivity. }
  { reflexivity. }
  { exact HO. }
  cbn [lo_body app] in EB. subst body.
  unfold record_tree. fold K. rewrite emit_fields by exact KM. fold (field_slots (label_kept r64) K (streamed_fields fs ts)) in EX.
  assert (SZ : (if lo_const lo then Some (lo_count lo) else None) = size_of (filter streamed fs)).
  { unfold size_of. rewrite CC, CN. cbn [andb]. destruct (existsb flattening _); reflexivity. }
  cbn [exec_arm]. rewrite SZ, KT. destruct K; try contradiction; try (apply run_around; exact EX).
  rewrite !run_cons. destruct (out w _) as [w1|w1|]; cbn [bind]; try reflexivity.
  rewrite run_cons. destruct (out w1 _) as [w2|w2|]; cbn [bind]; try reflexivity.
  rewrite EX, run_app. destruct (run out w2 _) as [w3|w3|]; cbn [bind]; try reflexivity.
  rewrite run_cons. destruct (out w3 _) as [w4|w4|]; cbn [bind]; try reflexivity. rewrite run_one. reflexivity.
Qed.

Lemma body_streams {W} (out : W -> ev -> res W) r64 (fs : fields_def) a (transparent : bool) l ul i ar vs ts w :
  match fs with
  | FsUnit => Some (ATag (at_tag a) ul i)
  | FsUnnamed [f] => Some (if transparent then ATransparent else ANewtype (at_tag a) l i)
  | FsNamed fs => stream_record_tuple FRecTup fs (at_tag a) l i (flag (at_unlabeled a)) (flag (at_unindexed a))
  | FsUnnamed fs => stream_record_tuple FTuple fs (at_tag a) l i (flag (at_unlabeled a)) (flag (at_unindexed a))
  end = Some ar ->
  Forall2 streams vs ts -> length ts = length (field_list fs) ->
  match fs with
  | FsUnit => true
  | FsNamed fs => fields_ok (fields_kind FRecTup a fs) (streamed_fields fs ts)
  | FsUnnamed [_] => true
  | FsUnnamed fs => fields_ok (fields_kind FTuple a fs) (streamed_fields fs ts)
  end = true ->
  exec_arm out r64 ar vs w = run out w (emit (body_tree (label_kept r64) a transparent l ul (eval_const i) fs ts)).
Proof.
  intros H HV HL HO. destruct fs as [|fs|[|f [|g fs]]].
  - inversion H; subst. cbn [exec_arm body_tree emit]. rewrite run_one. reflexivity.
  - cbn [body_tree]. eapply record_streams; eauto.
  - cbn [body_tree]. eapply record_streams; eauto.
  - cbn in HL. destruct ts as [|t [|t' ts]]; try discriminate HL. inversion HV as [|v ? vs' ? HS HV']; subst.
    inversion HV'; subst. inversion H; subst. destruct transparent; cbn [exec_arm body_tree emit nth].
    + apply stream_streams. exact HS.
    + apply run_around. intros w'. apply stream_streams. exact HS.
  - cbn [body_tree]. eapply record_streams; eauto.
Qed.

Lemma variant_index_spec ea before al a i al' (v : variant_def) d :
  disc_value (vd_disc v) = Some d ->
  tracks (map disc_given (filter (fun v => absent (at_index (vd_attrs v))) before)) al ->
  a = vd_attrs v ->
  variant_index ea al (option_map const_index_of (at_index a)) d = Some (i, al') ->
  eval_const i = spec_variant_index ea before v /\
  (flag (ea_dynamic ea) || flag (ea_unindexed ea) = false ->
   tracks (map disc_given (filter (fun v => absent (at_index (vd_attrs v))) (v :: before))) al').
Proof.
  intros HD T -> H. unfold variant_index, spec_variant_index in *. cbn [filter].
  assert (ED : d = disc_given v) by (unfold disc_given; destruct (vd_disc v) as [[]|]; inversion HD; reflexivity). subst d.
  destruct (at_index (vd_attrs v)) as [x|]; cbn [option_map absent] in *.
  - inversion H; subst. split; [destruct x; reflexivity|]. intros _. exact T.
  - destruct (flag (ea_dynamic ea) || flag (ea_unindexed ea)).
    + inversion H; subst. split; [reflexivity|discriminate].
    + destruct (next_const_index al (disc_given v)) as [[j b]|] eqn:N; inversion H; subst.
      destruct (next_const_tracks _ _ _ _ _ T N) as (T' & ->). split; [|intros _; exact T'].
      unfold variant_number. set (bf := map _ _) in *. unfold own_index.
      destruct (disc_given v) as [[]|]; cbn; try reflexivity.
      assert (NN : any_given bf = false -> next_number bf = Z.of_nat (length bf)).
      { clear. unfold any_given. induction bf as [|[[]|] bf IH]; cbn [existsb absent negb orb]; intros H; try discriminate H; [reflexivity|].
        cbn [next_number length]. rewrite (IH H). lia. }
      destruct (any_given bf) eqn:AG; [reflexivity|]. rewrite (NN eq_refl). reflexivity.
Qed.

Lemma variant_streams {W} (out : W -> ev -> res W) r64 ea vs0 : forall before al arms n ar v vs ts w,
  variant_loop ea al vs0 = Some arms ->
  tracks (map disc_given (filter (fun v => absent (at_index (vd_attrs v))) before)) al \/
    flag (ea_dynamic ea) || flag (ea_unindexed ea) = true ->
  enum_attrs_ok ea = true ->
  nth_error arms n = Some ar -> nth_error vs0 n = Some v ->
  Forall2 streams vs ts -> length ts = length (field_list (vd_fields v)) ->
  match vd_fields v with
  | FsUnit => true
  | FsNamed fs => fields_ok (fields_kind FRecTup (vd_attrs v) fs) (streamed_fields fs ts)
  | FsUnnamed [_] => true
  | FsUnnamed fs => fields_ok (fields_kind FTuple (vd_attrs v) fs) (streamed_fields fs ts)
  end = true ->
  exec_arm out r64 ar vs w =
  run out w (emit (variant_tree (label_kept r64) ea (rev (firstn n vs0) ++ before) v ts)).
Proof.
  induction vs0 as [|u vs0 IH]; intros before al arms n ar v vs ts w H T EO NA NV HV HL HO.
  - destruct n; discriminate NV.
  - cbn [variant_loop] in H. destruct (variant_iter ea al u) as [[arm al']|] eqn:E; [|discriminate H].
    destruct (variant_loop ea al' vs0) as [arms'|] eqn:VL; [|discriminate H]. inversion H; subst arms; clear H.
    unfold variant_iter in E. destruct (negb (absent (at_transparent (vd_attrs u)))); [discriminate E|].
    destruct (disc_value (vd_disc u)) as [dv|] eqn:DV; [|discriminate E].
    destruct (variant_index ea al _ dv) as [[ix al1]|] eqn:VI; [|discriminate E].
    assert (EI : eval_const ix = spec_variant_index ea before u /\
                 (tracks (map disc_given (filter (fun v => absent (at_index (vd_attrs v))) (u :: before))) al1 \/
                  flag (ea_dynamic ea) || flag (ea_unindexed ea) = true)).
    { destruct (flag (ea_dynamic ea) || flag (ea_unindexed ea)) eqn:FL.
      - split; [|right; reflexivity]. unfold variant_index, spec_variant_index in *. rewrite FL in *.
        destruct (at_index (vd_attrs u)) as [[]|]; inversion VI; reflexivity.
      - destruct T as [T|T]; [|discriminate T].
        destruct (variant_index_spec _ _ _ _ _ _ _ _ DV T eq_refl VI) as (E1 & E2). auto. }
    destruct EI as (EI & TR).
    destruct n as [|n].
    + cbn [nth_error firstn rev app] in *. inversion NA; inversion NV; subst ar v; clear NA NV.
      unfold variant_tree. rewrite <- EI.
      set (l := if flag (ea_unlabeled ea) then None else Some (type_label (at_label (vd_attrs u)) (vd_name u))).
      assert (EL : variant_label ea (at_label (vd_attrs u)) (vd_name u) = if flag (ea_dynamic ea) then None else l).
      { unfold variant_label, l. rewrite quote_label_spec. destruct (flag (ea_dynamic ea)); reflexivity. }
      assert (EU : unit_variant_label ea (at_label (vd_attrs u)) (vd_name u) = l).
      { unfold unit_variant_label, l. rewrite quote_label_spec. reflexivity. }
      rewrite EL, EU in E.
      eapply body_streams; [|exact HV|exact HL|exact HO].
      destruct (vd_fields u) as [|fs|[|f [|g fs]]].
      * destruct (unit_attrs (vd_attrs u)); inversion E; reflexivity.
      * destruct (stream_record_tuple _ _ _ _ _ _ _); inversion E; reflexivity.
      * destruct (stream_record_tuple _ _ _ _ _ _ _); inversion E; reflexivity.
      * destruct (newtype_attrs (vd_attrs u) && no_attrs f); inversion E; reflexivity.
      * destruct (stream_record_tuple _ _ _ _ _ _ _); inversion E; reflexivity.
    + cbn [nth_error firstn rev] in *. rewrite <- app_assoc. cbn [app].
      assert (al1 = al').
      { match type of E with match ?x with _ => _ end = _ => destruct x; inversion E; reflexivity end. }
      subst al1. eapply (IH (u :: before) al' arms'); eauto.
Qed.

Theorem C38_derived_well_formed_partial : forall W (out : W -> ev -> res W) r64 d m variant vs ts t w,
  derive d = Some m -> Forall2 streams vs ts -> length ts = field_count d variant ->
  derived_tree (label_kept r64) d variant ts = Some t ->
  flattens_well d variant ts = true ->
  derived_stream out r64 m variant vs w = run out w (emit t).
Proof.
  intros W out r64 d m variant vs ts t w H HV HL HT HO. destruct d as [name a fs|name ea vs0]; cbn [derive] in H.
  - destruct variant; [|discriminate HT]. cbn [derived_tree] in HT. inversion HT; subst t; clear HT.
    unfold derive_struct in H. unfold field_count, flattens_well in *. cbn [fields_of] in *.
    match type of H with match ?x with _ => _ end = _ => destruct x as [ar|] eqn:E; inversion H; subst m; clear H end.
    unfold derived_stream. cbn [im_arms im_enum nth_error]. rewrite quote_label_spec in E.
    rewrite <- const_index_spec.
    eapply body_streams; [|exact HV|exact HL|].
    + destruct fs as [|fs|[|f [|g fs]]].
      * destruct (unit_attrs a); inversion E; reflexivity.
      * destruct (struct_attrs a); [exact E|discriminate E].
      * destruct (struct_attrs a); [exact E|discriminate E].
      * destruct (newtype_attrs a && no_attrs f); inversion E; reflexivity.
      * destruct (struct_attrs a); [exact E|discriminate E].
    + destruct fs as [|fs|[|f [|g fs]]]; auto.
  - cbn [derived_tree] in HT. destruct (nth_error vs0 variant) as [v|] eqn:NV; [|discriminate HT].
    inversion HT; subst t; clear HT.
    unfold derive_enum in H. destruct vs0 as [|u vs0]; [destruct variant; discriminate NV|].
    destruct (enum_attrs_ok ea) eqn:EO; [|discriminate H].
    destruct (variant_loop ea alloc_new (u :: vs0)) as [arms|] eqn:VL; [|discriminate H].
    unfold field_count, flattens_well in *. cbn [fields_of] in *. rewrite NV in *. cbn [option_map] in *.
    assert (LN : exists ar, nth_error arms variant = Some ar).
    { clear - VL NV. revert VL NV. generalize alloc_new. generalize (u :: vs0). clear u vs0. intros vs0.
      revert variant arms. induction vs0 as [|u vs0 IH]; intros n arms al VL NV; [destruct n; discriminate NV|].
      cbn [variant_loop] in VL. destruct (variant_iter ea al u) as [[ar al']|]; [|discriminate VL].
      destruct (variant_loop ea al' vs0) as [arms'|] eqn:V2; inversion VL; subst.
      destruct n as [|n]; [exists ar; reflexivity|]. exact (IH n arms' al' V2 NV). }
    destruct LN as (ar & NA).
    assert (V : forall w, exec_arm out r64 ar vs w =
              run out w (emit (variant_tree (label_kept r64) ea (rev (firstn variant (u :: vs0))) v ts))).
    { intros w'. pose proof (variant_streams out r64 ea (u :: vs0) [] alloc_new arms variant ar v vs ts w') as P.
      rewrite app_nil_r in P. apply P; auto.
      - left. split; reflexivity. }
    inversion H; subst m; clear H. unfold derived_stream.
    destruct (flag (ea_dynamic ea)); cbn [im_arms im_enum]; rewrite NA.
    + apply V.
    + cbn [emit]. rewrite quote_label_spec, const_index_spec. apply run_around. exact V.
Qed.

(** A struct with a flattened field that holds a map. *)
Definition field0 (name : string) : field_def := MkField (Some (bs name)) None None None None None None.
Definition flattened_field (name : string) : field_def := MkField (Some (bs name)) None None None None None (Some true).
Definition plain : attrs := MkAttrs None None None None None None.
Definition outer : type_def := DStruct (bs "Outer") plain (FsNamed [field0 "a"; flattened_field "b"; field0 "c"]).

Theorem C38_derived_well_formed_refuted : ~ C38_derived_well_formed.
Proof.
  intros H.
  specialize (H _ log (fun _ => []) outer
    (match derive outer with Some m => m | None => MkImpl None [] None end) 0%nat
    [calls_of TNull; calls_of map_in_record; calls_of TNull] [TNull; map_in_record; TNull]
    (match derived_tree (label_kept (fun _ => [])) outer 0 [TNull; map_in_record; TNull] with Some t => t | None => TNull end)
    [] eq_refl).
  assert (F : Forall2 streams [calls_of TNull; calls_of map_in_record; calls_of TNull] [TNull; map_in_record; TNull])
    by (repeat constructor; apply streams_calls_of).
  specialize (H F eq_refl eq_refl). vm_compute in H. discriminate H.
Qed.

(** Definitions without flattened fields need no condition on the values; the
    fields' positions have to be in range. *)
Definition no_flatten (d : type_def) (variant : nat) : bool :=
  match fields_of d variant with
  | Some (_, fs) => forallb (fun f => negb (flattening f)) (field_list fs)
  | None => true
  end.

Lemma no_flatten_ok kind fs : forall before pos, forallb (fun ft => negb (flattening (fst ft))) fs = true ->
  (0 <= pos)%Z -> fits I64 (pos + Z.of_nat (length fs)) = true ->
  forallb (slots_ok kind) (contexts kind before pos fs) = true.
Proof.
  induction fs as [|[f t] fs IH]; intros before pos H P F; [reflexivity|].
  cbn [forallb fst contexts length] in *. apply andb_prop in H as (H1 & H2). apply negb_true_iff in H1.
  rewrite Nat2Z.inj_succ in F. unfold slots_ok at 1. rewrite H1.
  assert (A : (pos <= advance kind before pos f t <= pos + 1)%Z).
  { unfold advance. rewrite H1. destruct kind; try lia; destruct (any_given _); lia. }
  rewrite (fits_between 0 (advance kind before pos f t) (pos + Z.succ (Z.of_nat (length fs)))); try assumption; try reflexivity; try lia.
  apply IH; try assumption; try lia.
  apply (fits_between 0 _ (pos + Z.succ (Z.of_nat (length fs)))); try assumption; try reflexivity; lia.
Qed.

Lemma filter_length {A} (p : A -> bool) l : (length (filter p l) <= length l)%nat.
Proof. induction l as [|x l IH]; cbn; [lia|]. destruct (p x); cbn; lia. Qed.
Lemma streamed_length fs ts : (length (streamed_fields fs ts) <= length fs)%nat.
Proof.
  unfold streamed_fields. etransitivity; [apply filter_length|]. rewrite combine_length. lia.
Qed.
Lemma streamed_no_flatten fs ts : forallb (fun f => negb (flattening f)) fs = true ->
  forallb (fun ft => negb (flattening (fst ft))) (streamed_fields fs ts) = true.
Proof.
  intros H. rewrite forallb_forall in *. intros [f t] I. unfold streamed_fields in I. apply filter_In in I as (I & _).
  apply in_combine_l in I. apply (H f I).
Qed.

Theorem C38_without_flatten : forall W (out : W -> ev -> res W) r64 d m variant vs ts t w,
  derive d = Some m -> Forall2 streams vs ts -> length ts = field_count d variant ->
  derived_tree (label_kept r64) d variant ts = Some t ->
  no_flatten d variant = true -> fits I64 (Z.of_nat (field_count d variant)) = true ->
  derived_stream out r64 m variant vs w = run out w (emit t).
Proof.
  intros W out r64 d m variant vs ts t w H HV HL HT NF FC.
  eapply C38_derived_well_formed_partial; eauto.
  unfold flattens_well, no_flatten, field_count in *. destruct (fields_of d variant) as [[a fs]|]; [|reflexivity].
  assert (G : forall kind fs, forallb (fun f => negb (flattening f)) fs = true -> fits I64 (Z.of_nat (length fs)) = true ->
              fields_ok kind (streamed_fields fs ts) = true).
  { intros kind fs0 N F. unfold fields_ok. apply no_flatten_ok; [apply streamed_no_flatten; exact N|lia|].
    pose proof (streamed_length fs0 ts). apply (fits_between 0 _ (Z.of_nat (length fs0))); try assumption; try reflexivity; lia. }
  destruct fs as [|fs|[|f [|g fs]]]; try reflexivity; apply G; assumption.
Qed.

(** One field per streamed field, in order of declaration, whatever the
    indexes and labels. *)
Theorem C38_fields_in_order : forall key_label kind fs ts,
  length ts = length fs -> forallb (fun f => negb (flattening f)) fs = true ->
  map s_value (field_slots key_label kind (streamed_fields fs ts)) =
  map (fun ft => match fd_data_tag (fst ft) with
                 | Some d => TTagged (Some d) None None (snd ft) | None => snd ft end)
      (filter (fun ft => negb (flag (fd_skip (fst ft)))) (combine fs ts)) /\
  map s_tag (field_slots key_label kind (streamed_fields fs ts)) =
  map fd_tag (filter streamed fs).
Proof.
  intros key_label kind fs ts HL NF.
  assert (G : forall xs before pos, forallb (fun ft => negb (flattening (fst ft))) xs = true ->
    map s_value (flat_map (slots_of key_label) (contexts kind before pos xs)) =
    map (fun ft => match fd_data_tag (fst ft) with
                 | Some d => TTagged (Some d) None None (snd ft) | None => snd ft end) xs /\
    map s_tag (flat_map (slots_of key_label) (contexts kind before pos xs)) = map (fun ft => fd_tag (fst ft)) xs).
  { induction xs as [|[f t] xs IH]; intros before pos H; [split; reflexivity|].
    cbn [forallb fst contexts flat_map map] in *. apply andb_prop in H as (H1 & H2). apply negb_true_iff in H1.
    unfold slots_of at 1 3. rewrite H1. cbn [app map]. destruct (IH (fd_index f :: before) (advance kind before pos f t) H2) as (-> & ->).
    split; reflexivity. }
  destruct (G (streamed_fields fs ts) [] 0%Z (streamed_no_flatten fs ts NF)) as (G1 & G2).
  unfold field_slots. split; [exact G1|]. rewrite G2. unfold streamed_fields. clear -HL.
  revert ts HL. induction fs as [|f fs IH]; intros [|t ts] HL; try discriminate HL; [reflexivity|].
  cbn [combine filter fst]. destruct (streamed f); cbn [map fst]; rewrite IH by (cbn in HL; lia); reflexivity.
Qed.

(** The size of a record, tuple or sequence is the number of its fields. *)
Theorem C38_size_exact : forall key_label kind fs ts n,
  length ts = length fs -> size_of (filter streamed fs) = Some n ->
  n = N.of_nat (length (field_slots key_label kind (streamed_fields fs ts))).
Proof.
  intros key_label kind fs ts n HL HN. unfold size_of in HN.
  destruct (existsb flattening (filter streamed fs)) eqn:E; [discriminate HN|]. inversion HN; subst n; clear HN.
  assert (G : forall xs before pos, existsb (fun ft => flattening (fst ft)) xs = false ->
    length (flat_map (slots_of key_label) (contexts kind before pos xs)) = length xs).
  { induction xs as [|[f t] xs IH]; intros before pos H; [reflexivity|]. cbn [existsb fst contexts flat_map] in *.
    apply orb_false_elim in H as (H1 & H2). rewrite app_length, IH by exact H2. unfold slots_of. rewrite H1. reflexivity. }
  unfold field_slots. f_equal. unfold streamed_fields in *.
  assert (X : existsb (fun ft => flattening (fst ft)) (filter (fun ft => streamed (fst ft)) (combine fs ts)) = false /\
              length (filter (fun ft => streamed (fst ft)) (combine fs ts)) = length (filter streamed fs)).
  { clear G. revert ts HL E. induction fs as [|f fs IH]; intros [|t ts] HL E; try discriminate HL; [split; reflexivity|].
    cbn [combine filter fst] in *. destruct (streamed f); cbn [existsb length fst] in *.
    - apply orb_false_elim in E as (E1 & E2). destruct (IH ts ltac:(lia) E2) as (-> & ->). rewrite E1. split; reflexivity.
    - apply IH; [lia|exact E]. }
  destruct X as (X1 & X2). rewrite G by exact X1. symmetry. exact X2.
Qed.

(** What stands in a derived enum is always a variant, so that the enum is
    well-formed whatever its variants hold. *)
Theorem C38_enum_holds_variants : forall key_label name ea vs variant ts t,
  derived_tree key_label (DEnum name ea vs) variant ts = Some t -> flag (ea_dynamic ea) = false ->
  match t with TEnum _ _ _ v => is_variant v = true | _ => False end.
Proof.
  intros key_label name ea vs variant ts t H D. cbn [derived_tree] in H.
  destruct (nth_error vs variant) as [v|]; [|discriminate H]. rewrite D in H. inversion H; subst t.
  unfold variant_tree, body_tree. rewrite D.
  destruct (vd_fields v) as [|fs|[|f [|g fs]]]; try reflexivity;
    unfold record_tree, fields_tree; destruct (fields_kind _ _ _); reflexivity.
Qed.

(** Either all streamed fields are labelled or none is; otherwise the
    definition is refused. *)
Theorem C38_labels_all_or_none : forall name a fs m f g,
  derive (DStruct name a (FsUnnamed fs)) = Some m -> length fs <> 1%nat ->
  In f fs -> In g fs -> streamed f = true -> streamed g = true ->
  labelled (flag (at_unlabeled a)) f = labelled (flag (at_unlabeled a)) g.
Proof.
  intros name a fs m f g H NL IF IG SF SG. cbn [derive] in H. unfold derive_struct in H.
  assert (E : exists ar i l, stream_record_tuple FTuple fs (at_tag a) l i (flag (at_unlabeled a)) (flag (at_unindexed a)) = Some ar).
  { destruct fs as [|x [|y fs]]; [| cbn in NL; lia |];
    (destruct (struct_attrs a); [|discriminate H]; destruct (stream_record_tuple _ _ _ _ _ _ _) eqn:E; [|discriminate H]; eauto). }
  destruct E as (ar & i & l & E). unfold stream_record_tuple in E.
  destruct (field_loop _ _ _ 0 fs) as [lo|] eqn:L; [|discriminate E].
  destruct ((lo_labeled lo =? 0) || _)%N eqn:A1; [|discriminate E].
  pose proof (uniform _ _ fs _ _ _ L eq_refl eq_refl A1 f g IF IG SF SG) as U. unfold kind_of in U.
  destruct (labelled _ f), (labelled _ g), (flag (at_unindexed a)); try reflexivity; discriminate U.
Qed.

(** The generated [tag] method agrees with the tag that is streamed, except for
    transparent newtypes, which report no tag. *)
Definition C38_tag_agrees : Prop :=
  forall key_label d m tg variant ts t,
  derive d = Some m -> im_tag m = Some tg -> length ts = field_count d variant ->
  derived_tree key_label d variant ts = Some t -> tag_of t = tg.

Definition wrapper : type_def :=
  DStruct (bs "Wrapper") (MkAttrs None None None None None (Some true)) (FsUnnamed [MkField None None None None None None None]).
Theorem C38_tag_agrees_refuted : ~ C38_tag_agrees.
Proof.
  intros H. specialize (H (fun _ => []) wrapper (MkImpl None [ATransparent] (Some None)) None 0%nat
    [TTag (Some NUMBER) None None] _ eq_refl eq_refl eq_refl eq_refl). discriminate H.
Qed.
Theorem C38_tag_agrees_partial : forall key_label d m tg variant ts t,
  derive d = Some m -> im_tag m = Some tg -> length ts = field_count d variant ->
  derived_tree key_label d variant ts = Some t ->
  match d with DStruct _ a _ => flag (at_transparent a) = false | DEnum _ _ _ => True end ->
  tag_of t = tg.
Proof.
  intros key_label d m tg variant ts t H HT HL HD HN. destruct d as [name a fs|name ea vs]; cbn [derive derived_tree] in *.
  - destruct variant; [|discriminate HD]. inversion HD; subst t; clear HD. unfold derive_struct in H.
    match type of H with match ?x with _ => _ end = _ => destruct x; inversion H; subst m; clear H end.
    cbn [im_tag] in HT. inversion HT; subst tg. rewrite HN.
    unfold body_tree. destruct fs as [|fs|[|f [|g fs]]]; try reflexivity;
      unfold record_tree, fields_tree; destruct (fields_kind _ _ _); reflexivity.
  - destruct (nth_error vs variant) as [v|]; [|discriminate HD]. inversion HD; subst t; clear HD.
    unfold derive_enum in H. destruct vs as [|u vs].
    { match type of H with (if ?x then _ else _) = _ => destruct x; inversion H; subst m end. discriminate HT. }
    destruct (enum_attrs_ok ea); [|discriminate H]. destruct (variant_loop _ _ _); [|discriminate H].
    inversion H; subst m; clear H. destruct (flag (ea_dynamic ea)); [discriminate HT|]. inversion HT. reflexivity.
Qed.

(** A record with a skipped, a tagged and a flattened field; an enum. *)
Definition sample : type_def :=
  DStruct (bs "Sample") plain
    (FsNamed [field0 "id"; MkField (Some (bs "secret")) None None None None (Some true) None;
              flattened_field "inner"; MkField (Some (bs "last")) (Some NUMBER) (Some RUST_UNIT) (Some (LConst (bs "end"))) None None None]).
Definition sample_vals : list tree := [TInt U8 7; TNull; pair_record; TBool true].
Definition ident (s : string) : label := MkLabel (bs s) LStatic (Some VALUE_IDENT).
Definition off (k : Z) : index := MkIndex k (Some VALUE_OFFSET).
Definition sample_tree : tree :=
  TRecTup None (Some (ident "Sample")) None None
    [(None, ident "id", off 0, TInt U8 7);
     (None, label_new (bs "a"), off 1, TInt I32 1);
     (None, label_new (bs "b"), off 2, TSeq None [TBool true]);
     (Some NUMBER, label_new (bs "end"), off 3, TTagged (Some RUST_UNIT) None None (TBool true))].

Example C38_sample : exists m, derive sample = Some m /\
  derived_tree (label_kept (fun _ => [])) sample 0 sample_vals = Some sample_tree /\
  flattens_well sample 0 sample_vals = true /\
  derived_stream log (fun _ => []) m 0 (map calls_of sample_vals) [] = Ok (emit sample_tree).
Proof. eexists. split; [reflexivity|]. split; [reflexivity|]. split; reflexivity. Qed.

Definition shape_enum : type_def :=
  DEnum (bs "Shape") (MkEnumAttrs None None None None None None)
    [MkVariant (bs "Empty") plain None FsUnit;
     MkVariant (bs "Circle") plain (Some (DLit 4)) (FsUnnamed [MkField None None None None None None None]);
     MkVariant (bs "Rect") plain None (FsNamed [field0 "w"; field0 "h"])].
Example C38_enum_sample : exists m, derive shape_enum = Some m /\
  no_flatten shape_enum 2 = true /\
  derived_stream log (fun _ => []) m 2 (map calls_of [TInt U8 1; TInt U8 2]) [] =
  Ok (emit (TEnum None (Some (ident "Shape")) None
       (TRecTup None (Some (ident "Rect")) (Some (MkIndex 5 None)) (Some 2%N)
          [(None, ident "w", off 0, TInt U8 1); (None, ident "h", off 1, TInt U8 2)]))).
Proof. eexists. split; [reflexivity|]. split; reflexivity. Qed.

(** ** C39: field indexes *)

(** The indexes of a derived value's fields. *)
Fixpoint field_indexes (t : tree) : list index :=
  match t with
  | TRecTup _ _ _ _ fs => map (fun f => match f with (_, _, i, _) => i end) fs
  | TTuple _ _ _ _ fs => map (fun f => match f with (_, i, _) => i end) fs
  | TEnum _ _ _ v => field_indexes v
  | _ => []
  end.
(** The fields a flattened or plain field contributes. *)
Definition width (ft : field_def * tree) : nat :=
  if flattening (fst ft) then length (children false (snd ft)) else 1.
Definition total_width (fts : list (field_def * tree)) : nat := list_sum (map width fts).

(** Flattened values whose own indexes are positions, and that flattening
    handles (C32). *)
Definition positional (ft : field_def * tree) : bool :=
  negb (flattening (fst ft))
  || implicit 0 (children false (snd ft)) && negb (tagged_enum (snd ft))
     && forallb (fun c => negb (has_entry (c_value c))) (children false (snd ft)).

Definition offsets (n : nat) : list index := map (fun k => MkIndex (Z.of_nat k) (Some VALUE_OFFSET)) (seq 0 n).

Lemma positions key_label kind fts : kind = FTuple \/ kind = FRecTup ->
  forall before k, any_given before = false ->
  forallb (fun ft => absent (fd_index (fst ft))) fts = true ->
  forallb positional fts = true ->
  fits I64 (Z.of_nat (k + total_width fts)) = true ->
  map s_index (flat_map (slots_of key_label) (contexts kind before (Z.of_nat k) fts)) =
    map (fun k => MkIndex (Z.of_nat k) (Some VALUE_OFFSET)) (seq k (total_width fts)) /\
  forallb (slots_ok kind) (contexts kind before (Z.of_nat k) fts) = true.
Proof.
  intros HK. induction fts as [|[f t] fts IH]; intros before k B NI PO F; [split; reflexivity|].
  cbn [forallb fst snd contexts flat_map] in *. apply andb_prop in NI as (NI1 & NI2). apply andb_prop in PO as (PO1 & PO2).
  unfold total_width in *. cbn [map list_sum fold_right] in *. fold (list_sum (map width fts)) in *.
  assert (AG : any_given (fd_index f :: before) = false).
  { unfold any_given in *. cbn [existsb]. rewrite NI1, B. reflexivity. }
  assert (ADV : advance kind before (Z.of_nat k) f t = Z.of_nat (k + width (f, t)) /\ slots_ok kind (before, Z.of_nat k, f, t) = true /\
                map s_index (slots_of key_label (before, Z.of_nat k, f, t)) =
                map (fun k => MkIndex (Z.of_nat k) (Some VALUE_OFFSET)) (seq k (width (f, t)))).
  { clear IH PO2. set (R := list_sum (map width fts)) in *. clearbody R.
    unfold advance, slots_ok, slots_of, positional, width in *. cbn [fst snd] in *. destruct (flattening f) eqn:FL; cbn [negb orb] in *.
    - apply andb_prop in PO1 as (PO1 & HN). apply andb_prop in PO1 as (IM & TE).
      set (cs := children false t) in *.
      destruct (placed_numbered (Z.of_nat k) cs 0) as (P1 & P2 & P3).
      { apply (fits_between 0 _ (Z.of_nat (k + (length cs + R)))); try assumption; try reflexivity; lia. }
      { lia. }
      { apply (fits_between 0 _ (Z.of_nat (k + (length cs + R)))); try assumption; try reflexivity; lia. }
      { apply (fits_between 0 _ (Z.of_nat (k + (length cs + R)))); try assumption; try reflexivity; lia. }
      { exact IM. }
      rewrite Z.add_0_r in *. rewrite P1, P2, P3, TE, HN. split; [destruct HK; subst; lia|]. split; [reflexivity|].
      rewrite map_map. clear. generalize k. induction cs as [|c cs IH]; intros k0; [reflexivity|].
      cbn [numbered map length seq s_index]. f_equal. replace (Z.of_nat k0 + 1)%Z with (Z.of_nat (S k0)) by lia. apply IH.
    - rewrite AG. replace (match kind with FTuple | FRecTup => (Z.of_nat k + 1)%Z | _ => Z.of_nat k end) with (Z.of_nat (k + 1)) by (destruct HK; subst; lia).
      split; [reflexivity|]. split.
      + replace (advance kind before (Z.of_nat k) f t) with (Z.of_nat (k + 1)) by (unfold advance; rewrite FL, AG; destruct HK; subst; lia).
        apply (fits_between 0 _ (Z.of_nat (k + (1 + R)))); try assumption; try reflexivity; lia.
      + cbn [map seq own_slot s_index]. unfold own_index. destruct (fd_index f); [discriminate NI1|]. rewrite B. reflexivity. }
  destruct ADV as (E1 & E2 & E3). rewrite E1, E2, map_app, E3.
  destruct (IH (fd_index f :: before) (k + width (f, t))%nat AG NI2 PO2) as (-> & ->).
  { rewrite <- Nat.add_assoc. exact F. }
  split; [|reflexivity]. rewrite seq_app, map_app. reflexivity.
Qed.

(** A definition without index attributes on the fields of a variant. *)
Definition no_field_index (fs : list field_def) : bool :=
  forallb (fun f => absent (fd_index f)) (filter streamed fs).

Lemma streamed_fields_index fs ts : no_field_index fs = true ->
  forallb (fun ft => absent (fd_index (fst ft))) (streamed_fields fs ts) = true.
Proof.
  unfold no_field_index. intros H. rewrite forallb_forall in *. intros [f t] I. unfold streamed_fields in I.
  apply filter_In in I as (I & S). apply in_combine_l in I. apply (H f). apply filter_In. auto.
Qed.

Definition indexed_fields (d : type_def) (variant : nat) : option (list field_def) :=
  match fields_of d variant with
  | Some (a, FsNamed fs) => if flag (at_unindexed a) then None else Some fs
  | Some (a, FsUnnamed [_]) => None
  | Some (a, FsUnnamed fs) => if flag (at_unindexed a) then None else Some fs
  | _ => None
  end.

Lemma indexed_kind target a fs : target = FRecTup \/ target = FTuple -> flag (at_unindexed a) = false ->
  fields_kind target a fs = FTuple \/ fields_kind target a fs = FRecTup.
Proof.
  intros T U. unfold fields_kind. destruct (filter streamed fs); [destruct T; auto|]. unfold kind_of. rewrite U.
  destruct (labelled _ _); auto.
Qed.

Lemma indexes_of_fields kind t l i n ss : kind = FTuple \/ kind = FRecTup ->
  field_indexes (fields_tree kind t l i n ss) = map s_index ss.
Proof. intros [-> | ->]; cbn [fields_tree field_indexes]; rewrite map_map; reflexivity. Qed.

(** Struct or variant, named or not, the indexes are 0, 1, 2, ... *)
Theorem C39_indexes_are_positions : forall W (out : W -> ev -> res W) r64 d m variant vs ts t w fs,
  derive d = Some m -> Forall2 streams vs ts -> length ts = field_count d variant ->
  derived_tree (label_kept r64) d variant ts = Some t ->
  indexed_fields d variant = Some fs ->
  no_field_index fs = true ->
  forallb positional (streamed_fields fs ts) = true ->
  fits I64 (Z.of_nat (total_width (streamed_fields fs ts))) = true ->
  derived_stream out r64 m variant vs w = run out w (emit t) /\
  field_indexes t = offsets (total_width (streamed_fields fs ts)).
Proof.
  intros W out r64 d m variant vs ts t w fs H HV HL HT HI NI HP HF.
  assert (G : forall target a, target = FRecTup \/ target = FTuple -> flag (at_unindexed a) = false ->
    fields_ok (fields_kind target a fs) (streamed_fields fs ts) = true /\
    forall l i, field_indexes (record_tree (label_kept r64) target a l i fs ts) = offsets (total_width (streamed_fields fs ts))).
  { intros target a T U. pose proof (indexed_kind target a fs T U) as K.
    destruct (positions (label_kept r64) _ (streamed_fields fs ts) K [] 0 eq_refl (streamed_fields_index fs ts NI) HP HF) as (P1 & P2).
    split; [exact P2|]. intros l i. unfold record_tree. rewrite indexes_of_fields by exact K. exact P1. }
  split.
  - eapply C38_derived_well_formed_partial; eauto. unfold flattens_well, indexed_fields in *.
    destruct (fields_of d variant) as [[a [|fs0|[|f [|g fs0]]]]|]; try reflexivity;
      (destruct (flag (at_unindexed a)) eqn:U; [discriminate HI|]; inversion HI; subst; apply (G _ a); auto).
  - destruct d as [name a fs0|name ea vs0]; cbn [derived_tree] in HT; unfold indexed_fields in HI; cbn [fields_of] in HI.
    + destruct variant; [|discriminate HT]. inversion HT; subst t; clear HT. unfold body_tree.
      destruct fs0 as [|fs0|[|f [|g fs0]]]; try discriminate HI;
        (destruct (flag (at_unindexed a)) eqn:U; [discriminate HI|]; inversion HI; subst; apply (G _ a); auto).
    + destruct (nth_error vs0 variant) as [v|]; [|discriminate HT]. cbn [option_map] in HI. inversion HT; subst t; clear HT.
      assert (E : field_indexes (variant_tree (label_kept r64) ea (rev (firstn variant vs0)) v ts) =
                  offsets (total_width (streamed_fields fs ts))).
      { unfold variant_tree, body_tree.
        destruct (vd_fields v) as [|fs0|[|f [|g fs0]]]; try discriminate HI;
          (destruct (flag (at_unindexed (vd_attrs v))) eqn:U; [discriminate HI|]; inversion HI; subst; apply (G _ (vd_attrs v)); auto). }
      destruct (flag (ea_dynamic ea)); exact E.
Qed.

Theorem C39_offsets_distinct : forall n, NoDup (map i_val (offsets n)).
Proof.
  intros n. unfold offsets. rewrite map_map. cbn [i_val]. apply FinFun.Injective_map_NoDup; [|apply seq_NoDup].
  intros x y. apply Nat2Z.inj.
Qed.

Theorem C39_indexes_distinct : forall r64 d m variant vs ts t fs,
  derive d = Some m -> Forall2 streams vs ts -> length ts = field_count d variant ->
  derived_tree (label_kept r64) d variant ts = Some t ->
  indexed_fields d variant = Some fs -> no_field_index fs = true ->
  forallb positional (streamed_fields fs ts) = true ->
  fits I64 (Z.of_nat (total_width (streamed_fields fs ts))) = true ->
  derived_stream log r64 m variant vs [] = Ok (emit t) /\ NoDup (map i_val (field_indexes t)).
Proof.
  intros r64 d m variant vs ts t fs H HV HL HT HI NI HP HF.
  destruct (C39_indexes_are_positions _ log r64 d m variant vs ts t [] fs H HV HL HT HI NI HP HF) as (E1 & ->).
  split; [|apply C39_offsets_distinct]. rewrite E1.
  assert (L : forall es w, run log w es = Ok (w ++ es)).
  { induction es as [|e es IH]; intros w; [rewrite app_nil_r; reflexivity|]. rewrite run_cons. cbn [log bind].
    rewrite IH, <- app_assoc. reflexivity. }
  rewrite L. reflexivity.
Qed.

(** A derived struct without index attributes can itself be flattened: its
    children's indexes are positions. *)
Theorem C39_flattenable : forall r64 name a fs ts t,
  derived_tree (label_kept r64) (DStruct name a fs) 0 ts = Some t ->
  forall fl, indexed_fields (DStruct name a fs) 0 = Some fl ->
  no_field_index fl = true -> forallb positional (streamed_fields fl ts) = true ->
  fits I64 (Z.of_nat (total_width (streamed_fields fl ts))) = true ->
  implicit 0 (children false t) = true /\ length (children false t) = total_width (streamed_fields fl ts).
Proof.
  intros r64 name a fs ts t HT fl HI NI HP HF.
  assert (G : forall target, target = FRecTup \/ target = FTuple -> flag (at_unindexed a) = false -> forall l i,
    implicit 0 (children false (record_tree (label_kept r64) target a l i fl ts)) = true /\
    length (children false (record_tree (label_kept r64) target a l i fl ts)) = total_width (streamed_fields fl ts)).
  { intros target T U l i. pose proof (indexed_kind target a fl T U) as K.
    destruct (positions (label_kept r64) _ (streamed_fields fl ts) K [] 0 eq_refl (streamed_fields_index fl ts NI) HP HF) as (P1 & P2).
    unfold record_tree, field_slots. set (kd := fields_kind target a fl) in *. change (Z.of_nat 0) with 0%Z in P1.
    set (ss := flat_map _ _) in *. clearbody ss.
    assert (IM : forall cs k n, map c_index cs = map Some (map (fun k => MkIndex (Z.of_nat k) (Some VALUE_OFFSET)) (seq k n)) ->
                 implicit (Z.of_nat k) cs = true).
    { induction cs as [|c cs IH]; intros k n E; [reflexivity|]. destruct n as [|n]; [discriminate E|].
      cbn [map seq implicit] in *. inversion E as [[E1 E2]]. rewrite E1. cbn [i_tag i_val otag_is].
      unfold tag_eqb. rewrite bytes_eqb_refl, Z.eqb_refl. cbn [andb].
      replace (Z.of_nat k + 1)%Z with (Z.of_nat (S k)) by lia. exact (IH (S k) n E2). }
    assert (LN : length ss = total_width (streamed_fields fl ts)).
    { apply (f_equal (@length _)) in P1. rewrite !map_length, seq_length in P1. exact P1. }
    destruct K as [K|K]; rewrite K; cbn [fields_tree children]; rewrite map_map; split; try (rewrite map_length; exact LN);
      apply (IM _ 0%nat (total_width (streamed_fields fl ts))); rewrite map_map; cbn [c_index];
      rewrite <- P1, map_map; reflexivity. }
  cbn [derived_tree] in HT. inversion HT; subst t; clear HT. unfold indexed_fields in HI. cbn [fields_of] in HI. unfold body_tree.
  destruct fs as [|fs0|[|f [|g fs0]]]; try discriminate HI;
    (destruct (flag (at_unindexed a)) eqn:U; [discriminate HI|]; inversion HI; subst; apply G; auto).
Qed.

Example C39_sample : exists m, derive sample = Some m /\
  indexed_fields sample 0 = Some (field_list (match sample with DStruct _ _ fs => fs | _ => FsUnit end)) /\
  forallb positional (streamed_fields (field_list (match sample with DStruct _ _ fs => fs | _ => FsUnit end)) sample_vals) = true /\
  field_indexes sample_tree = offsets 4.
Proof. eexists. repeat split; reflexivity. Qed.

(** Index attributes that increase, literals only and nothing flattened: the
    indexes increase. *)
Fixpoint increasing (next : Z) (fs : list field_def) : bool :=
  match fs with
  | [] => true
  | f :: fs' =>
      match fd_index f with
      | None => increasing (next + 1) fs'
      | Some (IConst k) => (next <=? k)%Z && increasing (k + 1) fs'
      | Some (IIdent _) => false
      end
  end.

Lemma explicit_indexes key_label kind fts : kind = FTuple \/ kind = FRecTup ->
  forall before pos, increasing (next_number before) (map fst fts) = true ->
  (any_given before = false -> pos = next_number before) ->
  forallb (fun ft => negb (flattening (fst ft))) fts = true ->
  let is := map i_val (map s_index (flat_map (slots_of key_label) (contexts kind before pos fts))) in
  NoDup is /\ forall z, In z is -> (next_number before <= z)%Z.
Proof.
  intros HK. induction fts as [|[f t] fts IH]; intros before pos IN HP NF; [split; [constructor|contradiction]|].
  cbn [map fst snd increasing contexts flat_map forallb] in *. apply andb_prop in NF as (NF1 & NF2). apply negb_true_iff in NF1.
  unfold slots_of at 1 3. rewrite NF1. cbn [app map own_slot s_index].
  assert (ST : exists k, i_val (own_index before pos (fd_index f)) = k /\ (next_number before <= k)%Z /\
               next_number (fd_index f :: before) = (k + 1)%Z /\ increasing (k + 1) (map fst fts) = true /\
               (any_given (fd_index f :: before) = false -> advance kind before pos f t = (k + 1)%Z)).
  { unfold own_index, advance. rewrite NF1. destruct (fd_index f) as [[k|]|]; cbn [next_number given_index i_val] in *.
    - apply andb_prop in IN as (I1 & I2). exists k. split; [reflexivity|]. split; [lia|]. split; [reflexivity|]. split; [exact I2|]. discriminate.
    - discriminate IN.
    - exists (next_number before). change (any_given (None :: before)) with (any_given before).
      destruct (any_given before); cbn [i_val].
      + repeat split; try lia; try exact IN.
      + rewrite (HP eq_refl). repeat split; try lia; try exact IN. intros _. destruct HK; subst; lia. }
  destruct ST as (k & E1 & LE & E2 & IN' & AD). rewrite E1.
  destruct (IH (fd_index f :: before) (advance kind before pos f t)) as (ND & GE).
  { rewrite E2. exact IN'. }
  { intros A. rewrite E2. exact (AD A). }
  { exact NF2. }
  rewrite E2 in GE. split.
  - constructor; [|exact ND]. intros I. specialize (GE _ I). lia.
  - intros z [<-|I]; [lia|]. specialize (GE _ I). lia.
Qed.

Theorem C39_increasing_attributes_distinct : forall key_label target a l i fs ts,
  target = FRecTup \/ target = FTuple -> flag (at_unindexed a) = false -> length ts = length fs ->
  forallb (fun f => negb (flattening f)) fs = true -> increasing 0 (filter streamed fs) = true ->
  NoDup (map i_val (field_indexes (record_tree key_label target a l i fs ts))).
Proof.
  intros key_label target a l i fs ts T U HL NF IN. unfold record_tree.
  pose proof (indexed_kind target a fs T U) as K. rewrite indexes_of_fields by exact K.
  apply (explicit_indexes key_label _ (streamed_fields fs ts) K [] 0%Z).
  - replace (map fst (streamed_fields fs ts)) with (filter streamed fs); [exact IN|].
    unfold streamed_fields. clear -HL. revert ts HL. induction fs as [|f fs IH]; intros [|t ts] HL; try discriminate HL; [reflexivity|].
    cbn [combine filter fst]. destruct (streamed f); cbn [map fst]; rewrite (IH ts) by (cbn in HL; lia); reflexivity.
  - reflexivity.
  - apply streamed_no_flatten. exact NF.
Qed.

(** With a flattened field index attributes collide even if they are distinct
    and increasing: the flattened children are counted separately. *)
Definition C39_attributes_and_flatten : Prop :=
  forall r64 d m variant vs ts t fs,
  derive d = Some m -> Forall2 streams vs ts -> length ts = field_count d variant ->
  derived_tree (label_kept r64) d variant ts = Some t ->
  indexed_fields d variant = Some fs -> increasing 0 (filter streamed fs) = true ->
  forallb positional (streamed_fields fs ts) = true ->
  NoDup (map i_val (field_indexes t)).
Definition collides : type_def :=
  DStruct (bs "Collides") plain
    (FsNamed [MkField (Some (bs "id")) None None None (Some (IConst 1)) None None; flattened_field "inner"]).
Theorem C39_attributes_and_flatten_refuted : ~ C39_attributes_and_flatten.
Proof.
  intros H.
  specialize (H (fun _ => []) collides
    (match derive collides with Some m => m | None => MkImpl None [] None end) 0%nat
    [calls_of TNull; calls_of pair_record] [TNull; pair_record]
    (match derived_tree (label_kept (fun _ => [])) collides 0 [TNull; pair_record] with Some t => t | None => TNull end)
    (match indexed_fields collides 0 with Some fs => fs | None => [] end) eq_refl).
  assert (F : Forall2 streams [calls_of TNull; calls_of pair_record] [TNull; pair_record])
    by (repeat constructor; apply streams_calls_of).
  specialize (H F eq_refl eq_refl eq_refl eq_refl eq_refl).
  assert (E : map i_val (field_indexes (match derived_tree (label_kept (fun _ => [])) collides 0 [TNull; pair_record] with Some t => t | None => TNull end)) = [1; 0; 1]%Z) by reflexivity.
  rewrite E in H. inversion H as [|x l N _]; subst. apply N. right. left. reflexivity.
Qed.

(** ** C52: variant indexes are Rust's discriminants *)

(** [before] in reverse order. *)
Definition disc_of (d : discriminant) : Z := match d with DLit v | DOtherLit v | DExpr v => v | DPath i => i_val i end.
Fixpoint rust_discriminant (v : variant_def) (before : list variant_def) : Z :=
  match vd_disc v with
  | Some d => disc_of d
  | None => match before with
            | [] => 0
            | u :: before => rust_discriminant u before + 1
            end
  end%Z.

(** The index a variant is streamed with. *)
Definition outer_index (t : tree) : option index :=
  match t with
  | TTag _ _ i | TTagged _ _ i _ | TRecord _ _ i _ _ | TTuple _ _ i _ _ | TRecTup _ _ i _ _ => i
  | _ => None
  end.
Definition no_variant_index (vs : list variant_def) : bool :=
  forallb (fun v => absent (at_index (vd_attrs v))) vs.

Definition C52_indexes_are_discriminants : Prop :=
  forall W (out : W -> ev -> res W) r64 name ea vs0 m variant v vs ts w,
  derive (DEnum name ea vs0) = Some m -> Forall2 streams vs ts ->
  nth_error vs0 variant = Some v -> length ts = length (field_list (vd_fields v)) ->
  flattens_well (DEnum name ea vs0) variant ts = true ->
  flag (ea_dynamic ea) = false -> flag (ea_unindexed ea) = false -> no_variant_index vs0 = true ->
  exists t, derived_stream out r64 m variant vs w =
            run out w (emit (TEnum (ea_tag ea) (Some (type_label (ea_label ea) name))
                                   (option_map given_index (ea_index ea)) t)) /\
    option_map i_val (outer_index t) = Some (rust_discriminant v (rev (firstn variant vs0))).

(** Discriminants that are literals or left out. *)
Definition literal_discriminants (vs : list variant_def) : bool :=
  forallb (fun v => match vd_disc v with None | Some (DLit _) => true | _ => false end) vs.

Lemma rust_discriminant_eq v before : rust_discriminant v before =
  match vd_disc v with
  | Some d => disc_of d
  | None => match before with [] => 0%Z | u :: b => (rust_discriminant u b + 1)%Z end
  end.
Proof. destruct before; reflexivity. Qed.

Lemma number_is_discriminant before v :
  literal_discriminants (v :: before) = true -> no_variant_index before = true ->
  i_val (variant_number before v) = rust_discriminant v before.
Proof.
  intros L N. unfold variant_number.
  assert (FB : filter (fun v => absent (at_index (vd_attrs v))) before = before).
  { clear -N. induction before as [|u b IH]; [reflexivity|]. cbn [filter no_variant_index forallb] in *.
    apply andb_prop in N as (N1 & N2). rewrite N1, (IH N2). reflexivity. }
  rewrite FB. clear FB.
  assert (NR : literal_discriminants before = true ->
               (next_number (map disc_given before) = match before with [] => 0 | u :: b => rust_discriminant u b + 1 end)%Z /\
               (any_given (map disc_given before) = false -> next_number (map disc_given before) = Z.of_nat (length (map disc_given before)))).
  { clear. induction before as [|u b IH]; intros L; [split; reflexivity|]. cbn [literal_discriminants forallb] in L.
    apply andb_prop in L as (L1 & L2). destruct (IH L2) as (I1 & I2). unfold any_given in *. cbn [map next_number existsb length]. rewrite rust_discriminant_eq.
    change (disc_given u) with (match vd_disc u with Some (DLit k) => Some (IConst k) | Some (DPath i) => Some (IIdent i) | _ => None end).
    destruct (vd_disc u) as [[z| | |]|]; try discriminate L1; cbn [disc_of absent negb orb].
    - split; [reflexivity|discriminate].
    - rewrite I1. split; [reflexivity|]. intros A. rewrite <- I1, (I2 A). lia. }
  cbn [literal_discriminants forallb] in L. apply andb_prop in L as (L1 & L2). destruct (NR L2) as (N1 & N2).
  unfold own_index.
  change (disc_given v) with (match vd_disc v with Some (DLit k) => Some (IConst k) | Some (DPath i) => Some (IIdent i) | _ => None end).
  destruct v as [vn va vd vf]. cbn [vd_disc rust_discriminant] in *.
  rewrite rust_discriminant_eq. cbn [vd_disc]. destruct vd as [[z| | |]|]; try discriminate L1; [reflexivity|].
  destruct (any_given (map disc_given before)); cbn [i_val]; [exact N1|]. rewrite <- (N2 eq_refl). exact N1.
Qed.

Theorem C52_indexes_are_discriminants_partial :
  forall W (out : W -> ev -> res W) r64 name ea vs0 m variant v vs ts w,
  derive (DEnum name ea vs0) = Some m -> Forall2 streams vs ts ->
  nth_error vs0 variant = Some v -> length ts = length (field_list (vd_fields v)) ->
  flattens_well (DEnum name ea vs0) variant ts = true ->
  flag (ea_dynamic ea) = false -> flag (ea_unindexed ea) = false -> no_variant_index vs0 = true ->
  literal_discriminants vs0 = true ->
  exists t, derived_stream out r64 m variant vs w =
            run out w (emit (TEnum (ea_tag ea) (Some (type_label (ea_label ea) name))
                                   (option_map given_index (ea_index ea)) t)) /\
    option_map i_val (outer_index t) = Some (rust_discriminant v (rev (firstn variant vs0))).
Proof.
  intros W out r64 name ea vs0 m variant v vs ts w H HV NV HL HO D U NI LD.
  exists (variant_tree (label_kept r64) ea (rev (firstn variant vs0)) v ts). split.
  - eapply C38_derived_well_formed_partial; eauto.
    + unfold field_count. cbn [fields_of]. rewrite NV. exact HL.
    + cbn [derived_tree]. rewrite NV, D. reflexivity.
  - assert (I : forall x, In x (v :: rev (firstn variant vs0)) -> In x vs0).
    { intros x [<-|I]; [eapply nth_error_In; eauto|]. apply in_rev in I. rewrite <- (firstn_skipn variant vs0).
      apply in_or_app. left. exact I. }
    assert (NB : no_variant_index (rev (firstn variant vs0)) = true).
    { unfold no_variant_index in *. rewrite forallb_forall in *. intros x X. apply NI. apply I. right. exact X. }
    assert (LB : literal_discriminants (v :: rev (firstn variant vs0)) = true).
    { unfold literal_discriminants in *. rewrite forallb_forall in *. intros x X. apply LD. apply I. exact X. }
    assert (SI : spec_variant_index ea (rev (firstn variant vs0)) v = Some (variant_number (rev (firstn variant vs0)) v)).
    { unfold spec_variant_index. unfold no_variant_index in NI. rewrite forallb_forall in NI.
      specialize (NI v (I v (or_introl eq_refl))). destruct (at_index (vd_attrs v)); [discriminate NI|]. rewrite D, U. reflexivity. }
    rewrite <- (number_is_discriminant _ _ LB NB).
    unfold variant_tree, body_tree. rewrite SI, D.
    destruct (vd_fields v) as [|fs|[|f [|g fs]]]; try reflexivity;
      unfold record_tree, fields_tree; destruct (fields_kind _ _ _); reflexivity.
Qed.

(** [enum E { A = FIRST, B }] with [const FIRST: isize = 10]: [B] is 11, but
    streamed as 1. *)
Definition path_enum : list variant_def :=
  [MkVariant (bs "A") plain (Some (DPath (index_new 10))) FsUnit; MkVariant (bs "B") plain None FsUnit].
Definition no_enum_attrs : enum_attrs := MkEnumAttrs None None None None None None.
Theorem C52_indexes_are_discriminants_refuted : ~ C52_indexes_are_discriminants.
Proof.
  intros H.
  destruct (H _ log (fun _ => []) (bs "E") no_enum_attrs path_enum
    (match derive (DEnum (bs "E") no_enum_attrs path_enum) with Some m => m | None => MkImpl None [] None end) 1%nat
    (MkVariant (bs "B") plain None FsUnit) [] [] [] eq_refl (Forall2_nil _) eq_refl eq_refl eq_refl eq_refl eq_refl eq_refl) as (t & E1 & E2).
  assert (E : derived_stream log (fun _ => []) (match derive (DEnum (bs "E") no_enum_attrs path_enum) with Some m => m | None => MkImpl None [] None end) 1 [] [] =
     Ok (emit (TEnum None (Some (ident "E")) None (TTag None (Some (ident "B")) (Some (index_new 1)))))) by reflexivity.
  rewrite E in E1.
  assert (L : forall es w, run log w es = Ok (w ++ es)).
  { induction es as [|e es IH]; intros w; [rewrite app_nil_r; reflexivity|]. rewrite run_cons. cbn [log bind].
    rewrite IH, <- app_assoc. reflexivity. }
  rewrite L in E1. cbn [app emit] in E1. inversion E1 as [E3].
  destruct t; cbn [emit app] in E3; try discriminate E3.
  inversion E3; subst. discriminate E2.
Qed.

Example C52_sample : literal_discriminants (match shape_enum with DEnum _ _ vs => vs | _ => [] end) = true /\
  no_variant_index (match shape_enum with DEnum _ _ vs => vs | _ => [] end) = true /\
  map (fun n => match nth_error (match shape_enum with DEnum _ _ vs => vs | _ => [] end) n with
                | Some v => rust_discriminant v (rev (firstn n (match shape_enum with DEnum _ _ vs => vs | _ => [] end)))
                | None => (-1)%Z end) [0; 1; 2]%nat = [0; 4; 5]%Z.
Proof. repeat split; reflexivity. Qed.

(** An [index] attribute on a variant is not seen by the numbering of the
    others: [A, #[sval(index = 1)] B, C] gives [B] and [C] the same index. *)
Theorem C52_attribute_collides : exists vs m,
  derive (DEnum (bs "E") no_enum_attrs vs) = Some m /\
  derived_stream log (fun _ => []) m 1 [] [] =
    Ok (emit (TEnum None (Some (ident "E")) None (TTag None (Some (ident "B")) (Some (MkIndex 1 None))))) /\
  derived_stream log (fun _ => []) m 2 [] [] =
    Ok (emit (TEnum None (Some (ident "E")) None (TTag None (Some (ident "C")) (Some (off 1))))).
Proof.
  exists [MkVariant (bs "A") plain None FsUnit;
          MkVariant (bs "B") (MkAttrs None None (Some (IConst 1)) None None None) None FsUnit;
          MkVariant (bs "C") plain None FsUnit].
  eexists. repeat split; reflexivity.
Qed.

Print Assumptions C38_derived_well_formed_refuted.
Print Assumptions C38_derived_well_formed_partial.
Print Assumptions C38_without_flatten.
Print Assumptions C38_fields_in_order.
Print Assumptions C38_size_exact.
Print Assumptions C38_enum_holds_variants.
Print Assumptions C38_labels_all_or_none.
Print Assumptions C38_tag_agrees_refuted.
Print Assumptions C38_tag_agrees_partial.
Print Assumptions C39_indexes_are_positions.
Print Assumptions C39_offsets_distinct.
Print Assumptions C39_indexes_distinct.
Print Assumptions C39_flattenable.
Print Assumptions C39_increasing_attributes_distinct.
Print Assumptions C39_attributes_and_flatten_refuted.
Print Assumptions C52_indexes_are_discriminants_refuted.
Print Assumptions C52_indexes_are_discriminants_partial.
Print Assumptions C52_attribute_collides.
