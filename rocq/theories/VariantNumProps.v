(** * VariantNumProps: exactly which index a derived variant has (C52) *)

From Verif Require Import Base Event Tree FlatProofs LowerModel DataModel DataProofs ExtractSpec
  FlattenModel FlattenSpec FlattenProofs FlattenProps DeriveModel DeriveSpec DeriveProofs DeriveProps.

(** ** Specification *)

(** A variant without the discriminants that are not an integer literal, and
    without those that are neither a literal nor a path. *)
Definition with_disc (v : variant_def) (d : option discriminant) : variant_def :=
  MkVariant (vd_name v) (vd_attrs v) d (vd_fields v).
Definition literal_only (v : variant_def) : variant_def :=
  with_disc v (match vd_disc v with Some (DLit k) => Some (DLit k) | _ => None end).
Definition literal_or_path (v : variant_def) : variant_def :=
  with_disc v (match vd_disc v with Some (DLit k) => Some (DLit k) | Some (DPath i) => Some (DPath i) | _ => None end).

(** The variants that have no index attribute. *)
Definition unattributed (vs : list variant_def) : list variant_def :=
  filter (fun v => absent (at_index (vd_attrs v))) vs.

(** The number the macro gives the variant after the variants [before] (in
    reverse order): Rust's discriminant in the enum in which only literals are
    discriminants, where the variant's own may be a path. *)
Definition streamed_number (v : variant_def) (before : list variant_def) : Z :=
  rust_discriminant (literal_or_path v) (map literal_only (unattributed before)).

(** The last discriminant given at or before a variant, whether it is the
    variant's own, and the variants before the one it is given to. *)
Fixpoint anchor_in (own : bool) (vs : list variant_def) : option (discriminant * bool * list variant_def) :=
  match vs with
  | [] => None
  | v :: before => match vd_disc v with
                   | Some d => Some (d, own, before)
                   | None => anchor_in false before
                   end
  end.

(** A discriminant that is what its variant would have been numbered without it. *)
Definition redundant (d : discriminant) (before : list variant_def) : Prop :=
  disc_of d = match map literal_only before with
              | [] => 0%Z
              | u :: rest => (rust_discriminant u rest + 1)%Z
              end.

(** The macro numbers a variant as Rust does. *)
Definition numbered_right (v : variant_def) (before : list variant_def) : Prop :=
  match anchor_in true (v :: before) with
  | None | Some (DLit _, _, _) | Some (DPath _, true, _) => True
  | Some (d, _, rest) => redundant d rest
  end.

(** ** Proofs *)

Lemma rust_none v before : vd_disc v = None ->
  rust_discriminant v before = match before with [] => 0%Z | u :: b => (rust_discriminant u b + 1)%Z end.
Proof. intros H. rewrite rust_discriminant_eq, H. reflexivity. Qed.

Lemma next_number_literal before :
  (next_number (map disc_given before) =
   match map literal_only before with [] => 0 | u :: rest => rust_discriminant u rest + 1 end)%Z.
Proof.
  induction before as [|u b IH]; [reflexivity|]. cbn [map next_number]. rewrite rust_discriminant_eq.
  unfold literal_only at 1 2, with_disc, disc_given at 1. cbn [vd_disc].
  destruct (vd_disc u) as [[k|k|k|i]|]; cbn [disc_of]; rewrite ?IH; reflexivity.
Qed.

Lemma next_number_length before : any_given (map disc_given before) = false ->
  next_number (map disc_given before) = Z.of_nat (length (map disc_given before)).
Proof.
  induction before as [|u b IH]; intros H; [reflexivity|]. unfold any_given in *. cbn [map existsb next_number length] in *.
  apply orb_false_iff in H as (H1 & H2). destruct (disc_given u) eqn:E; [discriminate H1|].
  rewrite (IH H2). lia.
Qed.

Lemma variant_number_exact before v : i_val (variant_number before v) = streamed_number v before.
Proof.
  unfold variant_number, streamed_number, unattributed. set (b := filter _ before).
  rewrite rust_discriminant_eq. unfold own_index, disc_given at 1, literal_or_path, with_disc. cbn [vd_disc].
  destruct (vd_disc v) as [[k|k|k|i]|]; try reflexivity; rewrite <- next_number_literal;
    (destruct (any_given (map disc_given b)) eqn:A; cbn [i_val]; [reflexivity|]); rewrite (next_number_length b A); reflexivity.
Qed.

Lemma unattributed_all vs : no_variant_index vs = true -> unattributed vs = vs.
Proof.
  unfold no_variant_index, unattributed. induction vs as [|v vs IH]; [reflexivity|]. cbn [forallb filter]. intros H.
  apply andb_prop in H as (H1 & H2). rewrite H1, (IH H2). reflexivity.
Qed.

(** In terms of the next number: what Rust and the macro have next after [before]. *)
Definition after (f : variant_def -> variant_def) (before : list variant_def) : Z :=
  match map f before with [] => 0%Z | u :: rest => (rust_discriminant u rest + 1)%Z end.

Lemma after_exact before : after (fun v => v) before = after literal_only before <->
  match anchor_in false before with
  | None | Some (DLit _, _, _) => True
  | Some (d, _, rest) => redundant d rest
  end.
Proof.
  induction before as [|u b IH]; [cbn; intuition|].
  unfold after in *. rewrite map_id in *. cbn [map anchor_in].
  rewrite (rust_discriminant_eq (literal_only u)), (rust_discriminant_eq u). unfold literal_only at 1, with_disc. cbn [vd_disc].
  unfold redundant. destruct (vd_disc u) as [[k|k|k|i]|]; cbn [disc_of]; try (split; intros; lia).
  rewrite <- IH. split; intros; lia.
Qed.

Lemma anchor_not_own vs : match anchor_in false vs with Some (_, true, _) => False | _ => True end.
Proof. induction vs as [|v vs IH]; [exact I|]. cbn [anchor_in]. destruct (vd_disc v); [exact I|exact IH]. Qed.

Lemma streamed_right v before : no_variant_index before = true ->
  streamed_number v before = rust_discriminant v before <-> numbered_right v before.
Proof.
  intros N. unfold streamed_number, numbered_right. rewrite (unattributed_all _ N).
  rewrite !rust_discriminant_eq. unfold literal_or_path, with_disc. cbn [vd_disc anchor_in].
  pose proof (after_exact before) as A. unfold after in A. rewrite map_id in A. unfold redundant in *.
  destruct (vd_disc v) as [[k|k|k|i]|]; cbn [disc_of]; try (split; intros; lia || reflexivity || exact I).
  transitivity (match anchor_in false before with
    | None | Some (DLit _, _, _) => True
    | Some (d, _, rest) => redundant d rest
    end); [unfold redundant; rewrite <- A; split; intros; congruence|].
  pose proof (anchor_not_own before) as O. unfold redundant.
  destruct (anchor_in false before) as [[[[k|k|k|i] [|]] rest]|]; try contradiction; reflexivity.
Qed.

(** ** C52 *)

(** The index of every variant of every indexed enum, index attributes,
    paths and expressions included. *)
Theorem C52_index_exactly :
  forall W (out : W -> ev -> res W) r64 name ea vs0 m variant v vs ts w,
  derive (DEnum name ea vs0) = Some m -> Forall2 streams vs ts ->
  nth_error vs0 variant = Some v -> length ts = length (field_list (vd_fields v)) ->
  flattens_well (DEnum name ea vs0) variant ts = true ->
  flag (ea_dynamic ea) = false -> flag (ea_unindexed ea) = false ->
  exists t, derived_stream out r64 m variant vs w =
            run out w (emit (TEnum (ea_tag ea) (Some (type_label (ea_label ea) name))
                                   (option_map given_index (ea_index ea)) t)) /\
    option_map i_val (outer_index t) =
    Some (match at_index (vd_attrs v) with
          | Some (IConst k) => k
          | Some (IIdent i) => i_val i
          | None => streamed_number v (rev (firstn variant vs0))
          end).
Proof.
  intros W out r64 name ea vs0 m variant v vs ts w H HV NV HL HO D U.
  exists (variant_tree (label_kept r64) ea (rev (firstn variant vs0)) v ts). split.
  - eapply C38_derived_well_formed_partial; eauto.
    + unfold field_count. cbn [fields_of]. rewrite NV. exact HL.
    + cbn [derived_tree]. rewrite NV, D. reflexivity.
  - rewrite <- variant_number_exact.
    assert (SI : exists i, spec_variant_index ea (rev (firstn variant vs0)) v = Some i /\
      i_val i = match at_index (vd_attrs v) with
                | Some (IConst k) => k
                | Some (IIdent i) => i_val i
                | None => i_val (variant_number (rev (firstn variant vs0)) v)
                end).
    { unfold spec_variant_index. rewrite D, U. destruct (at_index (vd_attrs v)) as [[k|i]|]; eexists; split; reflexivity. }
    destruct SI as (i & SI & <-).
    unfold variant_tree, body_tree. rewrite SI, D.
    destruct (vd_fields v) as [|fs|[|f [|g fs]]]; try reflexivity;
      unfold record_tree, fields_tree; destruct (fields_kind _ _ _); reflexivity.
Qed.

(** Without index attributes: exactly the variants with Rust's discriminants. *)
Theorem C52_discriminant_exactly_when :
  forall W (out : W -> ev -> res W) r64 name ea vs0 m variant v vs ts w,
  derive (DEnum name ea vs0) = Some m -> Forall2 streams vs ts ->
  nth_error vs0 variant = Some v -> length ts = length (field_list (vd_fields v)) ->
  flattens_well (DEnum name ea vs0) variant ts = true ->
  flag (ea_dynamic ea) = false -> flag (ea_unindexed ea) = false -> no_variant_index vs0 = true ->
  exists t, derived_stream out r64 m variant vs w =
            run out w (emit (TEnum (ea_tag ea) (Some (type_label (ea_label ea) name))
                                   (option_map given_index (ea_index ea)) t)) /\
    (option_map i_val (outer_index t) = Some (rust_discriminant v (rev (firstn variant vs0))) <->
     numbered_right v (rev (firstn variant vs0))).
Proof.
  intros W out r64 name ea vs0 m variant v vs ts w H HV NV HL HO D U NI.
  destruct (C52_index_exactly W out r64 name ea vs0 m variant v vs ts w H HV NV HL HO D U) as (t & E1 & E2).
  exists t. split; [exact E1|]. rewrite E2.
  unfold no_variant_index in NI. rewrite forallb_forall in NI.
  assert (A : at_index (vd_attrs v) = None).
  { specialize (NI v (nth_error_In _ _ NV)). destruct (at_index (vd_attrs v)); [discriminate NI|reflexivity]. }
  rewrite A. rewrite <- streamed_right.
  - split; [intros X; inversion X; reflexivity|intros ->; reflexivity].
  - unfold no_variant_index. apply forallb_forall. intros x X. apply NI. apply in_rev in X.
    rewrite <- (firstn_skipn variant vs0). apply in_or_app. left. exact X.
Qed.

(** [A = FIRST, B, C = 4, D, E = 2 + 4, F, G = LAST] with FIRST = 10 and LAST = 9:
    B is wrong, E is right as it would be 6 without a discriminant, G is right. *)
Definition mixed_enum : list variant_def :=
  [MkVariant (bs "A") plain (Some (DPath (index_new 10))) FsUnit; MkVariant (bs "B") plain None FsUnit;
   MkVariant (bs "C") plain (Some (DLit 4)) FsUnit; MkVariant (bs "D") plain None FsUnit;
   MkVariant (bs "E") plain (Some (DExpr 6)) FsUnit; MkVariant (bs "F") plain None FsUnit;
   MkVariant (bs "G") plain (Some (DPath (index_new 9))) FsUnit].
Example C52_mixed :
  (exists m, derive (DEnum (bs "M") no_enum_attrs mixed_enum) = Some m) /\
  map (fun n => match nth_error mixed_enum n with
                | Some v => (streamed_number v (rev (firstn n mixed_enum)), rust_discriminant v (rev (firstn n mixed_enum)))
                | None => (0, 0)%Z end) (seq 0 7) =
  [(10, 10); (1, 11); (4, 4); (5, 5); (6, 6); (7, 7); (9, 9)]%Z /\
  no_variant_index mixed_enum = true.
Proof. repeat split; try reflexivity. eexists; reflexivity. Qed.

Print Assumptions C52_index_exactly.
Print Assumptions C52_discriminant_exactly_when.
