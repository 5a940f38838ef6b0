(** * LowerProofs: proofs about the default methods *)

From Verif Require Import Base Event Tree FlatProofs LowerModel LowerSpec.
From Coq Require DecimalN DecimalFacts DecimalPos.
From Coq Require Decimal.

(** ** Depth of the default methods *)
Definition rank (e : ev) : nat :=
  match e with
  | ENull | EBool _ | ETextBegin _ | ETextFragC _ | ETextEnd
  | EF64 _ | ESeqBegin _ | ESeqValBegin | ESeqValEnd | ESeqEnd => 0
  | EInt I64 _ => 0
  | EInt I32 _ => 1
  | EInt I16 _ => 2
  | EInt I8 _ => 3
  | EInt I128 _ | EInt U128 _ => 2
  | EInt U64 _ => 3
  | EInt U32 _ => 4
  | EInt U16 _ => 5
  | EInt U8 _ => 6
  | ETextFrag _ | EF32 _ => 1
  | EBinBegin _ | EBinEnd => 1
  | EBinFragC _ => 7
  | EBinFrag _ => 8
  | EMapBegin _ | EMapEnd => 1
  | EMapKeyBegin | EMapValEnd => 3
  | EMapKeyEnd | EMapValBegin => 2
  | EEnumBegin _ _ _ | EEnumEnd _ _ _ => 2
  | ETaggedBegin _ _ _ | ETaggedEnd _ _ _ => 1
  | ETag _ _ _ => 2
  | ETagHint _ => 1
  | ERecordBegin _ _ _ _ | ERecordEnd _ _ _ => 2
  | ERecordValBegin _ _ | ERecordValEnd _ _ => 4
  | ETupleBegin _ _ _ _ | ETupleEnd _ _ _ => 2
  | ETupleValBegin _ _ | ETupleValEnd _ _ => 1
  | ERecTupBegin _ _ _ _ | ERecTupEnd _ _ _ => 3
  | ERecTupValBegin _ _ _ | ERecTupValEnd _ _ _ => 5
  end.

Definition default_evs (e : ev) : option (list ev) :=
  option_map (fun cs => fst (flat cs false)) (default_calls e).

Lemma rank_depth e : rank e <= depth.
Proof. destruct e as [| | | | | | | | | |t z| | | | | | | | | | | | | | | | | | | | | | | | | | | | | |]; try (simpl; unfold depth; lia).
       destruct t; simpl; unfold depth; lia. Qed.

Lemma bin_calls_flat s :
  flat (flat_map (fun b => [CE ESeqValBegin; CE (EInt U8 (byte_val b)); CE ESeqValEnd]) s) false =
  (flat_map (fun b => [ESeqValBegin; EInt U8 (byte_val b); ESeqValEnd]) s, true).
Proof.
  induction s as [|b s IH]; [reflexivity|].
  cbn [flat_map]. rewrite flat_app, IH. reflexivity.
Qed.

Lemma label_calls_flat l :
  exists f, flat (label_calls l) false =
    ([ETextBegin (Some (blen (l_text l))); f; ETextEnd], true) /\
    (f = ETextFrag (l_text l) \/ f = ETextFragC (l_text l)).
Proof.
  unfold label_calls, as_static_str. destruct (l_kind l);
    eexists; (split; [reflexivity|]); auto.
Qed.

Lemma display_calls_flat z comp :
  flat (display_calls z) comp =
  (ETextBegin None :: map ETextFragC (dec_frags z) ++ [ETextEnd], true).
Proof.
  unfold display_calls, dec_frags.
  destruct (z <? 0)%Z; destruct comp; reflexivity.
Qed.

Lemma stream_number_flat z :
  flat (stream_number_calls z) false =
  (ETaggedBegin (Some NUMBER) None None ::
   (ETextBegin None :: map ETextFragC (dec_frags z) ++ [ETextEnd]) ++
   [ETaggedEnd (Some NUMBER) None None], true).
Proof.
  unfold stream_number_calls. rewrite flat_cons. cbn [flat1].
  rewrite flat_cons, flat1_CVC, display_calls_flat. reflexivity.
Qed.

Ltac dmatch := match goal with
  | |- context [match ?x with _ => _ end] => destruct x eqn:?
  end.

Ltac someinj H := match type of H with
  | Some ?a = Some ?b => let E := fresh in assert (E : a = b) by congruence; clear H; subst b
  end.

Lemma default_rank e ds : default_evs e = Some ds -> Forall (fun d => rank d < rank e) ds.
Proof.
  unfold default_evs.
  destruct e; cbn [default_calls option_map]; intros H; try discriminate H;
    try (someinj H; cbn; repeat constructor; simpl; lia).
  - (* EBinFragC *) someinj H. rewrite bin_calls_flat. cbn [fst].
    induction s as [|b s IH]; cbn [flat_map]; [constructor|].
    apply Forall_app; split; [|exact IH]. repeat constructor; simpl; lia.
  - (* EInt *)
    destruct t; cbn [option_map] in H; try discriminate H;
      try (someinj H; cbn; repeat constructor; simpl; lia).
    + destruct (fits I64 z); cbn [option_map] in H; someinj H.
      * cbn; repeat constructor; simpl; lia.
      * rewrite stream_number_flat. cbn [fst]. constructor; [simpl; lia|].
        unfold dec_frags; destruct (z <? 0)%Z; repeat constructor; simpl; lia.
    + destruct (fits I64 z); cbn [option_map] in H; someinj H.
      * cbn; repeat constructor; simpl; lia.
      * rewrite stream_number_flat. cbn [fst]. constructor; [simpl; lia|].
        unfold dec_frags; destruct (z <? 0)%Z; repeat constructor; simpl; lia.
  - (* ETag *)
    someinj H.
    destruct (otag_is t RUST_OPTION_NONE); [cbn; repeat constructor; simpl; lia|].
    destruct l as [l|]; [|cbn; repeat constructor; simpl; lia].
    rewrite flat_cons, flat_app.
    destruct (label_calls_flat l) as [f [-> [-> | ->]]]; cbn; repeat constructor; simpl; lia.
  - (* ERecordValBegin *)
    someinj H.
    rewrite flat_cons, flat_app.
    destruct (label_calls_flat l) as [f [-> [-> | ->]]]; cbn; repeat constructor; simpl; lia.
Qed.

Lemma lower_unfold O n e :
  lower O n e =
  if O e then [e]
  else match default_evs e with
       | None => [e]
       | Some ds => match n with 0 => [e] | S n' => flat_map (lower O n') ds end
       end.
Proof.
  unfold default_evs. destruct n; cbn [lower]; destruct (O e); try reflexivity;
    destruct (default_calls e); reflexivity.
Qed.

Arguments lower : simpl never.

Lemma default_some_rank e ds : default_evs e = Some ds -> 0 < rank e.
Proof.
  destruct e as [| | | | | | | | | |t z| | | | | | | | | | | | | | | | | | | | | | | | | | | | | |];
    unfold default_evs; simpl; intros H; try discriminate; try lia.
  destruct t; simpl in *; try discriminate; lia.
Qed.

Lemma flat_map_ext_Forall {A B} (f g : A -> list B) l :
  Forall (fun x => f x = g x) l -> flat_map f l = flat_map g l.
Proof. induction 1; simpl; congruence. Qed.

Lemma flat_map_flat_map {A B C} (f : A -> list B) (g : B -> list C) l :
  flat_map g (flat_map f l) = flat_map (fun x => flat_map g (f x)) l.
Proof. induction l; simpl; [reflexivity|]. rewrite flat_map_app. congruence. Qed.

(** Enough fuel is enough. *)
Lemma lower_fuel O : forall n m e, rank e <= n -> rank e <= m -> lower O n e = lower O m e.
Proof.
  induction n as [|n IH]; intros m e Hn Hm; rewrite (lower_unfold O _ e), (lower_unfold O m e);
    destruct (O e); try reflexivity; destruct (default_evs e) as [ds|] eqn:Hd; try reflexivity.
  - apply default_some_rank in Hd. lia.
  - pose proof (default_some_rank _ _ Hd). destruct m as [|m]; [lia|].
    apply flat_map_ext_Forall.
    eapply Forall_impl; [|apply (default_rank _ _ Hd)].
    intros d Hr; simpl in Hr. apply IH; lia.
Qed.

(** Nothing but overridden and required methods is left. *)
Lemma lower_done O : forall n e, rank e <= n ->
  Forall (fun d => O d = true \/ required d = true) (lower O n e).
Proof.
  induction n as [|n IH]; intros e Hn; rewrite lower_unfold;
    destruct (O e) eqn:HO; try (constructor; [now left|constructor]);
    destruct (default_evs e) as [ds|] eqn:Hd.
  - apply default_some_rank in Hd; lia.
  - constructor; [|constructor]. right. unfold required, default_evs in *.
    destruct (default_calls e); [discriminate|reflexivity].
  - pose proof (default_rank _ _ Hd) as HR.
    induction ds as [|d ds IHd]; simpl; [constructor|].
    inversion HR as [|? ? Hr1 Hr2]; subst. apply Forall_app; split.
    + apply IH; lia.
    + clear Hd. revert Hr2. clear -IH Hn. intros HR.
      induction HR; simpl; [constructor|]. apply Forall_app; split; [apply IH; lia|assumption].
  - constructor; [|constructor]. right. unfold required, default_evs in *.
    destruct (default_calls e); [discriminate|reflexivity].
Qed.

Lemma lower_all_done O es :
  Forall (fun d => O d = true \/ required d = true) (lower_all O es).
Proof.
  unfold lower_all. induction es as [|e es IH]; simpl; [constructor|].
  apply Forall_app; split; [|exact IH]. apply lower_done, rank_depth.
Qed.

(** Completing the defaults later is the same as using them throughout:
    if [O'] overrides fewer methods than [O]. *)
Lemma lower_lower O O' : (forall e, O' e = true -> O e = true) ->
  forall n e, rank e <= n -> flat_map (lower O' depth) (lower O n e) = lower O' depth e.
Proof.
  intros HO. induction n as [|n IH]; intros e Hn; rewrite (lower_unfold O _ e).
  - destruct (O e); [simpl; apply app_nil_r|].
    destruct (default_evs e) as [ds|] eqn:Hd; [apply default_some_rank in Hd; lia|].
    simpl; apply app_nil_r.
  - destruct (O e) eqn:HOe; [simpl; apply app_nil_r|].
    destruct (default_evs e) as [ds|] eqn:Hd; [|simpl; apply app_nil_r].
    rewrite flat_map_flat_map.
    rewrite (lower_fuel O' depth (S depth) e) by (pose proof (rank_depth e); lia).
    rewrite (lower_unfold O' (S depth) e), Hd.
    destruct (O' e) eqn:HO'e; [apply HO in HO'e; congruence|].
    apply flat_map_ext_Forall.
    eapply Forall_impl; [|apply (default_rank _ _ Hd)].
    intros d Hr; simpl in Hr. apply IH; lia.
Qed.

Lemma lower_all_twice O O' es : (forall e, O' e = true -> O e = true) ->
  lower_all O' (lower_all O es) = lower_all O' es.
Proof.
  intros HO. unfold lower_all. rewrite flat_map_flat_map.
  apply flat_map_ext_Forall, Forall_forall. intros e _.
  apply lower_lower; [exact HO|apply rank_depth].
Qed.

Lemma lower_all_app O a b : lower_all O (a ++ b) = lower_all O a ++ lower_all O b.
Proof. apply flat_map_app. Qed.

Lemma lower_all_cons O e es : lower_all O (e :: es) = lower O depth e ++ lower_all O es.
Proof. reflexivity. Qed.

(** ** Meaning of the full lowering *)
Lemma low_text_frags fs :
  lower_all overrides_nothing (map text_frag fs) = map ETextFragC (map snd fs).
Proof.
  induction fs as [|[b s] fs IH]; [reflexivity|].
  cbn [map]. rewrite lower_all_cons, IH. destruct b; reflexivity.
Qed.

Lemma low_big t z : fits I64 z = false -> (t = U128 \/ t = I128) ->
  lower overrides_nothing depth (EInt t z) = emit_core (KText None (dec_frags z)).
Proof.
  intros F Ht. rewrite lower_unfold. cbn [overrides_nothing].
  assert (D : default_evs (EInt t z) = Some (fst (flat (stream_number_calls z) false))).
  { unfold default_evs. destruct Ht; subst; cbn [default_calls]; rewrite F; reflexivity. }
  rewrite D, stream_number_flat. cbn [fst]. unfold depth, dec_frags.
  destruct (z <? 0)%Z; reflexivity.
Qed.

Lemma low_small t z : fits I64 z = true -> (t = U128 \/ t = I128) ->
  lower overrides_nothing depth (EInt t z) = [EInt I64 z].
Proof.
  intros F Ht. rewrite lower_unfold. cbn [overrides_nothing].
  assert (D : default_evs (EInt t z) = Some [EInt I64 z]).
  { unfold default_evs. destruct Ht; subst; cbn [default_calls]; rewrite F; reflexivity. }
  rewrite D. reflexivity.
Qed.

Lemma low_wider t z : t <> U128 -> t <> I128 -> t <> I64 ->
  lower overrides_nothing depth (EInt t z) = lower overrides_nothing depth (EInt (wider t) z).
Proof.
  intros H1 H2 H3.
  rewrite (lower_fuel _ depth (S depth)) by (pose proof (rank_depth (EInt t z)); lia).
  rewrite lower_unfold. cbn [overrides_nothing].
  assert (D : default_evs (EInt t z) = Some [EInt (wider t) z]).
  { destruct t; try congruence; reflexivity. }
  rewrite D. cbn [flat_map]. apply app_nil_r.
Qed.

Lemma low_u8 b :
  lower overrides_nothing depth (EInt U8 (byte_val b)) = [EInt I64 (byte_val b)].
Proof.
  pose proof (byte_val_range b) as H.
  repeat (rewrite low_wider by discriminate; cbn [wider]).
  apply low_small; [|auto].
  unfold fits. apply andb_true_iff. split; apply Z.leb_le; simpl; lia.
Qed.

Lemma low_bin_fragC s :
  lower overrides_nothing depth (EBinFragC s) =
  flat_map (fun b => [ESeqValBegin; EInt I64 (byte_val b); ESeqValEnd]) s.
Proof.
  rewrite lower_unfold. cbn [overrides_nothing default_evs default_calls option_map depth].
  rewrite bin_calls_flat. cbn [fst].
  rewrite flat_map_flat_map. apply flat_map_ext_Forall, Forall_forall. intros b _.
  cbn [flat_map]. rewrite (lower_fuel _ 7 depth (EInt U8 (byte_val b)))
    by (simpl; unfold depth; lia).
  rewrite low_u8. reflexivity.
Qed.

Lemma low_bin_frags fs :
  lower_all overrides_nothing (map bin_frag fs) =
  flat_map (fun b => [ESeqValBegin; EInt I64 (byte_val b); ESeqValEnd]) (List.concat (map snd fs)).
Proof.
  induction fs as [|[b s] fs IH]; [reflexivity|].
  cbn [map List.concat]. rewrite lower_all_cons, IH, flat_map_app. f_equal.
  unfold bin_frag; cbn [fst snd]. destruct b; [|apply low_bin_fragC].
  rewrite (lower_fuel _ depth (S depth)) by (simpl; unfold depth; lia).
  rewrite lower_unfold. cbn [overrides_nothing default_evs default_calls option_map flat flat1 fst flat_map app].
  rewrite app_nil_r. apply low_bin_fragC.
Qed.

Lemma low_label l :
  lower_all overrides_nothing (fst (flat (label_calls l) false)) = emit_core (whole (l_text l)).
Proof.
  destruct (label_calls_flat l) as [f [-> [-> | ->]]]; reflexivity.
Qed.

Lemma low_record_val_begin t l :
  lower overrides_nothing depth (ERecordValBegin t l) =
  [ESeqValBegin; ESeqBegin (Some 2%N)] ++
  (ESeqValBegin :: emit_core (whole (l_text l)) ++ [ESeqValEnd]) ++ [ESeqValBegin].
Proof.
  rewrite lower_unfold. cbn [overrides_nothing default_evs default_calls option_map depth].
  rewrite flat_cons, flat_app.
  destruct (label_calls_flat l) as [f [-> [-> | ->]]]; reflexivity.
Qed.

Lemma low_rectup_val_begin t l i :
  lower overrides_nothing depth (ERecTupValBegin t l i) =
  lower overrides_nothing depth (ERecordValBegin t l).
Proof.
  rewrite (lower_fuel _ depth (S depth)) by (simpl; unfold depth; lia).
  rewrite lower_unfold. cbn [overrides_nothing default_evs default_calls option_map flat flat1 fst flat_map app].
  apply app_nil_r.
Qed.

Lemma low_tag t l i :
  lower overrides_nothing depth (ETag t l i) = emit_core (simplify (TTag t l i)).
Proof.
  rewrite lower_unfold. cbn [overrides_nothing default_evs default_calls option_map depth simplify].
  destruct (otag_is t RUST_OPTION_NONE); [reflexivity|].
  destruct l as [l|]; [|reflexivity].
  rewrite flat_cons, flat_app.
  destruct (label_calls_flat l) as [f [-> [-> | ->]]]; reflexivity.
Qed.

Lemma low_int t z : fits t z = true ->
  lower overrides_nothing depth (EInt t z) =
  emit_core (if fits I64 z then KInt z else KText None (dec_frags z)).
Proof.
  intros Hf.
  assert (Sg : t = I8 \/ t = I16 \/ t = I32 \/ t = I64 -> fits I64 z = true).
  { intros Ht. unfold fits in *. apply andb_true_iff in Hf as [A B].
    apply Z.leb_le in A, B. apply andb_true_iff; split; apply Z.leb_le;
    destruct Ht as [|[|[|]]]; subst; simpl in *; lia. }
  destruct t.
  1-4: repeat (rewrite low_wider by discriminate; cbn [wider]).
  1-5: destruct (fits I64 z) eqn:F;
       [apply low_small; auto | apply low_big; auto].
  1-4: rewrite (Sg ltac:(auto)); repeat (rewrite low_wider by discriminate; cbn [wider]); reflexivity.
  destruct (fits I64 z) eqn:F; [apply low_small; auto | apply low_big; auto].
Qed.

Lemma lower_all_meaning : forall v, ranged v = true ->
  lower_all overrides_nothing (emit v) = emit_core (simplify v).
Proof.
  intros v. induction v using tree_ind'; intros R; cbn [emit simplify ranged] in *; try reflexivity.
  - rewrite lower_all_cons. rewrite low_int by exact R. apply app_nil_r.
  - rewrite lower_all_cons, lower_all_app, low_text_frags. reflexivity.
  - rewrite lower_all_cons, lower_all_app, low_bin_frags. cbn [emit_core].
    change (lower overrides_nothing depth (EBinBegin n)) with [ESeqBegin n].
    change (lower_all overrides_nothing [EBinEnd]) with [ESeqEnd].
    cbn [app]. f_equal. f_equal. rewrite flat_map_concat_map, flat_map_concat_map, map_map. reflexivity.
  - rewrite lower_all_cons, low_tag. apply app_nil_r.
  - rewrite lower_all_cons. rewrite IHv by exact R. reflexivity.
  - rewrite lower_all_cons, lower_all_app, IHv by exact R. apply app_nil_r.
  - rewrite lower_all_cons, lower_all_app, IHv by exact R. apply app_nil_r.
  - rewrite lower_all_cons, lower_all_app. cbn [emit_core].
    change (lower overrides_nothing depth (ESeqBegin n)) with [ESeqBegin n].
    change (lower_all overrides_nothing [ESeqEnd]) with [ESeqEnd].
    cbn [app]. f_equal. f_equal.
    revert R; induction H as [|v vs Hv Hvs IH]; intros R; [reflexivity|].
    cbn [forallb] in R. apply andb_true_iff in R as [R1 R2].
    cbn [flat_map map]. rewrite lower_all_app, (IH R2). f_equal.
    rewrite lower_all_cons, lower_all_app, (Hv R1). reflexivity.
  - rewrite lower_all_cons, lower_all_app. cbn [emit_core].
    change (lower overrides_nothing depth (EMapBegin n)) with [ESeqBegin n].
    change (lower_all overrides_nothing [EMapEnd]) with [ESeqEnd].
    cbn [app]. f_equal. f_equal.
    revert R; induction H as [|[k v] es [Hk Hv] Hes IH]; intros R; [reflexivity|].
    cbn [forallb fst snd] in *. apply andb_true_iff in R as [R1 R2].
    apply andb_true_iff in R1 as [Rk Rv].
    cbn [flat_map map]. rewrite lower_all_app, (IH R2). f_equal.
    cbn [emit_core pair_of flat_map].
    rewrite lower_all_cons, lower_all_app, (Hk Rk).
    rewrite !lower_all_cons, lower_all_app, (Hv Rv).
    change (lower overrides_nothing depth EMapKeyBegin)
      with [ESeqValBegin; ESeqBegin (Some 2%N); ESeqValBegin].
    change (lower overrides_nothing depth EMapKeyEnd) with [ESeqValEnd].
    change (lower overrides_nothing depth EMapValBegin) with [ESeqValBegin].
    change (lower_all overrides_nothing [EMapValEnd]) with [ESeqValEnd; ESeqEnd; ESeqValEnd].
    cbn [app]. rewrite <- !app_assoc. cbn [app]. repeat rewrite <- app_assoc. reflexivity.
  - rewrite lower_all_cons, lower_all_app. cbn [emit_core].
    change (lower overrides_nothing depth (ERecordBegin t l i n)) with [ESeqBegin n].
    change (lower_all overrides_nothing [ERecordEnd t l i]) with [ESeqEnd].
    cbn [app]. f_equal. f_equal.
    revert R; induction H as [|[[ft fl] v] fs Hv Hfs IH]; intros R; [reflexivity|].
    cbn [forallb snd] in *. apply andb_true_iff in R as [R1 R2].
    cbn [flat_map map]. rewrite lower_all_app, (IH R2). f_equal.
    rewrite lower_all_cons, lower_all_app, (Hv R1), low_record_val_begin.
    change (lower_all overrides_nothing [ERecordValEnd ft fl]) with [ESeqValEnd; ESeqEnd; ESeqValEnd].
    cbn [app emit_core pair_of flat_map whole map].
    repeat (rewrite <- ?app_assoc; cbn [app]). reflexivity.
  - rewrite lower_all_cons, lower_all_app. cbn [emit_core].
    change (lower overrides_nothing depth (ETupleBegin t l i n)) with [ESeqBegin n].
    change (lower_all overrides_nothing [ETupleEnd t l i]) with [ESeqEnd].
    cbn [app]. f_equal. f_equal.
    revert R; induction H as [|[[ft fi] v] fs Hv Hfs IH]; intros R; [reflexivity|].
    cbn [forallb snd] in *. apply andb_true_iff in R as [R1 R2].
    cbn [flat_map map]. rewrite lower_all_app, (IH R2). f_equal.
    rewrite lower_all_cons, lower_all_app, (Hv R1). reflexivity.
  - rewrite lower_all_cons, lower_all_app. cbn [emit_core].
    change (lower overrides_nothing depth (ERecTupBegin t l i n)) with [ESeqBegin n].
    change (lower_all overrides_nothing [ERecTupEnd t l i]) with [ESeqEnd].
    cbn [app]. f_equal. f_equal.
    revert R; induction H as [|[[[ft fl] fi] v] fs Hv Hfs IH]; intros R; [reflexivity|].
    cbn [forallb snd] in *. apply andb_true_iff in R as [R1 R2].
    cbn [flat_map map]. rewrite lower_all_app, (IH R2). f_equal.
    rewrite lower_all_cons, lower_all_app, (Hv R1), low_rectup_val_begin, low_record_val_begin.
    change (lower_all overrides_nothing [ERecTupValEnd ft fl fi]) with [ESeqValEnd; ESeqEnd; ESeqValEnd].
    cbn [app emit_core pair_of flat_map whole map].
    repeat (rewrite <- ?app_assoc; cbn [app]). reflexivity.
Qed.
