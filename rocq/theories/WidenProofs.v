(** * WidenProofs: integers reach any implementor exactly (for CoreProps.v) *)

From Verif Require Import Base Event Tree LowerModel LowerSpec FlatProofs LowerProofs DecProofs.

Lemma widen_128 O t z : fits t z = true -> (t = U128 \/ t = I128) ->
  exact_int O z (lower O depth (EInt t z)).
Proof.
  intros Hf Ht. rewrite lower_unfold. destruct (O (EInt t z)).
  { left; exists t; auto. }
  destruct (fits I64 z) eqn:F.
  - assert (D : default_evs (EInt t z) = Some [EInt I64 z]).
    { unfold default_evs. destruct Ht; subst; cbn [default_calls]; rewrite F; reflexivity. }
    rewrite D. left; exists I64. split; [|exact F].
    unfold depth. cbn [flat_map]. rewrite lower_unfold. destruct (O (EInt I64 z)); reflexivity.
  - right. split; [exact F|]. exists (dec_frags z).
    rewrite concat_dec_frags. split; [|split; [apply numeral_val_dec|apply dec_number_text]].
    assert (D : default_evs (EInt t z) = Some (fst (flat (stream_number_calls z) false))).
    { unfold default_evs. destruct Ht; subst; cbn [default_calls]; rewrite F; reflexivity. }
    rewrite D, stream_number_flat. cbn [fst]. unfold depth, dec_frags, number_events.
    assert (T : forall fs, flat_map (lower O 7) (map ETextFragC fs) = map ETextFragC fs).
    { induction fs as [|f fs IH]; [reflexivity|]. cbn [map flat_map].
      rewrite IH, lower_unfold. destruct (O (ETextFragC f)); reflexivity. }
    cbn [flat_map]. rewrite !flat_map_app. cbn [flat_map].
    rewrite !flat_map_app.
    assert (E1 : forall n, lower O 7 (ETextBegin n) = [ETextBegin n])
      by (intros; rewrite lower_unfold; destruct (O _); reflexivity).
    assert (E2 : lower O 7 ETextEnd = [ETextEnd])
      by (rewrite lower_unfold; destruct (O _); reflexivity).
    assert (E3 : lower O 7 (ETaggedBegin (Some NUMBER) None None) =
              if O (ETaggedBegin (Some NUMBER) None None) then [ETaggedBegin (Some NUMBER) None None] else [])
      by (rewrite lower_unfold; destruct (O _); reflexivity).
    assert (E4 : lower O 7 (ETaggedEnd (Some NUMBER) None None) =
              if O (ETaggedEnd (Some NUMBER) None None) then [ETaggedEnd (Some NUMBER) None None] else [])
      by (rewrite lower_unfold; destruct (O _); reflexivity).
    cbn [flat_map]. rewrite T, E1, E2, E3, E4.
    rewrite ?app_nil_r, <- ?app_assoc. cbn [app]. reflexivity.
Qed.

Lemma widen_step O t z : t <> U128 -> t <> I128 -> t <> I64 -> O (EInt t z) = false ->
  lower O depth (EInt t z) = lower O depth (EInt (wider t) z).
Proof.
  intros H1 H2 H3 HO.
  rewrite (lower_fuel _ depth (S depth)) by (pose proof (rank_depth (EInt t z)); lia).
  rewrite lower_unfold, HO.
  assert (D : default_evs (EInt t z) = Some [EInt (wider t) z])
    by (destruct t; try congruence; reflexivity).
  rewrite D. cbn [flat_map]. apply app_nil_r.
Qed.

Lemma fits_wider t z : fits t z = true -> fits (wider t) z = true.
Proof.
  unfold fits. rewrite !andb_true_iff, !Z.leb_le.
  destruct t; cbn [ity_min ity_max wider]; lia.
Qed.

Lemma widen_exact O t z : fits t z = true -> exact_int O z (lower_all O [EInt t z]).
Proof.
  intros Hf. unfold lower_all. cbn [flat_map]. rewrite app_nil_r.
  assert (St : forall t, fits t z = true -> t <> U128 -> t <> I128 -> t <> I64 ->
     exact_int O z (lower O depth (EInt (wider t) z)) -> exact_int O z (lower O depth (EInt t z))).
  { intros t' F' A B C H. destruct (O (EInt t' z)) eqn:HO.
    - left; exists t'. split; [|exact F']. rewrite lower_unfold, HO. reflexivity.
    - rewrite widen_step by assumption. exact H. }
  assert (P128 : forall t, t = U128 \/ t = I128 -> fits t z = true -> exact_int O z (lower O depth (EInt t z)))
    by (intros; apply widen_128; auto).
  assert (P64 : fits I64 z = true -> exact_int O z (lower O depth (EInt I64 z))).
  { intros F. left; exists I64. split; [|exact F]. rewrite lower_unfold. destruct (O _); reflexivity. }
  destruct t; try (apply P128; auto; fail); try (apply P64; exact Hf);
    pose proof (fits_wider _ _ Hf) as F1; cbn [wider] in F1;
    pose proof (fits_wider _ _ F1) as F2; cbn [wider] in F2;
    pose proof (fits_wider _ _ F2) as F3; cbn [wider] in F3;
    pose proof (fits_wider _ _ F3) as F4; cbn [wider] in F4;
    repeat (apply St; [assumption|discriminate|discriminate|discriminate|]; cbn [wider]);
    first [ apply P128; auto; fail | apply P64; assumption ].
Qed.

Lemma widen_i64 O t z : fits t z = true -> no_int O -> fits I64 z = true ->
  lower_all O [EInt t z] = [EInt I64 z].
Proof.
  intros Hf HO F. destruct (widen_exact O t z Hf) as [(t' & E & _) | (F' & _)]; [|congruence].
  rewrite E. destruct (O (EInt t' z)) eqn:E'; [apply HO in E'; subst; reflexivity|].
  pose proof (lower_all_done O [EInt t z]) as D. rewrite E in D.
  inversion D as [|? ? H _]; subst. destruct H as [H|H]; [congruence|].
  destruct t'; try reflexivity; unfold required in H; cbn [default_calls] in H; try discriminate;
    rewrite F in H; discriminate.
Qed.

(** Overriding methods by what the defaults would have done changes nothing. *)
Lemma override_as_default {S} (O : ev -> bool) (step : S -> ev -> res S) :
  (forall s e, O e = true -> step s e = run step s (lower_all overrides_nothing [e])) ->
  forall es s, run step s (lower_all O es) = run step s (lower_all overrides_nothing es).
Proof.
  intros H es s.
  rewrite <- (lower_all_twice O overrides_nothing es) by (unfold overrides_nothing; discriminate).
  pose proof (lower_all_done O es) as D.
  revert s D. generalize (lower_all O es) as l.
  induction l as [|e l IH]; intros s D; [reflexivity|].
  inversion D; subst.
  change (lower_all overrides_nothing (e :: l)) with (lower_all overrides_nothing ([e] ++ l)).
  rewrite lower_all_app, run_app, run_cons.
  assert (E : step s e = run step s (lower_all overrides_nothing [e])).
  { destruct (O e) eqn:Oe; [apply H; assumption|].
    destruct H2 as [?|R]; [congruence|].
    assert (L : lower_all overrides_nothing [e] = [e]).
    { unfold lower_all. cbn [flat_map]. rewrite lower_unfold. cbn [overrides_nothing].
      unfold required in R. unfold default_evs. destruct (default_calls e); [discriminate|]. reflexivity. }
    rewrite L. simpl. destruct (step s e); reflexivity. }
  rewrite <- E. destruct (step s e); cbn [bind]; auto.
Qed.
