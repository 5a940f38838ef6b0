(** * FlattenWrapProofs: flattening with and without overflow checks (C84) *)

From Verif Require Import Base Event Tree LowerModel DataModel FlattenModel FlattenSpec FlattenProofs FlattenWrapModel FlattenWrapSpec.

Lemma wrap_fits z : fits isize z = true -> wrap_isize z = z.
Proof.
  unfold fits, isize, wrap_isize. intros H. apply andb_prop in H as [H1 H2]. apply Z.leb_le in H1, H2.
  change (ity_min I64) with (- 2 ^ 63)%Z in H1. change (ity_max I64) with (2 ^ 63 - 1)%Z in H2.
  rewrite Z.mod_small; [lia|]. change (2 ^ 64)%Z with (2 ^ 63 + 2 ^ 63)%Z. lia.
Qed.

Section Same.
  Variable W : Type.
  Variable out : W -> ev -> res W.
  Variable r64 : float -> bytes.
  Variable kind : fkind.
  Variable top : nat.
  Notation st := (fst_t W).
  Notation step := (f_step out r64 kind).
  Notation step_w := (f_step_w W out r64 kind top).

  Lemma next_begin_same g i j : next_begin W g i = Some j -> next_begin_w W g i = j.
  Proof.
    unfold next_begin, next_begin_w. destruct i as [i|]; [|congruence]. destruct (otag_is _ _); [|congruence].
    destruct (index_to isize i); [|congruence]. destruct (fits isize _) eqn:F; [|discriminate]. rewrite wrap_fits by exact F. congruence.
  Qed.
  Lemma open_same t l i g : open_field W out r64 kind t l i g <> Panic -> open_field_w W out r64 kind t l i g = open_field W out r64 kind t l i g.
  Proof.
    unfold open_field, open_field_w. destruct (next_begin W g i) as [j|] eqn:E; [|congruence]. rewrite (next_begin_same _ _ _ E). reflexivity.
  Qed.
  Lemma close_same t l i g : close_field W out r64 kind t l i g <> Panic -> close_field_w W out r64 kind t l i g = close_field W out r64 kind t l i g.
  Proof.
    unfold close_field, close_field_w, next_end, next_end_w. destruct (next_begin W g i) as [j|] eqn:E; [|congruence]. rewrite (next_begin_same _ _ _ E).
    destruct (fits isize _) eqn:F; [|congruence]. rewrite wrap_fits by exact F. reflexivity.
  Qed.
  Lemma end_same b f f' p g : (f g <> Panic -> f' g = f g) -> flattenable_end W b f p g <> Panic -> flattenable_end_w W top b f' p g = flattenable_end W b f p g.
  Proof.
    unfold flattenable_end, flattenable_end_w. intros S H.
    assert (E : (if f_inkey W g then b g else if Nat.eqb (f_depth W g) 1 then f' g else p g) = (if f_inkey W g then b g else if Nat.eqb (f_depth W g) 1 then f g else p g)).
    { destruct (f_inkey W g); [reflexivity|]. destruct (Nat.eqb _ _); [|reflexivity]. apply S. intros Q. apply H. rewrite Q. reflexivity. }
    rewrite E. destruct (if f_inkey W g then _ else _) as [g1|g1|]; try reflexivity. cbn [bind] in *. destruct (f_depth W g1); [congruence|reflexivity].
  Qed.
  Lemma value_same b f f' p g : (f g <> Panic -> f' g = f g) -> flattenable_value W b f p g <> Panic -> flattenable_value W b f' p g = flattenable_value W b f p g.
  Proof. unfold flattenable_value. destruct (Nat.eqb _ _); [auto|reflexivity]. Qed.
  Lemma step_same g e : step g e <> Panic -> step_w g e = step g e.
  Proof.
    destruct e; cbn [f_step f_step_w]; intros H; try reflexivity;
      try (apply value_same; [|exact H]; intros N; first [apply open_same, N | apply close_same, N | idtac]);
      try (apply end_same; [|exact H]; reflexivity).
    - destruct (f_enum W g); [|reflexivity]. unfold flattenable_begin in *.
      destruct (f_inkey W _); [reflexivity|]. destruct (Nat.eqb _ _); [|reflexivity]. apply open_same, H.
    - destruct (f_enum W g); [|reflexivity]. apply end_same; [|exact H]. apply close_same.
  Qed.
  Lemma run_same es : forall g, run step g es <> Panic -> run step_w g es = run step g es.
  Proof.
    induction es as [|e es IH]; intros g; [reflexivity|]. rewrite !run_cons. intros H. rewrite step_same.
    - destruct (step g e); cbn [bind] in *; try reflexivity. apply IH, H.
    - intros Q. apply H. rewrite Q. reflexivity.
  Qed.
End Same.

Section Calm.
  Variable W : Type.
  Variable out : W -> ev -> res W.
  Hypothesis calm : forall w e, out w e <> Panic.
  Lemma calm_run es : forall w, run out w es <> Panic.
  Proof.
    induction es as [|e es IH]; intros w; [discriminate|]. rewrite run_cons. pose proof (calm w e). destruct (out w e); cbn [bind]; [apply IH|discriminate|congruence].
  Qed.
End Calm.
