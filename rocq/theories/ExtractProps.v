(** * ExtractProps: the conversions of [trait Value] (C06-C09) *)

From Verif Require Import Base Event Tree LowerModel ExtractModel ExtractSpec ExtractProofs CoreProps.

(** ** C06 *)

Lemma try_into_some t o z : try_into t o = Some z -> o = Some z /\ fits t z = true.
Proof.
  destruct o as [x|]; cbn [try_into]; [|discriminate].
  destruct (fits t x) eqn:F; [|discriminate]. intros [= <-]. auto.
Qed.

Lemma only_content_in {A} (sel : ev -> option A) es : forall acc a,
  only_content sel acc es = Some a ->
  (acc = Some a \/ exists e, In e es /\ sel e = Some a) /\
  Forall (fun e => silent e = true \/ sel e <> None) es.
Proof.
  induction es as [|e es IH]; intros acc a H; cbn [only_content] in H.
  - split; [auto|constructor].
  - destruct (sel e) eqn:E.
    + apply IH in H as [[H|[x [H1 H2]]] F]; (split; [right|constructor; [right; congruence|exact F]]).
      * exists e. split; [left; reflexivity|congruence].
      * exists x. split; [right|]; assumption.
    + destruct (silent e) eqn:Se; [|discriminate].
      apply IH in H as [[H|[x [H1 H2]]] F]; (split; [|constructor; [left; exact Se|exact F]]).
      * left; exact H.
      * right; exists x. split; [right|]; assumption.
Qed.

(** Is the call an integer call? *)
Definition is_int (e : ev) : bool := match e with EInt _ _ => true | _ => false end.

(** Whatever a value does: a conversion that returns [n] was given [n] by an
    integer call, saw nothing but integer calls and wrappers, and the value did
    not fail. *)
Theorem C06_int_extraction_sound_for_any_behaviour :
  forall ty v n, to_int ty v = Some n ->
    snd (flat v false) = true /\
    (exists ty', In (EInt ty' n) (fst (flat v false))) /\
    Forall (fun e => silent e = true \/ is_int e = true) (fst (flat v false)) /\
    (Forall (fun e => match e with EInt t z => fits t z = true | _ => True end) (fst (flat v false)) ->
     fits ty n = true).
Proof.
  intros ty v n H.
  assert (Hs : forall u : bool, (if u then to_u128 v else to_i128 v) = Some n ->
     snd (flat v false) = true /\
     (exists ty', In (EInt ty' n) (fst (flat v false)) /\ (if u then unsigned ty' = true else ty' = I128)) /\
     Forall (fun e => silent e = true \/ is_int e = true) (fst (flat v false))).
  { intros u E.
    assert (E' : (if snd (flat v false) then only_content (if u then sel_unsigned else sel_signed) None (fst (flat v false)) else None) = Some n)
      by (rewrite <- E; symmetry; destruct u; [apply to_u128_spec|apply to_i128_spec]).
    clear E; rename E' into E.
    destruct (snd (flat v false)); [|discriminate]. split; [reflexivity|].
    destruct u; apply only_content_in in E as [[E|[e [I S]]] F]; try discriminate; split.
    - destruct e as [| | | | | | | | | |[] z| | | | | | | | | | | | | | | | | | | | | | | | | | | | | |]; try discriminate;
      cbn in S; injection S as <-; eexists; split; eauto.
    - eapply Forall_impl; [|exact F]. intros e' [?|S']; [auto|].
      right. destruct e'; try reflexivity; cbn in S'; congruence.
    - destruct e as [| | | | | | | | | |[] z| | | | | | | | | | | | | | | | | | | | | | | | | | | | | |]; try discriminate.
      cbn in S. injection S as <-. eexists; split; eauto.
    - eapply Forall_impl; [|exact F]. intros e' [?|S']; [auto|].
      right. destruct e'; try reflexivity; cbn in S'; congruence. }
  assert (R : forall u : bool, (if u then to_u128 v else to_i128 v) = Some n ->
     (Forall (fun e => match e with EInt t z => fits t z = true | _ => True end) (fst (flat v false)) ->
      fits ty n = true) ->
     snd (flat v false) = true /\ (exists ty', In (EInt ty' n) (fst (flat v false))) /\
     Forall (fun e => silent e = true \/ is_int e = true) (fst (flat v false)) /\
     (Forall (fun e => match e with EInt t z => fits t z = true | _ => True end) (fst (flat v false)) ->
      fits ty n = true)).
  { intros u E Hfit. destruct (Hs u E) as (A & (ty' & B & _) & C).
    split; [exact A|]. split; [exists ty'; exact B|]. split; [exact C|exact Hfit]. }
  destruct ty; cbn [to_int] in H.
  1-4: apply try_into_some in H as [H Ff]; apply (R true); auto.
  2-5: apply try_into_some in H as [H Ff]; apply (R false); auto.
  - apply (R true); auto. intros FA.
    destruct (Hs true H) as (_ & (ty' & I & U) & _).
    rewrite Forall_forall in FA. specialize (FA _ I). cbn in FA. cbn in U.
    unfold fits in *. apply andb_true_iff in FA as [A B]. apply Z.leb_le in A, B.
    apply andb_true_iff; split; apply Z.leb_le; destruct ty'; try discriminate; cbn [ity_min ity_max] in *; lia.
  - apply (R false); auto. intros FA.
    destruct (Hs false H) as (_ & (ty' & I & U) & _).
    rewrite Forall_forall in FA. specialize (FA _ I). cbn in FA. cbn in U. subst ty'. exact FA.
Qed.

(** The integer a well-formed value holds, when the conversion to [ty] sees it. *)
Definition visible_int (ty : ity) (t : tree) : option Z :=
  match int_of t with
  | Some (src, z) =>
      if (if unsigned ty then unsigned src else match src with I128 => true | _ => false end)
      then if fits ty z then Some z else None
      else None
  | None => None
  end.

(** For well-formed values the result is exactly the integer inside the
    wrappers; conversions to unsigned types see every unsigned width,
    conversions to signed types see [i128]. *)
Theorem C06_int_extraction_exact_on_trees :
  forall ty v t, streams v t -> ranged t = true -> to_int ty v = visible_int ty t.
Proof.
  intros ty v t H Rg.
  assert (Fi : forall src z, int_of t = Some (src, z) -> fits src z = true).
  { unfold int_of. clear H. induction t using tree_ind'; cbn [peel ranged] in *; try discriminate; auto.
    intros ? ? [= <- <-]. exact Rg. }
  assert (U : to_u128 v = match int_of t with Some (ty, z) => if unsigned ty then Some z else None | _ => None end)
    by (rewrite <- u128_tree; etransitivity; [apply to_u128_spec|]; rewrite !H; reflexivity).
  assert (I : to_i128 v = match int_of t with Some (I128, z) => Some z | _ => None end)
    by (rewrite <- i128_tree; etransitivity; [apply to_i128_spec|]; rewrite !H; reflexivity).
  unfold visible_int. destruct ty; cbn [to_int unsigned]; rewrite ?U, ?I;
    destruct (int_of t) as [[src z]|] eqn:E; try reflexivity; try (destruct src; reflexivity).
  - destruct (unsigned src) eqn:Us; [|reflexivity].
    specialize (Fi src z eq_refl). assert (F : fits U128 z = true).
    { unfold fits in *. apply andb_true_iff in Fi as [A B]. apply Z.leb_le in A, B.
      apply andb_true_iff; split; apply Z.leb_le; destruct src; try discriminate; cbn [ity_min ity_max] in *; lia. }
    rewrite F. reflexivity.
  - destruct src; try reflexivity. rewrite (Fi _ _ eq_refl). reflexivity.
Qed.

Example C06_sample :
  to_int U8 [CE (ETaggedBegin (Some NUMBER) None None); CV [CE (EInt U64 200)]; CE (ETaggedEnd (Some NUMBER) None None)] = Some 200%Z /\
  to_int U8 [CE (EInt U64 256)] = None /\ to_int I8 [CE (EInt I128 (-128))] = Some (-128)%Z.
Proof. repeat split; vm_compute; reflexivity. Qed.

(** ** C07: the full property is false *)

(** The full statement. *)
Definition C07_complete_across_widths : Prop :=
  forall src tgt z, fits src z = true -> fits tgt z = true -> prim_to_int tgt src z = Some z.

(** [42i32.to_i64()] is [None]. *)
Theorem C07_complete_across_widths_refuted : ~ C07_complete_across_widths.
Proof.
  intros H. specialize (H I32 I64 42%Z eq_refl eq_refl). vm_compute in H. discriminate.
Qed.

(** Exactly when it holds: same type, both unsigned, or an [i128] to a signed type. *)
Definition convertible (src tgt : ity) : bool :=
  match src, tgt with
  | U8, U8 | U16, U16 | U32, U32 | U64, U64 | U128, U128
  | I8, I8 | I16, I16 | I32, I32 | I64, I64 | I128, I128 => true
  | _, _ => (unsigned src && unsigned tgt) ||
            (match src with I128 => true | _ => false end && negb (unsigned tgt))
  end.

Theorem C07_complete_across_widths_partial :
  forall src tgt z, fits src z = true ->
    prim_to_int tgt src z =
      if convertible src tgt then (if fits tgt z then Some z else None) else None.
Proof.
  intros src tgt z F.
  assert (G : to_int tgt [CE (EInt src z)] = visible_int tgt (TInt src z))
    by (apply C06_int_extraction_exact_on_trees; [reflexivity|exact F]).
  unfold visible_int, int_of in G. cbn [peel] in G.
  destruct src, tgt; cbn [prim_to_int convertible unsigned andb orb negb] in *;
    rewrite ?F; try reflexivity; exact G.
Qed.

(** ** C08 *)

(** Whatever a value does, [to_text] returns the text exactly when the value does
    not fail and all it streams is one borrowed piece of text. *)
Theorem C08_to_text_any_behaviour :
  forall v, to_text v = if snd (flat v false) then single (pieces text_pieces (fst (flat v false))) else None.
Proof. exact to_text_spec. Qed.
Theorem C08_to_binary_any_behaviour :
  forall v, to_binary v = if snd (flat v false) then single (pieces bin_pieces (fst (flat v false))) else None.
Proof. exact to_binary_spec. Qed.

Theorem C08_to_text_exact_on_trees : forall v t, streams v t -> to_text v = text_of t.
Proof. intros v t H. rewrite to_text_spec, !H. apply text_tree. Qed.
Theorem C08_to_binary_exact_on_trees : forall v t, streams v t -> to_binary v = bin_of t.
Proof. intros v t H. rewrite to_binary_spec, !H. apply bin_tree. Qed.

Example C08_sample :
  to_text [CE (ETextBegin None); CE (ETextFrag (bs "ab")); CE ETextEnd] = Some (bs "ab") /\
  to_text [CE (ETextBegin None); CE (ETextFrag (bs "a")); CE (ETextFrag (bs "b")); CE ETextEnd] = None /\
  to_text [CVC [CE (ETextBegin None); CE (ETextFrag (bs "ab")); CE ETextEnd]] = None /\
  to_text [CE (ETag None (Some (label_new (bs "A"))) None)] = Some (bs "A") /\
  to_binary [CE (EBinBegin None); CE (EBinFrag (bs "ab")); CE EBinEnd] = Some (bs "ab") /\
  to_binary [CE (ETextBegin None); CE (ETextFrag (bs "ab")); CE ETextEnd] = None.
Proof. repeat split; vm_compute; reflexivity. Qed.

(** ** C09 *)

Theorem C09_to_bool_any_behaviour :
  forall v, to_bool v = if snd (flat v false) then only_content sel_bool None (fst (flat v false)) else None.
Proof. exact to_bool_spec. Qed.
Theorem C09_to_f32_any_behaviour :
  forall v, to_f32 v = if snd (flat v false) then only_content sel_f32 None (fst (flat v false)) else None.
Proof. exact to_f32_spec. Qed.
Theorem C09_to_f64_any_behaviour :
  forall v, to_f64 v = if snd (flat v false) then only_content sel_f64 None (fst (flat v false)) else None.
Proof. exact to_f64_spec. Qed.
Theorem C09_tag_any_behaviour : forall v, value_tag v = first_tag (fst (flat v false)).
Proof. exact value_tag_spec. Qed.

Theorem C09_to_bool_exact_on_trees : forall v t, streams v t -> to_bool v = bool_of t.
Proof. intros v t H. rewrite to_bool_spec, !H. apply bool_tree. Qed.
Theorem C09_to_f32_exact_on_trees : forall v t, streams v t -> to_f32 v = f32_of t.
Proof. intros v t H. rewrite to_f32_spec, !H. apply f32_tree. Qed.
Theorem C09_to_f64_exact_on_trees : forall v t, streams v t -> to_f64 v = f64_of t.
Proof. intros v t H. rewrite to_f64_spec, !H. apply f64_tree. Qed.
Theorem C09_tag_exact_on_trees : forall v t, streams v t -> value_tag v = tag_of t.
Proof. intros v t H. rewrite value_tag_spec, !H. apply tag_tree. Qed.

Example C09_sample :
  to_bool [CE (ETagHint NUMBER); CE (EBool true)] = Some true /\
  to_bool [CE (EBool true); CFail] = None /\
  to_f64 [CE (EF32 (S754_finite false 1 0))] = Some (S754_finite false 4503599627370496 (-52)) /\
  to_f32 [CE (EF64 (S754_finite false 1 0))] = None /\
  value_tag sample_value = Some NUMBER /\
  value_tag [CE (ETaggedBegin (Some RUST_UNIT) None None); CFail] = Some RUST_UNIT.
Proof. repeat split; vm_compute; reflexivity. Qed.

Print Assumptions C06_int_extraction_sound_for_any_behaviour.
Print Assumptions C06_int_extraction_exact_on_trees.
Print Assumptions C07_complete_across_widths_refuted.
Print Assumptions C07_complete_across_widths_partial.
Print Assumptions C08_to_text_any_behaviour.
Print Assumptions C08_to_binary_any_behaviour.
Print Assumptions C08_to_text_exact_on_trees.
Print Assumptions C08_to_binary_exact_on_trees.
Print Assumptions C09_to_bool_any_behaviour.
Print Assumptions C09_to_f32_any_behaviour.
Print Assumptions C09_to_f64_any_behaviour.
Print Assumptions C09_tag_any_behaviour.
Print Assumptions C09_to_bool_exact_on_trees.
Print Assumptions C09_to_f32_exact_on_trees.
Print Assumptions C09_to_f64_exact_on_trees.
Print Assumptions C09_tag_exact_on_trees.
