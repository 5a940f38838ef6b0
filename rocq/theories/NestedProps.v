(** * NestedProps: C35 and C36, the recursive form of [Stream] *)

From Verif Require Import Base Event Tree LowerModel DataModel FragModel BufferModel BufferSpec NestedModel NestedSpec NestedProofs NestedWhole.

(** ** The methods that keep their default bodies

    [NestedModel.fs_step] agrees with the expansion of the default methods of
    [sval::Stream] ([LowerModel.lower]) for a stream that overrides everything
    but the hint and the record-tuple methods. *)
Definition nested_overrides (e : ev) : bool :=
  match e with
  | ETagHint _ | ERecTupBegin _ _ _ _ | ERecTupValBegin _ _ _ | ERecTupValEnd _ _ _ | ERecTupEnd _ _ _ => false
  | _ => true
  end.
Theorem C35_default_methods : forall S (f : fstream S) e,
  run fs_own f (lower nested_overrides depth e) = fs_step f e.
Proof.
  intros S f e. assert (O : forall x : res (fstream S), (x >>= Ok) = x) by (intros [| |]; reflexivity).
  destruct e; cbn [lower depth nested_overrides required orb default_calls flat flat_map fst snd app flat1 run fs_step];
    try reflexivity; apply O.
Qed.

(** ** One level

    Whatever the user's stream [S] does, streaming a value into it is a fixed
    sequence of calls on [S] that mirrors the outermost level of the value:
    same kind, same children in the same order, same labels, tags, indexes and
    primitive values; and every child handed over is again a value that
    mirrors the child. *)
Theorem C35_one_level_partial : forall S v t,
  whole v -> streams v t -> handled1 (mirror t) = true ->
  answer S (mirror t) (nested_stream S v) /\ answer S (mirror t) (nested_stream_computed S v).
Proof.
  intros S v t W F H. destruct (whole_atree v t W F) as (a & -> & _ & <-). rewrite stree_mirror in *.
  split; apply nested_answers, H.
Qed.

(** The children that arrived can be streamed the same way, at any depth. *)
Theorem C35_children_partial : forall S a r,
  child a r -> handled1 r = true ->
  answer S r (nested_stream S (snd a)) /\ answer S r (nested_stream_computed S (snd a)).
Proof. intros S [m cs] r (a & E & M) H. cbn [snd] in *. subst. split; apply nested_answers, H. Qed.

(** ** The whole tree

    The full claim: a stream that records what it is told and recurses into its
    children rebuilds every well-formed value. *)
Definition C35_mirrors : Prop := forall v t,
  whole v -> streams v t -> exists n, forall m, n <= m -> read m (true, v) = OOk (mirror t).

(** It holds for every value without a tuple or a record inside an enum inside
    an enum, and whose enums contain tags, tagged values, tuples, records or
    enums, as those made by derived and standard types do. *)
Theorem C35_mirrors_partial : forall v t,
  whole v -> streams v t -> handled (mirror t) = true ->
  forall m, levels (mirror t) <= m -> read m (true, v) = OOk (mirror t) /\ read m (false, v) = OOk (mirror t).
Proof.
  intros v t W F H m L. destruct (whole_atree v t W F) as (a & -> & _ & <-). rewrite stree_mirror in *.
  split; apply read_all; assumption.
Qed.

Definition deep_enum : tree :=
  TEnum None (Some (label_new (bs "A"))) None
    (TEnum None (Some (label_new (bs "B"))) None
       (TRecord None (Some (label_new (bs "C"))) None (Some 0%N) [])).

Lemma whole_events es : whole (map CE es).
Proof. unfold whole. induction es; cbn; constructor; auto. constructor. Qed.
Lemma streams_events t : streams (map CE (emit t)) t.
Proof.
  unfold streams. rewrite flat_events. f_equal. generalize (emit t). induction l; cbn; [reflexivity|f_equal; assumption].
Qed.

Theorem C35_mirrors_refuted : ~ C35_mirrors.
Proof.
  intros H. destruct (H _ _ (whole_events (emit deep_enum)) (streams_events deep_enum)) as (n & E).
  specialize (E (S n) (le_S _ _ (le_n n))). vm_compute in E. discriminate E.
Qed.

Definition rich : tree :=
  TRecord None (Some (label_new (bs "R"))) None (Some 3%N)
    [(None, label_new (bs "a"), THint NUMBER (TText None [(true, bs "1"); (false, bs "2")]));
     (None, label_new_computed (bs "b"),
        TMap (Some 1%N) [(TSeq None [TInt U8 1; TNull],
                          TTagged (Some RUST_OPTION_SOME) None None (TBool true))]);
     (Some NUMBER, label_new (bs "c"),
        TEnum None (Some (label_new (bs "E"))) None
          (TRecTup None (Some (label_new (bs "V"))) (Some (index_new 3)) (Some 1%N)
             [(None, label_new (bs "x"), index_new 0,
               TEnum None None None (TEnum None None None (TTag None None None)))]))].
Example C35_applies :
  handled (mirror rich) = true /\ levels (mirror rich) = 6 /\
  read 6 (true, map CE (emit rich)) = OOk (mirror rich).
Proof.
  split; [reflexivity|]. split; [reflexivity|].
  apply (C35_mirrors_partial _ rich (whole_events _) (streams_events _)); [reflexivity|apply le_n].
Qed.
Definition recursing : list call :=
  [CV (CE (ESeqBegin (Some 2%N)) :: CE ESeqValBegin :: [CV (str_calls (bs "x"))] ++ CE ESeqValEnd ::
       CE ESeqValBegin :: [CVC (str_calls (bs "y"))] ++ [CE ESeqValEnd; CE ESeqEnd])].
Definition recursing_tree : tree :=
  TSeq (Some 2%N) [TText (Some 1%N) [(true, bs "x")]; TText (Some 1%N) [(false, bs "y")]].
Example C35_applies_to_recursing_values :
  whole recursing /\ streams recursing recursing_tree /\
  read 2 (true, recursing) = OOk (RSeq (Some 2%N) [RText (bs "x"); RText (bs "y")]).
Proof.
  assert (F : forall cs t, streams cs t -> whole cs -> whole_call (CV cs)) by (intros; econstructor; eauto).
  assert (W : whole recursing).
  { unfold whole, recursing. constructor; [|constructor]. eapply whole_value with (t := recursing_tree); [|reflexivity].
    repeat constructor; [eapply whole_value with (t := TText (Some 1%N) [(true, bs "x")])|eapply whole_computed with (t := TText (Some 1%N) [(true, bs "y")])];
      try reflexivity; repeat constructor. }
  split; [exact W|]. split; [reflexivity|].
  apply (C35_mirrors_partial _ recursing_tree W eq_refl); [reflexivity|apply le_n].
Qed.

(** ** The values handed over as children

    A child that made its calls directly, rather than through [value], is
    handed over from a buffer.  The full claim that such a child follows the
    protocol of [sval::Stream] fails: a buffered sequence has lost the
    [seq_value_begin] and [seq_value_end] calls around its elements. *)
Definition first_child : nstream :=
  {| n_ok := list call; n_seq := list call; n_map := list call; n_tuple := list call; n_record := list call;
     n_enum := list call; n_vtuple := list call; n_vrecord := list call;
     n_null := OErr; n_bool _ := OErr; n_int _ _ := OErr; n_f32 _ := OErr; n_f64 _ := OErr;
     n_text _ _ := OErr; n_bin _ _ := OErr; n_tag _ _ _ := OErr;
     n_tagged _ _ _ a := OOk (snd a);
     n_seq_begin _ := OOk []; n_map_begin _ := OOk []; n_tuple_begin _ _ _ _ := OOk []; n_record_begin _ _ _ _ := OOk [];
     n_enum_begin _ _ _ := OOk [];
     seq_value _ a := OOk (snd a); seq_end s := OOk s;
     map_key _ a := OOk (snd a); map_value s _ := OOk s; map_end s := OOk s;
     tuple_value _ _ _ a := OOk (snd a); tuple_end s := OOk s;
     record_value _ _ _ a := OOk (snd a); record_end s := OOk s;
     enum_tag s _ _ _ := OOk s; enum_tagged _ _ _ _ a := OOk (snd a);
     enum_tuple_begin s _ _ _ _ := OOk s; enum_record_begin s _ _ _ _ := OOk s;
     enum_nested e _ _ _ k := k e; enum_empty s := OOk s;
     vtuple_value _ _ _ a := OOk (snd a); vtuple_end s := OOk s;
     vrecord_value _ _ _ a := OOk (snd a); vrecord_end s := OOk s |}.
Definition C35_children_follow_the_protocol : Prop := forall v t cs,
  whole v -> streams v t -> handled (mirror t) = true -> nested_stream first_child v = OOk cs -> cs <> [] ->
  exists t', streams cs t'.
Theorem C35_children_follow_the_protocol_refuted : ~ C35_children_follow_the_protocol.
Proof.
  intros H. set (t := TSeq (Some 1%N) [TSeq (Some 1%N) [TNull]]).
  destruct (H (map CE (emit t)) t [CE (ESeqBegin (Some 1%N)); CE ENull; CE ESeqEnd]
              (whole_events _) (streams_events _) eq_refl eq_refl) as (t' & E); [discriminate|].
  unfold streams in E. cbn in E. injection E as E. destruct t'; try discriminate E.
  destruct vs; discriminate E.
Qed.

(** ** No panic *)
Definition C36_no_panic : Prop := forall S v t,
  never_panics S -> whole v -> streams v t -> nested_stream S v <> OPanic.

Lemma settled_value S comp v o : ends (fs_calls (S := S) v comp fs_new) o -> nested_value (S := S) comp v = o.
Proof. apply ends_settled. Qed.

Theorem C36_no_panic_partial : forall S v t,
  never_panics S -> whole v -> streams v t -> too_deep (mirror t) = false ->
  nested_stream S v <> OPanic /\ nested_stream_computed S v <> OPanic.
Proof.
  intros S v t NP W F H. destruct (whole_atree v t W F) as (a & -> & _ & <-). rewrite stree_mirror in H.
  assert (X : forall comp, nested_value (S := S) comp (acalls a) <> OPanic); [|split; apply X].
  intros comp. destruct (handled1 (mirror (tree_of a))) eqn:E.
  - apply (answer_np _ NP _ (nested_answers S comp a E)).
  - destruct (any_refuses (S := S) a comp E H) as (t' & l & i & D). rewrite (settled_value _ _ _ _ D).
    apply obind_np; [apply (np_enum_begin _ NP)|discriminate].
Qed.

(** The values excluded do panic, as soon as the stream accepts enums. *)
Theorem C36_deep_enums_panic : forall S v t,
  whole v -> streams v t -> too_deep (mirror t) = true ->
  (forall t l i, exists e, n_enum_begin S t l i = OOk e) ->
  nested_stream S v = OPanic.
Proof.
  intros S v t W F H HE. destruct (whole_atree v t W F) as (a & -> & _ & <-). rewrite stree_mirror in H.
  destruct (any_deep (S := S) a false H) as (t' & l & i & D). unfold nested_stream. rewrite (settled_value _ _ _ _ D).
  destruct (HE t' l i) as (e & ->). reflexivity.
Qed.
(** A value whose enum contains anything else is refused with an error. *)
Theorem C36_other_enums_fail : forall S v t,
  never_panics S -> whole v -> streams v t -> handled1 (mirror t) = false -> too_deep (mirror t) = false ->
  nested_stream S v = OErr.
Proof.
  intros S v t NP W F H HD. destruct (whole_atree v t W F) as (a & -> & _ & <-). rewrite stree_mirror in H, HD.
  destruct (any_refuses (S := S) a false H HD) as (t' & l & i & D). unfold nested_stream. rewrite (settled_value _ _ _ _ D).
  pose proof (np_enum_begin _ NP t' l i). destruct (n_enum_begin S t' l i); [reflexivity|reflexivity|congruence].
Qed.

Lemma first_child_np : never_panics first_child.
Proof. constructor; try (intros; discriminate). intros e t l i k H. apply H. Qed.
Theorem C36_no_panic_refuted : ~ C36_no_panic.
Proof.
  intros H. apply (H first_child (map CE (emit deep_enum)) deep_enum first_child_np (whole_events _) (streams_events _)).
  reflexivity.
Qed.
Example C36_applies :
  too_deep (mirror rich) = false /\ nested_stream first_child (map CE (emit rich)) <> OPanic.
Proof.
  split; [reflexivity|]. apply (C36_no_panic_partial _ _ rich first_child_np (whole_events _) (streams_events _) eq_refl).
Qed.
Example C36_deep_enum_applies : nested_stream first_child (map CE (emit deep_enum)) = OPanic.
Proof.
  apply (C36_deep_enums_panic _ _ deep_enum (whole_events _) (streams_events _) eq_refl). intros; eexists; reflexivity.
Qed.
Example C36_other_enum_applies :
  nested_stream first_child (map CE (emit (TEnum None None None (TBool true)))) = OErr.
Proof. apply (C36_other_enums_fail _ _ (TEnum None None None (TBool true)) first_child_np (whole_events _) (streams_events _)); reflexivity. Qed.

(** Outside the protocol: an enum that ends without a variant never returns,
    whatever the stream, although [StreamEnum::empty] exists for that case. *)
Theorem C36_empty_enum_panics : forall S t l i t' l' i',
  (forall t l i, exists e, n_enum_begin S t l i = OOk e) ->
  nested_stream S [CE (EEnumBegin t l i); CE (EEnumEnd t' l' i')] = OPanic.
Proof.
  intros S t l i t' l' i' H. unfold nested_stream, nested_value. cbn [fs_calls fs_call fs_step fs_own buffer_or_begin f_buf f_state fs_new].
  destruct (H t (cloned l) i) as (e & ->). reflexivity.
Qed.

(** ** A failure after the value is complete is not reported *)
Definition C36_failures_reported : Prop := forall S v,
  snd (flat v false) = false -> forall x, nested_stream S v <> OOk x.
Theorem C36_failures_reported_refuted : ~ C36_failures_reported.
Proof. intros H. apply (H (reader (read 0)) [CE ENull; CFail] eq_refl RNull). reflexivity. Qed.
Theorem C36_failure_after_completion_lost : forall S v t x,
  whole v -> streams v t -> handled1 (mirror t) = true ->
  nested_stream S v = OOk x -> nested_stream S (v ++ [CFail]) = OOk x.
Proof.
  intros S v t x W F H E. destruct (whole_atree v t W F) as (a & -> & _ & <-). rewrite stree_mirror in H.
  destruct (any_answers (S := S) a false H) as (o & A & D). unfold nested_stream in *.
  rewrite (settled_value _ _ _ _ D) in E. subst o. apply (any_fail_after a false x D).
Qed.

Print Assumptions C35_default_methods.
Print Assumptions C35_one_level_partial.
Print Assumptions C35_children_partial.
Print Assumptions C35_mirrors_partial.
Print Assumptions C35_mirrors_refuted.
Print Assumptions C35_children_follow_the_protocol_refuted.
Print Assumptions C36_no_panic_partial.
Print Assumptions C36_deep_enums_panic.
Print Assumptions C36_other_enums_fail.
Print Assumptions C36_no_panic_refuted.
Print Assumptions C36_empty_enum_panics.
Print Assumptions C36_failures_reported_refuted.
Print Assumptions C36_failure_after_completion_lost.
