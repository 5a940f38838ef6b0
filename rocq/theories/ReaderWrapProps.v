(** * ReaderWrapProps: the JSON reader in builds without overflow checks (C83) *)

From Verif Require Import Base Event Tree Utf8 LowerSpec JsonModel JsonGrammar JsonParse StackModel StackProps StackExactProps
  ReaderModel ReaderSpec ReaderProofs ReaderNestProofs ReaderProps ReaderFateSpec ReaderFateProofs ReaderFateProps BufferHistProofs
  ReaderWrapModel ReaderWrapSpec ReaderWrapProofs.

(** ** The full statement: overflow checks or not, a text reads the same *)
Definition C83_same_in_release : Prop := forall s, from_slice_w s = from_slice s.
(** [103] containers, the sequence counter at [u64::MAX], and [{}] inside. *)
Theorem C83_same_in_release_refuted : ~ C83_same_in_release.
Proof. intros H. specialize (H (deepest (bs "{}"))). apply (f_equal snd) in H. vm_compute in H. discriminate H. Qed.

(** ** What holds: nothing changes for texts on which the counters do not overflow *)
Theorem C83_same_in_release_partial : forall s, meets_overflow s = false -> from_slice_w s = from_slice s.
Proof.
  intros s O. unfold from_slice_w, from_slice. rewrite (all_free _ s reader_new [] eq_refl ltac:(split; reflexivity) O). reflexivity.
Qed.
(** That is every text whose brackets nest at most 63 deep, JSON or not. *)
Theorem C83_shallow_texts : forall s, nests_within 63 LOut 0 s = true -> from_slice_w s = from_slice s.
Proof. intros s H. apply C83_same_in_release_partial. exact (shallow_free s LOut [] H). Qed.
(** And every text that a build with the checks reads or refuses without a panic. *)
Theorem C83_no_panic_no_difference : forall s es o, from_slice s = (es, o) -> o <> MPanic -> from_slice_w s = (es, o).
Proof.
  intros s es o H N. destruct (C55_reading_ends s) as (es' & o' & R & H'). rewrite H in H'. injection H' as <- <-.
  unfold from_slice_w. rewrite (all_same _ _ _ _ _ R N). reflexivity.
Qed.
Example C83_cases : meets_overflow sample = false /\ nests_within 63 LOut 0 sample = true /\
  meets_overflow (deepest (bs "1")) = false /\ nests_within 63 LOut 0 (deepest (bs "1")) = false /\
  meets_overflow (deepest (bs "{}")) = true /\ meets_overflow (deepest (bs "[1]")) = false /\
  meets_overflow (bs "[{}]]") = false /\ nests_within 2 LOut 0 (bs "[{""[[[["":[1]}]") = false /\ nests_within 3 LOut 0 (bs "[{""[[[["":[1]}]") = true.
Proof. vm_compute. repeat split. Qed.

(** ** What can happen otherwise *)

(** Exactly what the counters accept: no call panics, and a container of the
    kind whose counterpart is at [u64::MAX] goes unnoticed. *)
Theorem C83_stack_exact : forall os,
  match unchecked_run [] os with
  | Some ks => exists s, stack_run_w stack_new os = Ok s /\ position s = innermost ks /\ (finish s = true <-> ks = [])
  | None => exists s, stack_run_w stack_new os = Err s
  end.
Proof.
  intros os. pose proof (run_w_exact os stack_new [] eq_refl ltac:(split; reflexivity)) as X. destruct (unchecked_run [] os) as [ks|]; [|exact X].
  destruct X as (s & E & R). exists s. split; [exact E|]. unfold represents in R. pose proof (counters_order ks) as O. rewrite R in O.
  unfold position, finish. destruct ks as [|[|] ks].
  - destruct O as [-> ->]. cbn. split; [reflexivity|]. split; reflexivity.
  - cbn [innermost]. split; [destruct (N.compare_spec (s_map s) (s_seq s)); try lia; reflexivity|]. split; [|discriminate]. rewrite andb_true_iff, !N.eqb_eq. lia.
  - cbn [innermost]. split; [destruct (N.compare_spec (s_map s) (s_seq s)); try lia; reflexivity|]. split; [|discriminate]. rewrite andb_true_iff, !N.eqb_eq. lia.
Qed.
(** So a stack of calls that do not nest is accepted... *)
Definition closing (os : list sop) : list sop := map (fun o => match o with PushMap => PopMap | _ => PopSeq end) (rev os).
Theorem C83_stack_accepts_unnested : exists os, unchecked_run [] os = Some [] /\ real_run [] os = None.
Proof. exists (deep ++ [PushMap] ++ closing deep). vm_compute. auto. Qed.
(** ... and so is a text whose brackets do not nest (C55 without overflow
    checks); the calls made are those of no value: a map is never ended. *)
Definition C83_accepted_texts_nest : Prop := forall s es, from_slice_w s = (es, MOk tt) -> brackets_nest s.
Definition unclosed : bytes := deepest (bs "{""a"":{}").
Theorem C83_accepted_texts_nest_refuted : ~ C83_accepted_texts_nest.
Proof. intros H. pose proof (H unclosed (fst (from_slice_w unclosed)) ltac:(vm_compute; reflexivity)) as X. vm_compute in X. discriminate X. Qed.
Theorem C83_no_value : exists s es, from_slice_w s = (es, MOk tt) /\ forall t, emit t <> es.
Proof.
  exists unclosed, (fst (from_slice_w unclosed)). split; [vm_compute; reflexivity|]. intros t E. destruct (level_emit t) as [L _]. rewrite E in L. vm_compute in L. discriminate L.
Qed.
(** It does not happen within 63 levels. *)
Theorem C83_accepted_texts_nest_partial : forall s es, nests_within 63 LOut 0 s = true -> from_slice_w s = (es, MOk tt) -> brackets_nest s.
Proof. intros s es N H. rewrite C83_shallow_texts in H by exact N. exact (C55_accepted_texts_nest s es H). Qed.
(** JSON that is well within the grammar may read right, or panic. *)
Example C83_deep_json : from_slice_w (deepest (bs "{}")) = (fst (from_slice_w (deepest (bs "{}"))), MOk tt) /\
  total (fst (from_slice_w (deepest (bs "{}")))) = 0%Z /\
  snd (from_slice_w (deepest (bs "{""a"":{}}"))) = MPanic /\ snd (from_slice_w (deepest (bs "[]"))) = MErr /\
  brackets_nest sample /\ snd (from_slice_w sample) = MOk tt.
Proof. vm_compute. repeat split. Qed.

Print Assumptions C83_same_in_release_refuted.
Print Assumptions C83_same_in_release_partial.
Print Assumptions C83_shallow_texts.
Print Assumptions C83_no_panic_no_difference.
Print Assumptions C83_stack_exact.
Print Assumptions C83_stack_accepts_unnested.
Print Assumptions C83_accepted_texts_nest_refuted.
Print Assumptions C83_no_value.
Print Assumptions C83_accepted_texts_nest_partial.
