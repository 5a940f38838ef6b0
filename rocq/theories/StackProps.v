(** * StackProps: the two counters track nesting exactly (C41) *)

From Verif Require Import Base StackModel.

(** ** Specification: a real stack of container kinds. *)
Inductive ckind := KMap | KSeq.
Definition real_op (ks : list ckind) (o : sop) : option (list ckind) :=
  match o, ks with
  | PushMap, _ => Some (KMap :: ks)
  | PushSeq, _ => Some (KSeq :: ks)
  | PopMap, KMap :: ks => Some ks
  | PopSeq, KSeq :: ks => Some ks
  | _, _ => None
  end.
Fixpoint real_run (ks : list ckind) (os : list sop) : option (list ckind) :=
  match os with
  | [] => Some ks
  | o :: os' => match real_op ks o with Some ks' => real_run ks' os' | None => None end
  end.
Definition innermost (ks : list ckind) : inside :=
  match ks with [] => InRoot | KMap :: _ => InMap | KSeq :: _ => InSeq end.

(** The counters a stack of containers leads to, without a limit. *)
Fixpoint counters (ks : list ckind) : N * N :=
  match ks with
  | [] => (0, 0)
  | KMap :: ks => let (m, q) := counters ks in (m + 1 + q, q)
  | KSeq :: ks => let (m, q) := counters ks in (m, q + 1 + m)
  end%N.
(** Both counters stay two below the limit, at every point of the history. *)
Definition small (ks : list ckind) : bool :=
  let (m, q) := counters ks in (m + 1 <? U64_LIM)%N && (q + 1 <? U64_LIM)%N.
Fixpoint small_run (ks : list ckind) (os : list sop) : bool :=
  small ks &&
  match os with
  | [] => true
  | o :: os' => match real_op ks o with Some ks' => small_run ks' os' | None => true end
  end.

(** ** Proofs *)

Definition represents (s : stack) (ks : list ckind) : Prop := counters ks = (s_map s, s_seq s).

Lemma counters_order ks : let (m, q) := counters ks in
  match ks with [] => m = 0 /\ q = 0 | KMap :: _ => q < m | KSeq :: _ => m < q end%N.
Proof.
  destruct ks as [|[|] ks]; cbn [counters]; [split; reflexivity| |]; destruct (counters ks) as [m q]; lia.
Qed.

Lemma Ok_inj {A} {a b : A} : Ok a = Ok b -> a = b.
Proof. congruence. Qed.

Lemma op_sound s ks o s' : represents s ks -> stack_op s o = Ok s' ->
  exists ks', real_op ks o = Some ks' /\ represents s' ks'.
Proof.
  unfold represents. intros R H. pose proof (counters_order ks) as O. rewrite R in O.
  destruct o; cbn [stack_op] in H; unfold push_map, pop_map, push_seq, pop_seq, add_one in H.
  - destruct (1 + s_seq s <? U64_LIM)%N; [|discriminate H]. unfold checked_add in H.
    destruct (_ <? U64_LIM)%N; [|discriminate H]. assert (E : s' = _) by (symmetry; apply (Ok_inj H)); subst s'. cbn [real_op].
    eexists; split; [reflexivity|]. cbn [counters s_map s_seq]. rewrite R. f_equal; lia.
  - destruct (1 + s_seq s <? U64_LIM)%N; [|discriminate H]. unfold checked_sub in H.
    destruct (1 + s_seq s <=? s_map s)%N eqn:L; [|discriminate H]. assert (E : s' = _) by (symmetry; apply (Ok_inj H)); subst s'. cbn [real_op].
    apply N.leb_le in L. destruct ks as [|[|] ks]; try lia.
    eexists; split; [reflexivity|]. cbn [counters] in R. destruct (counters ks) as [m q]. inversion R. cbn [s_map s_seq]. f_equal; lia.
  - destruct (1 + s_map s <? U64_LIM)%N; [|discriminate H]. unfold checked_add in H.
    destruct (_ <? U64_LIM)%N; [|discriminate H]. assert (E : s' = _) by (symmetry; apply (Ok_inj H)); subst s'. cbn [real_op].
    eexists; split; [reflexivity|]. cbn [counters s_map s_seq]. rewrite R. f_equal; lia.
  - destruct (1 + s_map s <? U64_LIM)%N; [|discriminate H]. unfold checked_sub in H.
    destruct (1 + s_map s <=? s_seq s)%N eqn:L; [|discriminate H]. assert (E : s' = _) by (symmetry; apply (Ok_inj H)); subst s'. cbn [real_op].
    apply N.leb_le in L. destruct ks as [|[|] ks]; try lia.
    eexists; split; [reflexivity|]. cbn [counters] in R. destruct (counters ks) as [m q]. inversion R. cbn [s_map s_seq]. f_equal; lia.
Qed.

Lemma op_complete s ks o ks' : represents s ks -> small ks = true -> real_op ks o = Some ks' -> small ks' = true ->
  exists s', stack_op s o = Ok s' /\ represents s' ks'.
Proof.
  unfold represents, small. intros R S H S'. rewrite R in S. apply andb_prop in S as [S1 S2].
  apply N.ltb_lt in S1, S2.
  assert (A1 : add_one (s_seq s) = Some (1 + s_seq s)%N).
  { unfold add_one. destruct (N.ltb_spec (1 + s_seq s) U64_LIM); [reflexivity|lia]. }
  assert (A2 : add_one (s_map s) = Some (1 + s_map s)%N).
  { unfold add_one. destruct (N.ltb_spec (1 + s_map s) U64_LIM); [reflexivity|lia]. }
  destruct o; cbn [real_op] in H.
  - inversion H; subst ks'. cbn [counters] in S'. rewrite R in S'. apply andb_prop in S' as [S3 S4]. apply N.ltb_lt in S3, S4.
    cbn [stack_op]. unfold push_map, checked_add. rewrite A1.
    destruct (N.ltb_spec (s_map s + (1 + s_seq s)) U64_LIM); [|lia].
    eexists; split; [reflexivity|]. cbn [counters s_map s_seq]. rewrite R. f_equal; lia.
  - destruct ks as [|[|] ks]; try discriminate H. inversion H; subst ks'. cbn [counters] in R.
    destruct (counters ks) as [m q]. inversion R.
    cbn [stack_op]. unfold pop_map, checked_sub. rewrite A1.
    destruct (N.leb_spec (1 + s_seq s) (s_map s)); [|lia].
    eexists; split; [reflexivity|]. cbn [s_map s_seq]. f_equal; lia.
  - inversion H; subst ks'. cbn [counters] in S'. rewrite R in S'. apply andb_prop in S' as [S3 S4]. apply N.ltb_lt in S3, S4.
    cbn [stack_op]. unfold push_seq, checked_add. rewrite A2.
    destruct (N.ltb_spec (s_seq s + (1 + s_map s)) U64_LIM); [|lia].
    eexists; split; [reflexivity|]. cbn [counters s_map s_seq]. rewrite R. f_equal; lia.
  - destruct ks as [|[|] ks]; try discriminate H. inversion H; subst ks'. cbn [counters] in R.
    destruct (counters ks) as [m q]. inversion R.
    cbn [stack_op]. unfold pop_seq, checked_sub. rewrite A2.
    destruct (N.leb_spec (1 + s_map s) (s_seq s)); [|lia].
    eexists; split; [reflexivity|]. cbn [s_map s_seq]. f_equal; lia.
Qed.

Lemma run_sound os : forall s ks s', represents s ks -> stack_run s os = Ok s' ->
  exists ks', real_run ks os = Some ks' /\ represents s' ks'.
Proof.
  induction os as [|o os IH]; intros s ks s' R H.
  - inversion H; subst. exists ks. split; [reflexivity|exact R].
  - cbn in H. destruct (stack_op s o) as [s1| |] eqn:E; try discriminate H.
    destruct (op_sound _ _ _ _ R E) as (ks1 & E1 & R1). cbn. rewrite E1. exact (IH s1 ks1 s' R1 H).
Qed.

(** Whatever history the reader accepts, a real stack accepts; the innermost
    container and the end of input are reported as on the real stack. *)
Theorem C41_accepted_histories_nest : forall os s,
  stack_run stack_new os = Ok s ->
  exists ks, real_run [] os = Some ks /\
             position s = innermost ks /\ (finish s = true <-> ks = []).
Proof.
  intros os s H. destruct (run_sound os stack_new [] s eq_refl H) as (ks & E & R).
  exists ks. split; [exact E|]. unfold represents in R. pose proof (counters_order ks) as O. rewrite R in O.
  unfold position, finish. destruct ks as [|[|] ks].
  - destruct O as [-> ->]. cbn. split; [reflexivity|]. split; reflexivity.
  - cbn [innermost]. split.
    + destruct (N.compare_spec (s_map s) (s_seq s)); try lia. reflexivity.
    + split; [|discriminate]. rewrite andb_true_iff, !N.eqb_eq. lia.
  - cbn [innermost]. split.
    + destruct (N.compare_spec (s_map s) (s_seq s)); try lia. reflexivity.
    + split; [|discriminate]. rewrite andb_true_iff, !N.eqb_eq. lia.
Qed.

(** The full statement: a history is accepted exactly when a real stack accepts
    it, unless the counters overflow, and then it is an error. *)
Definition C41_stack_exact : Prop :=
  forall os,
  stack_run stack_new os <> Panic /\
  (small_run [] os = true ->
   match real_run [] os with
   | Some ks => exists s, stack_run stack_new os = Ok s /\ position s = innermost ks
   | None => exists s, stack_run stack_new os = Err s
   end).

(** 103 containers deep the sequence counter is exactly [u64::MAX]; one more
    brace computes [1 + u64::MAX]. *)
Definition M := PushMap.
Definition Q := PushSeq.
Definition deep : list sop :=
  [M;Q;Q;M;M;M;Q;Q;M;Q;Q;Q;M;M;M;Q;Q;Q;M;M;Q;Q;M;M;Q;Q;M;Q;M;Q;Q;Q;Q;M;Q;M;Q;M;M;Q;Q;Q;Q;Q;Q;M;Q;M;Q;M;M;M;M;Q;
   M;Q;Q;M;M;Q;Q;Q;Q;Q;Q;M;Q;M;Q;M;Q;M;Q;M;Q;M;Q;M;Q;M;Q;M;Q;M;Q;M;Q;M;Q;M;Q;M;Q;M;Q;M;Q;M;Q;M;Q;M;Q].
Theorem C41_stack_exact_refuted : ~ C41_stack_exact.
Proof. intros H. destruct (H (deep ++ [M])) as [N _]. apply N. vm_compute. reflexivity. Qed.

Theorem C41_stack_exact_partial : forall os,
  small_run [] os = true ->
  match real_run [] os with
  | Some ks => exists s, stack_run stack_new os = Ok s /\
                         position s = innermost ks /\ (finish s = true <-> ks = [])
  | None => exists s, stack_run stack_new os = Err s
  end.
Proof.
  assert (G : forall os s ks, represents s ks -> small_run ks os = true ->
    match real_run ks os with
    | Some ks' => exists s', stack_run s os = Ok s' /\ represents s' ks'
    | None => exists s', stack_run s os = Err s'
    end).
  { induction os as [|o os IH]; intros s ks R S.
    - cbn. exists s. split; [reflexivity|exact R].
    - cbn in S |- *. apply andb_prop in S as [S1 S2]. destruct (real_op ks o) as [ks1|] eqn:E.
      + assert (S3 : small ks1 = true) by (destruct os; cbn in S2; apply andb_prop in S2; tauto).
        destruct (op_complete s ks o ks1 R S1 E S3) as (s1 & E1 & R1). rewrite E1. cbn [bind].
        apply IH; assumption.
      + destruct (stack_op s o) as [s1|s1|] eqn:E1; cbn [bind].
        * destruct (op_sound _ _ _ _ R E1) as (ks1 & E2 & _). congruence.
        * exists s1. reflexivity.
        * exfalso. unfold small in S1. unfold represents in R. rewrite R in S1. apply andb_prop in S1 as [S3 S4].
          apply N.ltb_lt in S3, S4.
          destruct o; cbn [stack_op] in E1; unfold push_map, pop_map, push_seq, pop_seq, add_one in E1.
          all: destruct (N.ltb_spec (1 + s_seq s) U64_LIM); try lia.
          all: destruct (N.ltb_spec (1 + s_map s) U64_LIM); try lia.
          all: destruct (checked_add _ _) in E1 || destruct (checked_sub _ _) in E1; discriminate E1. }
  intros os S. pose proof (G os stack_new [] eq_refl S) as H.
  destruct (real_run [] os) as [ks|] eqn:E; [|exact H].
  destruct H as (s & E1 & R). exists s. split; [exact E1|].
  destruct (C41_accepted_histories_nest os s E1) as (ks' & E2 & P). rewrite E in E2. inversion E2; subst. exact P.
Qed.

(** At most 60 nested containers always stay small: the hypothesis of the
    partial theorem holds for every such history. *)
Lemma counters_bound ks : (fst (counters ks) + 1 <= 2 ^ N.of_nat (length ks) /\ snd (counters ks) + 1 <= 2 ^ N.of_nat (length ks) /\
  fst (counters ks) + snd (counters ks) + 2 <= 2 * 2 ^ N.of_nat (length ks))%N.
Proof.
  induction ks as [|k ks IH]; [cbn; lia|]. cbn [length]. rewrite Nat2N.inj_succ, N.pow_succ_r'.
  destruct k; cbn [counters]; destruct (counters ks) as [m q]; cbn [fst snd] in *; lia.
Qed.
Fixpoint nesting (d : nat) (os : list sop) : nat :=
  match os with
  | [] => d
  | (PushMap | PushSeq) :: os => Nat.max d (nesting (S d) os)
  | _ :: os => Nat.max d (nesting (pred d) os)
  end.
Lemma nesting_ge d os : d <= nesting d os.
Proof. destruct os as [|[] os]; cbn; lia. Qed.
Theorem C41_shallow_histories_are_small : forall os, nesting 0 os <= 63 -> small_run [] os = true.
Proof.
  assert (SM : forall ks, length ks <= 63 -> small ks = true).
  { intros ks L. unfold small. pose proof (counters_bound ks) as (B1 & B2 & _).
    destruct (counters ks) as [m q]. cbn [fst snd] in *.
    assert (P : (2 ^ N.of_nat (length ks) <= 2 ^ 63)%N) by (apply N.pow_le_mono_r; lia).
    assert (E : (2 ^ 63 < U64_LIM)%N) by reflexivity.
    apply andb_true_intro. split; apply N.ltb_lt; lia. }
  assert (G : forall os ks, nesting (length ks) os <= 63 -> small_run ks os = true).
  { induction os as [|o os IH]; intros ks H; cbn [small_run].
    - rewrite SM by exact H. reflexivity.
    - pose proof (nesting_ge (length ks) (o :: os)). rewrite SM by lia. cbn [andb].
      destruct o; cbn [real_op nesting] in *; [apply IH; cbn [length]; lia| |apply IH; cbn [length]; lia|];
        destruct ks as [|[|] ks]; try reflexivity; apply IH; cbn [length Nat.pred] in *; lia. }
  intros os H. apply G. exact H.
Qed.

Example C41_applies : real_run [] [M; Q; PopSeq; Q; PopSeq; PopMap] = Some [] /\
  small_run [] [M; Q; PopSeq; Q; PopSeq; PopMap] = true /\
  exists s, stack_run stack_new [M; Q; PopSeq; Q; PopSeq; PopMap] = Ok s /\ finish s = true.
Proof. vm_compute. repeat split. eexists. split; reflexivity. Qed.
Example C41_rejects : exists s, stack_run stack_new [M; Q; PopMap] = Err s.
Proof. vm_compute. eexists. reflexivity. Qed.

Print Assumptions C41_accepted_histories_nest.
Print Assumptions C41_stack_exact_refuted.
Print Assumptions C41_stack_exact_partial.
Print Assumptions C41_shallow_histories_are_small.
