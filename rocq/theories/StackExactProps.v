(** * StackExactProps: exactly what the two counters accept, refuse and overflow on (C41) *)

From Verif Require Import Base StackModel StackProps.

(** ** Specification

    A call looks at the counter of the other kind first, and adds one to it:
    that overflows when it is [u64::MAX].  It is refused when there is no such
    container to close, or when one more would not fit into the counters. *)
Inductive verdict := Goes (ks : list ckind) | Refused | Overflows.
Definition u64 (n : N) : bool := (n <? U64_LIM)%N.
Definition other (ks : list ckind) (o : sop) : N :=
  match o with PushMap | PopMap => snd (counters ks) | PushSeq | PopSeq => fst (counters ks) end.
Definition counted_op (ks : list ckind) (o : sop) : verdict :=
  if u64 (other ks o + 1) then
    match real_op ks o with
    | Some ks' => if u64 (fst (counters ks')) && u64 (snd (counters ks')) then Goes ks' else Refused
    | None => Refused
    end
  else Overflows.
Fixpoint counted_run (ks : list ckind) (os : list sop) : verdict :=
  match os with
  | [] => Goes ks
  | o :: os' => match counted_op ks o with Goes ks' => counted_run ks' os' | v => v end
  end.

(** ** Proofs *)
Definition fits (ks : list ckind) : Prop := (fst (counters ks) < U64_LIM /\ snd (counters ks) < U64_LIM)%N.
Lemma op_exact s ks o : represents s ks -> fits ks ->
  match counted_op ks o with
  | Goes ks' => fits ks' /\ real_op ks o = Some ks' /\ exists s', stack_op s o = Ok s' /\ represents s' ks'
  | Refused => stack_op s o = Err s
  | Overflows => stack_op s o = Panic
  end.
Proof.
  unfold represents, fits, counted_op, other, u64. intros R [F1 F2].
  assert (K : match o, ks with
              | PushMap, _ => counters (KMap :: ks) = (s_map s + 1 + s_seq s, s_seq s)
              | PushSeq, _ => counters (KSeq :: ks) = (s_map s, s_seq s + 1 + s_map s)
              | PopMap, KMap :: ks => let (m, q) := counters ks in m + 1 + q = s_map s /\ q = s_seq s
              | PopMap, _ => s_map s < 1 + s_seq s
              | PopSeq, KSeq :: ks => let (m, q) := counters ks in m = s_map s /\ q + 1 + m = s_seq s
              | PopSeq, _ => s_seq s < 1 + s_map s
              end%N).
  { pose proof (counters_order ks) as O. rewrite R in O.
    destruct o; [cbn [counters]; rewrite R; reflexivity| |cbn [counters]; rewrite R; reflexivity|].
    - destruct ks as [|[|] ks]; [lia| |lia]. cbn [counters] in R. destruct (counters ks) as [m q]. inversion R. lia.
    - destruct ks as [|[|] ks]; [lia|lia|]. cbn [counters] in R. destruct (counters ks) as [m q]. inversion R. lia. }
  rewrite R in *. cbn [fst snd] in *.
  destruct o; cbn [stack_op real_op]; unfold push_map, pop_map, push_seq, pop_seq, add_one, checked_add, checked_sub.
  - rewrite (N.add_comm 1). destruct (N.ltb_spec (s_seq s + 1) U64_LIM); [|reflexivity]. rewrite K. cbn [fst snd].
    destruct (N.ltb_spec (s_map s + 1 + s_seq s) U64_LIM); destruct (N.ltb_spec (s_seq s) U64_LIM); try lia; cbn [andb].
    + split; [rewrite K; cbn [fst snd]; lia|]. split; [reflexivity|]. destruct (N.ltb_spec (s_map s + (s_seq s + 1)) U64_LIM); [|lia].
      eexists. split; [reflexivity|]. cbn [s_map s_seq]. rewrite K. f_equal; lia.
    + destruct (N.ltb_spec (s_map s + (s_seq s + 1)) U64_LIM); [lia|reflexivity].
  - rewrite (N.add_comm 1). destruct (N.ltb_spec (s_seq s + 1) U64_LIM); [|reflexivity].
    destruct ks as [|[|] ks].
    + destruct (N.leb_spec (s_seq s + 1) (s_map s)); [lia|reflexivity].
    + destruct (counters ks) as [m q] eqn:C. cbn [fst snd]. destruct K as [K1 K2].
      destruct (N.ltb_spec m U64_LIM); [|lia]. destruct (N.ltb_spec q U64_LIM); [|lia]. cbn [andb]. rewrite C. cbn [fst snd].
      split; [lia|]. split; [reflexivity|]. destruct (N.leb_spec (s_seq s + 1) (s_map s)); [|lia]. eexists. split; [reflexivity|].
      cbn [s_map s_seq]. f_equal; lia.
    + destruct (N.leb_spec (s_seq s + 1) (s_map s)); [lia|reflexivity].
  - rewrite (N.add_comm 1). destruct (N.ltb_spec (s_map s + 1) U64_LIM); [|reflexivity]. rewrite K. cbn [fst snd].
    destruct (N.ltb_spec (s_seq s + 1 + s_map s) U64_LIM); destruct (N.ltb_spec (s_map s) U64_LIM); try lia; cbn [andb].
    + split; [rewrite K; cbn [fst snd]; lia|]. split; [reflexivity|]. destruct (N.ltb_spec (s_seq s + (s_map s + 1)) U64_LIM); [|lia].
      eexists. split; [reflexivity|]. cbn [s_map s_seq]. rewrite K. f_equal; lia.
    + destruct (N.ltb_spec (s_seq s + (s_map s + 1)) U64_LIM); [lia|reflexivity].
  - rewrite (N.add_comm 1). destruct (N.ltb_spec (s_map s + 1) U64_LIM); [|reflexivity].
    destruct ks as [|[|] ks].
    + destruct (N.leb_spec (s_map s + 1) (s_seq s)); [lia|reflexivity].
    + destruct (N.leb_spec (s_map s + 1) (s_seq s)); [lia|reflexivity].
    + destruct (counters ks) as [m q] eqn:C. cbn [fst snd]. destruct K as [K1 K2].
      destruct (N.ltb_spec m U64_LIM); [|lia]. destruct (N.ltb_spec q U64_LIM); [|lia]. cbn [andb]. rewrite C. cbn [fst snd].
      split; [lia|]. split; [reflexivity|]. destruct (N.leb_spec (s_map s + 1) (s_seq s)); [|lia]. eexists. split; [reflexivity|].
      cbn [s_map s_seq]. f_equal; lia.
Qed.
Lemma run_exact os : forall s ks, represents s ks -> fits ks ->
  match counted_run ks os with
  | Goes ks' => exists s', stack_run s os = Ok s' /\ represents s' ks' /\ real_run ks os = Some ks'
  | Refused => exists s', stack_run s os = Err s'
  | Overflows => stack_run s os = Panic
  end.
Proof.
  induction os as [|o os IH]; intros s ks R F; cbn [counted_run stack_run real_run]; [eauto|].
  pose proof (op_exact s ks o R F) as E. destruct (counted_op ks o) as [ks'| |].
  - destruct E as (F' & -> & s' & -> & R'). cbn [bind]. apply IH; assumption.
  - rewrite E. cbn. eauto.
  - rewrite E. reflexivity.
Qed.

(** ** C41 *)
Theorem C41_outcome_exact : forall os,
  match counted_run [] os with
  | Goes ks => exists s, stack_run stack_new os = Ok s /\ real_run [] os = Some ks /\
                         position s = innermost ks /\ (finish s = true <-> ks = [])
  | Refused => exists s, stack_run stack_new os = Err s
  | Overflows => stack_run stack_new os = Panic
  end.
Proof.
  intros os. pose proof (run_exact os stack_new [] eq_refl ltac:(split; reflexivity)) as X.
  destruct (counted_run [] os) as [ks| |]; [|exact X..]. destruct X as (s & E & _ & Rr). exists s. split; [exact E|]. split; [exact Rr|].
  destruct (C41_accepted_histories_nest os s E) as (ks' & Rr' & P). rewrite Rr in Rr'. injection Rr' as <-. exact P.
Qed.
(** A stack of 63 containers never overflows or is refused, whatever is opened next. *)
Theorem C41_shallow_opens : forall ks o, List.length ks <= 63 -> (o = PushMap \/ o = PushSeq) -> exists ks', counted_op ks o = Goes ks'.
Proof.
  intros ks o L O. pose proof (counters_bound ks) as (B1 & B2 & B3).
  assert (P : (2 ^ N.of_nat (List.length ks) <= 2 ^ 63)%N) by (apply N.pow_le_mono_r; lia).
  assert (E : (2 * 2 ^ 63 = U64_LIM)%N) by reflexivity. unfold counted_op, other, u64. generalize dependent (2 ^ 63)%N. intros z Pz Ez.
  destruct O as [-> | ->]; cbn [real_op counters]; destruct (counters ks) as [m q]; cbn [fst snd] in *;
    repeat match goal with |- context [(?a <? U64_LIM)%N] => destruct (N.ltb_spec a U64_LIM); [|lia] end; cbn [andb]; eexists; reflexivity.
Qed.
(** All three happen. *)
Example C41_three_outcomes :
  (exists ks, counted_run [] deep = Goes ks) /\ counted_run [] (deep ++ [M]) = Overflows /\ counted_run [] (deep ++ [Q]) = Refused /\
  counted_run [] [M; PopSeq] = Refused /\ counted_run [] [M; PopMap] = Goes [].
Proof. split; [eexists; vm_compute; reflexivity|]. vm_compute. repeat split. Qed.

Print Assumptions C41_outcome_exact.
Print Assumptions C41_shallow_opens.
