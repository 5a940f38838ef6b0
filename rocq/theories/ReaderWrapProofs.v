(** * ReaderWrapProofs: with and without overflow checks (C83) *)

From Verif Require Import Base Event Tree Utf8 LowerSpec JsonModel JsonGrammar JsonParse StackModel StackProps StackExactProps
  ReaderModel ReaderSpec ReaderProofs ReaderNestProofs ReaderFateSpec ReaderFateProofs ReaderFateProps ReaderWrapModel ReaderWrapSpec.

(** ** The stack *)
Lemma op_w_same s o : stack_op s o <> Panic -> stack_op_w s o = stack_op s o.
Proof.
  destruct o; cbn [stack_op stack_op_w]; unfold push_map, pop_map, push_seq, pop_seq, push_map_w, pop_map_w, push_seq_w, pop_seq_w, add_one, wrap_one;
    match goal with |- context [(?a <? U64_LIM)%N] => destruct (a <? U64_LIM)%N end; congruence.
Qed.
Lemma op_w_wraps s o : stack_op s o = Panic -> (s_map s < U64_LIM)%N -> (s_seq s < U64_LIM)%N -> stack_op_w s o = Ok s.
Proof.
  intros H F1 F2.
  destruct o; cbn [stack_op stack_op_w] in *; unfold push_map, pop_map, push_seq, pop_seq, push_map_w, pop_map_w, push_seq_w, pop_seq_w, add_one, wrap_one in *;
    match type of H with context [(?a <? U64_LIM)%N] => destruct (a <? U64_LIM)%N end;
    try (match type of H with match ?x with _ => _ end = _ => destruct x; discriminate H end); clear H; unfold checked_add, checked_sub.
  - rewrite N.add_0_r. destruct (N.ltb_spec (s_map s) U64_LIM); [|lia]. destruct s; reflexivity.
  - rewrite N.sub_0_r. destruct (N.leb_spec 0 (s_map s)); [|lia]. destruct s; reflexivity.
  - rewrite N.add_0_r. destruct (N.ltb_spec (s_seq s) U64_LIM); [|lia]. destruct s; reflexivity.
  - rewrite N.sub_0_r. destruct (N.leb_spec 0 (s_seq s)); [|lia]. destruct s; reflexivity.
Qed.
Lemma op_w_exact s ks o : represents s ks -> fits ks ->
  match unchecked_op ks o with
  | Some ks' => fits ks' /\ exists s', stack_op_w s o = Ok s' /\ represents s' ks'
  | None => stack_op_w s o = Err s
  end.
Proof.
  intros R F. pose proof (op_exact s ks o R F) as X. unfold counted_op, unchecked_op in *. destruct (u64 (other ks o + 1)).
  - assert (N : forall r, stack_op s o = r -> r <> Panic -> stack_op_w s o = r) by (intros r E Nr; rewrite <- E; apply op_w_same; congruence).
    destruct (real_op ks o) as [ks'|].
    + destruct (_ && _).
      * destruct X as (F' & _ & s' & E & R'). split; [exact F'|]. exists s'. split; [apply (N _ E); discriminate|exact R'].
      * apply (N _ X). discriminate.
    + apply (N _ X). discriminate.
  - split; [exact F|]. exists s. split; [|exact R]. unfold represents in R. destruct F as [F1 F2]. rewrite R in F1, F2. apply op_w_wraps; assumption.
Qed.
Lemma run_w_exact os : forall s ks, represents s ks -> fits ks ->
  match unchecked_run ks os with
  | Some ks' => exists s', stack_run_w s os = Ok s' /\ represents s' ks'
  | None => exists s', stack_run_w s os = Err s'
  end.
Proof.
  induction os as [|o os IH]; intros s ks R F; cbn [unchecked_run stack_run_w]; [eauto|].
  pose proof (op_w_exact s ks o R F) as E. destruct (unchecked_op ks o) as [ks'|].
  - destruct E as (F' & s' & -> & R'). cbn [bind]. apply IH; assumption.
  - rewrite E. cbn. eauto.
Qed.

(** ** The methods that look at the stack *)
Definition quiet {A} (x : does A) : Prop := snd x <> MPanic.
Lemma quiet_first {A B} (x : does A) (f : A -> does B) : quiet (x >>> f) -> quiet x.
Proof. destruct x as [es [a| |]]; unfold quiet; cbn; congruence. Qed.
Lemma method_w (x : does unit) (o : sop) (k : reader -> does reader) r :
  stack_op (r_stack r) o <> Panic \/ quiet (x >>> fun _ => lift_stack r (stack_op (r_stack r) o) >>> k) ->
  (x >>> fun _ => lift_stack r (stack_op_w (r_stack r) o) >>> k) = (x >>> fun _ => lift_stack r (stack_op (r_stack r) o) >>> k).
Proof.
  intros [H|H]; [rewrite op_w_same by exact H; reflexivity|].
  destruct (stack_op (r_stack r) o) as [s|s|] eqn:E; try (rewrite op_w_same, E by (rewrite E; discriminate); reflexivity).
  destruct x as [es [a| |]]; [|reflexivity..]. exfalso. apply H. reflexivity.
Qed.
(** The bracket that a turn outside of strings starts with, after white space. *)
Fixpoint first_op (s : bytes) : option sop :=
  match s with
  | [] => None
  | b :: s' => if byte_is 32 b || byte_is 9 b || byte_is 13 b || byte_is 10 b then first_op s' else bracket b
  end.
Lemma resume_out_same s r :
  (forall o, first_op s = Some o -> stack_op (r_stack r) o <> Panic) \/ quiet (resume_out s r) -> resume_out_w s r = resume_out s r.
Proof.
  induction s as [|b s IH]; [reflexivity|]. intros H. cbn [resume_out resume_out_w first_op] in *. unfold bracket, byte_is in *.
  destruct (N.eqb_spec (N_of_ascii b) 34) as [E|_]; [reflexivity|].
  destruct (N.eqb_spec (N_of_ascii b) 123) as [E|_].
  { rewrite E in H. unfold rd_more. f_equal. apply (method_w (begin_container r) PushMap). destruct H as [H|H]; [left; apply H; reflexivity|right; eapply quiet_first, H]. }
  destruct (N.eqb_spec (N_of_ascii b) 125) as [E|_].
  { rewrite E in H. unfold rd_done. f_equal. apply (method_w _ PopMap). destruct H as [H|H]; [left; apply H; reflexivity|right; eapply quiet_first, H]. }
  destruct (N.eqb_spec (N_of_ascii b) 91) as [E|_].
  { rewrite E in H. unfold rd_more. f_equal. apply (method_w (begin_container r) PushSeq). destruct H as [H|H]; [left; apply H; reflexivity|right; eapply quiet_first, H]. }
  destruct (N.eqb_spec (N_of_ascii b) 93) as [E|_].
  { rewrite E in H. unfold rd_done. f_equal. apply (method_w _ PopSeq). destruct H as [H|H]; [left; apply H; reflexivity|right; eapply quiet_first, H]. }
  destruct (N.eqb_spec (N_of_ascii b) 58) as [E|_]; [reflexivity|].
  destruct (N.eqb_spec (N_of_ascii b) 44) as [E|_]; [reflexivity|].
  destruct (N.eqb_spec (N_of_ascii b) 116) as [E|_]; [reflexivity|].
  destruct (N.eqb_spec (N_of_ascii b) 102) as [E|_]; [reflexivity|].
  destruct (N.eqb_spec (N_of_ascii b) 110) as [E|_]; [reflexivity|].
  destruct (_ || _ || _ || _) eqn:Ws; [|reflexivity]. apply IH. exact H.
Qed.
Lemma all_same n : forall s r es o, resume_all n s r = Some (es, o) -> o <> MPanic -> resume_all_w n s r = Some (es, o).
Proof.
  induction n as [|n IH]; intros s r es o; [discriminate|]. cbn [resume_all resume_all_w]. intros H N.
  assert (E : resume_w s r = resume s r).
  { unfold resume_w. destruct (r_in_str r) eqn:I; [reflexivity|].
    unfold resume in *. rewrite I in *. apply resume_out_same. right. intros P. destruct (resume_out s r) as [e1 x]. cbn in P. subst x. injection H as _ <-. congruence. }
  rewrite E. destruct (resume s r) as [e1 [[s' r'|]| |]]; try exact H.
  destruct (resume_all n s' r') as [[e2 o']|] eqn:G; [|discriminate]. injection H as <- ->. rewrite (IH _ _ _ _ G N). reflexivity.
Qed.

(** ** Texts that meet no overflow *)
Lemma free_plain ks a s : forallb plain_byte a = true -> overflow_from LOut ks (a ++ s) = overflow_from LOut ks s.
Proof.
  induction a as [|b a IH]; cbn [app forallb]; intros P; [reflexivity|]. apply andb_true_iff in P as [P1 P2]. rewrite <- (IH P2). clear IH.
  unfold plain_byte in P1. repeat match goal with P : _ && _ = true |- _ => apply andb_true_iff in P as [P ?] end.
  repeat match goal with H : negb ?c = true |- _ => apply negb_true_iff in H end.
  cbn [overflow_from str_byte]. unfold bracket. repeat match goal with H : ?c = false |- _ => rewrite H; clear H end. reflexivity.
Qed.
Lemma free_scan ks s : forall f p rest, scan_fragment s = (f, p, rest) ->
  overflow_from LStr ks s = overflow_from (if p then LStr else LOut) ks rest.
Proof.
  induction s as [|b s IH]; intros f p rest; cbn [scan_fragment].
  - intros Q. injection Q as <- <- <-. reflexivity.
  - unfold byte_is. destruct (N_of_ascii b =? 92)%N eqn:E2; [intros Q; injection Q as <- <- <-; reflexivity|].
    destruct (N_of_ascii b =? 34)%N eqn:E4.
    + intros Q. injection Q as <- <- <-. cbn [overflow_from str_byte]. rewrite E4. reflexivity.
    + destruct (scan_fragment s) as [[g q] r] eqn:F. intros Q. injection Q as <- <- <-.
      cbn [overflow_from str_byte]. rewrite E2, E4. eapply IH. reflexivity.
Qed.
Lemma free_fragment ks s f p rest : str_fragment s = MOk (f, p, rest) ->
  overflow_from LStr ks s = overflow_from (if p then LStr else LOut) ks rest.
Proof.
  destruct s as [|b s]; [discriminate|]. cbn [str_fragment]. destruct (byte_is 92 b) eqn:E.
  - destruct s as [|e s]; [discriminate|]. intros H.
    assert (X : p = true /\ rest = s) by
      (repeat match type of H with (if ?c then _ else _) = _ => destruct c end; try discriminate; injection H as _ <- <-; auto).
    destruct X as [-> ->]. apply byte_is_eq in E; [|reflexivity]. subst b. reflexivity.
  - destruct (scan_fragment (b :: s)) as [[g q] r] eqn:F. destruct (utf8 g); [|discriminate]. intros Q. injection Q as <- <- <-.
    eapply free_scan, F.
Qed.
Lemma first_op_free ks s o : overflow_from LOut ks s = false -> first_op s = Some o -> counted_op ks o <> Overflows.
Proof.
  induction s as [|b s IH]; [discriminate|]. cbn [first_op]. destruct (_ || _ || _ || _) eqn:Ws.
  - intros H. apply IH. rewrite <- H. symmetry. apply (free_plain ks [b] s). cbn [forallb]. rewrite andb_true_r.
    unfold byte_is in Ws. unfold plain_byte. repeat (apply orb_true_iff in Ws as [Ws|Ws]); apply N.eqb_eq in Ws; rewrite Ws; reflexivity.
  - intros H E. cbn [overflow_from] in H. rewrite E in H. destruct (counted_op ks o); congruence.
Qed.

(** A turn and the brackets it passes: as [turn] of ReaderNestProofs.v. *)
Definition stays_free (x : resumed) : Prop :=
  match x with
  | More s' r' => exists ks', represents (r_stack r') ks' /\ fits ks' /\ overflow_from (lx r') ks' s' = false
  | Done => True
  end.
Lemma free_maybe s r ks es x : represents (r_stack r) ks -> fits ks -> r_in_str r = false -> overflow_from LOut ks s = false ->
  maybe_done s r = (es, MOk x) -> stays_free x.
Proof.
  intros R F I O. destruct s as [|b s]; cbn [maybe_done].
  - destruct (finish (r_stack r)); [|discriminate]. intros Q. injection Q as _ <-. exact Logic.I.
  - intros Q. injection Q as _ <-. cbn. exists ks. unfold lx. rewrite I. auto.
Qed.
Lemma free_bracket ks b o ks' s : bracket b = Some o -> counted_op ks o = Goes ks' -> overflow_from LOut ks (b :: s) = false -> overflow_from LOut ks' s = false.
Proof. intros B C. cbn [overflow_from]. rewrite B, C. auto. Qed.
Lemma turn_free s r es x ks : represents (r_stack r) ks -> fits ks -> overflow_from (lx r) ks s = false -> resume s r = (es, MOk x) -> stays_free x.
Proof.
  intros R Fk. unfold resume, lx. destruct (r_in_str r) eqn:I.
  - intros O. destruct (str_fragment s) as [[[f p] t]| |] eqn:F; try discriminate. intros H. peel H.
    rewrite (free_fragment ks s f p t F) in O. destruct p.
    + injection H as _ <-. cbn. exists ks. unfold lx. rewrite I. auto.
    + peel H. eapply (free_maybe t (set_in_str false r) ks); [exact R|exact Fk|reflexivity|exact O|exact H].
  - revert es x. induction s as [|b s IH]; intros es x O; cbn [resume_out].
    { apply (free_maybe _ _ ks); assumption. }
    assert (W : forall w e, forallb plain_byte (bs w) = true -> rd_word w e (b :: s) r = (es, MOk x) -> stays_free x).
    { intros w e P H. unfold rd_word in H. destruct (word (bs w) (b :: s)) as [t|] eqn:Wd; [|discriminate]. apply word_app in Wd. rewrite Wd, free_plain in O by exact P.
      apply andthen_ok in H as (e1 & r1 & e2 & Q & H & ->). pose proof (value_begin_same r) as Sm. rewrite Q in Sm. destruct Sm as [S1 S2].
      peel H. eapply (free_maybe _ _ ks); [| | | |exact H]; congruence. }
    assert (One : plain_byte b = true -> overflow_from LOut ks s = false).
    { intros P. rewrite <- O. symmetry. apply (free_plain ks [b] s). cbn [forallb]. rewrite P. reflexivity. }
    unfold byte_is.
    destruct (N.eqb_spec (N_of_ascii b) 34) as [E|_].
    { intros H. unfold rd_string in H. apply andthen_ok in H as (e1 & r1 & e2 & Q & H & ->). pose proof (str_begin_same r) as Sm. rewrite Q in Sm. destruct Sm as [S1 S2].
      destruct (str_fragment s) as [[[f p] t]| |] eqn:F; try discriminate. peel H. peel H.
      assert (Os : overflow_from (if p then LStr else LOut) ks t = false).
      { rewrite <- (free_fragment ks s f p t F). cbn [overflow_from str_byte] in O. unfold bracket in O. rewrite E in O. exact O. }
      destruct p.
      - injection H as _ <-. cbn. exists ks. rewrite S1. auto.
      - peel H. eapply (free_maybe _ _ ks); [| | | |exact H]; congruence. }
    destruct (N.eqb_spec (N_of_ascii b) 123) as [E|_].
    { intros H. unfold rd_more in H. apply andthen_ok in H as (e1 & r1 & e2 & Q & H & ->). injection H as _ <-.
      destruct (stack_fine begin_container PushMap (EMapBegin None) (set_pos PMapEmpty) r ks e1 r1 R Fk ltac:(reflexivity) ltac:(reflexivity) Q) as (ks' & Ro & Rs & Fs & Is).
      cbn [stays_free]. exists ks'. split; [exact Rs|]. split; [exact Fs|]. unfold lx. rewrite Is, I. apply (free_bracket ks b PushMap); [unfold bracket; rewrite E; reflexivity|exact Ro|exact O]. }
    destruct (N.eqb_spec (N_of_ascii b) 125) as [E|_].
    { intros H. unfold rd_done in H. apply andthen_ok in H as (e1 & r1 & e2 & Q & H & ->).
      destruct (stack_fine (fun r => match r_pos r with PMapEmpty => ret tt | PMapValue => say EMapValEnd | _ => todo end) PopMap EMapEnd (fun r => set_pos (stack_pos (r_stack r)) r) r ks e1 r1 R Fk ltac:(reflexivity) ltac:(reflexivity) Q) as (ks' & Ro & Rs & Fs & Is).
      eapply (free_maybe _ _ ks'); [exact Rs|exact Fs|congruence| |exact H].
      apply (free_bracket ks b PopMap); [unfold bracket; rewrite E; reflexivity|exact Ro|exact O]. }
    destruct (N.eqb_spec (N_of_ascii b) 91) as [E|_].
    { intros H. unfold rd_more in H. apply andthen_ok in H as (e1 & r1 & e2 & Q & H & ->). injection H as _ <-.
      destruct (stack_fine begin_container PushSeq (ESeqBegin None) (set_pos PSeqEmpty) r ks e1 r1 R Fk ltac:(reflexivity) ltac:(reflexivity) Q) as (ks' & Ro & Rs & Fs & Is).
      cbn [stays_free]. exists ks'. split; [exact Rs|]. split; [exact Fs|]. unfold lx. rewrite Is, I. apply (free_bracket ks b PushSeq); [unfold bracket; rewrite E; reflexivity|exact Ro|exact O]. }
    destruct (N.eqb_spec (N_of_ascii b) 93) as [E|_].
    { intros H. unfold rd_done in H. apply andthen_ok in H as (e1 & r1 & e2 & Q & H & ->).
      destruct (stack_fine (fun r => match r_pos r with PSeqEmpty => ret tt | PSeqElem => say ESeqValEnd | _ => todo end) PopSeq ESeqEnd (fun r => set_pos (stack_pos (r_stack r)) r) r ks e1 r1 R Fk ltac:(reflexivity) ltac:(reflexivity) Q) as (ks' & Ro & Rs & Fs & Is).
      eapply (free_maybe _ _ ks'); [exact Rs|exact Fs|congruence| |exact H].
      apply (free_bracket ks b PopSeq); [unfold bracket; rewrite E; reflexivity|exact Ro|exact O]. }
    destruct (N.eqb_spec (N_of_ascii b) 58) as [E|_].
    { intros H. unfold rd_more in H. apply andthen_ok in H as (e1 & r1 & e2 & Q & H & ->). injection H as _ <-.
      pose proof (key_end_same r) as Sm. rewrite Q in Sm. destruct Sm as [S1 S2]. cbn [stays_free]. exists ks. rewrite S1. split; [exact R|]. split; [exact Fk|].
      unfold lx. rewrite S2, I. apply One. unfold plain_byte. rewrite E. reflexivity. }
    destruct (N.eqb_spec (N_of_ascii b) 44) as [E|_].
    { intros H. unfold rd_more in H. apply andthen_ok in H as (e1 & r1 & e2 & Q & H & ->). injection H as _ <-.
      pose proof (comma_same r) as Sm. rewrite Q in Sm. destruct Sm as [S1 S2]. cbn [stays_free]. exists ks. rewrite S1. split; [exact R|]. split; [exact Fk|].
      unfold lx. rewrite S2, I. apply One. unfold plain_byte. rewrite E. reflexivity. }
    destruct (N_of_ascii b =? 116)%N; [apply W; reflexivity|].
    destruct (N_of_ascii b =? 102)%N; [apply W; reflexivity|].
    destruct (N_of_ascii b =? 110)%N; [apply W; reflexivity|].
    destruct (_ || _ || _ || _) eqn:Ws.
    { apply IH. apply One. unfold plain_byte. repeat (apply orb_true_iff in Ws as [Ws|Ws]); apply N.eqb_eq in Ws; rewrite Ws; reflexivity. }
    match goal with |- (if ?c then _ else _) = _ -> _ => destruct c end; [|intros Hd; discriminate Hd].
    unfold rd_number. pose proof (number_app (b :: s)) as [Na Np]. destruct (number (b :: s)) as [n t]. cbn [fst snd] in *. intros H.
    rewrite Na, free_plain in O by exact Np.
    apply andthen_ok in H as (e1 & r1 & e2 & Q & H & ->). pose proof (value_begin_same r) as Sm. rewrite Q in Sm. destruct Sm as [S1 S2].
    do 7 peel H. eapply (free_maybe _ _ ks); [| | | |exact H]; congruence.
Qed.
Lemma all_free n : forall s r ks, represents (r_stack r) ks -> fits ks -> overflow_from (lx r) ks s = false -> resume_all_w n s r = resume_all n s r.
Proof.
  induction n as [|n IH]; intros s r ks R F O; [reflexivity|]. cbn [resume_all resume_all_w].
  assert (E : resume_w s r = resume s r).
  { unfold resume_w, resume, lx in *. destruct (r_in_str r); [reflexivity|]. apply resume_out_same. left. intros o Fo.
    pose proof (first_op_free ks s o O Fo) as C. pose proof (op_exact _ ks o R F) as X. destruct (counted_op ks o).
    - destruct X as (_ & _ & s' & -> & _). discriminate.
    - rewrite X. discriminate.
    - congruence. }
  rewrite E. destruct (resume s r) as [e1 [[s' r'|]| |]] eqn:T; try reflexivity.
  destruct (turn_free _ _ _ _ _ R F O T) as (ks' & R' & F' & O'). rewrite (IH _ _ ks' R' F' O'). reflexivity.
Qed.

(** ** Sixty-three levels *)
Lemma shallow_op ks o : List.length ks <= 63 -> counted_op ks o <> Overflows.
Proof.
  intros L. pose proof (counters_bound ks) as (B1 & B2 & B3).
  assert (P : (2 ^ N.of_nat (List.length ks) <= 2 ^ 63)%N) by (apply N.pow_le_mono_r; lia).
  assert (E : (2 * 2 ^ 63 = U64_LIM)%N) by reflexivity. unfold counted_op, u64. generalize dependent (2 ^ 63)%N. intros z Pz Ez.
  destruct (N.ltb_spec (other ks o + 1) U64_LIM) as [|H].
  - destruct (real_op ks o); [destruct (_ && _)|]; discriminate.
  - exfalso. unfold other in H. destruct o; lia.
Qed.
Lemma shallow_free s : forall l ks, nests_within 63 l (List.length ks) s = true -> overflow_from l ks s = false.
Proof.
  induction s as [|b s IH]; intros l ks H; [reflexivity|]. cbn [nests_within overflow_from] in *. apply andb_true_iff in H as [L H]. apply Nat.leb_le in L.
  destruct l; [|apply IH, H..]. destruct (bracket b) as [o|]; [|apply IH, H].
  destruct (counted_op ks o) as [ks'| |] eqn:C; [|reflexivity|exfalso; exact (shallow_op ks o L C)].
  apply IH. apply op_kind in C. destruct o; cbn [real_op] in C.
  - injection C as <-. exact H.
  - destruct ks as [|[|] ks]; try discriminate. injection C as <-. exact H.
  - injection C as <-. exact H.
  - destruct ks as [|[|] ks]; try discriminate. injection C as <-. exact H.
Qed.
