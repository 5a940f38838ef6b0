(** * JsonWriterProps: writers that fail, write short, or are interrupted (C28, C45) *)

From Verif Require Import Base Event Tree LowerModel LowerSpec FlatProofs LowerProofs MethProofs DataModel
  JsonModel JsonGrammar JsonSpec JsonMethProofs JsonProofs JsonSimProofs JsonProps.

(** ** C28 *)

(** What a [String] holds when streaming to it ends, failed or not. *)
Definition string_text (r32 r64 : float -> bytes) (v : list call) : option bytes :=
  match json_to_fmt bytes string_write r32 r64 [] v with
  | JOk s | JErr _ s => Some s
  | JPanic => None
  end.
Definition prefix (a b : bytes) : Prop := exists c, b = a ++ c.

(** The full claim: [Ok] means that every byte was accepted; on [Err] a prefix was. *)
Definition C28_all_or_error : Prop :=
  forall (IO : Type) (write : IO -> bytes -> IO * io_resp) r32 r64 fuel io v,
  match json_to_io IO write fuel r32 r64 io v with
  | JOk w => json_to_string r32 r64 v = SOk (io_taken IO w)
  | JErr _ w => forall s, string_text r32 r64 v = Some s -> prefix (io_taken IO w) s
  | JPanic => True
  end.
(** A writer that answers [Ok(0)], as a full [&mut [u8]] does, loses text silently. *)
Theorem C28_all_or_error_refuted : ~ C28_all_or_error.
Proof.
  intros H. specialize (H unit (fun _ _ => (tt, IoN 0)) exact_print exact_print 1 tt [CE ENull]). vm_compute in H. discriminate H.
Qed.

(** A writer that, asked to write something, accepts some of it, fails, or is interrupted. *)
Definition writer_ok {IO} (write : IO -> bytes -> IO * io_resp) : Prop :=
  forall st buf, buf <> [] ->
  match snd (write st buf) with
  | IoN n => 1 <= n <= List.length buf
  | IoInterrupted | IoErr => True
  end.
(** At most [k] interruptions in a row: [m] bounds those still to come. *)
Definition interrupts {IO} (write : IO -> bytes -> IO * io_resp) (k : nat) : Prop :=
  exists m : IO -> nat, (forall st, m st <= k) /\
  forall st buf, buf <> [] -> snd (write st buf) = IoInterrupted -> m (fst (write st buf)) < m st.

Section Io.
  Variable IO : Type.
  Variable write : IO -> bytes -> IO * io_resp.
  Variable r32 r64 : float -> bytes.
  Hypothesis W : writer_ok write.

  Definition ioR (w : iow IO) (s : bytes) : Prop := io_taken IO w = s /\ io_err IO w = false.
  Definition ioF (w : iow IO) (s : bytes) : Prop := prefix (io_taken IO w) s /\ io_err IO w = true.

  (** What the loop does, whatever the fuel. *)
  Lemma io_loop_spec fuel : forall w buf, io_err IO w = false ->
    match io_loop IO write fuel w buf with
    | Ok w' => io_taken IO w' = io_taken IO w ++ buf /\ io_err IO w' = false /\ io_fuel IO w' = io_fuel IO w
    | Err w' => io_err IO w' = true /\ exists a c, io_taken IO w' = io_taken IO w ++ a /\ buf = a ++ c
    | Panic => True
    end.
  Proof.
    induction fuel as [|fuel IH]; intros w buf E; destruct buf as [|b buf]; cbn [io_loop]; auto;
      try (rewrite app_nil_r; auto; fail).
    pose proof (W (io_st IO w) (b :: buf) ltac:(discriminate)) as H.
    destruct (write (io_st IO w) (b :: buf)) as [st' r] eqn:Wr. cbn [snd] in H. destruct r as [n| |].
    - destruct n as [|n]; [lia|]. destruct H as (_ & H).
      destruct (Nat.leb_spec (S n) (List.length (b :: buf))); [|exact I].
      specialize (IH (MkIo IO st' (io_taken IO w ++ firstn (S n) (b :: buf)) (io_err IO w) (io_fuel IO w)) (skipn (S n) (b :: buf)) E).
      cbn [io_taken io_fuel io_err] in IH. destruct (io_loop _ _ _ _ _) as [w'|w'|]; auto.
      + destruct IH as (A & B & C). split; [|auto]. rewrite A, <- app_assoc, firstn_skipn. reflexivity.
      + destruct IH as (A & a & c & B & C). split; [exact A|]. exists (firstn (S n) (b :: buf) ++ a), c.
        rewrite B, <- app_assoc. split; [reflexivity|]. rewrite <- app_assoc, <- C, firstn_skipn. reflexivity.
    - specialize (IH (MkIo IO st' (io_taken IO w) (io_err IO w) (io_fuel IO w)) (b :: buf) E). exact IH.
    - cbn [io_err io_taken]. split; [reflexivity|]. exists [], (b :: buf). rewrite app_nil_r. auto.
  Qed.
  Lemma io_loop_total m k : (forall st, m st <= k) ->
    (forall st buf, buf <> [] -> snd (write st buf) = IoInterrupted -> m (fst (write st buf)) < m st) ->
    forall fuel w buf, (List.length buf = 0 \/ S k * List.length buf <= fuel + (k - m (io_st IO w))) -> io_loop IO write fuel w buf <> Panic.
  Proof.
    intros M D. induction fuel as [|fuel IH]; intros w buf H; destruct buf as [|b buf]; cbn [io_loop]; try discriminate.
    - destruct H as [H|H]; [discriminate|]. cbn [List.length] in H. pose proof (M (io_st IO w)). nia.
    - destruct H as [H|H]; [discriminate|].
      pose proof (W (io_st IO w) (b :: buf) ltac:(discriminate)) as H1.
      pose proof (D (io_st IO w) (b :: buf) ltac:(discriminate)) as H2.
      destruct (write (io_st IO w) (b :: buf)) as [st' r] eqn:Wr. cbn [fst snd] in H1, H2. destruct r as [n| |].
      + destruct n as [|n]; [lia|]. destruct H1 as (_ & H1).
        destruct (Nat.leb_spec (S n) (List.length (b :: buf))); [|lia].
        apply IH. cbn [io_st]. destruct (Nat.eq_dec (List.length (skipn (S n) (b :: buf))) 0) as [Z|Z]; [auto|right].
        rewrite skipn_length in *. pose proof (M (io_st IO w)). pose proof (M st'). cbn [List.length] in *. nia.
      + apply IH. cbn [io_st]. right. specialize (H2 eq_refl). pose proof (M (io_st IO w)). lia.
      + discriminate.
  Qed.

  Definition ioRk (k : nat) (w : iow IO) (s : bytes) : Prop := ioR w s /\ io_fuel IO w = k.
  Lemma io_sim fuel (Pn : Prop) :
    (forall w s, io_fuel IO w = fuel -> io_write_str IO write w s = Panic -> Pn) ->
    forall w1 w2 s, ioRk fuel w1 w2 -> sim Pn (ioRk fuel) ioF (fun w => io_err IO w = true) (io_write_str IO write w1 s) (string_write w2 s).
  Proof.
    intros H w1 w2 s ((E1 & E2) & E3). pose proof (io_loop_spec (io_fuel IO w1 * List.length s) w1 s E2) as L.
    pose proof (H w1 s E3) as P. unfold io_write_str in *. unfold sim, string_write.
    destruct (io_loop IO write (io_fuel IO w1 * List.length s) w1 s) as [w|w|].
    - destruct L as (A & B & C). unfold ioRk, ioR. repeat split; congruence.
    - destruct L as (A & a & c & B & C). unfold ioF, prefix. split; [|exact A]. exists c. rewrite B, C, <- app_assoc. congruence.
    - auto.
  Qed.
  Lemma io_value fuel (Pn : Prop) io v :
    (forall w s, io_fuel IO w = fuel -> io_write_str IO write w s = Panic -> Pn) ->
    sim Pn (fR (iow IO) bytes (ioRk fuel)) (fF (iow IO) bytes ioF) (fun f => io_err IO (f_out f) = true)
      (run_impl json_over (json_step (iow IO) (io_write_str IO write) r32 r64) (fm_new (iow IO) (MkIo IO io [] false fuel)) v)
      (run_impl json_over (json_step bytes string_write r32 r64) (fm_new bytes []) v).
  Proof.
    intros H. apply (op_value (iow IO) bytes (io_write_str IO write) string_write r32 r64 (ioRk fuel) ioF Pn (fun w => io_err IO w = true) (io_sim fuel Pn H)).
    - intros w1 w2 (_ & A). exact A.
    - intros w1 w2 s ((c & A) & B). cbn. split; [|exact B]. exists (c ++ s). rewrite A, app_assoc. reflexivity.
    - repeat split.
  Qed.
End Io.

(** Missing: writers answering [Ok(0)] (see the refutation).  [JPanic] stands for a panic
    of the formatter or for more than [fuel] answers per byte; the second theorem
    excludes the latter. *)
Theorem C28_all_or_error_partial :
  forall (IO : Type) (write : IO -> bytes -> IO * io_resp), writer_ok write ->
  forall r32 r64 fuel io v,
  match json_to_io IO write fuel r32 r64 io v with
  | JOk w => json_to_string r32 r64 v = SOk (io_taken IO w)
  | JErr e w =>
      (forall s, string_text r32 r64 v = Some s -> prefix (io_taken IO w) s) /\
      (e = EIO \/ (json_to_string r32 r64 v = SErr e /\ string_text r32 r64 v = Some (io_taken IO w)))
  | JPanic => True
  end.
Proof.
  intros IO write W r32 r64 fuel io v.
  pose proof (io_value IO write r32 r64 W fuel True io v ltac:(auto)) as H.
  unfold json_to_io, json_to_string, string_text, json_to_fmt.
  set (q := run_impl json_over (json_step (iow IO) (io_write_str IO write) r32 r64) _ v) in *.
  set (r := run_impl json_over (json_step bytes string_write r32 r64) _ v) in *.
  destruct q as [f|f|]; cbn [sim] in H; [| |exact I].
  - destruct r as [g|g|]; try contradiction. destruct H as (_ & _ & _ & _ & _ & (A & _) & _). f_equal. congruence.
  - destruct r as [g|g|].
    + destruct H as (A & B). rewrite B. split; [|auto]. intros s [= <-]. exact A.
    + destruct H as [(_ & _ & _ & _ & E & (A & B) & _)|(A & B)]; rewrite B.
      * split; [intros s [= <-]; exists []; rewrite app_nil_r; congruence|]. right. rewrite E. split; [reflexivity|congruence].
      * split; [|auto]. intros s [= <-]. exact A.
    + rewrite H. split; [discriminate|auto].
Qed.
(** With at most [k] interruptions in a row the call returns, unless the formatter
    panics on a [String] as well. *)
Theorem C28_interruptions_are_retried :
  forall (IO : Type) (write : IO -> bytes -> IO * io_resp) k, writer_ok write -> interrupts write k ->
  forall r32 r64 io v, json_to_string r32 r64 v <> SPanic ->
  json_to_io IO write (S k) r32 r64 io v <> JPanic.
Proof.
  intros IO write k W (m & M & D) r32 r64 io v NP.
  pose proof (io_value IO write r32 r64 W (S k) False io v) as H.
  unfold json_to_io, json_to_string, json_to_fmt in *.
  set (q := run_impl json_over (json_step (iow IO) (io_write_str IO write) r32 r64) _ v) in *.
  set (r := run_impl json_over (json_step bytes string_write r32 r64) _ v) in *.
  destruct q as [f|f|]; try discriminate. cbn [sim] in H.
  destruct H as [H|H]; [|rewrite H in NP; congruence|contradiction].
  intros w s F P. unfold io_write_str in P. rewrite F in P. eapply io_loop_total in P; [exact P|exact W|exact M|exact D|].
  right. lia.
Qed.
(** A writer that never fails receives the whole text. *)
Theorem C28_no_error_no_loss :
  forall (IO : Type) (write : IO -> bytes -> IO * io_resp) k, writer_ok write -> interrupts write k ->
  (forall st buf, snd (write st buf) <> IoErr) ->
  forall r32 r64 io v s, json_to_string r32 r64 v = SOk s ->
  exists w, json_to_io IO write (S k) r32 r64 io v = JOk w /\ io_taken IO w = s.
Proof.
  intros IO write k W I N r32 r64 io v s H.
  destruct I as (m & M & D).
  destruct (op_value (iow IO) bytes (io_write_str IO write) string_write r32 r64 (ioRk IO (S k)) (fun _ _ => False) False (fun _ => False)) with (v := v) as (A & _).
  - intros w1 w2 x ((E1 & E2) & E3). unfold io_write_str.
    pose proof (io_loop_spec IO write W (io_fuel IO w1 * List.length x) w1 x E2) as L.
    assert (NP : io_loop IO write (io_fuel IO w1 * List.length x) w1 x <> Panic) by (eapply io_loop_total; [exact W|exact M|exact D|right; rewrite E3; lia]).
    assert (NE : forall w, io_loop IO write (io_fuel IO w1 * List.length x) w1 x <> Err w).
    { clear -N. intros w. generalize (io_fuel IO w1 * List.length x). intros fuel. revert w1 x.
      induction fuel as [|fuel IH]; intros w1 x; destruct x as [|b x]; cbn [io_loop]; try discriminate.
      pose proof (N (io_st IO w1) (b :: x)) as N1. destruct (write (io_st IO w1) (b :: x)) as [st' [[|j]| |]]; try discriminate.
      - destruct (Nat.leb (S j) (List.length (b :: x))); [|discriminate]. apply IH.
      - apply IH.
      - destruct (N1 eq_refl). }
    destruct (io_loop IO write (io_fuel IO w1 * List.length x) w1 x) as [w|w|]; [|destruct (NE w eq_refl)|destruct (NP eq_refl)].
    destruct L as (L1 & L2 & L3). cbn. unfold ioRk, ioR. repeat split; congruence.
  - intros w1 w2 [].
  - intros w1 w2 x [].
  - specialize (A (fm_new (iow IO) (MkIo IO io [] false (S k))) (fm_new bytes [])).
    assert (X : fR (iow IO) bytes (ioRk IO (S k)) (fm_new (iow IO) (MkIo IO io [] false (S k))) (fm_new bytes [])) by (repeat split).
    specialize (A X). unfold json_to_io, json_to_string, json_to_fmt in *.
    set (q := run_impl json_over (json_step (iow IO) (io_write_str IO write) r32 r64) _ v) in *.
    set (r := run_impl json_over (json_step bytes string_write r32 r64) _ v) in *.
    destruct r as [g|g|]; try discriminate. destruct q as [f|f|]; cbn [sim] in A; [|contradiction|destruct A; [discriminate|contradiction]].
    exists (f_out f). split; [reflexivity|]. destruct A as (_ & _ & _ & _ & _ & (A & _) & _). congruence.
Qed.

(** A writer taking three bytes at a time, interrupted before each. *)
Definition slow_write (st : bool) (buf : bytes) : bool * io_resp :=
  if st then (false, IoInterrupted) else (true, IoN (Nat.min 3 (List.length buf))).
Example C28_slow_writer_ok : writer_ok slow_write /\ interrupts slow_write 1.
Proof.
  split.
  - intros [] buf H; unfold slow_write; cbn [snd]; auto. destruct buf; [congruence|]. cbn [List.length]. lia.
  - exists (fun st : bool => if st then 1 else 0). split; [intros []; lia|]. intros [] buf H; cbn; [lia|discriminate].
Qed.
Example C28_slow_writer :
  exists w, json_to_io bool slow_write 2 exact_print exact_print true (map CE (emit json_sample)) = JOk w /\
    json_to_string exact_print exact_print (map CE (emit json_sample)) = SOk (io_taken bool w).
Proof. eexists. split; vm_compute; reflexivity. Qed.
(** A writer that takes five bytes and then fails. *)
Definition short_write (left : nat) (buf : bytes) : nat * io_resp :=
  match left with 0 => (0, IoErr) | S l => (l, IoN 1) end.
Example C28_short_writer : writer_ok short_write /\ exists w,
  json_to_io nat short_write 1 exact_print exact_print 5 (map CE (emit (txt "abcdefg"))) = JErr EIO w /\ io_taken nat w = bs """abcd".
Proof.
  split; [|eexists; split; vm_compute; reflexivity].
  intros [|l] buf H; cbn; auto. destruct buf; [congruence|]. cbn [List.length]. lia.
Qed.

(** ** C45 *)

(** Any writer, observed: [ob_log] is what it accepted, [ob_failed] that a call
    failed, [ob_late] that another call was made after that. *)
Record observed (W : Type) := MkOb { ob_w : W; ob_log : list bytes; ob_failed : bool; ob_late : bool }.
Arguments MkOb {W}. Arguments ob_w {W}. Arguments ob_log {W}. Arguments ob_failed {W}. Arguments ob_late {W}.
Definition observe {W} (wr : W -> bytes -> res W) (o : observed W) (s : bytes) : res (observed W) :=
  if ob_failed o then Ok (MkOb (ob_w o) (ob_log o) true true)
  else match wr (ob_w o) s with
       | Ok w => Ok (MkOb w (ob_log o ++ [s]) false (ob_late o))
       | Err w => Err (MkOb w (ob_log o) true (ob_late o))
       | Panic => Panic
       end.
(** A writer that accepts everything. *)
Definition accept (l : list bytes) (s : bytes) : res (list bytes) := Ok (l ++ [s]).

(** [json_to_fmt] on any [fmt::Write]: once a write fails no other is made, the result is
    an error, and what was accepted is a prefix of what a writer that never fails is given. *)
Theorem C45_json_failure_is_prompt_and_reported :
  forall (W : Type) (wr : W -> bytes -> res W) r32 r64 w v,
  match json_to_fmt (observed W) (observe wr) r32 r64 (MkOb w [] false false) v with
  | JOk o => ob_failed o = false /\ json_to_fmt (list bytes) accept r32 r64 [] v = JOk (ob_log o)
  | JErr e o => ob_late o = false /\
      match json_to_fmt (list bytes) accept r32 r64 [] v with
      | JOk l => ob_failed o = true /\ exists c, l = ob_log o ++ c
      | JErr e' l => (ob_failed o = true /\ exists c, l = ob_log o ++ c) \/ (ob_failed o = false /\ l = ob_log o /\ e = e')
      | JPanic => ob_failed o = true
      end
  | JPanic => True
  end.
Proof.
  intros W wr r32 r64 w v.
  pose (Rw := fun (o : observed W) (l : list bytes) => ob_failed o = false /\ ob_late o = false /\ ob_log o = l).
  pose (Fw := fun (o : observed W) (l : list bytes) => ob_failed o = true /\ ob_late o = false /\ exists c, l = ob_log o ++ c).
  pose (Pw := fun (o : observed W) => ob_failed o = true /\ ob_late o = false).
  destruct (op_value (observed W) (list bytes) (observe wr) accept r32 r64 Rw Fw True Pw) with (v := v) as (A & _).
  - intros w1 w2 s (E1 & E2 & E3). unfold observe, accept. rewrite E1. destruct (wr (ob_w w1) s); cbn [sim]; auto.
    + repeat split; cbn; congruence.
    + repeat split; cbn; auto. exists [s]. congruence.
  - intros w1 w2 (E1 & E2 & _). split; assumption.
  - intros w1 w2 s (E1 & E2 & c & E3). cbn. repeat split; auto. exists (c ++ [s]). rewrite E3, app_assoc. reflexivity.
  - specialize (A (fm_new (observed W) (MkOb w [] false false)) (fm_new (list bytes) [])).
    assert (X : fR (observed W) (list bytes) Rw (fm_new (observed W) (MkOb w [] false false)) (fm_new (list bytes) [])) by (repeat split).
    specialize (A X). unfold json_to_fmt.
    set (q := run_impl json_over (json_step (observed W) (observe wr) r32 r64) _ v) in *.
    set (r := run_impl json_over (json_step (list bytes) accept r32 r64) _ v) in *.
    destruct q as [f|f|]; cbn [sim] in A; [| |exact I].
    + destruct r as [g|g|]; try contradiction. destruct A as (_ & _ & _ & _ & _ & A1 & A2 & A3). split; [exact A1|]. f_equal. congruence.
    + destruct r as [g|g|].
      * destruct A as (A1 & A2 & A3). auto.
      * destruct A as [(_ & _ & _ & _ & E & A1 & A2 & A3)|(A1 & A2 & A3)].
        -- split; [exact A2|]. right. rewrite E. auto.
        -- split; [exact A2|]. left. auto.
      * destruct A as (A1 & A2). auto.
Qed.
Example C45_sample : exists e o,
  json_to_fmt (observed nat) (observe (fun n s => match n with 0 => Err 0 | S n => Ok n end)) exact_print exact_print
    (MkOb 3 [] false false) (map CE (emit json_sample)) = JErr e o /\ ob_failed o = true /\ List.length (ob_log o) = 3.
Proof. eexists. eexists. repeat split; vm_compute; reflexivity. Qed.

(** The same of any stream: whatever methods it overrides, a value makes no call on it
    after one has failed, and the failure is the result. *)
Record watched (S : Type) := MkWa { wa_s : S; wa_calls : list ev; wa_failed : bool; wa_late : bool }.
Arguments MkWa {S}. Arguments wa_s {S}. Arguments wa_calls {S}. Arguments wa_failed {S}. Arguments wa_late {S}.
Definition watch {S} (step : S -> ev -> res S) (o : watched S) (e : ev) : res (watched S) :=
  if wa_failed o then Ok (MkWa (wa_s o) (wa_calls o) true true)
  else match step (wa_s o) e with
       | Ok s => Ok (MkWa s (wa_calls o ++ [e]) false (wa_late o))
       | Err s => Err (MkWa s (wa_calls o ++ [e]) true (wa_late o))
       | Panic => Panic
       end.
Theorem C45_no_calls_after_a_failure :
  forall (S : Type) (over : ev -> bool) (step : S -> ev -> res S) s v,
  match run_impl over (watch step) (MkWa s [] false false) v with
  | Ok o => wa_failed o = false /\ wa_calls o = lower_all over (fst (flat v false)) /\ run_impl over step s v = Ok (wa_s o)
  | Err o =>
      wa_late o = false /\ (wa_failed o = true \/ snd (flat v false) = false) /\
      (exists c, lower_all over (fst (flat v false)) = wa_calls o ++ c) /\ run_impl over step s v = Err (wa_s o)
  | Panic => run_impl over step s v = Panic
  end.
Proof.
  intros S over step s v. unfold run_impl. destruct (flat v false) as [es ok]. cbn [fst snd].
  generalize (lower_all over es). clear es. intros es.
  assert (G : forall done o, wa_failed o = false -> wa_late o = false -> wa_calls o = done ->
    match run (watch step) o es with
    | Ok o' => wa_failed o' = false /\ wa_late o' = false /\ wa_calls o' = done ++ es /\ run step (wa_s o) es = Ok (wa_s o')
    | Err o' => wa_failed o' = true /\ wa_late o' = false /\ (exists c, done ++ es = wa_calls o' ++ c) /\ run step (wa_s o) es = Err (wa_s o')
    | Panic => run step (wa_s o) es = Panic
    end).
  { induction es as [|e es IH]; intros done o E1 E2 E3; cbn [run].
    - rewrite app_nil_r. auto.
    - unfold watch at 1. rewrite E1. destruct (step (wa_s o) e) as [s'|s'|]; cbn [bind].
      + specialize (IH (done ++ [e]) (MkWa s' (wa_calls o ++ [e]) false (wa_late o)) eq_refl E2 ltac:(cbn; congruence)).
        rewrite <- app_assoc in IH. exact IH.
      + cbn. repeat split; auto. exists es. rewrite E3, <- app_assoc. reflexivity.
      + reflexivity. }
  specialize (G [] (MkWa s [] false false) eq_refl eq_refl eq_refl). cbn [wa_s app] in G.
  destruct (run (watch step) (MkWa s [] false false) es) as [o|o|]; cbn [bind].
  - destruct G as (A & B & C & D). rewrite D. cbn [bind]. destruct ok.
    + auto.
    + repeat split; auto. exists []. rewrite C, app_nil_r. reflexivity.
  - destruct G as (A & B & C & D). rewrite D. cbn [bind]. auto.
  - rewrite G. reflexivity.
Qed.
Example C45_stream_sample :
  run_impl (fun _ => true) (watch (fun n e => match n with 0 => Err 0 | S n => Ok n end)) (MkWa 2 [] false false) (map CE (emit (txt "abc"))) =
    Err (MkWa 0 (emit (txt "abc")) true false).
Proof. vm_compute. reflexivity. Qed.

Print Assumptions C28_all_or_error_refuted.
Print Assumptions C28_all_or_error_partial.
Print Assumptions C28_interruptions_are_retried.
Print Assumptions C28_no_error_no_loss.
Print Assumptions C45_json_failure_is_prompt_and_reported.
Print Assumptions C45_no_calls_after_a_failure.
