(** * JsonIoProps: exactly when an [io::Write] loses text (C28) *)

From Verif Require Import Base Event Tree LowerModel LowerSpec FlatProofs LowerProofs MethProofs DataModel
  JsonModel JsonGrammar JsonSpec JsonMethProofs JsonProofs JsonSimProofs JsonProps JsonWriterProps.

(** Any writer that can tell whether it has answered [Ok(0)].  Success means that the
    value can be written, and that the writer took the whole text exactly if it never
    gave that answer.  If it never did and there is an error, it took a prefix. *)
Theorem C28_loss_exactly :
  forall (IO : Type) (write : IO -> bytes -> IO * io_resp) (zero : IO -> bool),
  (forall st buf, zero (fst (write st buf)) = match snd (write st buf) with IoN 0 => true | _ => zero st end) ->
  forall r32 r64 fuel io v, zero io = false ->
  match json_to_io IO write fuel r32 r64 io v with
  | JOk w => exists s, json_to_string r32 r64 v = SOk s /\ (io_taken IO w = s <-> zero (io_st IO w) = false)
  | JErr _ w => zero (io_st IO w) = false -> forall s, string_text r32 r64 v = Some s -> prefix (io_taken IO w) s
  | JPanic => True
  end.
Proof.
  intros IO write zero H r32 r64 fuel io v Z.
  assert (L : forall k w buf,
    match io_loop IO write k w buf with
    | Ok w' => zero (io_st IO w') = zero (io_st IO w) /\ io_taken IO w' = io_taken IO w ++ buf \/
               zero (io_st IO w') = true /\ exists a c, c <> [] /\ io_taken IO w' = io_taken IO w ++ a /\ buf = a ++ c
    | Err w' => zero (io_st IO w') = zero (io_st IO w) /\ exists a c, io_taken IO w' = io_taken IO w ++ a /\ buf = a ++ c
    | Panic => True
    end).
  { induction k as [|k IH]; intros w buf; destruct buf as [|b buf]; cbn [io_loop]; auto; try (left; rewrite app_nil_r; auto; fail).
    pose proof (H (io_st IO w) (b :: buf)) as X. destruct (write (io_st IO w) (b :: buf)) as [st r]. cbn [fst snd] in X.
    destruct r as [[|n]| |].
    - right. cbn [io_st io_taken]. split; [exact X|]. exists [], (b :: buf). rewrite app_nil_r. repeat split. discriminate.
    - destruct (Nat.leb_spec (S n) (List.length (b :: buf))); [|exact I].
      specialize (IH (MkIo IO st (io_taken IO w ++ firstn (S n) (b :: buf)) (io_err IO w) (io_fuel IO w)) (skipn (S n) (b :: buf))).
      pose proof (firstn_skipn (S n) (b :: buf)) as FS.
      set (x := firstn (S n) (b :: buf)) in *. set (y := skipn (S n) (b :: buf)) in *. cbn [io_st io_taken] in IH. rewrite X in IH.
      destruct (io_loop IO write k _ y) as [w'|w'|]; auto.
      + destruct IH as [(A & B)|(A & a & c & C & B & D)].
        * left. split; [exact A|]. rewrite B, <- app_assoc, FS. reflexivity.
        * right. split; [exact A|]. exists (x ++ a), c. split; [exact C|]. split; [rewrite B, <- app_assoc; reflexivity|]. rewrite <- app_assoc, <- D. auto.
      + destruct IH as (A & a & c & B & D). split; [exact A|]. exists (x ++ a), c. split; [rewrite B, <- app_assoc; reflexivity|]. rewrite <- app_assoc, <- D. auto.
    - specialize (IH (MkIo IO st (io_taken IO w) (io_err IO w) (io_fuel IO w)) (b :: buf)). cbn [io_st io_taken] in IH. rewrite X in IH. exact IH.
    - cbn [io_st io_taken]. split; [exact X|]. exists [], (b :: buf). rewrite app_nil_r. auto. }
  pose (Rw := fun (w : iow IO) (s : bytes) => if zero (io_st IO w) then List.length (io_taken IO w) < List.length s else io_taken IO w = s).
  pose (Fw := fun (w : iow IO) (s : bytes) => zero (io_st IO w) = false -> prefix (io_taken IO w) s).
  destruct (op_value (iow IO) bytes (io_write_str IO write) string_write r32 r64 Rw Fw True (fun _ => True)) with (v := v) as (A & _).
  - intros w1 w2 s R. unfold io_write_str. specialize (L (io_fuel IO w1 * List.length s) w1 s).
    destruct (io_loop IO write _ w1 s) as [w|w|]; cbn [sim string_write]; auto; unfold Rw, Fw in *.
    + rewrite app_length. destruct L as [(-> & ->)|(-> & a & c & C & -> & ->)].
      * destruct (zero (io_st IO w1)); [rewrite app_length; lia|congruence].
      * rewrite !app_length. destruct c as [|x c]; [congruence|]. cbn [List.length].
        destruct (zero (io_st IO w1)); [lia|]. subst w2. lia.
    + destruct L as (-> & a & c & -> & ->). intros Z1. rewrite Z1 in R. exists c. rewrite R, app_assoc. reflexivity.
  - auto.
  - intros w1 w2 s F. cbn. unfold Fw in *. intros Z1. destruct (F Z1) as (c & ->). exists (c ++ s). rewrite app_assoc. reflexivity.
  - specialize (A (fm_new (iow IO) (MkIo IO io [] false fuel)) (fm_new bytes [])).
    assert (X : fR (iow IO) bytes Rw (fm_new (iow IO) (MkIo IO io [] false fuel)) (fm_new bytes [])).
    { repeat split. unfold Rw. cbn. rewrite Z. reflexivity. }
    specialize (A X). unfold json_to_io, json_to_string, string_text, json_to_fmt.
    set (q := run_impl json_over (json_step (iow IO) (io_write_str IO write) r32 r64) _ v) in *.
    set (r := run_impl json_over (json_step bytes string_write r32 r64) _ v) in *.
    destruct q as [f|f|]; cbn [sim] in A; auto.
    + destruct r as [g|g|]; try contradiction. exists (f_out g). split; [reflexivity|].
      destruct A as (_ & _ & _ & _ & _ & A). unfold Rw in A. destruct (zero (io_st IO (f_out f))).
      * split; [|discriminate]. intros E. rewrite E in A. lia.
      * split; auto.
    + intros Z1 s E. destruct r as [g|g|]; [| |discriminate]; injection E as <-; unfold fF, Fw in A.
      * apply A, Z1.
      * destruct A as [(_ & _ & _ & _ & _ & A)|A]; [|apply A, Z1]. unfold Rw in A. rewrite Z1 in A. exists []. rewrite app_nil_r. congruence.
Qed.

(** A writer with room for [n] bytes, then full, as a [&mut [u8]] is. *)
Definition slice_write (st : nat * bool) (buf : bytes) : (nat * bool) * io_resp :=
  let n := Nat.min (fst st) (List.length buf) in ((fst st - n, (snd st || (n =? 0))%nat), IoN n).
Example C28_slice :
  (forall st buf, snd (fst (slice_write st buf)) = match snd (slice_write st buf) with IoN 0 => true | _ => snd st end) /\
  (exists w, json_to_io _ slice_write 1 exact_print exact_print (8, false) (map CE (emit (TSeq None [TBool true; TNull]))) = JOk w /\
     io_taken _ w = bs "[true,nu" /\ snd (io_st _ w) = true) /\
  (exists w, json_to_io _ slice_write 1 exact_print exact_print (11, false) (map CE (emit (TSeq None [TBool true; TNull]))) = JOk w /\
     io_taken _ w = bs "[true,null]" /\ snd (io_st _ w) = false).
Proof.
  split.
  - intros [n b] buf. unfold slice_write. cbn [fst snd]. destruct (Nat.min n (List.length buf)); cbn [Nat.eqb]; [apply orb_true_r|apply orb_false_r].
  - split; eexists; vm_compute; repeat split.
Qed.

Print Assumptions C28_loss_exactly.
