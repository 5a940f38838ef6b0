(** * Event: the calls of [sval::Stream], values as call lists, running a stream *)

From Verif Require Import Base.

(** One constructor per method of [trait Stream] ([src/stream.rs:6-454]) other
    than [value] and [value_computed].  The integer methods [u8] .. [i128] are
    one constructor with the type as argument.  "Frag" is the borrowed form,
    "FragC" the computed form. *)
Inductive ev :=
| ENull
| EBool (b : bool)
| ETextBegin (n : option N)
| ETextFrag (s : bytes)
| ETextFragC (s : bytes)
| ETextEnd
| EBinBegin (n : option N)
| EBinFrag (s : bytes)
| EBinFragC (s : bytes)
| EBinEnd
| EInt (t : ity) (z : Z)
| EF32 (f : float)
| EF64 (f : float)
| EMapBegin (n : option N)
| EMapKeyBegin
| EMapKeyEnd
| EMapValBegin
| EMapValEnd
| EMapEnd
| ESeqBegin (n : option N)
| ESeqValBegin
| ESeqValEnd
| ESeqEnd
| EEnumBegin (t : option tag) (l : option label) (i : option index)
| EEnumEnd (t : option tag) (l : option label) (i : option index)
| ETaggedBegin (t : option tag) (l : option label) (i : option index)
| ETaggedEnd (t : option tag) (l : option label) (i : option index)
| ETag (t : option tag) (l : option label) (i : option index)
| ETagHint (t : tag)
| ERecordBegin (t : option tag) (l : option label) (i : option index) (n : option N)
| ERecordValBegin (t : option tag) (l : label)
| ERecordValEnd (t : option tag) (l : label)
| ERecordEnd (t : option tag) (l : option label) (i : option index)
| ETupleBegin (t : option tag) (l : option label) (i : option index) (n : option N)
| ETupleValBegin (t : option tag) (i : index)
| ETupleValEnd (t : option tag) (i : index)
| ETupleEnd (t : option tag) (l : option label) (i : option index)
| ERecTupBegin (t : option tag) (l : option label) (i : option index) (n : option N)
| ERecTupValBegin (t : option tag) (l : label) (i : index)
| ERecTupValEnd (t : option tag) (l : label) (i : index)
| ERecTupEnd (t : option tag) (l : option label) (i : option index).

(** A value's behaviour: the calls its [stream] method makes, in order.  Every
    call is followed by [?], so a value stops at the first failing call; [CFail]
    is a value failing by itself ([sval::error()]).  [CV]/[CVC] are
    [stream.value(&v)] and [stream.value_computed(&v)]. *)
Inductive call :=
| CE (e : ev)
| CV (cs : list call)
| CVC (cs : list call)
| CFail.

(** What [Computed] ([src/stream.rs:786-1120]) does to each call: borrowed
    fragments are forwarded as computed ones (815-817, 831-833), every other
    method is forwarded unchanged. *)
Definition computed (e : ev) : ev :=
  match e with
  | ETextFrag s => ETextFragC s
  | EBinFrag s => EBinFragC s
  | e => e
  end.

(** The calls received by a stream that does not override [value] or
    [value_computed]: [default_stream::value] is [v.stream(stream)]
    ([src/stream.rs:1132-1137]), [default_stream::value_computed] is
    [v.stream(Computed(stream))] (1142-1147).  [Computed] itself treats [value]
    as the default (799-801) and forwards [value_computed] to the stream it
    wraps (804-806), so the wrapper never nests: a boolean is enough.  The
    second component is [true] when the value ends without failing by itself. *)
Fixpoint flat1 (c : call) (comp : bool) : list ev * bool :=
  let fix go (cs : list call) (comp : bool) : list ev * bool :=
      match cs with
      | [] => ([], true)
      | c :: cs' =>
          let (es, ok) := flat1 c comp in
          if ok then let (es', ok') := go cs' comp in (es ++ es', ok') else (es, false)
      end in
  match c with
  | CE e => ([if comp then computed e else e], true)
  | CV cs => go cs comp
  | CVC cs => go cs true
  | CFail => ([], false)
  end.

Fixpoint flat (cs : list call) (comp : bool) : list ev * bool :=
  match cs with
  | [] => ([], true)
  | c :: cs' =>
      let (es, ok) := flat1 c comp in
      if ok then let (es', ok') := flat cs' comp in (es ++ es', ok') else (es, false)
  end.

(** Running a state machine over a list of calls, stopping at the first error. *)
Fixpoint run {S} (step : S -> ev -> res S) (s : S) (es : list ev) : res S :=
  match es with
  | [] => Ok s
  | e :: es' => step s e >>= fun s' => run step s' es'
  end.

(** [v.stream(&mut s)] for a stream that does not override [value] and
    [value_computed]. *)
Definition stream_value {S} (step : S -> ev -> res S) (s : S) (v : list call) : res S :=
  let (es, ok) := flat v false in
  run step s es >>= fun s' => if ok then Ok s' else Err s'.

Lemma run_app {S} (step : S -> ev -> res S) s a b :
  run step s (a ++ b) = run step s a >>= fun s' => run step s' b.
Proof.
  revert s; induction a as [|e a IH]; intros s; simpl; [reflexivity|].
  destruct (step s e); simpl; auto.
Qed.

Lemma run_cons {S} (step : S -> ev -> res S) s e es :
  run step s (e :: es) = step s e >>= fun s' => run step s' es.
Proof. reflexivity. Qed.
