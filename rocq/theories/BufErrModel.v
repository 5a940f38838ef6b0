(** * BufErrModel: the errors of [sval_buffer]

    [buffer/src/error.rs], and the collectors of FragModel.v and the buffer of
    BufferModel.v with the error they keep, not only whether there is one. *)

From Verif Require Import Base Event LowerModel DataModel FragModel BufferModel ForwardModel AdaptiveModel.

(** [ErrorKind], [error.rs:9-25]. *)
Inductive kind :=
| Unsupported (actual expected : bytes)
| InvalidValue (reason : bytes)
| OutsideContainer (method : bytes)
| NoAlloc (method : bytes).

(** [Display for Error], 27-42. *)
Definition error_text (k : kind) : bytes :=
  match k with
  | Unsupported actual expected => bs "unexpected " ++ actual ++ bs ", expected " ++ expected
  | InvalidValue reason => bs "the value is invalid: " ++ reason
  | OutsideContainer method => bs "expected a fragment while buffering " ++ method
  | NoAlloc method => bs "cannot allocate for " ++ method
  end.

(** [Error::unsupported], 45-47: the expected comes first. *)
Definition unsupported (expected actual : bytes) : kind := Unsupported actual expected.
(** [outside_container], 49-51; [invalid_value], 56-58. *)
Definition outside_container (method : bytes) : kind := OutsideContainer method.
Definition invalid_value (reason : bytes) : kind := InvalidValue reason.

(** ** [TextCollector] and [BinaryCollector], [fragments.rs:149-222, 361-452]

    The buffer and [err].  The methods that are not required and not overridden
    are the defaults of the trait, which [run_impl] and [run_prog] have taken apart
    before: those arms are never reached. *)
Definition ecol := (cow * option kind)%type.
(** [fail], 163-166, 378-381. *)
Definition ecol_fail (c : ecol) (k : kind) : res ecol := Err (fst c, Some k).

(** 170-222. *)
Definition text_ecol_step (c : ecol) (e : ev) : res ecol :=
  match e with
  | ETextBegin _ => Ok c
  | ETextFrag s => Ok (frag_push (fst c) s, snd c)
  | ETextFragC s => Ok (frag_push_computed (fst c) s, snd c)
  | ETextEnd => Ok c
  | ENull => ecol_fail c (unsupported (bs "text") (bs "null"))
  | EBool _ => ecol_fail c (unsupported (bs "text") (bs "boolean"))
  | EInt I64 _ => ecol_fail c (unsupported (bs "text") (bs "integer"))
  | EF64 _ => ecol_fail c (unsupported (bs "text") (bs "floating point"))
  | ESeqBegin _ => ecol_fail c (unsupported (bs "text") (bs "sequence"))
  | ESeqValBegin => ecol_fail c (unsupported (bs "text") (bs "sequence"))
  | ESeqValEnd => ecol_fail c (unsupported (bs "text") (bs "sequence"))
  | ESeqEnd => ecol_fail c (unsupported (bs "text") (bs "sequence"))
  | _ => Err c
  end.
(** 385-452. *)
Definition bin_ecol_step (c : ecol) (e : ev) : res ecol :=
  match e with
  | EBinBegin _ => Ok c
  | EBinFrag s => Ok (frag_push (fst c) s, snd c)
  | EBinFragC s => Ok (frag_push_computed (fst c) s, snd c)
  | EBinEnd => Ok c
  | ETextBegin _ => ecol_fail c (unsupported (bs "binary") (bs "text"))
  | ETextFragC _ => ecol_fail c (unsupported (bs "binary") (bs "text"))
  | ETextEnd => ecol_fail c (unsupported (bs "binary") (bs "text"))
  | ENull => ecol_fail c (unsupported (bs "binary") (bs "null"))
  | EBool _ => ecol_fail c (unsupported (bs "binary") (bs "boolean"))
  | EInt U8 z => Ok (frag_push_computed (fst c) [byte_of_Z z], snd c)
  | EInt I64 _ => ecol_fail c (unsupported (bs "binary") (bs "integer"))
  | EF64 _ => ecol_fail c (unsupported (bs "binary") (bs "floating point"))
  | EMapBegin _ => ecol_fail c (unsupported (bs "binary") (bs "map"))
  | ESeqBegin _ => Ok c
  | ESeqValBegin => Ok c
  | ESeqValEnd => Ok c
  | ESeqEnd => Ok c
  | _ => Err c
  end.

(** A result with the error in it. *)
Inductive collected (A : Type) := COk (a : A) | CErr (k : kind) | CPanic.
Arguments COk {A} a.
Arguments CErr {A} k.
Arguments CPanic {A}.
(** [collect], 37-50, 294-307: [map_err(|_| collector.err.unwrap())]. *)
Definition ecollect_end (r : res ecol) : collected cow :=
  match r with
  | Ok c => COk (fst c)
  | Err (_, Some k) => CErr k
  | Err (_, None) => CPanic
  | Panic => CPanic
  end.
Definition text_ecollect (p : prog) : collected cow :=
  ecollect_end (run_prog text_col_over text_ecol_step (text_buf_new, None) p).
Definition bin_ecollect (p : prog) : collected cow :=
  ecollect_end (run_prog bin_col_over bin_ecol_step (text_buf_new, None) p).

(** ** [ValueBuf], [value.rs] *)
Definition ebuf := (vbuf * option kind)%type.
Definition ebuf_new : ebuf := (vbuf_new, None).
(** [clear], 174-187. *)
Definition ebuf_clear (b : ebuf) : ebuf := (vbuf_clear (fst b), None).
(** [fail], 265-268. *)
Definition efail (b : vbuf) (k : kind) : res ebuf :=
  Err (MkVB (parts b) (stack b) (in_tb b) true, Some k).

(** [push_end], 934-977. *)
Definition push_eend (b : ebuf) : res ebuf :=
  match stack (fst b) with
  | [] => efail (fst b) (invalid_value (bs "unbalanced calls to `begin` and `end`"))
  | index :: rest =>
      match nth_error (parts (fst b)) index with
      | None => Panic
      | Some (PNode _ k) =>
          Ok (MkVB (set_part (parts (fst b)) index (PNode (List.length (parts (fst b)) - index - 1) k)) rest
                (in_tb (fst b)) (err (fst b)), snd b)
      | Some _ =>
          efail (MkVB (parts (fst b)) rest (in_tb (fst b)) (err (fst b))) (invalid_value (bs "can't end at this index"))
      end
  end.
(** [text_fragment] .. [binary_fragment_computed], 410-422, 437-449. *)
Definition push_efrag (b : ebuf) (text borrowed : bool) (s : bytes) : res ebuf :=
  let add := if borrowed then frag_push else frag_push_computed in
  match last_part (parts (fst b)) with
  | None => Panic
  | Some (PText c) =>
      if text then Ok (MkVB (set_last (parts (fst b)) (PText (add c s))) (stack (fst b)) (in_tb (fst b)) (err (fst b)), snd b)
      else efail (fst b) (outside_container (bs "binary"))
  | Some (PBin c) =>
      if text then efail (fst b) (outside_container (bs "text"))
      else Ok (MkVB (set_last (parts (fst b)) (PBin (add c s))) (stack (fst b)) (in_tb (fst b)) (err (fst b)), snd b)
  | Some _ => efail (fst b) (outside_container (if text then bs "text" else bs "binary"))
  end.
(** The other methods cannot fail with [alloc]. *)
Definition keep_err (k : option kind) (r : res vbuf) : res ebuf :=
  match r with Ok b => Ok (b, k) | Err b => Err (b, k) | Panic => Panic end.
Definition ebuf_step (b : ebuf) (e : ev) : res ebuf :=
  match e with
  | ETextFrag s => push_efrag b true true s
  | ETextFragC s => push_efrag b true false s
  | EBinFrag s => push_efrag b false true s
  | EBinFragC s => push_efrag b false false s
  | EMapKeyEnd | EMapValEnd | EMapEnd | ESeqValEnd | ESeqEnd
  | EEnumEnd _ _ _ | ETaggedEnd _ _ _
  | ERecordValEnd _ _ | ERecordEnd _ _ _ | ETupleValEnd _ _ | ETupleEnd _ _ _
  | ERecTupValEnd _ _ _ | ERecTupEnd _ _ _ => push_eend b
  | e => keep_err (snd b) (vbuf_step (fst b) e)
  end.

(** [collect], 153-162; [collect_owned], 287-299. *)
Definition own_failure : kind := invalid_value (bs "the value itself failed to stream").
Definition ebuf_end (r : res ebuf) : collected vbuf :=
  match r with
  | Ok b => COk (fst b)
  | Err b => CErr (match snd b with Some k => k | None => own_failure end)
  | Panic => CPanic
  end.
Definition ebuf_collect (p : prog) : collected vbuf := ebuf_end (do_prog ebuf_step p OBase ebuf_new).
Definition ebuf_collect_owned (p : prog) : collected vbuf := ebuf_collect (PComputed p PEnd).
(** [into_err], 276-278, after a history of calls, each made whatever became of the
    one before; a call that panics is not made. *)
Definition ebuf_next (b : ebuf) (e : ev) : ebuf :=
  match ebuf_step b e with Ok b' | Err b' => b' | Panic => b end.
Definition into_err (es : list ev) : option kind := snd (fold_left ebuf_next es ebuf_new).
