(** * NestedErrModel: the errors of [sval_nested]

    [nested/src/error.rs], and the stream of NestedModel.v with the error it keeps,
    not only whether there is one.  With the [alloc] feature.  The definitions
    follow those of NestedModel.v one by one, with the same simplifications. *)

From Verif Require Import Base Event LowerModel DataModel FragModel BufferModel ForwardModel AdaptiveModel BufErrModel NestedModel.

(** [ErrorKind], [error.rs:9-20], but for [NoAlloc]. *)
Inductive nerr := NBuffer (k : kind) | NInvalid (reason : bytes).

(** [Display for Error], 22-35; [source], 73-81. *)
Definition nerr_text (e : nerr) : bytes :=
  match e with
  | NBuffer _ => bs "failed to buffer a value"
  | NInvalid reason => bs "the value is invalid: " ++ reason
  end.
Definition nerr_source (e : nerr) : option kind :=
  match e with NBuffer k => Some k | NInvalid _ => None end.

(** [sval_nested::Result], and [r?]. *)
Inductive got (A : Type) := GOk (a : A) | GErr (e : nerr) | GPanic.
Arguments GOk {A} a.
Arguments GErr {A} e.
Arguments GPanic {A}.
Definition gbind {A B} (r : got A) (k : A -> got B) : got B :=
  match r with GOk a => k a | GErr e => GErr e | GPanic => GPanic end.
Notation "x <= r ;; k" := (gbind r (fun x => k)) (at level 61, r at next level, right associativity).

(** ** A user's [sval_nested::Stream]

    As [NestedModel.nstream], [lib.rs:66-687]. *)
Record xstream := MkXS {
  x_ok : Type;
  x_seq : Type; x_map : Type; x_tuple : Type; x_record : Type;
  x_enum : Type; x_vtuple : Type; x_vrecord : Type;
  x_null : got x_ok;
  x_bool : bool -> got x_ok;
  x_int : ity -> Z -> got x_ok;
  x_f32 : float -> got x_ok;
  x_f64 : float -> got x_ok;
  x_text : bool -> bytes -> got x_ok;
  x_bin : bool -> bytes -> got x_ok;
  x_tag : option tag -> option label -> option index -> got x_ok;
  x_tagged : option tag -> option label -> option index -> arg -> got x_ok;
  x_seq_begin : option N -> got x_seq;
  x_map_begin : option N -> got x_map;
  x_tuple_begin : option tag -> option label -> option index -> option N -> got x_tuple;
  x_record_begin : option tag -> option label -> option index -> option N -> got x_record;
  x_enum_begin : option tag -> option label -> option index -> got x_enum;
  x_seq_value : x_seq -> arg -> got x_seq;
  x_seq_end : x_seq -> got x_ok;
  x_map_key : x_map -> arg -> got x_map;
  x_map_value : x_map -> arg -> got x_map;
  x_map_end : x_map -> got x_ok;
  x_tuple_value : x_tuple -> option tag -> index -> arg -> got x_tuple;
  x_tuple_end : x_tuple -> got x_ok;
  x_record_value : x_record -> option tag -> label -> arg -> got x_record;
  x_record_end : x_record -> got x_ok;
  x_enum_tag : x_enum -> option tag -> option label -> option index -> got x_ok;
  x_enum_tagged : x_enum -> option tag -> option label -> option index -> arg -> got x_ok;
  x_enum_tuple_begin : x_enum -> option tag -> option label -> option index -> option N -> got x_vtuple;
  x_enum_record_begin : x_enum -> option tag -> option label -> option index -> option N -> got x_vrecord;
  x_enum_nested : x_enum -> option tag -> option label -> option index -> (x_enum -> got x_ok) -> got x_ok;
  x_enum_empty : x_enum -> got x_ok;
  x_vtuple_value : x_vtuple -> option tag -> index -> arg -> got x_vtuple;
  x_vtuple_end : x_vtuple -> got x_ok;
  x_vrecord_value : x_vrecord -> option tag -> label -> arg -> got x_vrecord;
  x_vrecord_end : x_vrecord -> got x_ok
}.

Section Flat.
Context {S : xstream}.
Notation ok := (x_ok S).
(** What becomes of an error met by a value streamed inside of an enum: see
    [xfs_call].  The code is [relay = false]; the proofs also use [true]. *)
Context (relay : bool).

(** ** [FlatStreamEnum], [flat_enum.rs:5-217] *)

(** 5-23. *)
Record xfenum := MkXE { xe_stream : x_enum S; xe_queue : list pending }.
Definition xe_new (e : x_enum S) : xfenum := MkXE e [].
(** [push], 25-40. *)
Definition xe_push (e : xfenum) (t : option tag) (l : option label) (i : option index) : xfenum :=
  MkXE (xe_stream e) (xe_queue e ++ [(t, option_map label_to_owned l, i)]).
(** [value_or_recurse], 46-70. *)
Fixpoint xrecurse (q : list pending) (e : x_enum S) (k : x_enum S -> got ok) : got ok :=
  match q with
  | [] => k e
  | (t, l, i) :: q' => x_enum_nested S e t l i (fun e' => xrecurse q' e' k)
  end.
(** [end], 42-44; [tag], 129-140; [tagged], 142-154; [tagged_computed], 156-172;
    [tuple_begin], 182-192; [record_begin], 194-204. *)
Definition xe_end (e : xfenum) : got ok := xrecurse (xe_queue e) (xe_stream e) (fun _ => GPanic).
Definition xe_tag (e : xfenum) t l i : got ok :=
  xrecurse (xe_queue e) (xe_stream e) (fun e => x_enum_tag S e t l i).
Definition xe_tagged (e : xfenum) t l i (v : arg) : got ok :=
  xrecurse (xe_queue e) (xe_stream e) (fun e => x_enum_tagged S e t l i v).
Definition xe_tuple_begin (e : xfenum) t l i n : got (x_vtuple S) :=
  match xe_queue e with [] => x_enum_tuple_begin S (xe_stream e) t l i n | _ => GPanic end.
Definition xe_record_begin (e : xfenum) t l i n : got (x_vrecord S) :=
  match xe_queue e with [] => x_enum_record_begin S (xe_stream e) t l i n | _ => GPanic end.

(** ** [FlatStream], [flat.rs:9-55, 141-145] *)
Inductive xbuffered :=
| XText (c : cow)
| XBin (c : cow)
| XValue (b : ebuf).
Inductive xstate :=
| XAny
| XSeq (s : x_seq S)
| XMap (s : x_map S) (is_key : bool)
| XTagged (t : option tag) (l : option label) (i : option index)
| XTuple (s : x_tuple S) (field : option (option tag * index))
| XRecord (s : x_record S) (field : option (option tag * label))
| XEnum (s : xfenum)
| XVTagged (s : xfenum) (t : option tag) (l : option label) (i : option index)
| XVTuple (s : x_vtuple S) (field : option (option tag * index))
| XVRecord (s : x_vrecord S) (field : option (option tag * label))
| XDone (r : ok + nerr).
Record xfs := MkXF { x_buf : option xbuffered; x_state : xstate }.

(** [FlatStream::new], 158-166; [finish], 168-175.  [finish] leaves [Done(None)]
    behind, which no caller keeps. *)
Definition xfs_new : xfs := MkXF None XAny.
Definition xfinish (f : xfs) : got ok :=
  match x_state f with
  | XDone (inl x) => GOk x
  | XDone (inr e) => GErr e
  | _ => GErr (NInvalid (bs "incomplete stream"))
  end.

(** [State::value], 827-844, [State::value_computed], 846-863, and
    [State::value_with], 865-1020. *)
Definition xstate_value (st : xstate) (any : got ok) (v : arg) : got (xstate * option ok) :=
  match st with
  | XAny => x <= any ;; GOk (XAny, Some x)
  | XTagged t l i => x <= x_tagged S t l i v ;; GOk (XTagged t l i, Some x)
  | XSeq s => s' <= x_seq_value S s v ;; GOk (XSeq s', None)
  | XMap s true => s' <= x_map_key S s v ;; GOk (XMap s' true, None)
  | XMap s false => s' <= x_map_value S s v ;; GOk (XMap s' false, None)
  | XTuple s (Some (t, i)) => s' <= x_tuple_value S s t i v ;; GOk (XTuple s' None, None)
  | XTuple _ None => GErr (NInvalid (bs "cannot stream a tuple; the field index is missing"))
  | XRecord s (Some (t, l)) => s' <= x_record_value S s t l v ;; GOk (XRecord s' None, None)
  | XRecord _ None => GErr (NInvalid (bs "cannot stream a record; the field label is missing"))
  | XEnum _ => GErr (NInvalid (bs "cannot stream an enum; the stream is in an invalid state"))
  | XVTagged s t l i => x <= xe_tagged s t l i v ;; GOk (XVTagged s t l i, Some x)
  | XVTuple s (Some (t, i)) => s' <= x_vtuple_value S s t i v ;; GOk (XVTuple s' None, None)
  | XVTuple _ None => GErr (NInvalid (bs "cannot stream a tuple variant; the field index is missing"))
  | XVRecord s (Some (t, l)) => s' <= x_vrecord_value S s t l v ;; GOk (XVRecord s' None, None)
  | XVRecord _ None => GErr (NInvalid (bs "cannot stream a record variant; the field label is missing"))
  | XDone _ => GErr (NInvalid (bs "cannot stream a value; the stream is already completed"))
  end.

(** A result inside of [try_catch]: the stream, and the error that will be stored. *)
Inductive xres := ROk (f : xfs) | RErr (f : xfs) (e : nerr) | RPanic.
(** [try_catch], 812-824. *)
Definition xcatch (r : xres) : res xfs :=
  match r with ROk f => Ok f | RErr f e => Err (MkXF (x_buf f) (XDone (inr e))) | RPanic => Panic end.

(** The buffering branch of 1045-1069, 1071-1091 and 1139-1161: the error is that of
    the buffer ([into_err]), if it has one. *)
Definition buf_err (b : ebuf) : nerr :=
  match snd b with Some k => NBuffer k | None => NInvalid (bs "the value itself failed to stream") end.
Definition xwith_buf (f : xfs) (r : res ebuf) (k : ebuf -> xres) : xres :=
  match r with
  | Ok b => k b
  | Err b => RErr (MkXF (Some (XValue ebuf_new)) (x_state f)) (buf_err b)
  | Panic => RPanic
  end.
Definition xput (f : xfs) (b : ebuf) : xfs := MkXF (Some (XValue b)) (x_state f).

(** [buffer_or_with], 1045-1069. *)
Definition xbuffer_or_with (f : xfs) (buffer : ebuf -> res ebuf) (k : xfs -> xres) : res xfs :=
  xcatch
    match x_buf f with
    | Some (XValue b) => xwith_buf f (buffer b) (fun b' => ROk (xput f b'))
    | _ => k f
    end.

(** [buffer_or_stream_with], 1024-1043. *)
Definition xsettle (f : xfs) (r : got (xstate * option ok)) : xres :=
  match r with
  | GOk (st, None) => ROk (MkXF (x_buf f) st)
  | GOk (st, Some x) => ROk (MkXF (x_buf f) (XDone (inl x)))
  | GErr e => RErr f e
  | GPanic => RPanic
  end.
Definition xbuffer_or_value (f : xfs) (buffer : ebuf -> res ebuf) (any : got ok) (v : arg) : res xfs :=
  xbuffer_or_with f buffer (fun f => xsettle f (xstate_value (x_state f) any v)).

(** [buffer_or_begin_with], 1071-1137. *)
Definition xlift (f : xfs) (r : got xstate) : xres :=
  match r with GOk st => ROk (MkXF (x_buf f) st) | GErr e => RErr f e | GPanic => RPanic end.
Definition xbuffer_or_begin (f : xfs) (buffer : ebuf -> res ebuf)
    (any : got xstate) (enum : xfenum -> got xstate) : res xfs :=
  xcatch
    match x_buf f, x_state f with
    | Some (XValue b), _ => xwith_buf f (buffer b) (fun b' => ROk (xput f b'))
    | None, XAny => xlift f any
    | None, XEnum e => xlift f (enum e)
    | None, _ =>
        match buffer ebuf_new with
        | Ok b' => ROk (xput f b')
        | Err b' => RErr f (buf_err b')
        | Panic => RPanic
        end
    | _, _ => RErr f (NInvalid (bs "cannot begin buffering; the stream is in an invalid state"))
    end.

(** [buffer_or_end_with], 1139-1181.  As in NestedModel.v, the closure given for
    [Any] at 1170 is never run. *)
Definition xbuffer_or_end (f : xfs) (buffer : ebuf -> res ebuf) (transition : got ok) : res xfs :=
  xcatch
    match x_buf f with
    | None => xsettle f (x <= transition ;; GOk (x_state f, Some x))
    | Some (XValue b) =>
        xwith_buf f (buffer b) (fun b' =>
          if is_complete (fst b') then
            match vbuf_stream (fst b') with
            | Some cs =>
                let f' := MkXF None (x_state f) in
                xsettle f' (xstate_value (x_state f') (GErr (NInvalid [])) (false, cs))
            | None => RPanic
            end
          else ROk (xput f b'))
    | Some _ => RErr f (NInvalid (bs "cannot end buffering value; the stream is in an invalid state"))
    end.

(** [put_buffer], 1183-1194; [with_text], 1196-1203; [with_binary], 1219-1226. *)
Definition xput_buffer (f : xfs) (b : xbuffered) : xres :=
  match x_buf f with
  | None => ROk (MkXF (Some b) (x_state f))
  | Some _ => RErr f (NInvalid (bs "cannot begin buffering; a buffer is already active"))
  end.
Definition xwith_text (f : xfs) (k : cow -> cow) : xres :=
  match x_buf f with
  | Some (XText c) => ROk (MkXF (Some (XText (k c))) (x_state f))
  | _ => RErr f (NInvalid (bs "cannot buffer text; no active text buffer"))
  end.
Definition xwith_binary (f : xfs) (k : cow -> cow) : xres :=
  match x_buf f with
  | Some (XBin c) => ROk (MkXF (Some (XBin (k c))) (x_state f))
  | _ => RErr f (NInvalid (bs "cannot buffer binary; no active binary buffer"))
  end.

(** ** [sval::Stream for FlatStream], [flat.rs:178-810] *)
Definition xfs_own (f : xfs) (e : ev) : res xfs :=
  let buf := fun b => ebuf_step b e in
  let self := [CE e] in
  match e with
  (* 207-234 *)
  | ETag t l i =>
      xbuffer_or_with f buf (fun f =>
        match x_state f with
        | XEnum s => xsettle f (x <= xe_tag s t (cloned l) i ;; GOk (XEnum s, Some x))
        | st => xsettle f (xstate_value st (x_tag S t (cloned l) i) (false, self))
        end)
  (* 236-265; [take_seq], 1242-1254 *)
  | ESeqBegin n =>
      xbuffer_or_begin f buf (s <= x_seq_begin S n ;; GOk (XSeq s))
        (fun _ => GErr (NInvalid (bs "sequences cannot be used as enum variants")))
  | ESeqValBegin | ESeqValEnd => Ok f
  | ESeqEnd =>
      xbuffer_or_end f buf
        (match x_state f with
         | XSeq s => x_seq_end S s
         | _ => GErr (NInvalid (bs "cannot end a sequence; invalid stream state"))
         end)
  (* 267-319; [with_map], 1256-1266; [take_map], 1268-1280 *)
  | EMapBegin n =>
      xbuffer_or_begin f buf (s <= x_map_begin S n ;; GOk (XMap s true))
        (fun _ => GErr (NInvalid (bs "maps cannot be used as enum variants")))
  | EMapKeyBegin =>
      xbuffer_or_with f buf (fun f =>
        match x_buf f, x_state f with
        | None, XMap s _ => ROk (MkXF None (XMap s true))
        | _, _ => RErr f (NInvalid (bs "cannot stream a map; invalid stream state"))
        end)
  | EMapValBegin =>
      xbuffer_or_with f buf (fun f =>
        match x_buf f, x_state f with
        | None, XMap s _ => ROk (MkXF None (XMap s false))
        | _, _ => RErr f (NInvalid (bs "cannot stream a map; invalid stream state"))
        end)
  | EMapKeyEnd | EMapValEnd => xbuffer_or_with f buf (fun f => ROk f)
  | EMapEnd =>
      xbuffer_or_end f buf
        (match x_state f with
         | XMap s _ => x_map_end S s
         | _ => GErr (NInvalid (bs "cannot end a map; invalid stream state"))
         end)
  (* 321-364; [take_enum], 1388-1402 *)
  | EEnumBegin t l i =>
      xbuffer_or_begin f buf
        (e <= x_enum_begin S t (cloned l) i ;; GOk (XEnum (xe_new e)))
        (fun s => GOk (XEnum (xe_push s t (cloned l) i)))
  | EEnumEnd _ _ _ =>
      xbuffer_or_end f buf
        (match x_state f with
         | XEnum s => xe_end s
         | XDone _ => xfinish f
         | _ => GErr (NInvalid (bs "cannot end an enum; invalid stream state"))
         end)
  (* 366-411 *)
  | ETaggedBegin t l i =>
      xbuffer_or_begin f buf
        (GOk (XTagged t (option_map label_to_owned l) i))
        (fun s => GOk (XVTagged s t (option_map label_to_owned l) i))
  | ETaggedEnd _ _ _ => xbuffer_or_end f buf (xfinish f)
  (* 413-486; [with_record], 1335-1353; [take_with_record], 1355-1386 *)
  | ERecordBegin t l i n =>
      xbuffer_or_begin f buf
        (s <= x_record_begin S t (cloned l) i n ;; GOk (XRecord s None))
        (fun s => s <= xe_record_begin s t (cloned l) i n ;; GOk (XVRecord s None))
  | ERecordValBegin t l =>
      xbuffer_or_with f buf (fun f =>
        match x_buf f, x_state f with
        | None, XRecord s _ => ROk (MkXF None (XRecord s (Some (t, label_to_owned l))))
        | None, XVRecord s _ => ROk (MkXF None (XVRecord s (Some (t, label_to_owned l))))
        | _, _ => RErr f (NInvalid (bs "cannot stream a record; invalid stream state"))
        end)
  | ERecordValEnd _ _ => xbuffer_or_with f buf (fun f => ROk f)
  | ERecordEnd _ _ _ =>
      xbuffer_or_end f buf
        (match x_state f with
         | XRecord s _ => x_record_end S s
         | XVRecord s _ => x_vrecord_end S s
         | _ => GErr (NInvalid (bs "cannot end a record; invalid stream state"))
         end)
  (* 488-561; [with_tuple], 1282-1300; [take_with_tuple], 1302-1333 *)
  | ETupleBegin t l i n =>
      xbuffer_or_begin f buf
        (s <= x_tuple_begin S t (cloned l) i n ;; GOk (XTuple s None))
        (fun s => s <= xe_tuple_begin s t (cloned l) i n ;; GOk (XVTuple s None))
  | ETupleValBegin t i =>
      xbuffer_or_with f buf (fun f =>
        match x_buf f, x_state f with
        | None, XTuple s _ => ROk (MkXF None (XTuple s (Some (t, i))))
        | None, XVTuple s _ => ROk (MkXF None (XVTuple s (Some (t, i))))
        | _, _ => RErr f (NInvalid (bs "cannot stream a tuple; invalid stream state"))
        end)
  | ETupleValEnd _ _ => xbuffer_or_with f buf (fun f => ROk f)
  | ETupleEnd _ _ _ =>
      xbuffer_or_end f buf
        (match x_state f with
         | XTuple s _ => x_tuple_end S s
         | XVTuple s _ => x_vtuple_end S s
         | _ => GErr (NInvalid (bs "cannot end a tuple; invalid stream state"))
         end)
  (* 563-715 *)
  | ENull => xbuffer_or_value f buf (x_null S) (true, self)
  | EBool x => xbuffer_or_value f buf (x_bool S x) (false, self)
  | EInt t z => xbuffer_or_value f buf (x_int S t z) (false, self)
  | EF32 x => xbuffer_or_value f buf (x_f32 S x) (false, self)
  | EF64 x => xbuffer_or_value f buf (x_f64 S x) (false, self)
  (* 717-758; [take_text], 1205-1217 *)
  | ETextBegin _ => xbuffer_or_with f buf (fun f => xput_buffer f (XText text_buf_new))
  | ETextFrag s => xbuffer_or_with f buf (fun f => xwith_text f (fun c => frag_push c s))
  | ETextFragC s => xbuffer_or_with f buf (fun f => xwith_text f (fun c => frag_push_computed c s))
  | ETextEnd =>
      xbuffer_or_with f buf (fun f =>
        match x_buf f with
        | Some (XText c) =>
            let f := MkXF None (x_state f) in
            xsettle f (xstate_value (x_state f) (x_text S (is_borrowed c) (frag_inner c))
                                    (is_borrowed c, str_calls (frag_inner c)))
        | _ => RErr f (NInvalid (bs "cannot end buffering text; no active text buffer"))
        end)
  (* 760-809; [take_binary], 1228-1240 *)
  | EBinBegin _ => xbuffer_or_with f buf (fun f => xput_buffer f (XBin text_buf_new))
  | EBinFrag s => xbuffer_or_with f buf (fun f => xwith_binary f (fun c => frag_push c s))
  | EBinFragC s => xbuffer_or_with f buf (fun f => xwith_binary f (fun c => frag_push_computed c s))
  | EBinEnd =>
      xbuffer_or_with f buf (fun f =>
        match x_buf f with
        | Some (XBin c) =>
            let f := MkXF None (x_state f) in
            xsettle f (xstate_value (x_state f) (x_bin S (is_borrowed c) (frag_inner c))
                                    (is_borrowed c, bin_calls (frag_inner c)))
        | _ => RErr f (NInvalid (bs "cannot end buffering binary; no active binary buffer"))
        end)
  | ETagHint _ | ERecTupBegin _ _ _ _ | ERecTupValBegin _ _ _ | ERecTupValEnd _ _ _ | ERecTupEnd _ _ _ => Ok f
  end.

(** The defaults of [src/stream.rs:1122-1609], as [NestedModel.fs_step]. *)
Definition xfs_step (f : xfs) (e : ev) : res xfs :=
  match e with
  | ETagHint _ => Ok f
  | ERecTupBegin t l i n => xfs_own f (ERecordBegin t l i n)
  | ERecTupValBegin t l i => xfs_own f (ERecordValBegin t l)
  | ERecTupValEnd t l i => xfs_own f (ERecordValEnd t l)
  | ERecTupEnd t l i => xfs_own f (ERecordEnd t l i)
  | e => xfs_own f e
  end.

Definition xbuf_value (computed : bool) (v : list call) (b : ebuf) : res ebuf :=
  stream_value ebuf_step b (if computed then [CVC v] else v).

(** [map_err(|_| Error::invalid_value("failed to stream value"))], 184-185, 198-199:
    whatever the error kept by the stream was. *)
Definition value_failed : nerr := NInvalid (bs "failed to stream value").
Definition kept_err (f : xfs) : nerr := match x_state f with XDone (inr e) => e | _ => value_failed end.

(** [value], 179-191, and [value_computed], 193-205, as [NestedModel.fs_call]. *)
Fixpoint xfs_call (c : call) (comp : bool) (f : xfs) : res xfs :=
  let fix go (cs : list call) (comp : bool) (f : xfs) : res xfs :=
      match cs with
      | [] => Ok f
      | c :: cs' => xfs_call c comp f >>= go cs' comp
      end in
  let value := fun (computed : bool) (cs : list call) =>
    xbuffer_or_with f (xbuf_value computed cs) (fun f =>
      match x_state f with
      | XEnum _ =>
          match go cs computed f with
          | Ok f' => ROk f'
          | Err f' => RErr f' (if relay then kept_err f' else value_failed)
          | Panic => RPanic
          end
      | st =>
          let any := match go cs computed xfs_new with
                     | Ok f' | Err f' => xfinish f'
                     | Panic => GPanic
                     end in
          xsettle f (xstate_value st any (negb computed, cs))
      end) in
  match c with
  | CE e => xfs_step f (if comp then computed e else e)
  | CV cs => if comp then go cs true f else value false cs
  | CVC cs => value true cs
  | CFail => Err f
  end.

Fixpoint xfs_calls (cs : list call) (comp : bool) (f : xfs) : res xfs :=
  match cs with
  | [] => Ok f
  | c :: cs' => xfs_call c comp f >>= xfs_calls cs' comp
  end.

(** [default_stream::value], [lib.rs:935-942], and [value_computed], 957-964. *)
Definition xsettled (r : res xfs) : got ok :=
  match r with Ok f | Err f => xfinish f | Panic => GPanic end.
End Flat.
Arguments xfenum : clear implicits.
Arguments xstate : clear implicits.
Arguments xfs : clear implicits.
Arguments xbuffered : clear implicits.

(** [stream_nested] of a value, or of one that is computed. *)
Definition nested_got (S : xstream) (computed : bool) (v : list call) : got (x_ok S) :=
  xsettled (xfs_calls (S := S) false v computed xfs_new).
