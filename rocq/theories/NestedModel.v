(** * NestedModel: [sval_nested], the recursive form of [Stream]

    [nested/src/lib.rs], [nested/src/flat.rs] and [nested/src/flat_enum.rs], with
    the [alloc] feature.  Errors are opaque: the reason is not kept. *)

From Verif Require Import Base Event LowerModel DataModel FragModel BufferModel.

(** [r?] on a [sval_nested::Result]. *)
Definition obind {A B} (r : outcome A) (k : A -> outcome B) : outcome B :=
  match r with OOk a => k a | OErr => OErr | OPanic => OPanic end.
Notation "x <- r ;; k" := (obind r (fun x => k)) (at level 61, r at next level, right associativity).

(** A value handed to a nested stream: [true] through the method that takes a
    [ValueRef<'sval>] ([value], [key], [tagged]), [false] through its
    [_computed] form; and the calls the value makes when streamed. *)
Definition arg := (bool * list call)%type.

(** ** A user's [sval_nested::Stream]

    [trait Stream], [lib.rs:66-386], with [StreamSeq] 391-420, [StreamMap]
    425-473, [StreamTuple] 478-522, [StreamRecord] 527-571 and [StreamEnum]
    576-687.  A method taking [self] is a function of the stream object it
    consumes; one taking [&mut self] returns the new object.  The stream itself
    is used at most once, so it is not an argument.  Simplifications: [value],
    [value_ref] and [value_computed] keep their defaults (935-963), which are
    modelled below; [Enum] and its [Nested] are one type (take the sum of the two
    for a stream where they differ); [text]/[text_computed],
    [binary]/[binary_computed] and [tagged]/[tagged_computed] are one function
    with the choice as an argument, the integer methods one function with the
    type as an argument. *)
Record nstream := MkNS {
  n_ok : Type;
  n_seq : Type; n_map : Type; n_tuple : Type; n_record : Type;
  n_enum : Type; n_vtuple : Type; n_vrecord : Type;
  n_null : outcome n_ok;
  n_bool : bool -> outcome n_ok;
  n_int : ity -> Z -> outcome n_ok;
  n_f32 : float -> outcome n_ok;
  n_f64 : float -> outcome n_ok;
  n_text : bool -> bytes -> outcome n_ok;
  n_bin : bool -> bytes -> outcome n_ok;
  n_tag : option tag -> option label -> option index -> outcome n_ok;
  n_tagged : option tag -> option label -> option index -> arg -> outcome n_ok;
  n_seq_begin : option N -> outcome n_seq;
  n_map_begin : option N -> outcome n_map;
  n_tuple_begin : option tag -> option label -> option index -> option N -> outcome n_tuple;
  n_record_begin : option tag -> option label -> option index -> option N -> outcome n_record;
  n_enum_begin : option tag -> option label -> option index -> outcome n_enum;
  seq_value : n_seq -> arg -> outcome n_seq;
  seq_end : n_seq -> outcome n_ok;
  map_key : n_map -> arg -> outcome n_map;
  map_value : n_map -> arg -> outcome n_map;
  map_end : n_map -> outcome n_ok;
  tuple_value : n_tuple -> option tag -> index -> arg -> outcome n_tuple;
  tuple_end : n_tuple -> outcome n_ok;
  record_value : n_record -> option tag -> label -> arg -> outcome n_record;
  record_end : n_record -> outcome n_ok;
  enum_tag : n_enum -> option tag -> option label -> option index -> outcome n_ok;
  enum_tagged : n_enum -> option tag -> option label -> option index -> arg -> outcome n_ok;
  enum_tuple_begin : n_enum -> option tag -> option label -> option index -> option N -> outcome n_vtuple;
  enum_record_begin : n_enum -> option tag -> option label -> option index -> option N -> outcome n_vrecord;
  enum_nested : n_enum -> option tag -> option label -> option index -> (n_enum -> outcome n_ok) -> outcome n_ok;
  enum_empty : n_enum -> outcome n_ok;
  vtuple_value : n_vtuple -> option tag -> index -> arg -> outcome n_vtuple;
  vtuple_end : n_vtuple -> outcome n_ok;
  vrecord_value : n_vrecord -> option tag -> label -> arg -> outcome n_vrecord;
  vrecord_end : n_vrecord -> outcome n_ok
}.

Section Flat.
Context {S : nstream}.
Notation ok := (n_ok S).

(** ** [FlatStreamEnum], [flat_enum.rs:5-217] *)

(** [NestedVariant], 10-15. *)
Definition pending := (option tag * option label * option index)%type.

(** The struct, 5-8: the user's enum stream and the enums opened inside it. *)
Record fenum := MkFE { fe_stream : n_enum S; fe_queue : list pending }.
(** [new], 18-23. *)
Definition fe_new (e : n_enum S) : fenum := MkFE e [].
(** [push], 25-40; [owned_label], [lib.rs:906-908]. *)
Definition fe_push (e : fenum) (t : option tag) (l : option label) (i : option index) : fenum :=
  MkFE (fe_stream e) (fe_queue e ++ [(t, option_map label_to_owned l, i)]).
(** [value_or_recurse], 46-70. *)
Fixpoint recurse (q : list pending) (e : n_enum S) (k : n_enum S -> outcome ok) : outcome ok :=
  match q with
  | [] => k e
  | (t, l, i) :: q' => enum_nested S e t l i (fun e' => recurse q' e' k)
  end.
(** [end], 42-44.  With an empty queue the closure calls [end] again on the same
    object, without end: the process aborts on stack overflow.  [OPanic] stands
    for that too. *)
Definition fe_end (e : fenum) : outcome ok := recurse (fe_queue e) (fe_stream e) (fun _ => OPanic).
(** [tag], 129-140. *)
Definition fe_tag (e : fenum) t l i : outcome ok :=
  recurse (fe_queue e) (fe_stream e) (fun e => enum_tag S e t l i).
(** [tagged], 142-154; [tagged_computed], 156-172. *)
Definition fe_tagged (e : fenum) t l i (v : arg) : outcome ok :=
  recurse (fe_queue e) (fe_stream e) (fun e => enum_tagged S e t l i v).
(** [tuple_begin], 182-192; [record_begin], 194-204: [assert!] on the queue.
    The other methods of [Stream for FlatStreamEnum] (83-127, 174-180, 206-213)
    have no caller and are not modelled. *)
Definition fe_tuple_begin (e : fenum) t l i n : outcome (n_vtuple S) :=
  match fe_queue e with [] => enum_tuple_begin S (fe_stream e) t l i n | _ => OPanic end.
Definition fe_record_begin (e : fenum) t l i n : outcome (n_vrecord S) :=
  match fe_queue e with [] => enum_record_begin S (fe_stream e) t l i n | _ => OPanic end.

(** ** [FlatStream], [flat.rs:9-22] *)

(** [Buffered], 50-55. *)
Inductive buffered :=
| BText (c : cow)
| BBin (c : cow)
| BValue (b : vbuf).

(** [State], 23-33, with [EnumVariant], 141-145, spread over three constructors.
    Simplification: the [Option]s inside the variants are dropped.  Each is
    emptied by a [take] whose call either stores a new state or fails, and a
    failure stores [Done(Some(Err(_)))], so no later call sees [None].
    [SDone None] is [Done(Some(Err(_)))]. *)
Inductive state :=
| SAny
| SSeq (s : n_seq S)
| SMap (s : n_map S) (is_key : bool)
| STagged (t : option tag) (l : option label) (i : option index)
| STuple (s : n_tuple S) (field : option (option tag * index))
| SRecord (s : n_record S) (field : option (option tag * label))
| SEnum (s : fenum)
| SVTagged (s : fenum) (t : option tag) (l : option label) (i : option index)
| SVTuple (s : n_vtuple S) (field : option (option tag * index))
| SVRecord (s : n_vrecord S) (field : option (option tag * label))
| SDone (r : option ok).

Record fstream := MkFS { f_buf : option buffered; f_state : state }.

(** [FlatStream::new], 158-166; [finish], 168-175. *)
Definition fs_new : fstream := MkFS None SAny.
Definition finish (f : fstream) : outcome ok :=
  match f_state f with SDone (Some x) => OOk x | _ => OErr end.

(** [State::value], 827-844, [State::value_computed], 846-863, and
    [State::value_with], 865-1020. *)
Definition state_value (st : state) (any : outcome ok) (v : arg) : outcome (state * option ok) :=
  match st with
  | SAny => x <- any ;; OOk (SAny, Some x)
  | STagged t l i => x <- n_tagged S t l i v ;; OOk (STagged t l i, Some x)
  | SSeq s => s' <- seq_value S s v ;; OOk (SSeq s', None)
  | SMap s true => s' <- map_key S s v ;; OOk (SMap s' true, None)
  | SMap s false => s' <- map_value S s v ;; OOk (SMap s' false, None)
  | STuple s (Some (t, i)) => s' <- tuple_value S s t i v ;; OOk (STuple s' None, None)
  | SRecord s (Some (t, l)) => s' <- record_value S s t l v ;; OOk (SRecord s' None, None)
  | SVTagged s t l i => x <- fe_tagged s t l i v ;; OOk (SVTagged s t l i, Some x)
  | SVTuple s (Some (t, i)) => s' <- vtuple_value S s t i v ;; OOk (SVTuple s' None, None)
  | SVRecord s (Some (t, l)) => s' <- vrecord_value S s t l v ;; OOk (SVRecord s' None, None)
  | _ => OErr
  end.

(** [try_catch], 812-824. *)
Definition try_catch (r : res fstream) : res fstream :=
  match r with Err f => Err (MkFS (f_buf f) (SDone None)) | r => r end.

(** The branch of [buffer_or_with], 1045-1069, of [buffer_or_begin_with],
    1071-1091, and of [buffer_or_end_with], 1139-1161, that feeds the buffer:
    a buffer that failed is replaced by a new one. *)
Definition with_buf (f : fstream) (r : res vbuf) (k : vbuf -> res fstream) : res fstream :=
  match r with
  | Ok b => k b
  | Err _ => Err (MkFS (Some (BValue vbuf_new)) (f_state f))
  | Panic => Panic
  end.
Definition put (f : fstream) (b : vbuf) : fstream := MkFS (Some (BValue b)) (f_state f).

(** [buffer_or_with], 1045-1069. *)
Definition buffer_or_with (f : fstream) (buffer : vbuf -> res vbuf) (k : fstream -> res fstream) : res fstream :=
  try_catch
    match f_buf f with
    | Some (BValue b) => with_buf f (buffer b) (fun b' => Ok (put f b'))
    | _ => k f
    end.

(** A result of [stream] in [buffer_or_stream_with], 1024-1043. *)
Definition done (f : fstream) (x : ok) : fstream := MkFS (f_buf f) (SDone (Some x)).
Definition settle (f : fstream) (r : outcome (state * option ok)) : res fstream :=
  match r with
  | OOk (st, None) => Ok (MkFS (f_buf f) st)
  | OOk (st, Some x) => Ok (done f x)
  | OErr => Err f
  | OPanic => Panic
  end.

(** [buffer_or_stream_with], 1024-1043, around a call of [State::value] or
    [State::value_computed]. *)
Definition buffer_or_value (f : fstream) (buffer : vbuf -> res vbuf) (any : outcome ok) (v : arg) : res fstream :=
  buffer_or_with f buffer (fun f => settle f (state_value (f_state f) any v)).

(** [buffer_or_begin_with], 1071-1137. *)
Definition lift (f : fstream) (r : outcome state) : res fstream :=
  match r with OOk st => Ok (MkFS (f_buf f) st) | OErr => Err f | OPanic => Panic end.
Definition buffer_or_begin (f : fstream) (buffer : vbuf -> res vbuf)
    (any : outcome state) (enum : fenum -> outcome state) : res fstream :=
  try_catch
    match f_buf f, f_state f with
    | Some (BValue b), _ => with_buf f (buffer b) (fun b' => Ok (put f b'))
    | None, SAny => lift f any
    | None, SEnum e => lift f (enum e)
    | None, _ =>
        match buffer vbuf_new with
        | Ok b' => Ok (put f b')
        | Err _ => Err f
        | Panic => Panic
        end
    | _, _ => Err f
    end.

(** [buffer_or_end_with], 1139-1181.  A value is only buffered while the state is
    neither [Any] nor [Enum] (1113-1130), so the closure given for [Any] at
    1170 is never run; [OErr] stands in its place. *)
Definition buffer_or_end (f : fstream) (buffer : vbuf -> res vbuf) (transition : outcome ok) : res fstream :=
  try_catch
    match f_buf f with
    | None => settle f (x <- transition ;; OOk (f_state f, Some x))
    | Some (BValue b) =>
        with_buf f (buffer b) (fun b' =>
          if is_complete b' then
            match vbuf_stream b' with
            | Some cs =>
                let f' := MkFS None (f_state f) in
                settle f' (state_value (f_state f') OErr (false, cs))
            | None => Panic
            end
          else Ok (put f b'))
    | Some _ => Err f
    end.

(** [put_buffer], 1183-1194; [with_text], 1196-1203; [with_binary], 1219-1226. *)
Definition put_buffer (f : fstream) (b : buffered) : res fstream :=
  match f_buf f with None => Ok (MkFS (Some b) (f_state f)) | Some _ => Err f end.
Definition with_text (f : fstream) (k : cow -> cow) : res fstream :=
  match f_buf f with Some (BText c) => Ok (MkFS (Some (BText (k c))) (f_state f)) | _ => Err f end.
Definition with_binary (f : fstream) (k : cow -> cow) : res fstream :=
  match f_buf f with Some (BBin c) => Ok (MkFS (Some (BBin (k c))) (f_state f)) | _ => Err f end.

Definition cloned (l : option label) : option label := option_map label_clone l.
Definition is_borrowed (c : cow) : bool := match frag_borrowed c with Some _ => true | None => false end.

(** ** [sval::Stream for FlatStream], [flat.rs:178-810]

    One overridden method other than [value] and [value_computed].  Hints and
    the [record_tuple] methods are not overridden: see [fs_step]. *)
Definition fs_own (f : fstream) (e : ev) : res fstream :=
  let buf := fun b => vbuf_step b e in
  let self := [CE e] in
  match e with
  (* 207-234 *)
  | ETag t l i =>
      buffer_or_with f buf (fun f =>
        match f_state f with
        | SEnum s => settle f (x <- fe_tag s t (cloned l) i ;; OOk (SEnum s, Some x))
        | st => settle f (state_value st (n_tag S t (cloned l) i) (false, self))
        end)
  (* 236-265 *)
  | ESeqBegin n => buffer_or_begin f buf (s <- n_seq_begin S n ;; OOk (SSeq s)) (fun _ => OErr)
  | ESeqValBegin | ESeqValEnd => Ok f
  | ESeqEnd => buffer_or_end f buf (match f_state f with SSeq s => seq_end S s | _ => OErr end)
  (* 267-319; [with_map], 1256-1266; [take_map], 1268-1280 *)
  | EMapBegin n => buffer_or_begin f buf (s <- n_map_begin S n ;; OOk (SMap s true)) (fun _ => OErr)
  | EMapKeyBegin =>
      buffer_or_with f buf (fun f =>
        match f_buf f, f_state f with None, SMap s _ => Ok (MkFS None (SMap s true)) | _, _ => Err f end)
  | EMapValBegin =>
      buffer_or_with f buf (fun f =>
        match f_buf f, f_state f with None, SMap s _ => Ok (MkFS None (SMap s false)) | _, _ => Err f end)
  | EMapKeyEnd | EMapValEnd => buffer_or_with f buf (fun f => Ok f)
  | EMapEnd => buffer_or_end f buf (match f_state f with SMap s _ => map_end S s | _ => OErr end)
  (* 321-364; [take_enum], 1388-1402 *)
  | EEnumBegin t l i =>
      buffer_or_begin f buf
        (e <- n_enum_begin S t (cloned l) i ;; OOk (SEnum (fe_new e)))
        (fun s => OOk (SEnum (fe_push s t (cloned l) i)))
  | EEnumEnd _ _ _ =>
      buffer_or_end f buf
        (match f_state f with SEnum s => fe_end s | SDone _ => finish f | _ => OErr end)
  (* 366-411 *)
  | ETaggedBegin t l i =>
      buffer_or_begin f buf
        (OOk (STagged t (option_map label_to_owned l) i))
        (fun s => OOk (SVTagged s t (option_map label_to_owned l) i))
  | ETaggedEnd _ _ _ => buffer_or_end f buf (finish f)
  (* 413-486; [with_record], 1335-1353; [take_with_record], 1355-1386 *)
  | ERecordBegin t l i n =>
      buffer_or_begin f buf
        (s <- n_record_begin S t (cloned l) i n ;; OOk (SRecord s None))
        (fun s => s <- fe_record_begin s t (cloned l) i n ;; OOk (SVRecord s None))
  | ERecordValBegin t l =>
      buffer_or_with f buf (fun f =>
        match f_buf f, f_state f with
        | None, SRecord s _ => Ok (MkFS None (SRecord s (Some (t, label_to_owned l))))
        | None, SVRecord s _ => Ok (MkFS None (SVRecord s (Some (t, label_to_owned l))))
        | _, _ => Err f
        end)
  | ERecordValEnd _ _ => buffer_or_with f buf (fun f => Ok f)
  | ERecordEnd _ _ _ =>
      buffer_or_end f buf
        (match f_state f with SRecord s _ => record_end S s | SVRecord s _ => vrecord_end S s | _ => OErr end)
  (* 488-561; [with_tuple], 1282-1300; [take_with_tuple], 1302-1333 *)
  | ETupleBegin t l i n =>
      buffer_or_begin f buf
        (s <- n_tuple_begin S t (cloned l) i n ;; OOk (STuple s None))
        (fun s => s <- fe_tuple_begin s t (cloned l) i n ;; OOk (SVTuple s None))
  | ETupleValBegin t i =>
      buffer_or_with f buf (fun f =>
        match f_buf f, f_state f with
        | None, STuple s _ => Ok (MkFS None (STuple s (Some (t, i))))
        | None, SVTuple s _ => Ok (MkFS None (SVTuple s (Some (t, i))))
        | _, _ => Err f
        end)
  | ETupleValEnd _ _ => buffer_or_with f buf (fun f => Ok f)
  | ETupleEnd _ _ _ =>
      buffer_or_end f buf
        (match f_state f with STuple s _ => tuple_end S s | SVTuple s _ => vtuple_end S s | _ => OErr end)
  (* 563-715 *)
  | ENull => buffer_or_value f buf (n_null S) (true, self)
  | EBool x => buffer_or_value f buf (n_bool S x) (false, self)
  | EInt t z => buffer_or_value f buf (n_int S t z) (false, self)
  | EF32 x => buffer_or_value f buf (n_f32 S x) (false, self)
  | EF64 x => buffer_or_value f buf (n_f64 S x) (false, self)
  (* 717-758; [take_text], 1205-1217 *)
  | ETextBegin _ => buffer_or_with f buf (fun f => put_buffer f (BText text_buf_new))
  | ETextFrag s => buffer_or_with f buf (fun f => with_text f (fun c => frag_push c s))
  | ETextFragC s => buffer_or_with f buf (fun f => with_text f (fun c => frag_push_computed c s))
  | ETextEnd =>
      buffer_or_with f buf (fun f =>
        match f_buf f with
        | Some (BText c) =>
            let f := MkFS None (f_state f) in
            settle f (state_value (f_state f) (n_text S (is_borrowed c) (frag_inner c))
                                  (is_borrowed c, str_calls (frag_inner c)))
        | _ => Err f
        end)
  (* 760-809; [take_binary], 1228-1240 *)
  | EBinBegin _ => buffer_or_with f buf (fun f => put_buffer f (BBin text_buf_new))
  | EBinFrag s => buffer_or_with f buf (fun f => with_binary f (fun c => frag_push c s))
  | EBinFragC s => buffer_or_with f buf (fun f => with_binary f (fun c => frag_push_computed c s))
  | EBinEnd =>
      buffer_or_with f buf (fun f =>
        match f_buf f with
        | Some (BBin c) =>
            let f := MkFS None (f_state f) in
            settle f (state_value (f_state f) (n_bin S (is_borrowed c) (frag_inner c))
                                  (is_borrowed c, bin_calls (frag_inner c)))
        | _ => Err f
        end)
  | ETagHint _ | ERecTupBegin _ _ _ _ | ERecTupValBegin _ _ _ | ERecTupValEnd _ _ _ | ERecTupEnd _ _ _ => Ok f
  end.

(** The methods left to [sval]'s defaults ([src/stream.rs:1122-1609]): a hint does
    nothing and a record-tuple is a record.  [NestedProps.C35_default_methods]
    checks this against [LowerModel.lower]. *)
Definition fs_step (f : fstream) (e : ev) : res fstream :=
  match e with
  | ETagHint _ => Ok f
  | ERecTupBegin t l i n => fs_own f (ERecordBegin t l i n)
  | ERecTupValBegin t l i => fs_own f (ERecordValBegin t l)
  | ERecTupValEnd t l i => fs_own f (ERecordValEnd t l)
  | ERecTupEnd t l i => fs_own f (ERecordEnd t l i)
  | e => fs_own f e
  end.

(** Streaming a value into a [ValueBuf]: [sval::Stream::value(buf, v)] and
    [sval::Stream::value_computed(buf, v)], both defaults. *)
Definition buf_value (computed : bool) (v : list call) (b : vbuf) : res vbuf :=
  stream_value vbuf_step b (if computed then [CVC v] else v).

(** Streaming into a [FlatStream].  [comp] says whether the calls come through
    [Computed], as in [Event.flat1].  [value], 179-191, and [value_computed],
    193-205: an enum lets the value stream into itself; otherwise the value is
    handed to the user's stream, whose [value] and [value_computed] are the
    defaults of [lib.rs:935-963]: a new [FlatStream]. *)
Fixpoint fs_call (c : call) (comp : bool) (f : fstream) : res fstream :=
  let fix go (cs : list call) (comp : bool) (f : fstream) : res fstream :=
      match cs with
      | [] => Ok f
      | c :: cs' => fs_call c comp f >>= go cs' comp
      end in
  let value := fun (computed : bool) (cs : list call) =>
    buffer_or_with f (buf_value computed cs) (fun f =>
      match f_state f with
      | SEnum _ => go cs computed f
      | st =>
          let any := match go cs computed fs_new with
                     | Ok f' | Err f' => finish f'
                     | Panic => OPanic
                     end in
          settle f (state_value st any (negb computed, cs))
      end) in
  match c with
  | CE e => fs_step f (if comp then computed e else e)
  | CV cs => if comp then go cs true f else value false cs
  | CVC cs => value true cs
  | CFail => Err f
  end.

Fixpoint fs_calls (cs : list call) (comp : bool) (f : fstream) : res fstream :=
  match cs with
  | [] => Ok f
  | c :: cs' => fs_call c comp f >>= fs_calls cs' comp
  end.

(** [default_stream::value], [lib.rs:935-942], and [value_computed], 957-964. *)
Definition nested_value (computed : bool) (v : list call) : outcome ok :=
  match fs_calls v computed fs_new with
  | Ok f | Err f => finish f
  | Panic => OPanic
  end.
End Flat.
Arguments buffered : clear implicits.
Arguments state : clear implicits.
Arguments fstream : clear implicits.
Arguments fenum : clear implicits.

(** [sval_nested::stream], [stream_ref] and [stream_computed], [lib.rs:39-61]. *)
Definition nested_stream (S : nstream) (v : list call) : outcome (n_ok S) := nested_value (S := S) false v.
Definition nested_stream_computed (S : nstream) (v : list call) : outcome (n_ok S) := nested_value (S := S) true v.
