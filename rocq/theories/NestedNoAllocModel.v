(** * NestedNoAllocModel: [sval_nested] without the [alloc] feature

    NestedModel.v again, where [sval_nested] and [sval_buffer] are built without
    [alloc].  What differs: labels can only be kept when they are static
    ([nested/src/lib.rs:910-922]); enums inside enums cannot be queued
    ([nested/src/flat_enum.rs:216-257]); texts and binaries are single borrowed
    fragments (FragModel.v); buffered values have one slot (NoAllocModel.v).  [dbg] is a
    debug build, where running out of space panics ([nested/src/error.rs:49-68],
    [buffer/src/error.rs:59-81]); [sa] is [sval] itself having [alloc].  The types
    of states and the functions that do not allocate are those of
    NestedModel.v.  If [sval] has no [alloc] either, no [Label] is owned and [Clone]
    copies every field ([src/data.rs:61-71]), as [label_clone] does for the others. *)

From Verif Require Import Base Event LowerModel DataModel FragModel BufferModel NoAllocModel NestedModel SerdeModel.

Section Flat.
Variables (dbg sa : bool).
Context {S : nstream}.
Notation ok := (n_ok S).

(** [Error::no_alloc], [nested/src/error.rs:49-68]. *)
Definition no_room {A} : outcome A := if dbg then OPanic else OErr.

(** [owned_label_ref], [lib.rs:910-922]. *)
Definition na_owned (l : label) : outcome label :=
  match as_static_str l with Some s => OOk (label_new s) | None => no_room end.
Definition na_opt (l : option label) : outcome (option label) :=
  match l with Some l => l' <- na_owned l ;; OOk (Some l') | None => OOk None end.

(** [FlatStreamEnum::push], [flat_enum.rs:25-40], with [Queue::push_back], 221-233. *)
Definition na_push (e : fenum S) (t : option tag) (l : option label) (i : option index) : outcome (fenum S) :=
  l' <- na_opt l ;; no_room.

(** [TextBuf::push_fragment], [push_fragment_computed]: [buffer/src/fragments.rs:629-653]. *)
Definition na_frag (f : fstream S) (mk : cow -> buffered) (r : res bytes) : res (fstream S) :=
  match r with
  | Ok s => Ok (MkFS (Some (mk (MkCow false s))) (f_state f))
  | _ => if dbg then Panic else Err f
  end.
Definition na_text (f : fstream S) (k : bytes -> res bytes) : res (fstream S) :=
  match f_buf f with Some (BText c) => na_frag f BText (k (c_data c)) | _ => Err f end.
Definition na_binary (f : fstream S) (k : bytes -> res bytes) : res (fstream S) :=
  match f_buf f with Some (BBin c) => na_frag f BBin (k (c_data c)) | _ => Err f end.
(** A field of a record, [flat.rs:442-461] and [with_record], 1335-1353. *)
Definition na_field (f : fstream S) (l : label) (k : label -> state S) : res (fstream S) :=
  lift f (l' <- na_owned l ;; OOk (k l')).

(** ** [sval::Stream for FlatStream], [flat.rs:178-810]

    One overridden method other than [value] and [value_computed].  Hints and
    the [record_tuple] methods are not overridden: see [na_step]. *)
Definition na_own (f : fstream S) (e : ev) : res (fstream S) :=
  let buf := fun b => nb_step dbg sa b e in
  let self := [CE e] in
  match e with
  (* 207-234 *)
  | ETag t l i =>
      buffer_or_with f buf (fun f =>
        match f_state f with
        | SEnum s => settle f (x <- fe_tag s t (cloned l) i ;; OOk (SEnum s, Some x))
        | st => settle f (state_value st (n_tag S t (cloned l) i) (false, self))
        end)
  (* 236-265 *)
  | ESeqBegin n => buffer_or_begin f buf (s <- n_seq_begin S n ;; OOk (SSeq s)) (fun _ => OErr)
  | ESeqValBegin | ESeqValEnd => Ok f
  | ESeqEnd => buffer_or_end f buf (match f_state f with SSeq s => seq_end S s | _ => OErr end)
  (* 267-319; [with_map], 1256-1266; [take_map], 1268-1280 *)
  | EMapBegin n => buffer_or_begin f buf (s <- n_map_begin S n ;; OOk (SMap s true)) (fun _ => OErr)
  | EMapKeyBegin =>
      buffer_or_with f buf (fun f =>
        match f_buf f, f_state f with None, SMap s _ => Ok (MkFS None (SMap s true)) | _, _ => Err f end)
  | EMapValBegin =>
      buffer_or_with f buf (fun f =>
        match f_buf f, f_state f with None, SMap s _ => Ok (MkFS None (SMap s false)) | _, _ => Err f end)
  | EMapKeyEnd | EMapValEnd => buffer_or_with f buf (fun f => Ok f)
  | EMapEnd => buffer_or_end f buf (match f_state f with SMap s _ => map_end S s | _ => OErr end)
  (* 321-364; [take_enum], 1388-1402 *)
  | EEnumBegin t l i =>
      buffer_or_begin f buf
        (e <- n_enum_begin S t (cloned l) i ;; OOk (SEnum (fe_new e)))
        (fun s => s' <- na_push s t (cloned l) i ;; OOk (SEnum s'))
  | EEnumEnd _ _ _ =>
      buffer_or_end f buf
        (match f_state f with SEnum s => fe_end s | SDone _ => finish f | _ => OErr end)
  (* 366-411 *)
  | ETaggedBegin t l i =>
      buffer_or_begin f buf
        (l' <- na_opt l ;; OOk (STagged t l' i))
        (fun s => l' <- na_opt l ;; OOk (SVTagged s t l' i))
  | ETaggedEnd _ _ _ => buffer_or_end f buf (finish f)
  (* 413-486; [with_record], 1335-1353; [take_with_record], 1355-1386 *)
  | ERecordBegin t l i n =>
      buffer_or_begin f buf
        (s <- n_record_begin S t (cloned l) i n ;; OOk (SRecord s None))
        (fun s => s <- fe_record_begin s t (cloned l) i n ;; OOk (SVRecord s None))
  | ERecordValBegin t l =>
      buffer_or_with f buf (fun f =>
        match f_buf f, f_state f with
        | None, SRecord s _ => na_field f l (fun l => SRecord s (Some (t, l)))
        | None, SVRecord s _ => na_field f l (fun l => SVRecord s (Some (t, l)))
        | _, _ => Err f
        end)
  | ERecordValEnd _ _ => buffer_or_with f buf (fun f => Ok f)
  | ERecordEnd _ _ _ =>
      buffer_or_end f buf
        (match f_state f with SRecord s _ => record_end S s | SVRecord s _ => vrecord_end S s | _ => OErr end)
  (* 488-561; [with_tuple], 1282-1300; [take_with_tuple], 1302-1333 *)
  | ETupleBegin t l i n =>
      buffer_or_begin f buf
        (s <- n_tuple_begin S t (cloned l) i n ;; OOk (STuple s None))
        (fun s => s <- fe_tuple_begin s t (cloned l) i n ;; OOk (SVTuple s None))
  | ETupleValBegin t i =>
      buffer_or_with f buf (fun f =>
        match f_buf f, f_state f with
        | None, STuple s _ => Ok (MkFS None (STuple s (Some (t, i))))
        | None, SVTuple s _ => Ok (MkFS None (SVTuple s (Some (t, i))))
        | _, _ => Err f
        end)
  | ETupleValEnd _ _ => buffer_or_with f buf (fun f => Ok f)
  | ETupleEnd _ _ _ =>
      buffer_or_end f buf
        (match f_state f with STuple s _ => tuple_end S s | SVTuple s _ => vtuple_end S s | _ => OErr end)
  (* 563-715 *)
  | ENull => buffer_or_value f buf (n_null S) (true, self)
  | EBool x => buffer_or_value f buf (n_bool S x) (false, self)
  | EInt t z => buffer_or_value f buf (n_int S t z) (false, self)
  | EF32 x => buffer_or_value f buf (n_f32 S x) (false, self)
  | EF64 x => buffer_or_value f buf (n_f64 S x) (false, self)
  (* 717-758; [take_text], 1205-1217 *)
  | ETextBegin _ => buffer_or_with f buf (fun f => put_buffer f (BText text_buf_new))
  | ETextFrag s => buffer_or_with f buf (fun f => na_text f (fun c => frag_push_noalloc c s))
  | ETextFragC s => buffer_or_with f buf (fun f => na_text f (fun c => frag_push_computed_noalloc c s))
  | ETextEnd =>
      buffer_or_with f buf (fun f =>
        match f_buf f with
        | Some (BText c) =>
            let f := MkFS None (f_state f) in
            settle f (state_value (f_state f) (n_text S (is_borrowed c) (frag_inner c))
                                  (is_borrowed c, str_calls (frag_inner c)))
        | _ => Err f
        end)
  (* 760-809; [take_binary], 1228-1240 *)
  | EBinBegin _ => buffer_or_with f buf (fun f => put_buffer f (BBin text_buf_new))
  | EBinFrag s => buffer_or_with f buf (fun f => na_binary f (fun c => frag_push_noalloc c s))
  | EBinFragC s => buffer_or_with f buf (fun f => na_binary f (fun c => frag_push_computed_noalloc c s))
  | EBinEnd =>
      buffer_or_with f buf (fun f =>
        match f_buf f with
        | Some (BBin c) =>
            let f := MkFS None (f_state f) in
            settle f (state_value (f_state f) (n_bin S (is_borrowed c) (frag_inner c))
                                  (is_borrowed c, bin_calls (frag_inner c)))
        | _ => Err f
        end)
  | ETagHint _ | ERecTupBegin _ _ _ _ | ERecTupValBegin _ _ _ | ERecTupValEnd _ _ _ | ERecTupEnd _ _ _ => Ok f
  end.

(** The methods left to [sval]'s defaults ([src/stream.rs:1122-1609]): a hint does
    nothing and a record-tuple is a record.  [NestedProps.C35_default_methods]
    checks this against [LowerModel.lower]. *)
Definition na_step (f : fstream S) (e : ev) : res (fstream S) :=
  match e with
  | ETagHint _ => Ok f
  | ERecTupBegin t l i n => na_own f (ERecordBegin t l i n)
  | ERecTupValBegin t l i => na_own f (ERecordValBegin t l)
  | ERecTupValEnd t l i => na_own f (ERecordValEnd t l)
  | ERecTupEnd t l i => na_own f (ERecordEnd t l i)
  | e => na_own f e
  end.

(** Streaming a value into a [ValueBuf]: [sval::Stream::value(buf, v)] and
    [sval::Stream::value_computed(buf, v)], both defaults. *)
Definition na_buf_value (computed : bool) (v : list call) (b : vbuf) : res vbuf :=
  Event.stream_value (nb_step dbg sa) b (if computed then [CVC v] else v).

(** Streaming into a [FlatStream].  [comp] says whether the calls come through
    [Computed], as in [Event.flat1].  [value], 179-191, and [value_computed],
    193-205: an enum lets the value stream into itself; otherwise the value is
    handed to the user's stream, whose [value] and [value_computed] are the
    defaults of [lib.rs:935-963]: a new [FlatStream]. *)
Fixpoint na_call (c : call) (comp : bool) (f : fstream S) : res (fstream S) :=
  let fix go (cs : list call) (comp : bool) (f : fstream S) : res (fstream S) :=
      match cs with
      | [] => Ok f
      | c :: cs' => na_call c comp f >>= go cs' comp
      end in
  let value := fun (computed : bool) (cs : list call) =>
    buffer_or_with f (na_buf_value computed cs) (fun f =>
      match f_state f with
      | SEnum _ => go cs computed f
      | st =>
          let any := match go cs computed fs_new with
                     | Ok f' | Err f' => finish f'
                     | Panic => OPanic
                     end in
          settle f (state_value st any (negb computed, cs))
      end) in
  match c with
  | CE e => na_step f (if comp then computed e else e)
  | CV cs => if comp then go cs true f else value false cs
  | CVC cs => value true cs
  | CFail => Err f
  end.

Fixpoint na_calls (cs : list call) (comp : bool) (f : fstream S) : res (fstream S) :=
  match cs with
  | [] => Ok f
  | c :: cs' => na_call c comp f >>= na_calls cs' comp
  end.

(** [default_stream::value], [lib.rs:935-942], and [value_computed], 957-964. *)
Definition na_value (computed : bool) (v : list call) : outcome ok :=
  match na_calls v computed fs_new with
  | Ok f | Err f => finish f
  | Panic => OPanic
  end.
End Flat.

(** [sval_nested::stream], [lib.rs:39-61]. *)
Definition na_stream (dbg sa : bool) (S : nstream) (v : list call) : outcome (n_ok S) := na_value dbg sa (S := S) false v.

(** [Serialize for ToSerialize], [serde/src/to_serialize.rs:42-48], over it. *)
Fixpoint na_serialize (dbg sa : bool) (S : serializer) (n : nat) (v : list call) (k : k_ser S) : outcome (k_ok S) :=
  match n with
  | 0 => OErr
  | Datatypes.S n' =>
      r <- na_stream dbg sa (serialize_stream S (na_serialize dbg sa S n') k) v ;;
      match r with Some x => OOk x | None => OErr end
  end.
