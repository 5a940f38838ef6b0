(** * NoAllocModel: [ValueBuf] without the [alloc] feature

    [buffer/src/value.rs] again, where the parts and the stack are
    [ArrayVec]s of one slot (110, 111).  ArrayVecProps.v proves that an [ArrayVec] is a list whose
    [push] is refused when it is full; here it is that list.  [dbg] is a debug
    build, in which running out of space panics instead of failing
    ([buffer/src/error.rs:59-81]).  [sa] is [sval] itself having [alloc], which
    another dependency can switch on: it decides what
    [Label::try_to_owned] does ([src/data.rs:158-169]). *)

From Verif Require Import Base Event LowerModel DataModel FragModel BufferModel.

Section NoAlloc.
  Variables (dbg sa : bool).

  (** [Error::no_alloc], [buffer/src/error.rs:59-81], caught by [try_catch], 253-262. *)
  Definition no_alloc (b : vbuf) : res vbuf := if dbg then Panic else vfail b.

  (** The const parameter of [parts] and [stack], 110-111. *)
  Definition nb_cap : nat := 1.

  (** [push_kind], 925-927; [push_begin], 929-932: the stack is pushed first and
      stays pushed when the part is refused. *)
  Definition nb_push (b : vbuf) (p : part) : res vbuf :=
    if Nat.eqb (List.length (parts b)) nb_cap then no_alloc b else Ok (push_part b p).
  Definition nb_begin (b : vbuf) (k : node) : res vbuf :=
    if Nat.eqb (List.length (stack b)) nb_cap then no_alloc b
    else
      let b' := MkVB (parts b) (List.length (parts b) :: stack b) (in_tb b) (err b) in
      if Nat.eqb (List.length (parts b')) nb_cap then no_alloc b'
      else Ok (MkVB (parts b' ++ [PNode 0 k]) (stack b') (in_tb b') (err b')).

  (** [Label::try_to_owned], [src/data.rs:158-169]; a failure is mapped to
      [no_alloc("owned label")], 569. *)
  Definition nb_label (l : label) : option label :=
    if sa then label_try_to_owned l else label_try_to_owned_noalloc l.
  Definition with_label (b : vbuf) (l : label) (f : label -> res vbuf) : res vbuf :=
    match nb_label l with Some l' => f l' | None => no_alloc b end.
  Definition with_opt (b : vbuf) (l : option label) (f : option label -> res vbuf) : res vbuf :=
    match l with
    | None => f None
    | Some l => with_label b l (fun l' => f (Some l'))
    end.

  (** [text_fragment] .. [binary_fragment_computed], 410-422, 437-449, on a
      fragment buffer that is a plain borrow ([buffer/src/fragments.rs:555-556]). *)
  Definition nb_frag (b : vbuf) (text borrowed : bool) (s : bytes) : res vbuf :=
    let add := if borrowed then frag_push_noalloc else frag_push_computed_noalloc in
    let go c (mk : cow -> part) :=
      match add (c_data c) s with
      | Ok s' => Ok (MkVB (set_last (parts b) (mk (MkCow false s'))) (stack b) (in_tb b) (err b))
      | _ => no_alloc b
      end in
    match last_part (parts b) with
    | None => Panic
    | Some (PText c) => if text then go c PText else vfail b
    | Some (PBin c) => if text then vfail b else go c PBin
    | Some _ => vfail b
    end.

  (** [Stream for ValueBuf], 392-804. *)
  Definition nb_step (b : vbuf) (e : ev) : res vbuf :=
    match e with
    | ENull => nb_push b (PLeaf VNull)
    | EBool x => nb_push b (PLeaf (VBool x))
    | ETextBegin _ => nb_push (set_in_tb b true) (PText text_buf_new)
    | ETextFrag s => nb_frag b true true s
    | ETextFragC s => nb_frag b true false s
    | ETextEnd => Ok (set_in_tb b false)
    | EBinBegin _ => nb_push (set_in_tb b true) (PBin text_buf_new)
    | EBinFrag s => nb_frag b false true s
    | EBinFragC s => nb_frag b false false s
    | EBinEnd => Ok (set_in_tb b false)
    | EInt t z => nb_push b (PLeaf (VInt t z))
    | EF32 f => nb_push b (PLeaf (VF32 f))
    | EF64 f => nb_push b (PLeaf (VF64 f))
    | EMapBegin n => nb_begin b (NMap n)
    | EMapKeyBegin => nb_begin b NMapKey
    | EMapKeyEnd => push_end b
    | EMapValBegin => nb_begin b NMapValue
    | EMapValEnd => push_end b
    | EMapEnd => push_end b
    | ESeqBegin n => nb_begin b (NSeq n)
    | ESeqValBegin => nb_begin b NSeqValue
    | ESeqValEnd => push_end b
    | ESeqEnd => push_end b
    | EEnumBegin t l i => with_opt b l (fun l => nb_begin b (NEnum t l i))
    | EEnumEnd _ _ _ => push_end b
    | ETaggedBegin t l i => with_opt b l (fun l => nb_begin b (NTagged t l i))
    | ETaggedEnd _ _ _ => push_end b
    | ETag t l i => with_opt b l (fun l => nb_push b (PLeaf (VTag t l i)))
    | ETagHint t => nb_push b (PLeaf (VTagHint t))
    | ERecordBegin t l i n => with_opt b l (fun l => nb_begin b (NRecord t l i n))
    | ERecordValBegin t l => with_label b l (fun l => nb_begin b (NRecordValue t l))
    | ERecordValEnd _ _ => push_end b
    | ERecordEnd _ _ _ => push_end b
    | ETupleBegin t l i n => with_opt b l (fun l => nb_begin b (NTuple t l i n))
    | ETupleValBegin t i => nb_begin b (NTupleValue t i)
    | ETupleValEnd _ _ => push_end b
    | ETupleEnd _ _ _ => push_end b
    | ERecTupBegin t l i n => with_opt b l (fun l => nb_begin b (NRecTup t l i n))
    | ERecTupValBegin t l i => with_label b l (fun l => nb_begin b (NRecTupValue t l i))
    | ERecTupValEnd _ _ _ => push_end b
    | ERecTupEnd _ _ _ => push_end b
    end.

  (** [ValueBuf::collect], 153-162, and [collect_owned], 287-299. *)
  Definition nb_collect (v : list call) : outcome vbuf :=
    match stream_value nb_step vbuf_new v with
    | Ok b => OOk b
    | Err _ => OErr
    | Panic => OPanic
    end.
  Definition nb_collect_owned (v : list call) : outcome vbuf := nb_collect [CVC v].

  (** [ValueBuf::into_owned], 247-250, and [Value::into_owned], 334-337. *)
  Definition nb_into_owned (b : vbuf) : outcome vbuf := if dbg then OPanic else OErr.

  (** A history of calls that goes on after a failed call. *)
  Definition nb_next (b : vbuf) (e : ev) : vbuf :=
    match nb_step b e with Ok b' | Err b' => b' | Panic => b end.
  Definition nb_drive (es : list ev) : vbuf := fold_left nb_next es vbuf_new.
End NoAlloc.
