(** * BufferModel: [ValueBuf]

    [buffer/src/value.rs], with the [alloc] feature. *)

From Verif Require Import Base Event LowerModel DataModel FragModel.

(** [ValueKind], 831-922, split into the kinds without a [len] field and those
    with one. *)
Inductive leaf :=
| VNull
| VBool (b : bool)
| VInt (t : ity) (z : Z)
| VF32 (f : float)
| VF64 (f : float)
| VTag (t : option tag) (l : option label) (i : option index)
| VTagHint (t : tag).
Inductive node :=
| NMap (n : option N)
| NMapKey
| NMapValue
| NSeq (n : option N)
| NSeqValue
| NEnum (t : option tag) (l : option label) (i : option index)
| NTagged (t : option tag) (l : option label) (i : option index)
| NRecord (t : option tag) (l : option label) (i : option index) (n : option N)
| NRecordValue (t : option tag) (l : label)
| NTuple (t : option tag) (l : option label) (i : option index) (n : option N)
| NTupleValue (t : option tag) (i : index)
| NRecTup (t : option tag) (l : option label) (i : option index) (n : option N)
| NRecTupValue (t : option tag) (l : label) (i : index).
Inductive part :=
| PLeaf (k : leaf)
| PText (c : cow)
| PBin (c : cow)
| PNode (len : nat) (k : node).

(** [ValueBuf], 108-115.  Of the error only its presence is kept; the top of
    [stack] comes first. *)
Record vbuf := MkVB { parts : list part; stack : list nat; in_tb : bool; err : bool }.

(** [new], 138-146; [is_complete], 167-169; [clear], 174-187. *)
Definition vbuf_new : vbuf := MkVB [] [] false false.
Definition is_complete (b : vbuf) : bool :=
  Nat.eqb (List.length (stack b)) 0 && Nat.ltb 0 (List.length (parts b)) && negb (in_tb b).
Definition vbuf_clear (b : vbuf) : vbuf :=
  let b := MkVB [] (stack b) (in_tb b) (err b) in
  let b := MkVB (parts b) [] (in_tb b) (err b) in
  let b := MkVB (parts b) (stack b) false (err b) in
  MkVB (parts b) (stack b) (in_tb b) false.

(** [fail], 265-268. *)
Definition vfail (b : vbuf) : res vbuf := Err (MkVB (parts b) (stack b) (in_tb b) true).

(** [push_kind], 925-927; [push_begin], 929-932. *)
Definition push_part (b : vbuf) (p : part) : vbuf :=
  MkVB (parts b ++ [p]) (stack b) (in_tb b) (err b).
Definition push_begin (b : vbuf) (k : node) : vbuf :=
  MkVB (parts b ++ [PNode 0 k]) (List.length (parts b) :: stack b) (in_tb b) (err b).

(** [self.parts.get_mut(index)] and the assignment of [len]. *)
Fixpoint set_part (ps : list part) (n : nat) (p : part) : list part :=
  match ps, n with
  | [], _ => []
  | _ :: r, 0 => p :: r
  | q :: r, S n' => q :: set_part r n' p
  end.

(** [push_end], 934-977; an index past the end is a panic ([unwrap], or the
    subtraction). *)
Definition push_end (b : vbuf) : res vbuf :=
  match stack b with
  | [] => vfail b
  | index :: rest =>
      let b' := MkVB (parts b) rest (in_tb b) (err b) in
      match nth_error (parts b) index with
      | None => Panic
      | Some (PNode _ k) =>
          Ok (MkVB (set_part (parts b) index (PNode (List.length (parts b) - index - 1) k)) rest (in_tb b) (err b))
      | Some _ => vfail b'
      end
  end.

(** [current_mut], 979-981: the last part; panics when there is none. *)
Definition last_part (ps : list part) : option part :=
  match rev ps with [] => None | p :: _ => Some p end.
Definition set_last (ps : list part) (p : part) : list part := removelast ps ++ [p].

(** [text_fragment] .. [binary_fragment_computed], 410-422, 437-449. *)
Definition push_frag (b : vbuf) (text borrowed : bool) (s : bytes) : res vbuf :=
  let add := if borrowed then frag_push else frag_push_computed in
  match last_part (parts b) with
  | None => Panic
  | Some (PText c) =>
      if text then Ok (MkVB (set_last (parts b) (PText (add c s))) (stack b) (in_tb b) (err b)) else vfail b
  | Some (PBin c) =>
      if text then vfail b else Ok (MkVB (set_last (parts b) (PBin (add c s))) (stack b) (in_tb b) (err b))
  | Some _ => vfail b
  end.

Definition set_in_tb (b : vbuf) (x : bool) : vbuf := MkVB (parts b) (stack b) x (err b).
Definition own (l : option label) : option label := option_map label_to_owned l.

(** [Stream for ValueBuf], 392-804: every method but [value] and [value_computed]
    is overridden.  [label.try_to_owned()] cannot fail with [alloc]. *)
Definition vbuf_step (b : vbuf) (e : ev) : res vbuf :=
  match e with
  | ENull => Ok (push_part b (PLeaf VNull))
  | EBool x => Ok (push_part b (PLeaf (VBool x)))
  | ETextBegin _ => Ok (push_part (set_in_tb b true) (PText text_buf_new))
  | ETextFrag s => push_frag b true true s
  | ETextFragC s => push_frag b true false s
  | ETextEnd => Ok (set_in_tb b false)
  | EBinBegin _ => Ok (push_part (set_in_tb b true) (PBin text_buf_new))
  | EBinFrag s => push_frag b false true s
  | EBinFragC s => push_frag b false false s
  | EBinEnd => Ok (set_in_tb b false)
  | EInt t z => Ok (push_part b (PLeaf (VInt t z)))
  | EF32 f => Ok (push_part b (PLeaf (VF32 f)))
  | EF64 f => Ok (push_part b (PLeaf (VF64 f)))
  | EMapBegin n => Ok (push_begin b (NMap n))
  | EMapKeyBegin => Ok (push_begin b NMapKey)
  | EMapKeyEnd => push_end b
  | EMapValBegin => Ok (push_begin b NMapValue)
  | EMapValEnd => push_end b
  | EMapEnd => push_end b
  | ESeqBegin n => Ok (push_begin b (NSeq n))
  | ESeqValBegin => Ok (push_begin b NSeqValue)
  | ESeqValEnd => push_end b
  | ESeqEnd => push_end b
  | EEnumBegin t l i => Ok (push_begin b (NEnum t (own l) i))
  | EEnumEnd _ _ _ => push_end b
  | ETaggedBegin t l i => Ok (push_begin b (NTagged t (own l) i))
  | ETaggedEnd _ _ _ => push_end b
  | ETag t l i => Ok (push_part b (PLeaf (VTag t (own l) i)))
  | ETagHint t => Ok (push_part b (PLeaf (VTagHint t)))
  | ERecordBegin t l i n => Ok (push_begin b (NRecord t (own l) i n))
  | ERecordValBegin t l => Ok (push_begin b (NRecordValue t (label_to_owned l)))
  | ERecordValEnd _ _ => push_end b
  | ERecordEnd _ _ _ => push_end b
  | ETupleBegin t l i n => Ok (push_begin b (NTuple t (own l) i n))
  | ETupleValBegin t i => Ok (push_begin b (NTupleValue t i))
  | ETupleValEnd _ _ => push_end b
  | ETupleEnd _ _ _ => push_end b
  | ERecTupBegin t l i n => Ok (push_begin b (NRecTup t (own l) i n))
  | ERecTupValBegin t l i => Ok (push_begin b (NRecTupValue t (label_to_owned l) i))
  | ERecTupValEnd _ _ _ => push_end b
  | ERecTupEnd _ _ _ => push_end b
  end.

(** [ValueBuf::collect], 153-162, and [collect_owned], 287-299: the buffer, or an
    error; [sval::stream_computed] streams the value through [Computed]. *)
Definition vbuf_collect (v : list call) : outcome vbuf :=
  match stream_value vbuf_step vbuf_new v with
  | Ok b => OOk b
  | Err _ => OErr
  | Panic => OPanic
  end.
Definition vbuf_collect_owned (v : list call) : outcome vbuf :=
  vbuf_collect [CVC v].

(** [ValuePart::into_owned_in_place], 1008-1134, and [ValueBuf::into_owned], 214-251. *)
Definition part_into_owned (p : part) : part :=
  match p with
  | PText c => PText (frag_into_owned c)
  | PBin c => PBin (frag_into_owned c)
  | p => p
  end.
Definition vbuf_into_owned (b : vbuf) : vbuf :=
  MkVB (map part_into_owned (parts b)) (stack b) (in_tb b) (err b).

(** The derived [Clone] of [ValueKind], used by [to_value], 192-197: labels are
    cloned by [Label::clone]. *)
Definition clone_opt (l : option label) : option label := option_map label_clone l.
Definition leaf_clone (k : leaf) : leaf :=
  match k with VTag t l i => VTag t (clone_opt l) i | k => k end.
Definition node_clone (k : node) : node :=
  match k with
  | NEnum t l i => NEnum t (clone_opt l) i
  | NTagged t l i => NTagged t (clone_opt l) i
  | NRecord t l i n => NRecord t (clone_opt l) i n
  | NRecordValue t l => NRecordValue t (label_clone l)
  | NTuple t l i n => NTuple t (clone_opt l) i n
  | NRecTup t l i n => NRecTup t (clone_opt l) i n
  | NRecTupValue t l i => NRecTupValue t (label_clone l) i
  | k => k
  end.
Definition part_clone (p : part) : part :=
  match p with
  | PLeaf k => PLeaf (leaf_clone k)
  | PNode n k => PNode n (node_clone k)
  | p => p
  end.
Definition to_value (b : vbuf) : list part := map part_clone (parts b).
Definition into_value (b : vbuf) : list part := parts b.

(** ** Replay: [ValueSlice::stream_ref], 1149-1350 *)
Definition leaf_ev (k : leaf) : ev :=
  match k with
  | VNull => ENull
  | VBool b => EBool b
  | VInt t z => EInt t z
  | VF32 f => EF32 f
  | VF64 f => EF64 f
  | VTag t l i => ETag t l i
  | VTagHint t => ETagHint t
  end.
Definition begin_ev (k : node) : ev :=
  match k with
  | NMap n => EMapBegin n
  | NMapKey => EMapKeyBegin
  | NMapValue => EMapValBegin
  | NSeq n => ESeqBegin n
  | NSeqValue => ESeqValBegin
  | NEnum t l i => EEnumBegin t l i
  | NTagged t l i => ETaggedBegin t l i
  | NRecord t l i n => ERecordBegin t l i n
  | NRecordValue t l => ERecordValBegin t l
  | NTuple t l i n => ETupleBegin t l i n
  | NTupleValue t i => ETupleValBegin t i
  | NRecTup t l i n => ERecTupBegin t l i n
  | NRecTupValue t l i => ERecTupValBegin t l i
  end.
Definition end_ev (k : node) : ev :=
  match k with
  | NMap _ => EMapEnd
  | NMapKey => EMapKeyEnd
  | NMapValue => EMapValEnd
  | NSeq _ => ESeqEnd
  | NSeqValue => ESeqValEnd
  | NEnum t l i => EEnumEnd t l i
  | NTagged t l i => ETaggedEnd t l i
  | NRecord t l i _ => ERecordEnd t l i
  | NRecordValue t l => ERecordValEnd t l
  | NTuple t l i _ => ETupleEnd t l i
  | NTupleValue t i => ETupleValEnd t i
  | NRecTup t l i _ => ERecTupEnd t l i
  | NRecTupValue t l i => ERecTupValEnd t l i
  end.

(** The calls made when replaying a slice of parts; [None] is the out-of-range
    panic of [slice], 993-1003 (the calls made before it are not kept), or fuel
    running out, which BufferProofs.v excludes for fuel above the length.
    [body] is [self.slice(i + 1 .. i + 1 + len)] and the loop goes on at
    [i + len + 1]. *)
Fixpoint replay (fuel : nat) (ps : list part) : option (list call) :=
  match ps with
  | [] => Some []
  | p :: rest =>
      match fuel with
      | 0 => None
      | S fuel' =>
          match p with
          | PLeaf k => option_map (fun cs => CE (leaf_ev k) :: cs) (replay fuel' rest)
          | PText c => option_map (fun cs => text_buf_ref c ++ cs) (replay fuel' rest)
          | PBin c => option_map (fun cs => bin_buf_ref c ++ cs) (replay fuel' rest)
          | PNode len k =>
              if Nat.leb len (List.length rest) then
                match replay fuel' (firstn len rest), replay fuel' (skipn len rest) with
                | Some body, Some cs => Some (CE (begin_ev k) :: body ++ CE (end_ev k) :: cs)
                | _, _ => None
                end
              else None
          end
      end
  end.

(** [stream_ref], 380-390: an empty buffer streams null. *)
Definition stream_parts (ps : list part) : option (list call) :=
  match ps with
  | [] => Some [CE ENull]
  | _ => replay (S (List.length ps)) ps
  end.
Definition vbuf_stream (b : vbuf) : option (list call) := stream_parts (parts b).
