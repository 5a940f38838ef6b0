(** * MemBufModel: what buffers keep referring to

    [buffer/src/value.rs] and [buffer/src/fragments.rs] again, with the memory
    that texts and bytes lie in.  A text is at an address; once it is gone,
    reading it is a fault, [None] here.  What a buffer has copied is its own
    ([String], [Vec<u8>]) and goes with the buffer.  Only texts and bytes are
    followed this way: of everything else a buffer holds, only labels could refer
    to memory, and those are either static or owned (C86_labels_are_own). *)

From Verif Require Import Base Event LowerModel DataModel FragModel BufferModel.

(** Memory: what is at each address, while it is there. *)
Definition mem := list (option bytes).
Definition read (m : mem) (a : nat) : option bytes :=
  match nth_error m a with Some c => c | None => None end.
Fixpoint gone (m : mem) (a : nat) : mem :=
  match m, a with
  | [], _ => []
  | _ :: m, O => None :: m
  | c :: m, S a => c :: gone m a
  end.

(** [Cow<'sval, T>], [fragments.rs:554-559]. *)
Inductive mcow := MBorrowed (a : nat) | MOwned (s : bytes).
(** [ValuePart], 826-828, and [ValueKind], 831-922. *)
Inductive mpart := MText (c : mcow) | MBin (c : mcow) | MLeaf (k : leaf) | MNode (len : nat) (k : node).
(** [ValueBuf], 108-115; a [Value], 123-126, is one nothing is open in. *)
Record mbuf := MkMB { m_parts : list mpart; m_stack : list nat; m_in_tb : bool; m_err : bool }.

(** The empty string of [TextBuf::new] and [BinaryBuf::new],
    [fragments.rs:28-32, 285-289], is static: it is at address 0 and never goes. *)
Definition empty_text : nat := 0.
Definition mem_new : mem := [Some []].

(** [as_inner], [fragments.rs:670-681]. *)
Definition m_inner (m : mem) (c : mcow) : option bytes :=
  match c with MBorrowed a => read m a | MOwned s => Some s end.
(** [push_computed], 640-654, [extend], 531-535, 543-547: the fragment is at [a];
    what is there is copied, and so is what was borrowed before ([to_mut]). *)
Definition m_push_computed (m : mem) (c : mcow) (a : nat) : option mcow :=
  match m_inner m c, read m a with
  | Some s, Some t => Some (MOwned (s ++ t))
  | _, _ => None
  end.
(** [push], 628-637. *)
Definition m_push (m : mem) (c : mcow) (a : nat) : option mcow :=
  match m_inner m c with
  | None => None
  | Some [] => Some (MBorrowed a)
  | Some _ => m_push_computed m c a
  end.
(** [into_owned_in_place], 520-527, 684-690. *)
Definition m_own (m : mem) (c : mcow) : option mcow :=
  match c with
  | MBorrowed a => option_map MOwned (read m a)
  | MOwned s => Some (MOwned s)
  end.

(** ** The stream methods of [ValueBuf], 392-804

    [None] is a fault. *)
Definition m_push_part (b : mbuf) (p : mpart) : mbuf :=
  MkMB (m_parts b ++ [p]) (m_stack b) (m_in_tb b) (m_err b).
Definition m_fail (b : mbuf) : res mbuf := Err (MkMB (m_parts b) (m_stack b) (m_in_tb b) true).
Definition m_set_in_tb (b : mbuf) (x : bool) : mbuf := MkMB (m_parts b) (m_stack b) x (m_err b).

(** [text_fragment] .. [binary_fragment_computed], 410-422, 437-449. *)
Definition m_frag (m : mem) (b : mbuf) (text borrowed : bool) (a : nat) : option (res mbuf) :=
  let add c mk :=
    match (if borrowed then m_push m c a else m_push_computed m c a) with
    | Some c' => Some (Ok (MkMB (removelast (m_parts b) ++ [mk c']) (m_stack b) (m_in_tb b) (m_err b)))
    | None => None
    end in
  match rev (m_parts b) with
  | [] => Some Panic
  | MText c :: _ => if text then add c MText else Some (m_fail b)
  | MBin c :: _ => if text then Some (m_fail b) else add c MBin
  | _ :: _ => Some (m_fail b)
  end.

(** [push_begin], 929-932. *)
Definition m_begin (b : mbuf) (k : node) : mbuf :=
  MkMB (m_parts b ++ [MNode 0 k]) (List.length (m_parts b) :: m_stack b) (m_in_tb b) (m_err b).
(** [push_end], 934-977. *)
Fixpoint m_set_part (ps : list mpart) (n : nat) (p : mpart) : list mpart :=
  match ps, n with
  | [], _ => []
  | _ :: r, 0 => p :: r
  | q :: r, S n' => q :: m_set_part r n' p
  end.
Definition m_end (b : mbuf) : res mbuf :=
  match m_stack b with
  | [] => m_fail b
  | index :: rest =>
      match nth_error (m_parts b) index with
      | None => Panic
      | Some (MNode _ k) =>
          Ok (MkMB (m_set_part (m_parts b) index (MNode (List.length (m_parts b) - index - 1) k)) rest (m_in_tb b) (m_err b))
      | Some _ => m_fail (MkMB (m_parts b) rest (m_in_tb b) (m_err b))
      end
  end.

(** The methods that get no text or bytes. *)
Definition m_step (b : mbuf) (e : ev) : res mbuf :=
  match e with
  | ENull => Ok (m_push_part b (MLeaf VNull))
  | EBool x => Ok (m_push_part b (MLeaf (VBool x)))
  | ETextBegin _ => Ok (m_push_part (m_set_in_tb b true) (MText (MBorrowed empty_text)))
  | ETextEnd => Ok (m_set_in_tb b false)
  | EBinBegin _ => Ok (m_push_part (m_set_in_tb b true) (MBin (MBorrowed empty_text)))
  | EBinEnd => Ok (m_set_in_tb b false)
  | ETextFrag _ | ETextFragC _ | EBinFrag _ | EBinFragC _ => Ok b
  | EInt t z => Ok (m_push_part b (MLeaf (VInt t z)))
  | EF32 f => Ok (m_push_part b (MLeaf (VF32 f)))
  | EF64 f => Ok (m_push_part b (MLeaf (VF64 f)))
  | EMapBegin n => Ok (m_begin b (NMap n))
  | EMapKeyBegin => Ok (m_begin b NMapKey)
  | EMapValBegin => Ok (m_begin b NMapValue)
  | ESeqBegin n => Ok (m_begin b (NSeq n))
  | ESeqValBegin => Ok (m_begin b NSeqValue)
  | EEnumBegin t l i => Ok (m_begin b (NEnum t (own l) i))
  | ETaggedBegin t l i => Ok (m_begin b (NTagged t (own l) i))
  | ETag t l i => Ok (m_push_part b (MLeaf (VTag t (own l) i)))
  | ETagHint t => Ok (m_push_part b (MLeaf (VTagHint t)))
  | ERecordBegin t l i n => Ok (m_begin b (NRecord t (own l) i n))
  | ERecordValBegin t l => Ok (m_begin b (NRecordValue t (label_to_owned l)))
  | ETupleBegin t l i n => Ok (m_begin b (NTuple t (own l) i n))
  | ETupleValBegin t i => Ok (m_begin b (NTupleValue t i))
  | ERecTupBegin t l i n => Ok (m_begin b (NRecTup t (own l) i n))
  | ERecTupValBegin t l i => Ok (m_begin b (NRecTupValue t (label_to_owned l) i))
  | EMapKeyEnd | EMapValEnd | EMapEnd | ESeqValEnd | ESeqEnd
  | EEnumEnd _ _ _ | ETaggedEnd _ _ _ | ERecordValEnd _ _ | ERecordEnd _ _ _
  | ETupleValEnd _ _ | ETupleEnd _ _ _ | ERecTupValEnd _ _ _ | ERecTupEnd _ _ _ => m_end b
  end.

(** [ValuePart::into_owned_in_place], 1008-1139, and [into_owned], 214-246, 318-333. *)
Definition m_own_part (m : mem) (p : mpart) : option mpart :=
  match p with
  | MText c => option_map MText (m_own m c)
  | MBin c => option_map MBin (m_own m c)
  | p => Some p
  end.
Fixpoint m_own_parts (m : mem) (ps : list mpart) : option (list mpart) :=
  match ps with
  | [] => Some []
  | p :: ps =>
      match m_own_part m p, m_own_parts m ps with
      | Some p', Some ps' => Some (p' :: ps')
      | _, _ => None
      end
  end.
Definition m_into_owned (m : mem) (b : mbuf) : option mbuf :=
  option_map (fun ps => MkMB ps (m_stack b) (m_in_tb b) (m_err b)) (m_own_parts m (m_parts b)).

(** [to_value], 192-197: a clone of the parts; cloning a [Cow] copies what is
    owned and borrows again what is borrowed. *)
Definition m_clone_part (p : mpart) : mpart :=
  match p with
  | MLeaf k => MLeaf (leaf_clone k)
  | MNode n k => MNode n (node_clone k)
  | p => p
  end.
Definition m_to_value (b : mbuf) : mbuf := MkMB (map m_clone_part (m_parts b)) [] false false.
(** [new], 138-146; [clear], 174-187; [into_value], 202-207. *)
Definition m_new : mbuf := MkMB [] [] false false.
Definition m_clear (b : mbuf) : mbuf := m_new.
Definition m_into_value (b : mbuf) : mbuf := MkMB (m_parts b) [] false false.

(** Reading a whole buffer, as replaying it does ([stream_ref], 1149-1350,
    [fragments.rs:254-267, 473-480]).  All parts are read, where a replay that
    panics would stop before. *)
Definition seen_cow (m : mem) (c : mcow) : option cow :=
  match c with
  | MBorrowed a => option_map (MkCow false) (read m a)
  | MOwned s => Some (MkCow true s)
  end.
Definition seen_part (m : mem) (p : mpart) : option part :=
  match p with
  | MText c => option_map PText (seen_cow m c)
  | MBin c => option_map PBin (seen_cow m c)
  | MLeaf k => Some (PLeaf k)
  | MNode n k => Some (PNode n k)
  end.
Fixpoint seen_parts (m : mem) (ps : list mpart) : option (list part) :=
  match ps with
  | [] => Some []
  | p :: ps =>
      match seen_part m p, seen_parts m ps with
      | Some p', Some ps' => Some (p' :: ps')
      | _, _ => None
      end
  end.
Definition seen (m : mem) (b : mbuf) : option vbuf :=
  option_map (fun ps => MkVB ps (m_stack b) (m_in_tb b) (m_err b)) (seen_parts m (m_parts b)).

(** ** A program using buffers

    Its memory, its buffers and values, and for each of those the texts that its
    type, [ValueBuf<'sval>] or [Value<'sval>], says it may borrow. *)
Record world := MkW { w_mem : mem; w_bufs : list (mbuf * list nat) }.
Definition world_new : world := MkW mem_new [].

Inductive act :=
| AKeep (s : bytes)                          (* the program gets a text, at the next address *)
| ARelease (a : nat)                         (* it goes away *)
| ANew                                       (* [ValueBuf::new] *)
| ACall (i : nat) (e : ev)                   (* a call on a buffer, without text or bytes *)
| ABorrowed (i : nat) (text : bool) (a : nat)    (* [text_fragment], [binary_fragment] *)
| AComputed (i : nat) (text : bool) (s : bytes)  (* [text_fragment_computed], ..: of a text that is gone afterwards *)
| AClear (i : nat)
| AOwn (i : nat)                             (* [into_owned] *)
| AValue (i : nat)                           (* [to_value] *)
| AIntoValue (i : nat)                       (* [into_value] *)
| ADrop (i : nat).

Fixpoint set_buf (bs : list (mbuf * list nat)) (i : nat) (x : mbuf * list nat) : list (mbuf * list nat) :=
  match bs, i with
  | [], _ => []
  | _ :: bs, O => x :: bs
  | b :: bs, S i => b :: set_buf bs i x
  end.
(** The buffer after a call, failed or not; a call that panics leaves it as it was. *)
Definition m_after (b : mbuf) (r : res mbuf) : mbuf := match r with Ok b' | Err b' => b' | Panic => b end.

(** [None] is a fault. *)
Definition do_act (w : world) (x : act) : option world :=
  let on i f :=
    match nth_error (w_bufs w) i with
    | Some (b, hs) => option_map (fun x => MkW (w_mem w) (set_buf (w_bufs w) i x)) (f b hs)
    | None => Some w
    end in
  match x with
  | AKeep s => Some (MkW (w_mem w ++ [Some s]) (w_bufs w))
  | ARelease a => Some (MkW (gone (w_mem w) a) (w_bufs w))
  | ANew => Some (MkW (w_mem w) (w_bufs w ++ [(m_new, [])]))
  | ACall i e => on i (fun b hs => Some (m_after b (m_step b e), hs))
  | ABorrowed i text a =>
      on i (fun b hs => option_map (fun r => (m_after b r, a :: hs)) (m_frag (w_mem w) b text true a))
  | AComputed i text s =>
      let a := List.length (w_mem w) in
      match nth_error (w_bufs w) i with
      | Some (b, hs) =>
          option_map (fun r => MkW (w_mem w ++ [None]) (set_buf (w_bufs w) i (m_after b r, hs)))
            (m_frag (w_mem w ++ [Some s]) b text false a)
      | None => Some (MkW (w_mem w ++ [None]) (w_bufs w))
      end
  | AClear i => on i (fun b hs => Some (m_clear b, hs))
  | AOwn i => on i (fun b hs => option_map (fun b => (b, [])) (m_into_owned (w_mem w) b))
  | AValue i =>
      match nth_error (w_bufs w) i with
      | Some (b, hs) => Some (MkW (w_mem w) (w_bufs w ++ [(m_to_value b, hs)]))
      | None => Some w
      end
  | AIntoValue i => on i (fun b hs => Some (m_into_value b, hs))
  | ADrop i => on i (fun b hs => Some (m_new, []))
  end.
Fixpoint do_acts (w : world) (xs : list act) : option world :=
  match xs with
  | [] => Some w
  | x :: xs => match do_act w x with Some w' => do_acts w' xs | None => None end
  end.
