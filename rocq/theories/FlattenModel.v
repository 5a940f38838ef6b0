(** * FlattenModel: [sval_flatten]

    [flatten/src/flattener.rs] (the [Flattener] stream), [index.rs] (index
    allocation), [label.rs] (key texts), and the five targets [map.rs],
    [seq.rs], [tuple.rs], [record.rs], [record_tuple.rs].

    The stream flattened onto is any machine [out : W -> ev -> res W] that does
    not override [value]/[value_computed].  [usize]/[isize] are 64 bits; the
    nesting counter [depth] is an unbounded natural number whose decrement at
    zero panics ("attempt to subtract with overflow"); [isize] additions that
    overflow panic.  Both are what a build with overflow checks does. *)

From Verif Require Import Base Event LowerModel MethProofs DataModel.

(** [LabelBuf], [flatten/src/label.rs:16-23].  [TextBuf] is its text. *)
Inductive lbuf :=
| LBEmpty
| LBText (s : bytes)
| LBI128 (z : Z)
| LBU128 (z : Z)
| LBF64 (f : float).

(** [LabelBuf::text_buf] then [push_fragment]: [label.rs:85-109]. *)
Definition lb_text (b : lbuf) (s : bytes) : lbuf :=
  match b with
  | LBText t => LBText (t ++ s)
  | _ => LBText s
  end.

(** [LabelBuf::index], [label.rs:74-83]. *)
Definition lb_index (b : lbuf) (i : index) : lbuf :=
  match index_to isize i with
  | Some z => LBI128 z
  | None => match index_to usize i with
            | Some z => LBU128 z
            | None => lb_text b (dec (i_val i))
            end
  end.

(** [LabelBuf::with_label], [label.rs:111-132]: the label handed to the
    closure.  [r64] is [ryu]'s text of a float. *)
Definition lb_label (r64 : float -> bytes) (b : lbuf) : label :=
  label_new_computed
    match b with
    | LBEmpty => []
    | LBText s => s
    | LBI128 z | LBU128 z => dec z
    | LBF64 f => r64 f
    end.

(** [impl Stream for LabelBuf], [label.rs:140-216]: the methods it defines. *)
Definition lb_overrides (e : ev) : bool :=
  match e with
  | ENull | EBool _ | ETextBegin _ | ETextFrag _ | ETextFragC _ | ETextEnd
  | EInt (U64 | U128 | I64 | I128) _ | EF64 _
  | ESeqBegin _ | ESeqValBegin | ESeqValEnd | ESeqEnd | ETag _ _ _ => true
  | _ => false
  end.

Definition lb_step (b : lbuf) (e : ev) : res lbuf :=
  match e with
  | ENull => Ok (lb_text b (bs "null"))
  | EBool v => Ok (lb_text b (if v then bs "true" else bs "false"))
  | ETextFrag s | ETextFragC s => Ok (lb_text b s)
  | EInt (U64 | U128) z => Ok (LBU128 z)
  | EInt _ z => Ok (LBI128 z)
  | EF64 f => Ok (LBF64 f)
  | ETag _ (Some l) _ => Ok (lb_text b (l_text l))
  | ETag _ None (Some i) => Ok (lb_index b i)
  | ETag _ None None => Ok (lb_text b (bs "null"))
  | _ => Ok b
  end.

(** The five targets: [flatten_to_map], [flatten_to_seq], [flatten_to_tuple],
    [flatten_to_record], [flatten_to_record_tuple]. *)
Inductive fkind := FMap | FSeq | FTuple | FRecord | FRecTup.

Section Flattener.
  Variable W : Type.
  Variable out : W -> ev -> res W.
  Variable r64 : float -> bytes.
  Variable kind : fkind.

  (** [Flattener] with its [FlattenerState] and [IndexAllocator]
      ([flattener.rs:5-20], [index.rs:4-7]); the target's own state is the
      stream, the label stream ([record.rs], [record_tuple.rs]) and [seen_key]
      ([map.rs:61-64]). *)
  Record fst_t := MkF {
    f_initial : Z; f_current : Z; f_key : lbuf; f_depth : nat;
    f_enum : bool; f_inkey : bool; f_label : lbuf; f_seen : bool; f_w : W }.

  Definition f_set_w (w : W) (g : fst_t) : fst_t :=
    MkF (f_initial g) (f_current g) (f_key g) (f_depth g) (f_enum g) (f_inkey g) (f_label g) (f_seen g) w.
  Definition f_set_depth (d : nat) (g : fst_t) : fst_t :=
    MkF (f_initial g) (f_current g) (f_key g) d (f_enum g) (f_inkey g) (f_label g) (f_seen g) (f_w g).
  Definition f_set_seen (b : bool) (g : fst_t) : fst_t :=
    MkF (f_initial g) (f_current g) (f_key g) (f_depth g) (f_enum g) (f_inkey g) (f_label g) b (f_w g).
  Definition f_set_inkey (b : bool) (g : fst_t) : fst_t :=
    MkF (f_initial g) (f_current g) (f_key g) (f_depth g) (f_enum g) b (f_label g) (f_seen g) (f_w g).
  Definition f_set_enum (b : bool) (g : fst_t) : fst_t :=
    MkF (f_initial g) (f_current g) (f_key g) (f_depth g) b (f_inkey g) (f_label g) (f_seen g) (f_w g).
  Definition f_set_label (l : lbuf) (g : fst_t) : fst_t :=
    MkF (f_initial g) (f_current g) (f_key g) (f_depth g) (f_enum g) (f_inkey g) l (f_seen g) (f_w g).
  Definition f_set_key (l : lbuf) (g : fst_t) : fst_t :=
    MkF (f_initial g) (f_current g) l (f_depth g) (f_enum g) (f_inkey g) (f_label g) (f_seen g) (f_w g).
  Definition f_set_current (z : Z) (g : fst_t) : fst_t :=
    MkF (f_initial g) z (f_key g) (f_depth g) (f_enum g) (f_inkey g) (f_label g) (f_seen g) (f_w g).

  (** [Flattener::begin], [flattener.rs:45-57]; [PassThru::new], [map.rs:66-73]. *)
  Definition f_begin (offset : Z) (w : W) : fst_t :=
    MkF offset offset LBEmpty 0 false false LBEmpty false w.

  Definition f_lift (g : fst_t) (r : res W) : res fst_t :=
    match r with
    | Ok w => Ok (f_set_w w g)
    | Err w => Err (f_set_w w g)
    | Panic => Panic
    end.

  (** A call on the wrapped stream. *)
  Definition f_send (e : ev) (g : fst_t) : res fst_t := f_lift g (out (f_w g) e).

  (** A call on [Flatten::stream()]: the wrapped stream itself, except for maps,
      where [PassThru] ([map.rs:81-358]) notes [map_key_end] (186-189) and
      [map_value_begin] (191-194) and forwards every call. *)
  Definition f_stream (e : ev) (g : fst_t) : res fst_t :=
    match kind with
    | FMap =>
        f_send e (match e with
                  | EMapKeyEnd => f_set_seen true g
                  | EMapValBegin => f_set_seen false g
                  | _ => g
                  end)
    | _ => f_send e g
    end.

  (** A call on [Flatten::label_stream()]: [PassThru] for maps
      ([map.rs:37-39]), [Empty] for sequences and tuples ([seq.rs:38-40],
      [tuple.rs:40-42], [label.rs:218-270]; every method of [Empty] does
      nothing), a [LabelBuf] for records and record tuples ([record.rs:43-45],
      [record_tuple.rs:43-45]). *)
  Definition f_labels (e : ev) (g : fst_t) : res fst_t :=
    match kind with
    | FMap => f_stream e g
    | FSeq | FTuple => Ok g
    | FRecord | FRecTup =>
        match meth lb_overrides lb_step (f_label g) e with
        | Ok b => Ok (f_set_label b g)
        | Err b => Err (f_set_label b g)
        | Panic => Panic
        end
    end.

  (** [LabelStream::take]: [label.rs:134-138, 219-223], [map.rs:75-79]. *)
  Definition f_take (g : fst_t) : lbuf * fst_t :=
    match kind with
    | FRecord | FRecTup => (f_label g, f_set_label LBEmpty g)
    | _ => (LBEmpty, g)
    end.

  (** [IndexAllocator::next_begin], [index.rs:17-32]; [None] is the overflow
      panic of [incoming + self.initial_offset]. *)
  Definition next_begin (g : fst_t) (incoming : option index) : option index :=
    match incoming with
    | Some i =>
        match otag_is (i_tag i) VALUE_OFFSET, index_to isize i with
        | true, Some z =>
            if fits isize (z + f_initial g)
            then Some (MkIndex (z + f_initial g) (Some VALUE_OFFSET)) else None
        | _, _ => Some i
        end
    | None => Some (MkIndex (f_current g) (Some VALUE_OFFSET))
    end.

  (** [IndexAllocator::next_end], [index.rs:34-39]. *)
  Definition next_end (g : fst_t) (incoming : option index) : option (index * fst_t) :=
    match next_begin g incoming with
    | Some i =>
        let c := (match index_to isize i with Some z => z | None => f_current g end + 1)%Z in
        if fits isize c then Some (i, f_set_current c g) else None
    | None => None
    end.

  (** [with_index_to_label], [flattener.rs:684-695]; [LabelBuf::from_index],
      [label.rs:36-41]. *)
  Definition index_label (i : index) (l : option label) : label :=
    match l with
    | Some l => l
    | None => lb_label r64 (lb_index LBEmpty i)
    end.

  (** [Flatten::flattened_value_begin] and [_end] of the five targets:
      [map.rs:41-58], [seq.rs:42-58], [tuple.rs:44-60], [record.rs:47-63],
      [record_tuple.rs:47-63]. *)
  Definition field_begin (t : option tag) (l : label) (i : index) (g : fst_t) : res fst_t :=
    match kind with
    | FMap =>
        (if f_seen g then Ok g
         else f_stream EMapKeyBegin g
              >>= (fun g => f_lift g (run out (f_w g) (fst (flat (label_calls l) false))))
              >>= f_stream EMapKeyEnd)
        >>= f_stream EMapValBegin
    | FSeq => f_send ESeqValBegin g
    | FTuple => f_send (ETupleValBegin t i) g
    | FRecord => f_send (ERecordValBegin t l) g
    | FRecTup => f_send (ERecTupValBegin t l i) g
    end.
  Definition field_end (t : option tag) (l : label) (i : index) (g : fst_t) : res fst_t :=
    match kind with
    | FMap => f_stream EMapValEnd g
    | FSeq => f_send ESeqValEnd g
    | FTuple => f_send (ETupleValEnd t i) g
    | FRecord => f_send (ERecordValEnd t l) g
    | FRecTup => f_send (ERecTupValEnd t l i) g
    end.

  Definition op := fst_t -> res fst_t.

  (** [value_at_root], [flattener.rs:75-88]. *)
  Definition value_at_root (at_root buffer passthru : op) (g : fst_t) : res fst_t :=
    if Nat.eqb (f_depth g) 0 then at_root g
    else if f_inkey g then buffer g
    else passthru g.
  (** [value], [flattener.rs:65-72]. *)
  Definition f_value (buffer passthru : op) : op := value_at_root (fun g => Ok g) buffer passthru.
  (** [flattenable_begin], [flattener.rs:91-106]. *)
  Definition flattenable_begin (buffer flatten passthru : op) (g : fst_t) : res fst_t :=
    let g := f_set_depth (S (f_depth g)) g in
    if f_inkey g then buffer g
    else if Nat.eqb (f_depth g) 1 then flatten g
    else passthru g.
  (** [flattenable_value], [flattener.rs:109-122]. *)
  Definition flattenable_value (buffer flatten passthru : op) (g : fst_t) : res fst_t :=
    if Nat.eqb (f_depth g) 1 then flatten g
    else if f_inkey g then buffer g
    else passthru g.
  (** [flattenable_end], [flattener.rs:125-142]. *)
  Definition flattenable_end (buffer flatten passthru : op) (g : fst_t) : res fst_t :=
    (if f_inkey g then buffer g
     else if Nat.eqb (f_depth g) 1 then flatten g
     else passthru g)
    >>= fun g => match f_depth g with
                 | O => Panic
                 | S d => Ok (f_set_depth d g)
                 end.

  Definition nothing : op := fun g => Ok g.

  (** A flattened field begins or ends: allocate its index, derive its label. *)
  Definition open_field (t : option tag) (l : option label) (i : option index) : op :=
    fun g => match next_begin g i with
             | Some i => field_begin t (index_label i l) i g
             | None => Panic
             end.
  Definition close_field (t : option tag) (l : option label) (i : option index) : op :=
    fun g => match next_end g i with
             | Some (i, g) => field_end t (index_label i l) i g
             | None => Panic
             end.

  (** [impl Stream for Flattener], [flattener.rs:145-682]: all methods are
      defined.  [sent e] is "the same call on the other stream". *)
  Definition f_step (g : fst_t) (e : ev) : res fst_t :=
    match e with
    (* 147-272, 489-510: plain values, tag and tag_hint *)
    | ENull | EBool _ | ETextBegin _ | ETextFrag _ | ETextFragC _ | ETextEnd
    | EBinBegin _ | EBinFrag _ | EBinFragC _ | EBinEnd
    | EInt _ _ | EF32 _ | EF64 _ | ETag _ _ _ | ETagHint _ =>
        f_value (f_labels e) (f_stream e) g
    (* 275-281 *)
    | EMapBegin _ => flattenable_begin (f_labels e) nothing (f_stream e) g
    (* 284-294 *)
    | EMapKeyBegin =>
        flattenable_value (f_labels e)
          (fun g => f_labels EMapKeyBegin g >>= fun g => Ok (f_set_inkey true g))
          (f_stream e) g
    (* 297-307: the last closure calls map_key_begin *)
    | EMapKeyEnd =>
        flattenable_value (f_labels e)
          (fun g => f_labels EMapKeyEnd g >>= fun g => Ok (f_set_inkey false g))
          (f_stream EMapKeyBegin) g
    (* 310-323 *)
    | EMapValBegin =>
        flattenable_value (f_labels e)
          (fun g => let (b, g) := f_take g in
                    let g := f_set_key b g in
                    open_field None (Some (lb_label r64 (f_key g))) None g)
          (f_stream e) g
    (* 326-338 *)
    | EMapValEnd =>
        flattenable_value (f_labels e)
          (fun g => close_field None (Some (lb_label r64 (f_key g))) None g)
          (f_stream e) g
    (* 341-347 *)
    | EMapEnd => flattenable_end (f_labels e) nothing (f_stream e) g
    (* 350-356 *)
    | ESeqBegin _ => flattenable_begin (f_labels e) nothing (f_stream e) g
    (* 359-371 *)
    | ESeqValBegin =>
        flattenable_value (f_labels e) (open_field None None None) (f_stream e) g
    (* 374-386 *)
    | ESeqValEnd =>
        flattenable_value (f_labels e) (close_field None None None) (f_stream e) g
    (* 389-395 *)
    | ESeqEnd => flattenable_end (f_labels e) nothing (f_stream e) g
    (* 398-412 *)
    | EEnumBegin _ _ _ =>
        value_at_root (fun g => Ok (f_set_enum true g)) (f_labels e) (f_stream e) g
    (* 415-426 *)
    | EEnumEnd _ _ _ => value_at_root nothing (f_labels e) (f_stream e) g
    (* 429-457 *)
    | ETaggedBegin _ l i =>
        if f_enum g then flattenable_begin (f_labels e) (open_field None l i) (f_stream e) g
        else if Nat.eqb (f_depth g) 0 then Ok g
        else f_value (f_labels e) (f_stream e) g
    (* 460-486 *)
    | ETaggedEnd _ l i =>
        if f_enum g then flattenable_end (f_labels e) (close_field None l i) (f_stream e) g
        else if Nat.eqb (f_depth g) 0 then Ok g
        else f_value (f_labels e) (f_stream e) g
    (* 513-525 *)
    | ERecordBegin _ _ _ _ => flattenable_begin (f_labels e) nothing (f_stream e) g
    (* 528-536 *)
    | ERecordValBegin t l =>
        flattenable_value (f_labels e) (open_field t (Some l) None) (f_stream e) g
    (* 539-547 *)
    | ERecordValEnd t l =>
        flattenable_value (f_labels e) (close_field t (Some l) None) (f_stream e) g
    (* 550-561 *)
    | ERecordEnd _ _ _ => flattenable_end (f_labels e) nothing (f_stream e) g
    (* 564-576 *)
    | ETupleBegin _ _ _ _ => flattenable_begin (f_labels e) nothing (f_stream e) g
    (* 579-591 *)
    | ETupleValBegin t i =>
        flattenable_value (f_labels e) (open_field t None (Some i)) (f_stream e) g
    (* 594-606 *)
    | ETupleValEnd t i =>
        flattenable_value (f_labels e) (close_field t None (Some i)) (f_stream e) g
    (* 609-620 *)
    | ETupleEnd _ _ _ => flattenable_end (f_labels e) nothing (f_stream e) g
    (* 623-635 *)
    | ERecTupBegin _ _ _ _ => flattenable_begin (f_labels e) nothing (f_stream e) g
    (* 638-651 *)
    | ERecTupValBegin t l i =>
        flattenable_value (f_labels e) (open_field t (Some l) (Some i)) (f_stream e) g
    (* 654-667 *)
    | ERecTupValEnd t l i =>
        flattenable_value (f_labels e) (close_field t (Some l) (Some i)) (f_stream e) g
    (* 670-681 *)
    | ERecTupEnd _ _ _ => flattenable_end (f_labels e) nothing (f_stream e) g
    end.
End Flattener.
Arguments f_step {W} out r64 kind g e.
Arguments f_begin {W} offset w.
Arguments f_w {W} f.
Arguments f_current {W} f.

(** What a caller of one of the [flatten_to_*] functions gets: the wrapped
    stream and the returned offset, or an error, or a panic. *)
Inductive fres (W : Type) :=
| FOk (w : W) (offset : Z)
| FErr (w : W)
| FPanic.
Arguments FOk {W} w offset.
Arguments FErr {W} w.
Arguments FPanic {W}.

(** [flatten_to_map] ([map.rs:11-23]), [flatten_to_tuple] ([tuple.rs]),
    [flatten_to_record], [flatten_to_record_tuple]; [flatten_to_seq] takes no
    offset (it is 0, [seq.rs]) and drops the returned one. *)
Definition flatten_to {W} (out : W -> ev -> res W) (r64 : float -> bytes) (kind : fkind)
    (w : W) (v : list call) (offset : Z) : fres W :=
  match stream_value (f_step out r64 kind) (f_begin offset w) v with
  | Ok g => FOk (f_w g) (f_current g)
  | Err g => FErr (f_w g)
  | Panic => FPanic
  end.
