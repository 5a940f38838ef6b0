(** * FlattenWrapModel: [sval_flatten] in a build without overflow checks

    FlattenModel.v again, where the arithmetic that panics there wraps around: the
    nesting counter [depth] becomes [usize::MAX] when it is decremented at zero
    ([flattener.rs:139]) and positions wrap within [isize] ([index.rs:23, 36]).
    [top] is [usize::MAX].  As in FlattenModel.v the counter is not bounded from
    above: no value nests [usize::MAX] deep, and within one value nothing begins
    after the counter has wrapped around. *)

From Verif Require Import Base Event LowerModel MethProofs DataModel FlattenModel.

(** [isize] addition, wrapping. *)
Definition wrap_isize (z : Z) : Z := ((z + 2 ^ 63) mod 2 ^ 64 - 2 ^ 63)%Z.

Section Flattener.
  Variable W : Type.
  Variable out : W -> ev -> res W.
  Variable r64 : float -> bytes.
  Variable kind : fkind.
  Variable top : nat.

  (** [IndexAllocator::next_begin], [index.rs:17-32]. *)
  Definition next_begin_w (g : fst_t W) (incoming : option index) : index :=
    match incoming with
    | Some i =>
        match otag_is (i_tag i) VALUE_OFFSET, index_to isize i with
        | true, Some z => MkIndex (wrap_isize (z + f_initial W g)) (Some VALUE_OFFSET)
        | _, _ => i
        end
    | None => MkIndex (f_current g) (Some VALUE_OFFSET)
    end.
  (** [IndexAllocator::next_end], [index.rs:34-39]. *)
  Definition next_end_w (g : fst_t W) (incoming : option index) : index * fst_t W :=
    let i := next_begin_w g incoming in
    (i, f_set_current W (wrap_isize (match index_to isize i with Some z => z | None => f_current g end + 1)) g).

  (** [flattenable_end], [flattener.rs:125-142]. *)
  Definition flattenable_end_w (buffer flatten passthru : op W) (g : fst_t W) : res (fst_t W) :=
    (if f_inkey W g then buffer g
     else if Nat.eqb (f_depth W g) 1 then flatten g
     else passthru g)
    >>= fun g => Ok (f_set_depth W (match f_depth W g with O => top | S d => d end) g).

  (** A flattened field begins or ends. *)
  Definition open_field_w (t : option tag) (l : option label) (i : option index) : op W :=
    fun g => let i := next_begin_w g i in field_begin W out kind t (index_label r64 i l) i g.
  Definition close_field_w (t : option tag) (l : option label) (i : option index) : op W :=
    fun g => let (i, g) := next_end_w g i in field_end W out kind t (index_label r64 i l) i g.

  (** [impl Stream for Flattener], [flattener.rs:145-682]: all methods are
      defined.  As [f_step] of FlattenModel.v, with the methods above. *)
  Definition f_step_w (g : fst_t W) (e : ev) : res (fst_t W) :=
    match e with
    (* 147-272, 489-510: plain values, tag and tag_hint *)
    | ENull | EBool _ | ETextBegin _ | ETextFrag _ | ETextFragC _ | ETextEnd
    | EBinBegin _ | EBinFrag _ | EBinFragC _ | EBinEnd
    | EInt _ _ | EF32 _ | EF64 _ | ETag _ _ _ | ETagHint _ =>
        f_value W (f_labels W out kind e) (f_stream W out kind e) g
    (* 275-281 *)
    | EMapBegin _ => flattenable_begin W (f_labels W out kind e) (nothing W) (f_stream W out kind e) g
    (* 284-294 *)
    | EMapKeyBegin =>
        flattenable_value W (f_labels W out kind e)
          (fun g => f_labels W out kind EMapKeyBegin g >>= fun g => Ok (f_set_inkey W true g))
          (f_stream W out kind e) g
    (* 297-307: the last closure calls map_key_begin *)
    | EMapKeyEnd =>
        flattenable_value W (f_labels W out kind e)
          (fun g => f_labels W out kind EMapKeyEnd g >>= fun g => Ok (f_set_inkey W false g))
          (f_stream W out kind EMapKeyBegin) g
    (* 310-323 *)
    | EMapValBegin =>
        flattenable_value W (f_labels W out kind e)
          (fun g => let (b, g) := f_take W kind g in
                    let g := f_set_key W b g in
                    open_field_w None (Some (lb_label r64 (f_key W g))) None g)
          (f_stream W out kind e) g
    (* 326-338 *)
    | EMapValEnd =>
        flattenable_value W (f_labels W out kind e)
          (fun g => close_field_w None (Some (lb_label r64 (f_key W g))) None g)
          (f_stream W out kind e) g
    (* 341-347 *)
    | EMapEnd => flattenable_end_w (f_labels W out kind e) (nothing W) (f_stream W out kind e) g
    (* 350-356 *)
    | ESeqBegin _ => flattenable_begin W (f_labels W out kind e) (nothing W) (f_stream W out kind e) g
    (* 359-371 *)
    | ESeqValBegin =>
        flattenable_value W (f_labels W out kind e) (open_field_w None None None) (f_stream W out kind e) g
    (* 374-386 *)
    | ESeqValEnd =>
        flattenable_value W (f_labels W out kind e) (close_field_w None None None) (f_stream W out kind e) g
    (* 389-395 *)
    | ESeqEnd => flattenable_end_w (f_labels W out kind e) (nothing W) (f_stream W out kind e) g
    (* 398-412 *)
    | EEnumBegin _ _ _ =>
        value_at_root W (fun g => Ok (f_set_enum W true g)) (f_labels W out kind e) (f_stream W out kind e) g
    (* 415-426 *)
    | EEnumEnd _ _ _ => value_at_root W (nothing W) (f_labels W out kind e) (f_stream W out kind e) g
    (* 429-457 *)
    | ETaggedBegin _ l i =>
        if f_enum W g then flattenable_begin W (f_labels W out kind e) (open_field_w None l i) (f_stream W out kind e) g
        else if Nat.eqb (f_depth W g) 0 then Ok g
        else f_value W (f_labels W out kind e) (f_stream W out kind e) g
    (* 460-486 *)
    | ETaggedEnd _ l i =>
        if f_enum W g then flattenable_end_w (f_labels W out kind e) (close_field_w None l i) (f_stream W out kind e) g
        else if Nat.eqb (f_depth W g) 0 then Ok g
        else f_value W (f_labels W out kind e) (f_stream W out kind e) g
    (* 513-525 *)
    | ERecordBegin _ _ _ _ => flattenable_begin W (f_labels W out kind e) (nothing W) (f_stream W out kind e) g
    (* 528-536 *)
    | ERecordValBegin t l =>
        flattenable_value W (f_labels W out kind e) (open_field_w t (Some l) None) (f_stream W out kind e) g
    (* 539-547 *)
    | ERecordValEnd t l =>
        flattenable_value W (f_labels W out kind e) (close_field_w t (Some l) None) (f_stream W out kind e) g
    (* 550-561 *)
    | ERecordEnd _ _ _ => flattenable_end_w (f_labels W out kind e) (nothing W) (f_stream W out kind e) g
    (* 564-576 *)
    | ETupleBegin _ _ _ _ => flattenable_begin W (f_labels W out kind e) (nothing W) (f_stream W out kind e) g
    (* 579-591 *)
    | ETupleValBegin t i =>
        flattenable_value W (f_labels W out kind e) (open_field_w t None (Some i)) (f_stream W out kind e) g
    (* 594-606 *)
    | ETupleValEnd t i =>
        flattenable_value W (f_labels W out kind e) (close_field_w t None (Some i)) (f_stream W out kind e) g
    (* 609-620 *)
    | ETupleEnd _ _ _ => flattenable_end_w (f_labels W out kind e) (nothing W) (f_stream W out kind e) g
    (* 623-635 *)
    | ERecTupBegin _ _ _ _ => flattenable_begin W (f_labels W out kind e) (nothing W) (f_stream W out kind e) g
    (* 638-651 *)
    | ERecTupValBegin t l i =>
        flattenable_value W (f_labels W out kind e) (open_field_w t (Some l) (Some i)) (f_stream W out kind e) g
    (* 654-667 *)
    | ERecTupValEnd t l i =>
        flattenable_value W (f_labels W out kind e) (close_field_w t (Some l) (Some i)) (f_stream W out kind e) g
    (* 670-681 *)
    | ERecTupEnd _ _ _ => flattenable_end_w (f_labels W out kind e) (nothing W) (f_stream W out kind e) g
    end.
End Flattener.

(** [flatten_to_map], [flatten_to_seq], [flatten_to_tuple], [flatten_to_record],
    [flatten_to_record_tuple]. *)
Definition flatten_to_w {W} (top : nat) (out : W -> ev -> res W) (r64 : float -> bytes) (kind : fkind)
    (w : W) (v : list call) (offset : Z) : fres W :=
  match stream_value (f_step_w W out r64 kind top) (f_begin offset w) v with
  | Ok g => FOk (f_w g) (f_current g)
  | Err g => FErr (f_w g)
  | Panic => FPanic
  end.
