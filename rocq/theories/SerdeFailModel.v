(** * SerdeFailModel: [ToValue] of a value that may give up

    [serde/src/to_value.rs].  [to_value] (SerdeModel.v) is only told that a value
    gave up; here the calls made before that are kept, and [CFail] stands where
    the error is returned.  Simplification: a [Serialize] that is told of an error
    by the serializer returns it, as [?] does. *)

From Verif Require Import Base Event Tree LowerModel DataModel FragModel StdModel NestedModel SerdeModel.

(** A child between its two marks: [serialize_element], [serialize_key],
    [serialize_value] and [serialize_field], 413-437, 439-460, 469-490, 499-520,
    532-571, 573-594, 603-624. *)
Definition item (x : ev * list call * ev) : list call :=
  match x with (b, c, e) => [CE b; CVC c; CE e] end.
Definition items (l : list (ev * list call * ev)) : list call := flat_map item l.
(** The index counts the fields, 448-457, 478-487, 508-517. *)
Fixpoint tuple_items (i : Z) (cs : list (list call)) : list (ev * list call * ev) :=
  match cs with
  | [] => []
  | c :: cs' => (ETupleValBegin None (index_new i), c, ETupleValEnd None (index_new i)) :: tuple_items (i + 1) cs'
  end.

(** [sval::Value for ToValue], 40-46, with the serializer [Stream], 48-634: the
    lines are those given beside [stream_ser] (SerdeModel.v). *)
Fixpoint streamed (x : sdata) : list call :=
  match x with
  | DBool b => [CVC (calls (RBool b))]
  | DInt t z => [CVC (calls (RInt t z))]
  | DF32 f => [CVC (calls (RF32 f))]
  | DF64 f => [CVC (calls (RF64 f))]
  | DChar c => [CVC (calls (RChar c))]
  | DStr s => [CVC (calls (RStr s))]
  | DBytes s => [CVC (calls (RBinarySlice s))]
  | DDisplay fs => calls (RShown fs true)
  | DNone => [CVC (calls RNone)]
  | DSome v => [CVC (calls (RSome (ROther (streamed v) TNull)))]
  | DUnit => [CVC (calls RUnit)]
  | DUnitStruct name => [CE (ETag None (static name) None)]
  | DUnitVariant name i variant =>
      [CE (EEnumBegin None (static name) None);
       CE (ETag None (static variant) (Some (index_new i)));
       CE (EEnumEnd None (static name) None)]
  | DNewtypeStruct name v => item (ETaggedBegin None (static name) None, streamed v, ETaggedEnd None (static name) None)
  | DNewtypeVariant name i variant v =>
      CE (EEnumBegin None (static name) None) ::
      item (ETaggedBegin None (static variant) (Some (index_new i)), streamed v, ETaggedEnd None (static variant) (Some (index_new i))) ++
      [CE (EEnumEnd None (static name) None)]
  | DSeq n vs =>
      CE (ESeqBegin n) :: items (map (fun v => (ESeqValBegin, streamed v, ESeqValEnd)) vs) ++ [CE ESeqEnd]
  | DTuple n vs =>
      CE (ETupleBegin None None None (Some n)) :: items (tuple_items 0 (map streamed vs)) ++ [CE (ETupleEnd None None None)]
  | DTupleStruct name n vs =>
      CE (ETupleBegin None (static name) None (Some n)) ::
      items (tuple_items 0 (map streamed vs)) ++ [CE (ETupleEnd None (static name) None)]
  | DTupleVariant name i variant n vs =>
      CE (EEnumBegin None (static name) None) ::
      CE (ETupleBegin None (static variant) (Some (index_new i)) (Some n)) ::
      items (tuple_items 0 (map streamed vs)) ++
      [CE (ETupleEnd None (static variant) (Some (index_new i))); CE (EEnumEnd None (static name) None)]
  | DMap n es =>
      CE (EMapBegin n) ::
      items (flat_map (fun e => match e with (a, b) =>
               [(EMapKeyBegin, streamed a, EMapKeyEnd); (EMapValBegin, streamed b, EMapValEnd)] end) es) ++ [CE EMapEnd]
  | DStruct name n fs ok =>
      CE (ERecordBegin None (static name) None (Some n)) ::
      items (map (fun f => match f with (l, v) =>
               (ERecordValBegin None (label_new l), streamed v, ERecordValEnd None (label_new l)) end) fs) ++
      (if ok then [CE (ERecordEnd None (static name) None)] else [CFail])
  | DStructVariant name i variant n fs ok =>
      CE (EEnumBegin None (static name) None) ::
      CE (ERecordBegin None (static variant) (Some (index_new i)) (Some n)) ::
      items (map (fun f => match f with (l, v) =>
               (ERecordValBegin None (label_new l), streamed v, ERecordValEnd None (label_new l)) end) fs) ++
      (if ok then [CE (ERecordEnd None (static variant) (Some (index_new i))); CE (EEnumEnd None (static name) None)] else [CFail])
  | DFail => [CFail]
  end.
