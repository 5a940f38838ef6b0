(** * SizeSpec: how big things are

    Bytes and calls, counted.  Nothing here mentions the code. *)

From Verif Require Import Base Event.

(** The bytes of text, binary and labels a call hands over. *)
Definition label_bytes (l : option label) : nat := match l with Some l => List.length (l_text l) | None => 0 end.
Definition payload (e : ev) : nat :=
  match e with
  | ETextFrag s | ETextFragC s | EBinFrag s | EBinFragC s => List.length s
  | EEnumBegin _ l _ | EEnumEnd _ l _ | ETaggedBegin _ l _ | ETaggedEnd _ l _ | ETag _ l _
  | ERecordBegin _ l _ _ | ERecordEnd _ l _ | ETupleBegin _ l _ _ | ETupleEnd _ l _
  | ERecTupBegin _ l _ _ | ERecTupEnd _ l _ => label_bytes l
  | ERecordValBegin _ l | ERecordValEnd _ l | ERecTupValBegin _ l _ | ERecTupValEnd _ l _ => List.length (l_text l)
  | _ => 0
  end.

(** The digits of the numbers a call hands over; [r32] and [r64] print floats. *)
Definition digits (z : Z) : nat := List.length (dec z).
Definition index_digits (i : option index) : nat := match i with Some i => digits (i_val i) | None => 0 end.
Definition printed (r32 r64 : float -> bytes) (e : ev) : nat :=
  match e with
  | EInt _ z => digits z
  | EF32 f => List.length (r32 f)
  | EF64 f => List.length (r64 f)
  | EEnumBegin _ _ i | EEnumEnd _ _ i | ETaggedBegin _ _ i | ETaggedEnd _ _ i | ETag _ _ i
  | ERecordBegin _ _ i _ | ERecordEnd _ _ i | ETupleBegin _ _ i _ | ETupleEnd _ _ i
  | ERecTupBegin _ _ i _ | ERecTupEnd _ _ i => index_digits i
  | _ => 0
  end.

Definition total (f : ev -> nat) (es : list ev) : nat := list_sum (map f es).
(** One for each call, and what it hands over. *)
Definition size_of (r32 r64 : float -> bytes) (es : list ev) : nat :=
  total (fun e => 1 + payload e + printed r32 r64 e) es.
(** The calls a value makes on a stream that accepts them all. *)
Definition calls_of (v : list call) : list ev := fst (flat v false).
