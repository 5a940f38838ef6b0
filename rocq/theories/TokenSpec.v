(** * TokenSpec: when two calls are the same call to a test *)

From Verif Require Import Base Event.

(** A call with each of its labels replaced. *)
Definition with_labels (f : label -> label) (e : ev) : ev :=
  match e with
  | EEnumBegin t l i => EEnumBegin t (option_map f l) i
  | EEnumEnd t l i => EEnumEnd t (option_map f l) i
  | ETaggedBegin t l i => ETaggedBegin t (option_map f l) i
  | ETaggedEnd t l i => ETaggedEnd t (option_map f l) i
  | ETag t l i => ETag t (option_map f l) i
  | ERecordBegin t l i n => ERecordBegin t (option_map f l) i n
  | ERecordValBegin t l => ERecordValBegin t (f l)
  | ERecordValEnd t l => ERecordValEnd t (f l)
  | ERecordEnd t l i => ERecordEnd t (option_map f l) i
  | ETupleBegin t l i n => ETupleBegin t (option_map f l) i n
  | ETupleEnd t l i => ETupleEnd t (option_map f l) i
  | ERecTupBegin t l i n => ERecTupBegin t (option_map f l) i n
  | ERecTupValBegin t l i => ERecTupValBegin t (f l) i
  | ERecTupValEnd t l i => ERecTupValEnd t (f l) i
  | ERecTupEnd t l i => ERecTupEnd t (option_map f l) i
  | e => e
  end.

(** Numeric equality of floats: NaN equals nothing, the two zeros are equal, any
    other number equals itself only. *)
Definition same_float (a b : float) : Prop :=
  match a, b with
  | S754_nan, _ | _, S754_nan => False
  | S754_zero _, S754_zero _ => True
  | a, b => a = b
  end.
Definition same_label (a b : label) : Prop := l_text a = l_text b.
Definition same_index (a b : index) : Prop := i_val a = i_val b.
Definition same_opt {A} (same : A -> A -> Prop) (a b : option A) : Prop :=
  match a, b with
  | Some x, Some y => same x y
  | None, None => True
  | _, _ => False
  end.

(** The same method, with equal arguments. *)
Definition same_call (a b : ev) : Prop :=
  match a, b with
  | ENull, ENull => True
  | EBool b, EBool b' => b = b'
  | ETextBegin n, ETextBegin n' => n = n'
  | ETextFrag s, ETextFrag s' => s = s'
  | ETextFragC s, ETextFragC s' => s = s'
  | ETextEnd, ETextEnd => True
  | EBinBegin n, EBinBegin n' => n = n'
  | EBinFrag s, EBinFrag s' => s = s'
  | EBinFragC s, EBinFragC s' => s = s'
  | EBinEnd, EBinEnd => True
  | EInt t z, EInt t' z' => t = t' /\ z = z'
  | EF32 f, EF32 f' => same_float f f'
  | EF64 f, EF64 f' => same_float f f'
  | EMapBegin n, EMapBegin n' => n = n'
  | EMapKeyBegin, EMapKeyBegin => True
  | EMapKeyEnd, EMapKeyEnd => True
  | EMapValBegin, EMapValBegin => True
  | EMapValEnd, EMapValEnd => True
  | EMapEnd, EMapEnd => True
  | ESeqBegin n, ESeqBegin n' => n = n'
  | ESeqValBegin, ESeqValBegin => True
  | ESeqValEnd, ESeqValEnd => True
  | ESeqEnd, ESeqEnd => True
  | EEnumBegin t l i, EEnumBegin t' l' i' => t = t' /\ same_opt same_label l l' /\ same_opt same_index i i'
  | EEnumEnd t l i, EEnumEnd t' l' i' => t = t' /\ same_opt same_label l l' /\ same_opt same_index i i'
  | ETaggedBegin t l i, ETaggedBegin t' l' i' => t = t' /\ same_opt same_label l l' /\ same_opt same_index i i'
  | ETaggedEnd t l i, ETaggedEnd t' l' i' => t = t' /\ same_opt same_label l l' /\ same_opt same_index i i'
  | ETag t l i, ETag t' l' i' => t = t' /\ same_opt same_label l l' /\ same_opt same_index i i'
  | ETagHint t, ETagHint t' => t = t'
  | ERecordBegin t l i n, ERecordBegin t' l' i' n' => t = t' /\ same_opt same_label l l' /\ same_opt same_index i i' /\ n = n'
  | ERecordValBegin t l, ERecordValBegin t' l' => t = t' /\ same_label l l'
  | ERecordValEnd t l, ERecordValEnd t' l' => t = t' /\ same_label l l'
  | ERecordEnd t l i, ERecordEnd t' l' i' => t = t' /\ same_opt same_label l l' /\ same_opt same_index i i'
  | ETupleBegin t l i n, ETupleBegin t' l' i' n' => t = t' /\ same_opt same_label l l' /\ same_opt same_index i i' /\ n = n'
  | ETupleValBegin t i, ETupleValBegin t' i' => t = t' /\ same_index i i'
  | ETupleValEnd t i, ETupleValEnd t' i' => t = t' /\ same_index i i'
  | ETupleEnd t l i, ETupleEnd t' l' i' => t = t' /\ same_opt same_label l l' /\ same_opt same_index i i'
  | ERecTupBegin t l i n, ERecTupBegin t' l' i' n' => t = t' /\ same_opt same_label l l' /\ same_opt same_index i i' /\ n = n'
  | ERecTupValBegin t l i, ERecTupValBegin t' l' i' => t = t' /\ same_label l l' /\ same_index i i'
  | ERecTupValEnd t l i, ERecTupValEnd t' l' i' => t = t' /\ same_label l l' /\ same_index i i'
  | ERecTupEnd t l i, ERecTupEnd t' l' i' => t = t' /\ same_opt same_label l l' /\ same_opt same_index i i'
  | _, _ => False
  end.

(** A call whose argument is a NaN. *)
Definition nan_call (e : ev) : bool :=
  match e with
  | EF32 f | EF64 f => is_nan f
  | _ => false
  end.
