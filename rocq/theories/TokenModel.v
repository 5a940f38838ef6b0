(** * TokenModel: the test-token buffer of [test/src/lib.rs] *)

From Verif Require Import Base DataModel Event.

(** [enum Token], [test/src/lib.rs:76-324]: one constructor per stream method, in
    the same order of arguments.  The ten integer tokens [U8] .. [I128] are one
    constructor with the type as argument, as in [ev]. *)
Inductive token :=
| TkNull
| TkBool (b : bool)
| TkTextBegin (n : option N)
| TkTextFragment (s : bytes)
| TkTextFragmentComputed (s : bytes)
| TkTextEnd
| TkBinaryBegin (n : option N)
| TkBinaryFragment (s : bytes)
| TkBinaryFragmentComputed (s : bytes)
| TkBinaryEnd
| TkInt (t : ity) (z : Z)
| TkF32 (f : float)
| TkF64 (f : float)
| TkMapBegin (n : option N)
| TkMapKeyBegin
| TkMapKeyEnd
| TkMapValueBegin
| TkMapValueEnd
| TkMapEnd
| TkSeqBegin (n : option N)
| TkSeqValueBegin
| TkSeqValueEnd
| TkSeqEnd
| TkEnumBegin (t : option tag) (l : option label) (i : option index)
| TkEnumEnd (t : option tag) (l : option label) (i : option index)
| TkTaggedBegin (t : option tag) (l : option label) (i : option index)
| TkTaggedEnd (t : option tag) (l : option label) (i : option index)
| TkTag (t : option tag) (l : option label) (i : option index)
| TkTagHint (t : tag)
| TkRecordBegin (t : option tag) (l : option label) (i : option index) (n : option N)
| TkRecordValueBegin (t : option tag) (l : label)
| TkRecordValueEnd (t : option tag) (l : label)
| TkRecordEnd (t : option tag) (l : option label) (i : option index)
| TkTupleBegin (t : option tag) (l : option label) (i : option index) (n : option N)
| TkTupleValueBegin (t : option tag) (i : index)
| TkTupleValueEnd (t : option tag) (i : index)
| TkTupleEnd (t : option tag) (l : option label) (i : option index)
| TkRecordTupleBegin (t : option tag) (l : option label) (i : option index) (n : option N)
| TkRecordTupleValueBegin (t : option tag) (l : label) (i : index)
| TkRecordTupleValueEnd (t : option tag) (l : label) (i : index)
| TkRecordTupleEnd (t : option tag) (l : option label) (i : option index).

(** [label.map(|label| label.to_owned())], 651 and the like. *)
Definition own (l : option label) : option label := option_map label_to_owned l.

(** [Stream for TokenBuf], 476-850: every method pushes one token; [value] and
    [value_computed] keep their defaults.  Tags are cloned, and are values here. *)
Definition tokens_step (ts : list token) (e : ev) : res (list token) :=
  match e with
  | ENull => Ok (ts ++ [TkNull])
  | EBool b => Ok (ts ++ [TkBool b])
  | ETextBegin n => Ok (ts ++ [TkTextBegin n])
  | ETextFrag s => Ok (ts ++ [TkTextFragment s])
  | ETextFragC s => Ok (ts ++ [TkTextFragmentComputed s])
  | ETextEnd => Ok (ts ++ [TkTextEnd])
  | EBinBegin n => Ok (ts ++ [TkBinaryBegin n])
  | EBinFrag s => Ok (ts ++ [TkBinaryFragment s])
  | EBinFragC s => Ok (ts ++ [TkBinaryFragmentComputed s])
  | EBinEnd => Ok (ts ++ [TkBinaryEnd])
  | EInt t z => Ok (ts ++ [TkInt t z])
  | EF32 f => Ok (ts ++ [TkF32 f])
  | EF64 f => Ok (ts ++ [TkF64 f])
  | EMapBegin n => Ok (ts ++ [TkMapBegin n])
  | EMapKeyBegin => Ok (ts ++ [TkMapKeyBegin])
  | EMapKeyEnd => Ok (ts ++ [TkMapKeyEnd])
  | EMapValBegin => Ok (ts ++ [TkMapValueBegin])
  | EMapValEnd => Ok (ts ++ [TkMapValueEnd])
  | EMapEnd => Ok (ts ++ [TkMapEnd])
  | ESeqBegin n => Ok (ts ++ [TkSeqBegin n])
  | ESeqValBegin => Ok (ts ++ [TkSeqValueBegin])
  | ESeqValEnd => Ok (ts ++ [TkSeqValueEnd])
  | ESeqEnd => Ok (ts ++ [TkSeqEnd])
  | EEnumBegin t l i => Ok (ts ++ [TkEnumBegin t (own l) i])
  | EEnumEnd t l i => Ok (ts ++ [TkEnumEnd t (own l) i])
  | ETaggedBegin t l i => Ok (ts ++ [TkTaggedBegin t (own l) i])
  | ETaggedEnd t l i => Ok (ts ++ [TkTaggedEnd t (own l) i])
  | ETag t l i => Ok (ts ++ [TkTag t (own l) i])
  | ETagHint t => Ok (ts ++ [TkTagHint t])
  | ERecordBegin t l i n => Ok (ts ++ [TkRecordBegin t (own l) i n])
  | ERecordValBegin t l => Ok (ts ++ [TkRecordValueBegin t (label_to_owned l)])
  | ERecordValEnd t l => Ok (ts ++ [TkRecordValueEnd t (label_to_owned l)])
  | ERecordEnd t l i => Ok (ts ++ [TkRecordEnd t (own l) i])
  | ETupleBegin t l i n => Ok (ts ++ [TkTupleBegin t (own l) i n])
  | ETupleValBegin t i => Ok (ts ++ [TkTupleValueBegin t i])
  | ETupleValEnd t i => Ok (ts ++ [TkTupleValueEnd t i])
  | ETupleEnd t l i => Ok (ts ++ [TkTupleEnd t (own l) i])
  | ERecTupBegin t l i n => Ok (ts ++ [TkRecordTupleBegin t (own l) i n])
  | ERecTupValBegin t l i => Ok (ts ++ [TkRecordTupleValueBegin t (label_to_owned l) i])
  | ERecTupValEnd t l i => Ok (ts ++ [TkRecordTupleValueEnd t (label_to_owned l) i])
  | ERecTupEnd t l i => Ok (ts ++ [TkRecordTupleEnd t (own l) i])
  end.

(** [AsValue(&[Token]).stream(..)], 330-433: one call per token, each with [?]. *)
Definition token_call (t : token) : call :=
  match t with
  | TkNull => CE ENull
  | TkBool b => CE (EBool b)
  | TkTextBegin n => CE (ETextBegin n)
  | TkTextFragment s => CE (ETextFrag s)
  | TkTextFragmentComputed s => CE (ETextFragC s)
  | TkTextEnd => CE ETextEnd
  | TkBinaryBegin n => CE (EBinBegin n)
  | TkBinaryFragment s => CE (EBinFrag s)
  | TkBinaryFragmentComputed s => CE (EBinFragC s)
  | TkBinaryEnd => CE EBinEnd
  | TkInt t z => CE (EInt t z)
  | TkF32 f => CE (EF32 f)
  | TkF64 f => CE (EF64 f)
  | TkMapBegin n => CE (EMapBegin n)
  | TkMapKeyBegin => CE EMapKeyBegin
  | TkMapKeyEnd => CE EMapKeyEnd
  | TkMapValueBegin => CE EMapValBegin
  | TkMapValueEnd => CE EMapValEnd
  | TkMapEnd => CE EMapEnd
  | TkSeqBegin n => CE (ESeqBegin n)
  | TkSeqValueBegin => CE ESeqValBegin
  | TkSeqValueEnd => CE ESeqValEnd
  | TkSeqEnd => CE ESeqEnd
  | TkEnumBegin t l i => CE (EEnumBegin t l i)
  | TkEnumEnd t l i => CE (EEnumEnd t l i)
  | TkTaggedBegin t l i => CE (ETaggedBegin t l i)
  | TkTaggedEnd t l i => CE (ETaggedEnd t l i)
  | TkTag t l i => CE (ETag t l i)
  | TkTagHint t => CE (ETagHint t)
  | TkRecordBegin t l i n => CE (ERecordBegin t l i n)
  | TkRecordValueBegin t l => CE (ERecordValBegin t l)
  | TkRecordValueEnd t l => CE (ERecordValEnd t l)
  | TkRecordEnd t l i => CE (ERecordEnd t l i)
  | TkTupleBegin t l i n => CE (ETupleBegin t l i n)
  | TkTupleValueBegin t i => CE (ETupleValBegin t i)
  | TkTupleValueEnd t i => CE (ETupleValEnd t i)
  | TkTupleEnd t l i => CE (ETupleEnd t l i)
  | TkRecordTupleBegin t l i n => CE (ERecTupBegin t l i n)
  | TkRecordTupleValueBegin t l i => CE (ERecTupValBegin t l i)
  | TkRecordTupleValueEnd t l i => CE (ERecTupValEnd t l i)
  | TkRecordTupleEnd t l i => CE (ERecTupEnd t l i)
  end.
Definition as_value (ts : list token) : list call := map token_call ts.

(** [#[derive(PartialEq)]] on [Token], 74: the same variant and equal fields.
    [f32]/[f64] compare as IEEE numbers, labels and indexes with their own
    [PartialEq] (DataModel.v). *)
Definition oeqb {A} (eq : A -> A -> bool) (a b : option A) : bool :=
  match a, b with
  | Some x, Some y => eq x y
  | None, None => true
  | _, _ => false
  end.
Definition ity_eqb (a b : ity) : bool :=
  match a, b with
  | U8, U8 | U16, U16 | U32, U32 | U64, U64 | U128, U128
  | I8, I8 | I16, I16 | I32, I32 | I64, I64 | I128, I128 => true
  | _, _ => false
  end.
Definition float_eqb (a b : float) : bool := SFeqb a b.
Definition token_eqb (a b : token) : bool :=
  match a, b with
  | TkNull, TkNull => true
  | TkBool b, TkBool b' => Bool.eqb b b'
  | TkTextBegin n, TkTextBegin n' => oeqb N.eqb n n'
  | TkTextFragment s, TkTextFragment s' => bytes_eqb s s'
  | TkTextFragmentComputed s, TkTextFragmentComputed s' => bytes_eqb s s'
  | TkTextEnd, TkTextEnd => true
  | TkBinaryBegin n, TkBinaryBegin n' => oeqb N.eqb n n'
  | TkBinaryFragment s, TkBinaryFragment s' => bytes_eqb s s'
  | TkBinaryFragmentComputed s, TkBinaryFragmentComputed s' => bytes_eqb s s'
  | TkBinaryEnd, TkBinaryEnd => true
  | TkInt t z, TkInt t' z' => ity_eqb t t' && Z.eqb z z'
  | TkF32 f, TkF32 f' => float_eqb f f'
  | TkF64 f, TkF64 f' => float_eqb f f'
  | TkMapBegin n, TkMapBegin n' => oeqb N.eqb n n'
  | TkMapKeyBegin, TkMapKeyBegin => true
  | TkMapKeyEnd, TkMapKeyEnd => true
  | TkMapValueBegin, TkMapValueBegin => true
  | TkMapValueEnd, TkMapValueEnd => true
  | TkMapEnd, TkMapEnd => true
  | TkSeqBegin n, TkSeqBegin n' => oeqb N.eqb n n'
  | TkSeqValueBegin, TkSeqValueBegin => true
  | TkSeqValueEnd, TkSeqValueEnd => true
  | TkSeqEnd, TkSeqEnd => true
  | TkEnumBegin t l i, TkEnumBegin t' l' i' => oeqb tag_eqb t t' && oeqb label_eqb l l' && oeqb index_eqb i i'
  | TkEnumEnd t l i, TkEnumEnd t' l' i' => oeqb tag_eqb t t' && oeqb label_eqb l l' && oeqb index_eqb i i'
  | TkTaggedBegin t l i, TkTaggedBegin t' l' i' => oeqb tag_eqb t t' && oeqb label_eqb l l' && oeqb index_eqb i i'
  | TkTaggedEnd t l i, TkTaggedEnd t' l' i' => oeqb tag_eqb t t' && oeqb label_eqb l l' && oeqb index_eqb i i'
  | TkTag t l i, TkTag t' l' i' => oeqb tag_eqb t t' && oeqb label_eqb l l' && oeqb index_eqb i i'
  | TkTagHint t, TkTagHint t' => tag_eqb t t'
  | TkRecordBegin t l i n, TkRecordBegin t' l' i' n' => oeqb tag_eqb t t' && oeqb label_eqb l l' && oeqb index_eqb i i' && oeqb N.eqb n n'
  | TkRecordValueBegin t l, TkRecordValueBegin t' l' => oeqb tag_eqb t t' && label_eqb l l'
  | TkRecordValueEnd t l, TkRecordValueEnd t' l' => oeqb tag_eqb t t' && label_eqb l l'
  | TkRecordEnd t l i, TkRecordEnd t' l' i' => oeqb tag_eqb t t' && oeqb label_eqb l l' && oeqb index_eqb i i'
  | TkTupleBegin t l i n, TkTupleBegin t' l' i' n' => oeqb tag_eqb t t' && oeqb label_eqb l l' && oeqb index_eqb i i' && oeqb N.eqb n n'
  | TkTupleValueBegin t i, TkTupleValueBegin t' i' => oeqb tag_eqb t t' && index_eqb i i'
  | TkTupleValueEnd t i, TkTupleValueEnd t' i' => oeqb tag_eqb t t' && index_eqb i i'
  | TkTupleEnd t l i, TkTupleEnd t' l' i' => oeqb tag_eqb t t' && oeqb label_eqb l l' && oeqb index_eqb i i'
  | TkRecordTupleBegin t l i n, TkRecordTupleBegin t' l' i' n' => oeqb tag_eqb t t' && oeqb label_eqb l l' && oeqb index_eqb i i' && oeqb N.eqb n n'
  | TkRecordTupleValueBegin t l i, TkRecordTupleValueBegin t' l' i' => oeqb tag_eqb t t' && label_eqb l l' && index_eqb i i'
  | TkRecordTupleValueEnd t l i, TkRecordTupleValueEnd t' l' i' => oeqb tag_eqb t t' && label_eqb l l' && index_eqb i i'
  | TkRecordTupleEnd t l i, TkRecordTupleEnd t' l' i' => oeqb tag_eqb t t' && oeqb label_eqb l l' && oeqb index_eqb i i'
  | _, _ => false
  end.
(** [PartialEq for [Token]]: same length, equal elements. *)
Fixpoint tokens_eqb (a b : list token) : bool :=
  match a, b with
  | [], [] => true
  | x :: a', y :: b' => token_eqb x y && tokens_eqb a' b'
  | _, _ => false
  end.

(** [assert_tokens], 10-41 (outside the crate's own tests, so without the
    [cfg(test)] block), [assert_valid], 46-53, and [assert_invalid], 58-69: [true]
    is returning, [false] is panicking.  The panic's message is not modelled; it
    can only replace one panic by another. *)
Definition assert_tokens (v : list call) (expected : list token) : bool :=
  match stream_value tokens_step [] v with
  | Ok ts => tokens_eqb expected ts
  | Err _ | Panic => false
  end.
Definition assert_valid (v : list call) : bool :=
  match stream_value tokens_step [] v with
  | Ok _ => true
  | Err _ | Panic => false
  end.
Definition assert_invalid (v : list call) : bool :=
  match stream_value tokens_step [] v with
  | Err _ => true
  | Ok _ | Panic => false
  end.
