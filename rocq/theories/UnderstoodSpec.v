(** * UnderstoodSpec: a value in the terms of a stream that handles some kinds only

    The documentation of the optional methods of [Stream] ([src/stream.rs:6-454]):
    what each kind of value is streamed as when the methods for it are left to their
    defaults. *)

From Verif Require Import Base Event Tree LowerSpec.

(** The kinds of values a stream has methods of its own for. *)
Record handles := MkHandles {
  h_int : ity -> bool;      (* other than i64, which is required *)
  h_f32 : bool;
  h_borrowed_text : bool;   (* text_fragment *)
  h_binary : bool;
  h_borrowed_binary : bool; (* binary_fragment, if binary at all *)
  h_map : bool;
  h_enum : bool;
  h_tagged : bool;
  h_tag : bool;
  h_hint : bool;
  h_record : bool;
  h_tuple : bool;
  h_record_tuple : bool
}.
(** The method for each call is its own. *)
Definition has_own (h : handles) (e : ev) : bool :=
  match e with
  | EInt I64 _ => true
  | EInt t _ => h_int h t
  | EF32 _ => h_f32 h
  | ETextFrag _ => h_borrowed_text h
  | EBinBegin _ | EBinFragC _ | EBinEnd => h_binary h
  | EBinFrag _ => h_binary h && h_borrowed_binary h
  | EMapBegin _ | EMapKeyBegin | EMapKeyEnd | EMapValBegin | EMapValEnd | EMapEnd => h_map h
  | EEnumBegin _ _ _ | EEnumEnd _ _ _ => h_enum h
  | ETaggedBegin _ _ _ | ETaggedEnd _ _ _ => h_tagged h
  | ETag _ _ _ => h_tag h
  | ETagHint _ => h_hint h
  | ERecordBegin _ _ _ _ | ERecordValBegin _ _ | ERecordValEnd _ _ | ERecordEnd _ _ _ => h_record h
  | ETupleBegin _ _ _ _ | ETupleValBegin _ _ | ETupleValEnd _ _ | ETupleEnd _ _ _ => h_tuple h
  | ERecTupBegin _ _ _ _ | ERecTupValBegin _ _ _ | ERecTupValEnd _ _ _ | ERecTupEnd _ _ _ => h_record_tuple h
  | _ => true
  end.

Section Forms.
  Variable h : handles.

  Definition computed_frag (f : bool * bytes) : bool * bytes := (false, snd f).
  Definition tagged_form (t : option tag) (l : option label) (i : option index) (v : tree) : tree :=
    if h_tagged h then TTagged t l i v else v.
  Definition enum_form t l i (v : tree) : tree := if h_enum h then TEnum t l i v else tagged_form t l i v.
  Definition text_form (n : option N) (fs : list (bool * bytes)) : tree :=
    TText n (if h_borrowed_text h then fs else map computed_frag fs).
  (** A 64-bit signed integer if it fits, its digits marked as a number otherwise. *)
  Definition any_int_form (z : Z) : tree :=
    if fits I64 z then TInt I64 z else tagged_form (Some NUMBER) None None (text_form None (map (fun f => (false, f)) (dec_frags z))).
  Definition u128_form (z : Z) : tree := if h_int h U128 then TInt U128 z else any_int_form z.
  Definition u64_form (z : Z) : tree := if h_int h U64 then TInt U64 z else u128_form z.
  Definition u32_form (z : Z) : tree := if h_int h U32 then TInt U32 z else u64_form z.
  Definition u16_form (z : Z) : tree := if h_int h U16 then TInt U16 z else u32_form z.
  Definition u8_form (z : Z) : tree := if h_int h U8 then TInt U8 z else u16_form z.
  Definition i128_form (z : Z) : tree := if h_int h I128 then TInt I128 z else any_int_form z.
  Definition i32_form (z : Z) : tree := if h_int h I32 then TInt I32 z else TInt I64 z.
  Definition i16_form (z : Z) : tree := if h_int h I16 then TInt I16 z else i32_form z.
  Definition i8_form (z : Z) : tree := if h_int h I8 then TInt I8 z else i16_form z.
  Definition int_form (t : ity) (z : Z) : tree :=
    match t with
    | U8 => u8_form z | U16 => u16_form z | U32 => u32_form z | U64 => u64_form z | U128 => u128_form z
    | I8 => i8_form z | I16 => i16_form z | I32 => i32_form z | I64 => TInt I64 z | I128 => i128_form z
    end.
  Definition binary_form (n : option N) (fs : list (bool * bytes)) : tree :=
    if h_binary h then TBin n (if h_borrowed_binary h then fs else map computed_frag fs)
    else TSeq n (map (fun b => u8_form (byte_val b)) (List.concat (map snd fs))).
  Definition label_form (l : label) : tree :=
    text_form (Some (blen (l_text l))) [(match l_kind l with LStatic => true | _ => false end, l_text l)].
  Definition tag_form t (l : option label) i : tree :=
    if h_tag h then TTag t l i
    else tagged_form t l i
           (if otag_is t RUST_OPTION_NONE then TNull else match l with Some l => label_form l | None => TNull end).
  Definition tuple_form t l i n (fs : list (option tag * index * tree)) : tree :=
    if h_tuple h then TTuple t l i n fs else tagged_form t l i (TSeq n (map snd fs)).
  Definition pair_form (k v : tree) : tree :=
    tuple_form None None None (Some 2%N) [(None, MkIndex 0 None, k); (None, MkIndex 1 None, v)].
  Definition map_form (n : option N) (es : list (tree * tree)) : tree :=
    if h_map h then TMap n es else TSeq n (map (fun e => pair_form (fst e) (snd e)) es).
  Definition record_form t l i n (fs : list (option tag * label * tree)) : tree :=
    if h_record h then TRecord t l i n fs
    else tagged_form t l i (map_form n (map (fun f => match f with (_, l, v) => (label_form l, v) end) fs)).
  Definition record_tuple_form t l i n (fs : list (option tag * label * index * tree)) : tree :=
    if h_record_tuple h then TRecTup t l i n fs
    else record_form t l i n (map (fun f => match f with (t, l, _, v) => (t, l, v) end) fs).

  Fixpoint understood (v : tree) : tree :=
    match v with
    | TNull => TNull
    | TBool b => TBool b
    | TInt t z => int_form t z
    | TF32 x => if h_f32 h then TF32 x else TF64 (f32_to_f64 x)
    | TF64 x => TF64 x
    | TText n fs => text_form n fs
    | TBin n fs => binary_form n fs
    | TTag t l i => tag_form t l i
    | THint t v => if h_hint h then THint t (understood v) else understood v
    | TTagged t l i v => tagged_form t l i (understood v)
    | TEnum t l i v => enum_form t l i (understood v)
    | TSeq n vs => TSeq n (map understood vs)
    | TMap n es => map_form n (map (fun e => (understood (fst e), understood (snd e))) es)
    | TRecord t l i n fs => record_form t l i n (map (fun f => match f with (ft, fl, v) => (ft, fl, understood v) end) fs)
    | TTuple t l i n fs => tuple_form t l i n (map (fun f => match f with (ft, fi, v) => (ft, fi, understood v) end) fs)
    | TRecTup t l i n fs => record_tuple_form t l i n (map (fun f => match f with (ft, fl, fi, v) => (ft, fl, fi, understood v) end) fs)
    end.
End Forms.
