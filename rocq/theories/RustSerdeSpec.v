(** * RustSerdeSpec: what [#[derive(Serialize)]] and [serde]'s own impls make of plain
    Rust data

    [datum] (RustModel.v) is the data, [sdata] (SerdeModel.v) the data model of
    [serde]; nothing here mentions [sval]. *)

From Verif Require Import Base SerdeModel StdModel StdSpec RustModel RustSpec.

(** A struct with the given name and fields. *)
Definition serde_struct (name : bytes) (s : style) (xs : list sdata) : sdata :=
  match s with
  | PUnit => DUnitStruct name
  | PTuple 1 => DNewtypeStruct name (nth 0 xs DUnit)
  | PTuple n => DTupleStruct name (N.of_nat n) xs
  | PNamed names => SerdeModel.DStruct name (len names) (combine names xs) true
  end.
(** The variant at the given position of an enum. *)
Definition serde_variant (name : bytes) (i : nat) (variant : bytes) (s : style) (xs : list sdata) : sdata :=
  let i := Z.of_nat i in
  match s with
  | PUnit => DUnitVariant name i variant
  | PTuple 1 => DNewtypeVariant name i variant (nth 0 xs DUnit)
  | PTuple n => DTupleVariant name i variant (N.of_nat n) xs
  | PNamed names => DStructVariant name i variant (len names) (combine names xs) true
  end.

Fixpoint serde_of (v : datum) : sdata :=
  match v with
  | VUnit => DUnit
  | VBool b => DBool b
  | VInt t z => DInt t z
  | VF32 f => DF32 f
  | VF64 f => DF64 f
  | VChar c => DChar c
  | VStr s => DStr s
  | VNone => DNone
  | VSome v => DSome (serde_of v)
  | VVec vs => DSeq (Some (len vs)) (map serde_of vs)
  | VArray vs | VTup vs => DTuple (len vs) (map serde_of vs)
  | VMap es => DMap (Some (len es)) (map (fun kv => match kv with (k, v) => (serde_of k, serde_of v) end) es)
  | VRef v => serde_of v
  | VData (PStruct name s) _ fs => serde_struct name s (map serde_of fs)
  | VData (PEnum name vs) i fs =>
      match nth_error vs i with
      | Some (variant, s) => serde_variant name i variant s (map serde_of fs)
      | None => DFail
      end
  end.

(** [serde] numbers variants with a [u32]. *)
Fixpoint few_variants (v : datum) : bool :=
  match v with
  | VSome v | VRef v => few_variants v
  | VVec vs | VArray vs | VTup vs => forallb few_variants vs
  | VMap es => forallb (fun kv => match kv with (k, v) => few_variants k && few_variants v end) es
  | VData d i fs => fits U32 (Z.of_nat i) && forallb few_variants fs
  | _ => true
  end.

(** ** Where [sval_serde] differs *)
Fixpoint has_array (v : datum) : bool :=
  match v with
  | VArray _ => true
  | VSome v | VRef v => has_array v
  | VVec vs | VTup vs | VData _ _ vs => existsb has_array vs
  | VMap es => existsb (fun kv => match kv with (k, v) => has_array k || has_array v end) es
  | _ => false
  end.
Fixpoint has_char (v : datum) : bool :=
  match v with
  | VChar _ => true
  | VSome v | VRef v => has_char v
  | VVec vs | VArray vs | VTup vs | VData _ _ vs => existsb has_char vs
  | VMap es => existsb (fun kv => match kv with (k, v) => has_char k || has_char v end) es
  | _ => false
  end.
(** What arrives at the serializer instead: a [char] as a string, an array not at all. *)
Fixpoint arrives (v : datum) : sdata :=
  match v with
  | VArray _ => DFail
  | VChar c => DStr (encode_utf8 c)
  | VUnit => DUnit
  | VBool b => DBool b
  | VInt t z => DInt t z
  | VF32 f => DF32 f
  | VF64 f => DF64 f
  | VStr s => DStr s
  | VNone => DNone
  | VSome v => DSome (arrives v)
  | VVec vs => DSeq (Some (len vs)) (map arrives vs)
  | VTup vs => DTuple (len vs) (map arrives vs)
  | VMap es => DMap (Some (len es)) (map (fun kv => match kv with (k, v) => (arrives k, arrives v) end) es)
  | VRef v => arrives v
  | VData (PStruct name s) _ fs => serde_struct name s (map arrives fs)
  | VData (PEnum name vs) i fs =>
      match nth_error vs i with
      | Some (variant, s) => serde_variant name i variant s (map arrives fs)
      | None => DFail
      end
  end.
