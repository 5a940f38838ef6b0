(** * RustSpec: the values Rust can build, and what [serde_json] makes of them

    [datum] (RustModel.v) is plain Rust data.  This file says what
    [serde_json::to_string] gives for it with [#[derive(Serialize)]] on the same
    definitions; it does not mention [sval]. *)

From Verif Require Import Base LowerSpec Utf8 StdModel StdSpec RustModel JsonModel JsonTextSpec.

(** ** Well-typed values *)

(** An identifier: no byte that needs an escape anywhere. *)
Definition ident_byte (b : byte) : bool :=
  let n := N_of_ascii b in
  ((48 <=? n) && (n <=? 57) || (65 <=? n) && (n <=? 90) || (97 <=? n) && (n <=? 122) || (n =? 95) || (128 <=? n))%N.
Definition identifier (s : bytes) : bool :=
  match s with [] => false | _ => forallb ident_byte s && utf8 s end.

Definition arity (s : style) : nat :=
  match s with PUnit => 0 | PTuple n => n | PNamed names => List.length names end.
Definition field_names (s : style) : list bytes := match s with PNamed names => names | _ => [] end.
(** A type that fits in memory. *)
Definition sized (n : nat) : bool := fits I64 (Z.of_nat n).
Definition style_ok (s : style) : bool := sized (arity s) && forallb identifier (field_names s).
Definition decl_ok (d : decl) : bool :=
  match d with
  | PStruct name s => identifier name && style_ok s
  | PEnum name vs =>
      identifier name && sized (List.length vs) && forallb (fun v => identifier (fst v) && style_ok (snd v)) vs
  end.
(** The name and fields of a struct, or of a variant. *)
Definition variant_of (d : decl) (i : nat) : option (bytes * style) :=
  match d with
  | PStruct name s => match i with O => Some (name, s) | _ => None end
  | PEnum _ vs => nth_error vs i
  end.

Fixpoint typed (v : datum) : Prop :=
  match v with
  | VInt t z => fits t z = true
  | VChar c => scalar c
  | VStr s => utf8 s = true
  | VSome v | VRef v => typed v
  | VVec vs | VArray vs => fold_right and True (map typed vs)
  | VTup vs => (1 <= List.length vs <= 16)%nat /\ fold_right and True (map typed vs)
  | VMap es => fold_right and True (map (fun kv => match kv with (k, v) => typed k /\ typed v end) es)
  | VData d i fs =>
      decl_ok d = true /\
      match variant_of d i with Some (_, s) => List.length fs = arity s | None => False end /\
      fold_right and True (map typed fs)
  | _ => True
  end.

(** ** [serde_json] *)

(** A key of a map: a string; or a character, integer, boolean or unit variant as a
    string; possibly in a newtype struct.  [None]: an error. *)
Fixpoint serde_key (k : datum) : option bytes :=
  match k with
  | VStr s => Some s
  | VChar c => Some (encode_utf8 c)
  | VInt _ z => Some (dec z)
  | VBool b => Some (if b then bs "true" else bs "false")
  | VRef k => serde_key k
  | VData (PStruct _ (PTuple 1)) _ [k] => serde_key k
  | VData (PEnum _ vs) i _ => match nth_error vs i with Some (name, PUnit) => Some name | _ => None end
  | _ => None
  end.
(** Every key is one. *)
Fixpoint serde_accepts (v : datum) : bool :=
  match v with
  | VSome v | VRef v => serde_accepts v
  | VVec vs | VArray vs | VTup vs | VData _ _ vs => forallb serde_accepts vs
  | VMap es => forallb (fun kv => match kv with (k, v) => match serde_key k with Some _ => true | None => false end && serde_accepts v end) es
  | _ => true
  end.

Section SerdeJson.
  (** [ryu]; floats that are not finite are [null]. *)
  Variable ryu32 ryu64 : float -> bytes.
  Definition json_float (ryu : float -> bytes) (f : float) : bytes :=
    match f with S754_infinity _ | S754_nan => bs "null" | _ => ryu f end.

  (** The fields of a struct: none, one, several or named. *)
  Definition json_fields (s : style) (xs : list bytes) : bytes :=
    match s with
    | PUnit => bs "null"
    | PTuple 1 => nth 0 xs []
    | PTuple _ => array xs
    | PNamed names => object (map (fun nx => member (fst nx) (snd nx)) (combine names xs))
    end.
  Fixpoint serde_json (v : datum) : bytes :=
    match v with
    | VUnit | VNone => bs "null"
    | VBool b => if b then bs "true" else bs "false"
    | VInt _ z => dec z
    | VF32 f => json_float ryu32 f
    | VF64 f => json_float ryu64 f
    | VChar c => json_string (encode_utf8 c)
    | VStr s => json_string s
    | VSome v | VRef v => serde_json v
    | VVec vs | VArray vs | VTup vs => array (map serde_json vs)
    | VMap es =>
        object (map (fun kv => match kv with (k, v) =>
          member (match serde_key k with Some s => s | None => [] end) (serde_json v) end) es)
    | VData (PStruct _ s) _ fs => json_fields s (map serde_json fs)
    | VData (PEnum _ vs) i fs =>
        match nth_error vs i with
        | Some (name, PUnit) => json_string name
        | Some (name, s) => object [member name (json_fields s (map serde_json fs))]
        | None => []
        end
    end.
End SerdeJson.

(** ** Where [sval_json] differs *)

(** A unit struct somewhere. *)
Fixpoint unit_struct (v : datum) : bool :=
  match v with
  | VSome v | VRef v => unit_struct v
  | VVec vs | VArray vs | VTup vs => existsb unit_struct vs
  | VMap es => existsb (fun kv => match kv with (k, v) => unit_struct k || unit_struct v end) es
  | VData (PStruct _ PUnit) _ _ => true
  | VData _ _ fs => existsb unit_struct fs
  | _ => false
  end.

(** A map with a key that is a newtype struct or an enum, and a value that is [Some],
    a struct with fields or an enum. *)
Fixpoint named_key (k : datum) : bool :=
  match k with VRef k => named_key k | VData _ _ _ => true | _ => false end.
Fixpoint named_value (v : datum) : bool :=
  match v with
  | VRef v => named_value v
  | VData (PStruct _ PUnit) _ _ => false
  | VSome _ | VData _ _ _ => true
  | _ => false
  end.
Fixpoint named_entry (v : datum) : bool :=
  match v with
  | VSome v | VRef v => named_entry v
  | VVec vs | VArray vs | VTup vs | VData _ _ vs => existsb named_entry vs
  | VMap es => existsb (fun kv => match kv with (k, v) => named_key k && named_value v || named_entry v end) es
  | _ => false
  end.
