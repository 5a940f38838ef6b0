(** * RustFmtSpec: what [{:?}] makes of plain Rust data

    The [Debug] impls of the standard library and [#[derive(Debug)]]; nothing here
    mentions [sval]. *)

From Verif Require Import Base Event FmtModel FmtSpec RustModel RustSpec StdModel.

Definition quote : byte := ascii_of_N 39.
Definition dquote : byte := ascii_of_N 34.
Definition is_char (c : byte) (ch : bytes) : bool := match ch with [d] => Ascii.eqb d c | _ => false end.

Section Debug.
  (** [Debug] of floats, and the Unicode tables behind [char::escape_debug]. *)
  Variable d32 d64 : float -> bytes.
  Variable uni : bytes -> list bytes.

  (** A string leaves single quotes alone, a character double quotes. *)
  Definition debug_str (s : bytes) : bytes :=
    dquote :: List.concat (map (fun ch => if is_char quote ch then ch else esc_char uni ch) (chars s)) ++ [dquote].
  Definition debug_char (ch : bytes) : bytes :=
    quote :: (if is_char dquote ch then ch else esc_char uni ch) ++ [quote].
  (** A struct or variant; without fields, only its name. *)
  Definition debug_fields (name : bytes) (s : style) (xs : list bytes) : bytes :=
    match s with
    | PUnit | PTuple 0 | PNamed [] => name
    | PTuple _ => name ++ bs "(" ++ commas xs ++ bs ")"
    | PNamed names => name ++ bs " { " ++ commas (map (fun nx => fst nx ++ bs ": " ++ snd nx) (combine names xs)) ++ bs " }"
    end.
  Fixpoint debug_of (v : datum) : bytes :=
    match v with
    | VUnit => bs "()"
    | VBool b => if b then bs "true" else bs "false"
    | VInt _ z => dec z
    | VF32 f => d32 f
    | VF64 f => d64 f
    | VChar c => debug_char (encode_utf8 c)
    | VStr s => debug_str s
    | VNone => bs "None"
    | VSome v => bs "Some(" ++ debug_of v ++ bs ")"
    | VVec vs | VArray vs => bs "[" ++ commas (map debug_of vs) ++ bs "]"
    | VTup [v] => bs "(" ++ debug_of v ++ bs ",)"
    | VTup vs => bs "(" ++ commas (map debug_of vs) ++ bs ")"
    | VMap es => bs "{" ++ commas (map (fun kv => match kv with (k, v) => debug_of k ++ bs ": " ++ debug_of v end) es) ++ bs "}"
    | VRef v => debug_of v
    | VData d i fs => match variant_of d i with Some (name, s) => debug_fields name s (map debug_of fs) | None => [] end
    end.
End Debug.

(** ** Where [sval_fmt] differs *)

(** An empty sequence or map, possibly in [Some] or newtype structs. *)
Fixpoint empty_inside (v : datum) : bool :=
  match v with
  | VVec [] | VArray [] | VMap [] => true
  | VSome v | VRef v => empty_inside v
  | VData (PStruct _ (PTuple 1)) _ [v] => empty_inside v
  | _ => false
  end.

Section Same.
  (** The floats as [sval_fmt] prints them. *)
  Variable p32 p64 : float -> bytes.
  Variable d32 d64 : float -> bytes.

  (** No [char]s; no single quote in strings; no tuples of one; no maps but empty ones; no
      structs and variants with an empty list of fields; no empty container alone in a
      variant; and the floats print alike. *)
  Fixpoint same_text (v : datum) : Prop :=
    match v with
    | VF32 f => p32 f = d32 f
    | VF64 f => p64 f = d64 f
    | VChar _ => False
    | VStr s => ~ In quote s
    | VSome v | VRef v => same_text v
    | VVec vs | VArray vs => fold_right and True (map same_text vs)
    | VTup vs => List.length vs <> 1%nat /\ fold_right and True (map same_text vs)
    | VMap es => es = []
    | VData d i fs =>
        match variant_of d i with
        | Some (_, PTuple 0) | Some (_, PNamed []) | None => False
        | Some (_, PTuple 1) => match d with PEnum _ _ => existsb empty_inside fs = false | PStruct _ _ => True end
        | _ => True
        end /\
        fold_right and True (map same_text fs)
    | _ => True
    end.
End Same.
