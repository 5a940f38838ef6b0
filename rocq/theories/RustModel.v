(** * RustModel: values of types made of standard library types and plain
    [#[derive(Value)]] definitions

    Nothing new is modelled here: [rust] puts together the implementations of
    StdModel.v and the macro of DeriveModel.v, as a program using them does. *)

From Verif Require Import Base Event Tree DataModel FlattenModel StdModel DeriveModel.

(** ** The calls of a derived implementation

    DeriveModel.v runs the generated code against a stream; here are the calls it
    makes, as a value's behaviour (Event.v).  [None]: a flattened field, or the
    counter overflows.  RustProofs.v proves that the two agree
    ([impl_calls_stream]). *)
(** [stream_record_tuple.rs:109-121]. *)
Definition value_calls (data_tag : option tag) (v : list call) : list call :=
  match data_tag with
  | Some t => [CE (ETaggedBegin (Some t) None None); CV v; CE (ETaggedEnd (Some t) None None)]
  | None => [CV v]
  end.
(** [stream_record_tuple.rs:126-183]. *)
Fixpoint body_calls (body : list stmt) (vs : list (list call)) (c : Z) : option (list call) :=
  match body with
  | [] => Some []
  | SFlatten _ _ :: _ => None
  | SField kind t l i dt n :: body' =>
      match eval_index i c with
      | None => None
      | Some (i, c) =>
          let (b, e) := field_calls kind t l i in
          option_map (fun cs => (CE b :: value_calls dt (nth n vs []) ++ [CE e]) ++ cs) (body_calls body' vs c)
      end
  end.
(** [stream_tag.rs:10-23], [stream_newtype.rs:11-40],
    [stream_record_tuple.rs:208-261]. *)
Definition arm_calls (a : arm) (vs : list (list call)) : option (list call) :=
  match a with
  | ATag t l i => Some [CE (ETag t l (eval_const i))]
  | ATransparent => Some [CV (nth 0 vs [])]
  | ANewtype t l i =>
      Some [CE (ETaggedBegin t l (eval_const i)); CV (nth 0 vs []); CE (ETaggedEnd t l (eval_const i))]
  | AFields kind t l i n body =>
      let i := eval_const i in
      option_map (fun cs =>
        match kind with
        | FRecTup => CE (ERecTupBegin t l i n) :: cs ++ [CE (ERecTupEnd t l i)]
        | FTuple => CE (ETupleBegin t l i n) :: cs ++ [CE (ETupleEnd t l i)]
        | FRecord => CE (ERecordBegin t l i n) :: cs ++ [CE (ERecordEnd t l i)]
        | _ => CE (ETaggedBegin t l i) :: CE (ESeqBegin n) :: cs ++ [CE ESeqEnd; CE (ETaggedEnd t l i)]
        end) (body_calls body vs 0)
  end.
(** [derive_struct.rs:73-117], [derive_enum.rs:201-239]. *)
Definition impl_calls (m : impl) (variant : nat) (vs : list (list call)) : option (list call) :=
  match nth_error (im_arms m) variant with
  | None => Some []
  | Some a =>
      match im_enum m with
      | Some (t, l, i) =>
          option_map (fun cs => CE (EEnumBegin t l (eval_const i)) :: cs ++ [CE (EEnumEnd t l (eval_const i))])
                     (arm_calls a vs)
      | None => arm_calls a vs
      end
  end.

(** ** Definitions without attributes *)

(** What follows the name of a struct or variant: nothing; a number of fields in
    parentheses; named fields in braces. *)
Inductive style := PUnit | PTuple (n : nat) | PNamed (names : list bytes).
Inductive decl :=
| PStruct (name : bytes) (s : style)
| PEnum (name : bytes) (vs : list (bytes * style)).

(** The definition the macro is given. *)
Definition plain_field (name : option bytes) : field_def := MkField name None None None None None None.
Definition plain_fields (s : style) : fields_def :=
  match s with
  | PUnit => FsUnit
  | PTuple n => FsUnnamed (repeat (plain_field None) n)
  | PNamed names => FsNamed (map (fun n => plain_field (Some n)) names)
  end.
Definition plain_attrs : attrs := MkAttrs None None None None None None.
Definition plain_variant (v : bytes * style) : variant_def :=
  MkVariant (fst v) plain_attrs None (plain_fields (snd v)).
Definition def_of (d : decl) : type_def :=
  match d with
  | PStruct name s => DStruct name plain_attrs (plain_fields s)
  | PEnum name vs => DEnum name (MkEnumAttrs None None None None None None) (map plain_variant vs)
  end.

(** ** Values *)

(** [VMap]: a [BTreeMap] or [HashMap], in the order of its iterator.  [VData d i
    fs]: the [i]th variant of [d] (0 for a struct) with the given fields. *)
Inductive datum :=
| VUnit
| VBool (b : bool)
| VInt (t : ity) (z : Z)
| VF32 (f : float)
| VF64 (f : float)
| VChar (c : N)
| VStr (s : bytes)
| VNone
| VSome (v : datum)
| VVec (vs : list datum)
| VArray (vs : list datum)
| VTup (vs : list datum)
| VMap (es : list (datum * datum))
| VRef (v : datum)
| VData (d : decl) (i : nat) (fs : list datum).

(** What their [stream] does: the implementations of StdModel.v around those of
    the elements (of which only the calls matter there), or the code the macro
    makes of the definition. *)
Definition elem (cs : list call) : rval := ROther cs TNull.
Fixpoint rust (v : datum) : list call :=
  match v with
  | VUnit => calls RUnit
  | VBool b => calls (RBool b)
  | VInt t z => calls (RInt t z)
  | VF32 f => calls (RF32 f)
  | VF64 f => calls (RF64 f)
  | VChar c => calls (RChar c)
  | VStr s => calls (RString s)
  | VNone => calls RNone
  | VSome v => calls (RSome (elem (rust v)))
  | VVec vs => calls (RVec (map (fun v => elem (rust v)) vs))
  | VArray vs => calls (RArray (map (fun v => elem (rust v)) vs))
  | VTup vs => calls (StdModel.RTuple (map (fun v => elem (rust v)) vs))
  | VMap es => calls (RBTreeMap (map (fun kv => match kv with (k, v) => (elem (rust k), elem (rust v)) end) es))
  | VRef v => calls (RRef (elem (rust v)))
  | VData d i fs =>
      match derive (def_of d) with
      | Some m => match impl_calls m i (map rust fs) with Some cs => cs | None => [] end
      | None => []
      end
  end.
