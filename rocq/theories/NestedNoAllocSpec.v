(** * NestedNoAllocSpec: values that need no buffering

    Stated on the calls a value makes; nothing here mentions [sval_nested] or
    [sval_serde], apart from the type of the serializers of [serde]. *)

From Verif Require Import Base Event FragModel SerdeModel.

(** ** One level of a value

    A value whose parts are all handed on through [Stream::value], whose texts and
    binaries are one borrowed fragment, and whose enums hold a variant at once. *)
Inductive level :=
| LNull
| LBool (b : bool)
| LInt (t : ity) (z : Z)
| LF32 (f : float)
| LF64 (f : float)
| LText (n : option N) (s : bytes)
| LBin (n : option N) (s : bytes)
| LTag (t : option tag) (l : option label) (i : option index)
| LTagged (t : option tag) (l : option label) (i : option index) (v : list call)
| LSeq (n : option N) (vs : list (list call))
| LMap (n : option N) (es : list (list call * list call))
| LTuple (t : option tag) (l : option label) (i : option index) (n : option N)
         (fs : list (option tag * index * list call))
| LRecord (t : option tag) (l : option label) (i : option index) (n : option N)
          (fs : list (option tag * label * list call))
| LRecTup (t : option tag) (l : option label) (i : option index) (n : option N)
          (fs : list (option tag * label * index * list call)).
(** The level itself, or an enum around it. *)
Inductive value1 :=
| Bare (x : level)
| Variant (t : option tag) (l : option label) (i : option index) (x : level).

Definition level_calls (x : level) : list call :=
  match x with
  | LNull => [CE ENull]
  | LBool b => [CE (EBool b)]
  | LInt t z => [CE (EInt t z)]
  | LF32 f => [CE (EF32 f)]
  | LF64 f => [CE (EF64 f)]
  | LText n s => [CE (ETextBegin n); CE (ETextFrag s); CE ETextEnd]
  | LBin n s => [CE (EBinBegin n); CE (EBinFrag s); CE EBinEnd]
  | LTag t l i => [CE (ETag t l i)]
  | LTagged t l i v => [CE (ETaggedBegin t l i); CV v; CE (ETaggedEnd t l i)]
  | LSeq n vs =>
      CE (ESeqBegin n) :: flat_map (fun v => [CE ESeqValBegin; CV v; CE ESeqValEnd]) vs ++ [CE ESeqEnd]
  | LMap n es =>
      CE (EMapBegin n) ::
      flat_map (fun e => [CE EMapKeyBegin; CV (fst e); CE EMapKeyEnd; CE EMapValBegin; CV (snd e); CE EMapValEnd]) es ++
      [CE EMapEnd]
  | LTuple t l i n fs =>
      CE (ETupleBegin t l i n) ::
      flat_map (fun f => match f with (ft, fi, v) => [CE (ETupleValBegin ft fi); CV v; CE (ETupleValEnd ft fi)] end) fs ++
      [CE (ETupleEnd t l i)]
  | LRecord t l i n fs =>
      CE (ERecordBegin t l i n) ::
      flat_map (fun f => match f with (ft, fl, v) => [CE (ERecordValBegin ft fl); CV v; CE (ERecordValEnd ft fl)] end) fs ++
      [CE (ERecordEnd t l i)]
  | LRecTup t l i n fs =>
      CE (ERecTupBegin t l i n) ::
      flat_map (fun f => match f with (ft, fl, fi, v) =>
                  [CE (ERecTupValBegin ft fl fi); CV v; CE (ERecTupValEnd ft fl fi)] end) fs ++
      [CE (ERecTupEnd t l i)]
  end.
Definition value1_calls (x : value1) : list call :=
  match x with
  | Bare x => level_calls x
  | Variant t l i x => CE (EEnumBegin t l i) :: level_calls x ++ [CE (EEnumEnd t l i)]
  end.

(** The labels that have to be kept are static. *)
Definition static_label (l : label) : bool := match l_kind l with LStatic => true | _ => false end.
Definition static_opt (l : option label) : bool := match l with Some l => static_label l | None => true end.
Definition level_static (x : level) : bool :=
  match x with
  | LTagged _ l _ _ => static_opt l
  | LRecord _ _ _ _ fs => forallb (fun f => match f with (_, l, _) => static_label l end) fs
  | LRecTup _ _ _ _ fs => forallb (fun f => match f with (_, l, _, _) => static_label l end) fs
  | _ => true
  end.
(** What may stand in an enum. *)
Definition is_variant (x : level) : bool :=
  match x with LTag _ _ _ | LTagged _ _ _ _ | LTuple _ _ _ _ _ | LRecord _ _ _ _ _ | LRecTup _ _ _ _ _ => true | _ => false end.
Definition value1_ok (x : value1) : bool :=
  match x with Bare x => level_static x | Variant _ _ _ x => level_static x && is_variant x end.

Definition level_children (x : level) : list (list call) :=
  match x with
  | LTagged _ _ _ v => [v]
  | LSeq _ vs => vs
  | LMap _ es => flat_map (fun e => [fst e; snd e]) es
  | LTuple _ _ _ _ fs => map (fun f => match f with (_, _, v) => v end) fs
  | LRecord _ _ _ _ fs => map (fun f => match f with (_, _, v) => v end) fs
  | LRecTup _ _ _ _ fs => map (fun f => match f with (_, _, _, v) => v end) fs
  | _ => []
  end.
Definition value1_children (x : value1) : list (list call) :=
  match x with Bare x | Variant _ _ _ x => level_children x end.

(** ** All levels *)
Inductive direct : list call -> Prop :=
| direct_level x : value1_ok x = true -> Forall direct (value1_children x) -> direct (value1_calls x).

(** ** Serializers that hand on the errors of the parts of a value *)

(** The same result, or an error; with [dbg], or a panic. *)
Definition worse (dbg : bool) {A} (o1 o2 : outcome A) : Prop := o1 = o2 \/ o1 = OErr \/ (dbg = true /\ o1 = OPanic).
(** If a part does worse then so does the call it is given to. *)
Record hands_on_errors (dbg : bool) (S : serializer) : Prop := {
  he_some : forall k c d, (forall k, worse dbg (c k) (d k)) -> worse dbg (s_some S k c) (s_some S k d);
  he_newtype_struct : forall k n c d, (forall k, worse dbg (c k) (d k)) -> worse dbg (s_newtype_struct S k n c) (s_newtype_struct S k n d);
  he_newtype_variant : forall k n i v c d, (forall k, worse dbg (c k) (d k)) -> worse dbg (s_newtype_variant S k n i v c) (s_newtype_variant S k n i v d);
  he_seq : forall s c d, (forall k, worse dbg (c k) (d k)) -> worse dbg (k_seq_element S s c) (k_seq_element S s d);
  he_tuple : forall s c d, (forall k, worse dbg (c k) (d k)) -> worse dbg (k_tuple_element S s c) (k_tuple_element S s d);
  he_tstruct : forall s c d, (forall k, worse dbg (c k) (d k)) -> worse dbg (k_tstruct_field S s c) (k_tstruct_field S s d);
  he_tvariant : forall s c d, (forall k, worse dbg (c k) (d k)) -> worse dbg (k_tvariant_field S s c) (k_tvariant_field S s d);
  he_map_key : forall s c d, (forall k, worse dbg (c k) (d k)) -> worse dbg (k_map_key S s c) (k_map_key S s d);
  he_map_value : forall s c d, (forall k, worse dbg (c k) (d k)) -> worse dbg (k_map_value S s c) (k_map_value S s d);
  he_struct : forall s f c d, (forall k, worse dbg (c k) (d k)) -> worse dbg (k_struct_field S s f c) (k_struct_field S s f d);
  he_svariant : forall s f c d, (forall k, worse dbg (c k) (d k)) -> worse dbg (k_svariant_field S s f c) (k_svariant_field S s f d)
}.
