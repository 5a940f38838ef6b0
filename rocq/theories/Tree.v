(** * Tree: well-formed values of the sval data model and their call sequences

    This file is specification: it describes the data model documented on
    [trait Stream] ([src/stream.rs:6-454]): which calls begin and end each kind
    of value and what may appear between them.  It mentions no stream
    implementation. *)

From Verif Require Import Base Event.

Inductive tree :=
| TNull
| TBool (b : bool)
| TInt (t : ity) (z : Z)
| TF32 (f : float)
| TF64 (f : float)
(** a text: size hint and fragments, each borrowed ([true]) or computed *)
| TText (n : option N) (fs : list (bool * bytes))
| TBin (n : option N) (fs : list (bool * bytes))
| TTag (t : option tag) (l : option label) (i : option index)
| THint (t : tag) (v : tree)
| TTagged (t : option tag) (l : option label) (i : option index) (v : tree)
| TEnum (t : option tag) (l : option label) (i : option index) (v : tree)
| TSeq (n : option N) (vs : list tree)
| TMap (n : option N) (es : list (tree * tree))
| TRecord (t : option tag) (l : option label) (i : option index) (n : option N)
          (fs : list (option tag * label * tree))
| TTuple (t : option tag) (l : option label) (i : option index) (n : option N)
         (fs : list (option tag * index * tree))
| TRecTup (t : option tag) (l : option label) (i : option index) (n : option N)
          (fs : list (option tag * label * index * tree)).

Definition text_frag (f : bool * bytes) : ev :=
  if fst f then ETextFrag (snd f) else ETextFragC (snd f).
Definition bin_frag (f : bool * bytes) : ev :=
  if fst f then EBinFrag (snd f) else EBinFragC (snd f).

(** The calls a value makes. *)
Fixpoint emit (v : tree) : list ev :=
  match v with
  | TNull => [ENull]
  | TBool b => [EBool b]
  | TInt t z => [EInt t z]
  | TF32 f => [EF32 f]
  | TF64 f => [EF64 f]
  | TText n fs => ETextBegin n :: map text_frag fs ++ [ETextEnd]
  | TBin n fs => EBinBegin n :: map bin_frag fs ++ [EBinEnd]
  | TTag t l i => [ETag t l i]
  | THint t v => ETagHint t :: emit v
  | TTagged t l i v => ETaggedBegin t l i :: emit v ++ [ETaggedEnd t l i]
  | TEnum t l i v => EEnumBegin t l i :: emit v ++ [EEnumEnd t l i]
  | TSeq n vs =>
      ESeqBegin n :: flat_map (fun v => ESeqValBegin :: emit v ++ [ESeqValEnd]) vs ++ [ESeqEnd]
  | TMap n es =>
      EMapBegin n ::
      flat_map (fun kv => match kv with (k, v) =>
                  EMapKeyBegin :: emit k ++ EMapKeyEnd ::
                  EMapValBegin :: emit v ++ [EMapValEnd] end) es ++
      [EMapEnd]
  | TRecord t l i n fs =>
      ERecordBegin t l i n ::
      flat_map (fun f => match f with (ft, fl, v) =>
                  ERecordValBegin ft fl :: emit v ++ [ERecordValEnd ft fl] end) fs ++
      [ERecordEnd t l i]
  | TTuple t l i n fs =>
      ETupleBegin t l i n ::
      flat_map (fun f => match f with (ft, fi, v) =>
                  ETupleValBegin ft fi :: emit v ++ [ETupleValEnd ft fi] end) fs ++
      [ETupleEnd t l i]
  | TRecTup t l i n fs =>
      ERecTupBegin t l i n ::
      flat_map (fun f => match f with (ft, fl, fi, v) =>
                  ERecTupValBegin ft fl fi :: emit v ++ [ERecTupValEnd ft fl fi] end) fs ++
      [ERecTupEnd t l i]
  end.

(** Integers streamed by a method of a given type are in that type's range. *)
Fixpoint ranged (v : tree) : bool :=
  match v with
  | TInt t z => fits t z
  | THint _ v | TTagged _ _ _ v | TEnum _ _ _ v => ranged v
  | TSeq _ vs => forallb ranged vs
  | TMap _ es => forallb (fun kv => match kv with (k, v) => ranged k && ranged v end) es
  | TRecord _ _ _ _ fs => forallb (fun f => match f with (_, _, v) => ranged v end) fs
  | TTuple _ _ _ _ fs => forallb (fun f => match f with (_, _, v) => ranged v end) fs
  | TRecTup _ _ _ _ fs => forallb (fun f => match f with (_, _, _, v) => ranged v end) fs
  | _ => true
  end.

(** What may stand directly inside [enum_begin]/[enum_end]
    ([src/stream.rs], docs of [enum_begin]): a tag, a tagged value, a record, a
    tuple, a record-tuple or another enum. *)
Definition is_variant (v : tree) : bool :=
  match v with
  | TTag _ _ _ | TTagged _ _ _ _ | TEnum _ _ _ _
  | TRecord _ _ _ _ _ | TTuple _ _ _ _ _ | TRecTup _ _ _ _ _ => true
  | _ => false
  end.

(** A value [v] (any behaviour) streams the tree [t]: whatever way it nests
    [value] calls, the calls it makes are those of [t]. *)
Definition streams (v : list call) (t : tree) : Prop := flat v false = (emit t, true).

(** Induction over trees. *)
Section TreeInd.
  Variable P : tree -> Prop.
  Hypothesis HNull : P TNull.
  Hypothesis HBool : forall b, P (TBool b).
  Hypothesis HInt : forall t z, P (TInt t z).
  Hypothesis HF32 : forall f, P (TF32 f).
  Hypothesis HF64 : forall f, P (TF64 f).
  Hypothesis HText : forall n fs, P (TText n fs).
  Hypothesis HBin : forall n fs, P (TBin n fs).
  Hypothesis HTag : forall t l i, P (TTag t l i).
  Hypothesis HHint : forall t v, P v -> P (THint t v).
  Hypothesis HTagged : forall t l i v, P v -> P (TTagged t l i v).
  Hypothesis HEnum : forall t l i v, P v -> P (TEnum t l i v).
  Hypothesis HSeq : forall n vs, Forall P vs -> P (TSeq n vs).
  Hypothesis HMap : forall n es, Forall (fun kv => P (fst kv) /\ P (snd kv)) es -> P (TMap n es).
  Hypothesis HRecord : forall t l i n fs, Forall (fun f => P (snd f)) fs -> P (TRecord t l i n fs).
  Hypothesis HTuple : forall t l i n fs, Forall (fun f => P (snd f)) fs -> P (TTuple t l i n fs).
  Hypothesis HRecTup : forall t l i n fs, Forall (fun f => P (snd f)) fs -> P (TRecTup t l i n fs).

  Fixpoint tree_ind' (v : tree) : P v :=
    match v with
    | TNull => HNull
    | TBool b => HBool b
    | TInt t z => HInt t z
    | TF32 f => HF32 f
    | TF64 f => HF64 f
    | TText n fs => HText n fs
    | TBin n fs => HBin n fs
    | TTag t l i => HTag t l i
    | THint t v => HHint t v (tree_ind' v)
    | TTagged t l i v => HTagged t l i v (tree_ind' v)
    | TEnum t l i v => HEnum t l i v (tree_ind' v)
    | TSeq n vs =>
        HSeq n vs ((fix go vs : Forall P vs := match vs with
                                 | [] => Forall_nil _
                                 | v :: vs' => Forall_cons v (tree_ind' v) (go vs')
                                 end) vs)
    | TMap n es =>
        HMap n es ((fix go es : Forall (fun kv => P (fst kv) /\ P (snd kv)) es := match es with
                                 | [] => Forall_nil _
                                 | kv :: es' =>
                                     Forall_cons kv
                                       (match kv as kv return P (fst kv) /\ P (snd kv) with (k, v) => conj (tree_ind' k) (tree_ind' v) end)
                                       (go es')
                                 end) es)
    | TRecord t l i n fs =>
        HRecord t l i n fs ((fix go fs : Forall (fun f => P (snd f)) fs := match fs with
                                 | [] => Forall_nil _
                                 | f :: fs' =>
                                     Forall_cons f (match f as f return P (snd f) with (_, v) => tree_ind' v end) (go fs')
                                 end) fs)
    | TTuple t l i n fs =>
        HTuple t l i n fs ((fix go fs : Forall (fun f => P (snd f)) fs := match fs with
                                 | [] => Forall_nil _
                                 | f :: fs' =>
                                     Forall_cons f (match f as f return P (snd f) with (_, v) => tree_ind' v end) (go fs')
                                 end) fs)
    | TRecTup t l i n fs =>
        HRecTup t l i n fs ((fix go fs : Forall (fun f => P (snd f)) fs := match fs with
                                 | [] => Forall_nil _
                                 | f :: fs' =>
                                     Forall_cons f (match f as f return P (snd f) with (_, v) => tree_ind' v end) (go fs')
                                 end) fs)
    end.
End TreeInd.
