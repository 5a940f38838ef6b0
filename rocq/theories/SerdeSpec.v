(** * SerdeSpec: what a value is in the data model of [serde]

    Nothing here mentions the code of [sval_serde]: [sdata] and [ser] are the
    [serde] side, [rview] (NestedSpec.v) is the value seen recursively. *)

From Verif Require Import Base Event Tree DataModel FragModel BufferSpec StdModel NestedModel NestedSpec SerdeModel.

(** ** Serializers

    A serializer cannot look into a child: it can only serialize it.  So two
    children that serialize to the same result everywhere are the same to it. *)
Definition same_child {S} (c d : k_ser S -> outcome (k_ok S)) : Prop := forall k, c k = d k.
Record opaque_children (S : serializer) : Prop := {
  oc_some : forall k c d, same_child c d -> s_some S k c = s_some S k d;
  oc_newtype_struct : forall k n c d, same_child c d -> s_newtype_struct S k n c = s_newtype_struct S k n d;
  oc_newtype_variant : forall k n i v c d, same_child c d -> s_newtype_variant S k n i v c = s_newtype_variant S k n i v d;
  oc_seq : forall s c d, same_child c d -> k_seq_element S s c = k_seq_element S s d;
  oc_tuple : forall s c d, same_child c d -> k_tuple_element S s c = k_tuple_element S s d;
  oc_tstruct : forall s c d, same_child c d -> k_tstruct_field S s c = k_tstruct_field S s d;
  oc_tvariant : forall s c d, same_child c d -> k_tvariant_field S s c = k_tvariant_field S s d;
  oc_map_key : forall s c d, same_child c d -> k_map_key S s c = k_map_key S s d;
  oc_map_value : forall s c d, same_child c d -> k_map_value S s c = k_map_value S s d;
  oc_struct : forall s f c d, same_child c d -> k_struct_field S s f c = k_struct_field S s f d;
  oc_svariant : forall s f c d, same_child c d -> k_svariant_field S s f c = k_svariant_field S s f d
}.
(** It treats a [char] and a [Display] as the string they read as; the latter is
    what the default [collect_str] of [serde] does. *)
Definition chars_as_strings (S : serializer) : Prop := forall k c, s_char S k c = s_str S k (encode_utf8 c).
Definition default_collect_str (S : serializer) : Prop := forall k fs, s_collect_str S k fs = s_str S k (List.concat fs).

(** ** Values of the data model of [serde] *)

(** The value does not give up by itself, and its variant indexes are [u32]s. *)
Fixpoint sound (x : sdata) : bool :=
  match x with
  | DSome v | DNewtypeStruct _ v => sound v
  | DUnitVariant _ i _ => fits U32 i
  | DNewtypeVariant _ i _ v => fits U32 i && sound v
  | DSeq _ vs | DTuple _ vs | DTupleStruct _ _ vs => forallb sound vs
  | DTupleVariant _ i _ _ vs => fits U32 i && forallb sound vs
  | DMap _ es => forallb (fun e => match e with (a, b) => sound a && sound b end) es
  | DStruct _ _ fs ok => ok && forallb (fun f => match f with (_, v) => sound v end) fs
  | DStructVariant _ i _ _ fs ok => fits U32 i && ok && forallb (fun f => match f with (_, v) => sound v end) fs
  | DFail => false
  | _ => true
  end.
(** The same value with each [char] and [Display] replaced by its string. *)
Fixpoint strings (x : sdata) : sdata :=
  match x with
  | DChar c => DStr (encode_utf8 c)
  | DDisplay fs => DStr (List.concat fs)
  | DSome v => DSome (strings v)
  | DNewtypeStruct n v => DNewtypeStruct n (strings v)
  | DNewtypeVariant n i l v => DNewtypeVariant n i l (strings v)
  | DSeq n vs => DSeq n (map strings vs)
  | DTuple n vs => DTuple n (map strings vs)
  | DTupleStruct l n vs => DTupleStruct l n (map strings vs)
  | DTupleVariant l i v n vs => DTupleVariant l i v n (map strings vs)
  | DMap n es => DMap n (map (fun e => match e with (a, b) => (strings a, strings b) end) es)
  | DStruct l n fs ok => DStruct l n (map (fun f => match f with (a, b) => (a, strings b) end) fs) ok
  | DStructVariant l i v n fs ok => DStructVariant l i v n (map (fun f => match f with (a, b) => (a, strings b) end) fs) ok
  | x => x
  end.

(** ** The [serde] reading of a [sval] value *)
Definition name_of (l : option label) : option bytes := match l with Some l => as_static_str l | None => None end.
Definition index_of (i : option index) : option Z := match i with Some i => index_to U32 i | None => None end.
(** The fields up to the first one without a static name, and whether there was
    none. *)
Section Named.
  Context {A B : Type} (f : B -> sdata).
  Fixpoint named (fs : list (A * label * B)) : list (bytes * sdata) * bool :=
    match fs with
    | [] => ([], true)
    | (_, l, v) :: fs' =>
        match as_static_str l with
        | Some n => let (r, ok) := named fs' in ((n, f v) :: r, ok)
        | None => ([], false)
        end
    end.
End Named.
Fixpoint as_serde (r : rview) : sdata :=
  match r with
  | RNull => DNone
  | RBool b => DBool b
  | RInt t z => DInt t z
  | RF32 f => DF32 f
  | RF64 f => DF64 f
  | RText s => DStr s
  | RBin s => DBytes s
  | RTag t l _ =>
      if otag_is t RUST_OPTION_NONE then DNone
      else if otag_is t RUST_UNIT then DUnit
      else match name_of l with Some n => DUnitStruct n | None => DFail end
  | RTagged t l _ v =>
      if otag_is t RUST_OPTION_SOME then DSome (as_serde v)
      else match name_of l with Some n => DNewtypeStruct n (as_serde v) | None => DFail end
  | RSeq n vs => DSeq n (map as_serde vs)
  | RMap n es => DMap n (map (fun e => match e with (a, b) => (as_serde a, as_serde b) end) es)
  | RTuple _ l _ n fs =>
      match n with
      | None => DFail
      | Some n =>
          let vs := map (fun f => match f with (_, _, v) => as_serde v end) fs in
          match l with
          | None => DTuple n vs
          | Some l => match as_static_str l with Some name => DTupleStruct name n vs | None => DFail end
          end
      end
  | RRecord _ l _ n fs =>
      match n with
      | None => DFail
      | Some n =>
          match l with
          | None => DTuple n (map (fun f => match f with (_, _, v) => as_serde v end) fs)
          | Some l =>
              match as_static_str l with
              | Some name => let (vs, ok) := named as_serde fs in DStruct name n vs ok
              | None => DFail
              end
          end
      end
  | REnum _ l _ v =>
      match name_of l with
      | None => DFail
      | Some name =>
          match v with
          | RTag _ l i =>
              match name_of l, index_of i with
              | Some variant, Some i => DUnitVariant name i variant
              | _, _ => DFail
              end
          | RTagged _ l i v =>
              match name_of l, index_of i with
              | Some variant, Some i => DNewtypeVariant name i variant (as_serde v)
              | _, _ => DFail
              end
          | RTuple _ l i n fs =>
              match name_of l, index_of i, n with
              | Some variant, Some i, Some n =>
                  DTupleVariant name i variant n (map (fun f => match f with (_, _, v) => as_serde v end) fs)
              | _, _, _ => DFail
              end
          | RRecord _ l i n fs =>
              match name_of l, index_of i, n with
              | Some variant, Some i, Some n =>
                  let (vs, ok) := named as_serde fs in DStructVariant name i variant n vs ok
              | _, _, _ => DFail
              end
          | _ => DFail
          end
      end
  end.

(** No tuple or record inside an enum inside an enum, at any depth: those panic
    (C36). *)
Fixpoint shallow (r : rview) : bool :=
  negb (too_deep r) &&
  match r with
  | RTagged _ _ _ v => shallow v
  | REnum _ _ _ v => shallow v
  | RSeq _ vs => forallb shallow vs
  | RMap _ es => forallb (fun e => match e with (a, b) => shallow a && shallow b end) es
  | RTuple _ _ _ _ fs => forallb (fun f => match f with (_, _, v) => shallow v end) fs
  | RRecord _ _ _ _ fs => forallb (fun f => match f with (_, _, v) => shallow v end) fs
  | _ => true
  end.

(** ** What [serde] has room for

    [serde] keeps names, field names, variant names and indexes, children in
    order and primitive values.  Tags other than the three that mean an option
    or a unit, and the indexes of fields, are dropped. *)
Definition index_value (i : option index) : option index := option_map (fun i => index_new (i_val i)) i.
Definition named_as (l : label) : label := label_new (l_text l).
Fixpoint kept (variant : bool) (r : rview) : rview :=
  let pos := fun i => if variant then index_value i else None in
  match r with
  | RTag t l i =>
      if negb variant && otag_is t RUST_OPTION_NONE then RTag (Some RUST_OPTION_NONE) None None
      else if negb variant && otag_is t RUST_UNIT then RTag (Some RUST_UNIT) None None
      else RTag None (option_map named_as l) (pos i)
  | RTagged t l i v =>
      if negb variant && otag_is t RUST_OPTION_SOME then RTagged (Some RUST_OPTION_SOME) None None (kept false v)
      else RTagged None (option_map named_as l) (pos i) (kept false v)
  | REnum t l i v => REnum None (option_map named_as l) None (kept true v)
  | RSeq n vs => RSeq n (map (kept false) vs)
  | RMap n es => RMap n (map (fun e => match e with (a, b) => (kept false a, kept false b) end) es)
  | RTuple t l i n fs => RTuple None (option_map named_as l) (pos i) n (map (fun f => match f with (_, _, v) => (None, index_new 0, kept false v) end) fs)
  | RRecord t l i n fs => RRecord None (option_map named_as l) (pos i) n (map (fun f => match f with (_, l, v) => (None, named_as l, kept false v) end) fs)
  | r => r
  end.
(** [null] becomes [None] and a record without a name becomes a tuple. *)
Fixpoint has_image (r : rview) : bool :=
  match r with
  | RNull => false
  | RTagged _ _ _ v | REnum _ _ _ v => has_image v
  | RSeq _ vs => forallb has_image vs
  | RMap _ es => forallb (fun e => match e with (a, b) => has_image a && has_image b end) es
  | RTuple _ _ _ _ fs => forallb (fun f => match f with (_, _, v) => has_image v end) fs
  | RRecord _ l _ _ fs => match l with None => false | Some _ => true end && forallb (fun f => match f with (_, _, v) => has_image v end) fs
  | _ => true
  end.
