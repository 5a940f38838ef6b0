(** * FlattenSpec: what flattening a value is meant to do

    Stated on trees (Tree.v): which children a value has, what each child is
    called, which position it gets, and which calls put it onto a map, a
    sequence, a tuple, a record or a record tuple.  Nothing here mentions the
    [Flattener]. *)

From Verif Require Import Base Event Tree FlattenModel.

(** How the value being flattened names a child: with a label, by position, or
    with a key of its own. *)
Inductive name :=
| NLabel (l : label)
| NIndex
| NKey (k : tree).

Record child := MkChild {
  c_tag : option tag;        (* the field's own tag, of records and tuples *)
  c_name : name;
  c_index : option index;    (* an explicit index, of tuples and record tuples *)
  c_value : tree }.

(** The children of a value.  Tag hints and tagged values are looked through.
    Inside an enum a tagged variant is itself the one child, named after the
    variant.  Values that are not containers have no children. *)
Fixpoint children (in_enum : bool) (t : tree) : list child :=
  match t with
  | THint _ v => children in_enum v
  | TEnum _ _ _ v => children true v
  | TTagged _ l i v =>
      if in_enum
      then [MkChild None (match l with Some l => NLabel l | None => NIndex end) i v]
      else children false v
  | TSeq _ vs => map (fun v => MkChild None NIndex None v) vs
  | TMap _ es => map (fun kv => MkChild None (NKey (fst kv)) None (snd kv)) es
  | TRecord _ _ _ _ fs =>
      map (fun f => match f with (t, l, v) => MkChild t (NLabel l) None v end) fs
  | TTuple _ _ _ _ fs =>
      map (fun f => match f with (t, i, v) => MkChild t NIndex (Some i) v end) fs
  | TRecTup _ _ _ _ fs =>
      map (fun f => match f with (t, l, i, v) => MkChild t (NLabel l) (Some i) v end) fs
  | _ => []
  end.

(** Positions.  A child without an index gets the next free one; an explicit
    index tagged [VALUE_OFFSET] counts from the offset flattening began at; any
    other explicit index is kept. *)
Definition place (offset next : Z) (i : option index) : index :=
  match i with
  | None => MkIndex next (Some VALUE_OFFSET)
  | Some i =>
      if otag_is (i_tag i) VALUE_OFFSET && fits I64 (i_val i)
      then MkIndex (i_val i + offset) (Some VALUE_OFFSET)
      else i
  end.
Definition next_free (next : Z) (i : index) : Z :=
  ((if fits I64 (i_val i) then i_val i else next) + 1)%Z.

Fixpoint placed (offset next : Z) (cs : list child) : list (child * index) :=
  match cs with
  | [] => []
  | c :: cs' =>
      let i := place offset next (c_index c) in
      (c, i) :: placed offset (next_free next i) cs'
  end.
Fixpoint end_offset (offset next : Z) (cs : list child) : Z :=
  match cs with
  | [] => next
  | c :: cs' => end_offset offset (next_free next (place offset next (c_index c))) cs'
  end.

(** No position leaves the range of [isize]. *)
Fixpoint room (offset next : Z) (cs : list child) : bool :=
  match cs with
  | [] => true
  | c :: cs' =>
      let i := place offset next (c_index c) in
      match c_index c with
      | Some i => if otag_is (i_tag i) VALUE_OFFSET && fits I64 (i_val i)
                  then fits I64 (i_val i + offset) else true
      | None => true
      end
      && fits I64 (next_free next i) && room offset (next_free next i) cs'
  end.

(** The text of a key: the texts of the plain values in it.  A part is textual
    or numeric. *)
Inductive part := PText (s : bytes) | PNum (s : bytes).
Definition part_text (p : part) : bytes := match p with PText s | PNum s => s end.

Definition index_part (i : index) : part :=
  if fits I64 (i_val i) || fits U64 (i_val i) then PNum (dec (i_val i)) else PText (dec (i_val i)).

Section KeyText.
  Variable r64 : float -> bytes.
  Fixpoint key_parts (t : tree) : list part :=
    match t with
    | TNull => [PText (bs "null")]
    | TBool b => [PText (if b then bs "true" else bs "false")]
    | TInt _ z => [PNum (dec z)]
    | TF32 f => [PNum (r64 (f32_to_f64 f))]
    | TF64 f => [PNum (r64 f)]
    | TText _ fs => map (fun f => PText (snd f)) fs
    | TBin _ fs => flat_map (fun f => map (fun b => PNum (dec (byte_val b))) (snd f)) fs
    | TTag _ (Some l) _ => [PText (l_text l)]
    | TTag _ None (Some i) => [index_part i]
    | TTag _ None None => [PText (bs "null")]
    | THint _ v | TTagged _ _ _ v | TEnum _ _ _ v => key_parts v
    | TSeq _ vs => flat_map key_parts vs
    | TMap _ es => flat_map (fun kv => match kv with (k, v) => key_parts k ++ key_parts v end) es
    | TRecord _ _ _ _ fs =>
        flat_map (fun f => match f with (_, l, v) => PText (l_text l) :: key_parts v end) fs
    | TTuple _ _ _ _ fs => flat_map (fun f => match f with (_, _, v) => key_parts v end) fs
    | TRecTup _ _ _ _ fs =>
        flat_map (fun f => match f with (_, l, _, v) => PText (l_text l) :: key_parts v end) fs
    end.

  (** [flatten/src/lib.rs:38-39]: "each nested value is stringified and
      concatenated together". *)
  Definition key_text (t : tree) : bytes := concat (map part_text (key_parts t)).
End KeyText.

(** What the implementation keeps of a list of parts: a number replaces
    everything before it, and text replaces a number. *)
Fixpoint kept (s : bytes) (numeric : bool) (ps : list part) : bytes :=
  match ps with
  | [] => s
  | PNum t :: ps => kept t true ps
  | PText t :: ps => kept (if numeric then t else s ++ t) false ps
  end.

(** Putting one child onto the target. *)
Section Target.
  Variable key_label : tree -> bytes.
  Variable kind : fkind.

  Definition text_of_label (l : label) : list ev :=
    [ETextBegin (Some (blen (l_text l)));
     match l_kind l with LStatic => ETextFrag (l_text l) | _ => ETextFragC (l_text l) end;
     ETextEnd].

  Definition label_for (n : name) (i : index) : label :=
    match n with
    | NLabel l => l
    | NIndex => label_new_computed (dec (i_val i))
    | NKey k => label_new_computed (key_label k)
    end.

  Definition field (body : tree -> list ev) (ci : child * index) : list ev :=
    let (c, i) := ci in
    let l := label_for (c_name c) i in
    match kind with
    | FMap =>
        EMapKeyBegin :: (match c_name c with NKey k => emit k | _ => text_of_label l end)
        ++ EMapKeyEnd :: EMapValBegin :: body (c_value c) ++ [EMapValEnd]
    | FSeq => ESeqValBegin :: body (c_value c) ++ [ESeqValEnd]
    | FTuple => ETupleValBegin (c_tag c) i :: body (c_value c) ++ [ETupleValEnd (c_tag c) i]
    | FRecord => ERecordValBegin (c_tag c) l :: body (c_value c) ++ [ERecordValEnd (c_tag c) l]
    | FRecTup => ERecTupValBegin (c_tag c) l i :: body (c_value c) ++ [ERecTupValEnd (c_tag c) l i]
    end.

  (** All the children of [t], put onto the target from [offset] on. *)
  Definition flattened (body : tree -> list ev) (offset : Z) (t : tree) : list ev :=
    flat_map (field body) (placed offset offset (children false t)).
End Target.

(** A tagged value outside an enum with an enum inside. *)
Fixpoint enum_below (t : tree) : bool :=
  match t with
  | THint _ v | TTagged _ _ _ v => enum_below v
  | TEnum _ _ _ _ => true
  | _ => false
  end.
Fixpoint tagged_enum (t : tree) : bool :=
  match t with
  | THint _ v => tagged_enum v
  | TTagged _ _ _ v => enum_below v
  | _ => false
  end.

(** A nested map with at least one entry. *)
Fixpoint has_entry (t : tree) : bool :=
  match t with
  | THint _ v | TTagged _ _ _ v | TEnum _ _ _ v => has_entry v
  | TSeq _ vs => existsb has_entry vs
  | TMap _ es => match es with [] => false | _ => true end
  | TRecord _ _ _ _ fs => existsb (fun f => match f with (_, _, v) => has_entry v end) fs
  | TTuple _ _ _ _ fs => existsb (fun f => match f with (_, _, v) => has_entry v end) fs
  | TRecTup _ _ _ _ fs => existsb (fun f => match f with (_, _, _, v) => has_entry v end) fs
  | _ => false
  end.

(** The calls a child makes as they reach the target: the end of a nested map's
    key arrives as the beginning of another ([flattener.rs:305]). *)
Definition key_end_as_begin (e : ev) : ev :=
  match e with EMapKeyEnd => EMapKeyBegin | e => e end.
