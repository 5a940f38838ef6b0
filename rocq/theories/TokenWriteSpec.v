(** * TokenWriteSpec: the method calls a [TokenWrite] is to receive

    The trait's documentation: each piece of a value goes to the method named
    after it; [is_first] tells the first element, entry or field from the
    others, and [is_empty] whether there was none. *)

From Verif Require Import Base Event Tree FmtModel FmtSpec TokenWriteModel.

(** The parts of a container, the first told apart. *)
Definition parts (xs : list (bool -> list tw)) : list tw :=
  match xs with [] => [] | x :: r => x true ++ flat_map (fun y => y false) r end.
Definition none {A} (l : list A) : bool := match l with [] => true | _ => false end.

(** Whether the [Writer] still takes the entry for the first after its key: a
    key with elements, entries, fields, a tag or a variant makes it forget, and
    an empty container makes it think so. *)
Fixpoint seems_first (first : bool) (key : tree) : bool :=
  match key with
  | TBin _ fs => none (pieces fs)
  | TTag _ _ _ | TEnum _ _ _ _ => false
  | THint _ v => seems_first first v
  | TTagged _ _ _ v => seems_first false v
  | TSeq _ vs => none vs
  | TMap _ es => none es
  | TRecord _ _ _ _ fs => none fs
  | TTuple _ _ _ _ fs => none fs
  | TRecTup _ _ _ _ fs => none fs
  | _ => first
  end.

Section Calls.
  (** What [write_map_value_begin] is told, given whether the entry is the first
      and its key. *)
  Variable value_first : bool -> tree -> bool.

  Definition variant_calls (l : option label) : list tw := [match l with Some l => WType (l_text l) | None => WNull end].
  (** [num]: below a [NUMBER] tag. *)
  Fixpoint method_calls (num : bool) (t : tree) : list tw :=
    match t with
    | TNull => [WNull]
    | TBool b => [WBool b]
    | TInt t z => [WInt t z]
    | TF32 x => [WF32 x]
    | TF64 x => [WF64 x]
    | TText _ fs => if num then map (fun f => WNumber (snd f)) fs
                    else WTextQuote :: map (fun f => WText (snd f)) fs ++ [WTextQuote]
    | TBin _ fs =>
        WSeqBegin :: parts (map (fun b first => [WSeqValueBegin first; WInt U8 (byte_val b)]) (pieces fs)) ++ [WSeqEnd (none (pieces fs))]
    | TTag _ l _ => variant_calls l
    | THint _ v => method_calls num v
    | TTagged t l _ v =>
        let v := method_calls (num || otag_is t NUMBER) v in
        match l with Some l => WTupleType (l_text l) :: WTupleBegin :: v ++ [WTupleEnd false] | None => v end
    | TEnum _ l _ v => method_calls num v ++ (if echoed v then variant_calls l else [])
    | TSeq _ vs => WSeqBegin :: parts (map (fun v first => WSeqValueBegin first :: method_calls false v) vs) ++ [WSeqEnd (none vs)]
    | TMap _ es =>
        WMapBegin ::
        parts (map (fun e first => WMapKeyBegin first :: method_calls false (fst e) ++
                                   WMapValueBegin (value_first first (fst e)) :: method_calls false (snd e)) es) ++
        [WMapEnd (none es)]
    | TRecord _ l _ _ fs =>
        (match l with Some l => [WRecordType (l_text l)] | None => [] end) ++ WRecordBegin ::
        parts (map (fun f => match f with (_, l, v) => fun first => WRecordValueBegin (l_text l) first :: method_calls false v end) fs) ++
        [WRecordEnd (none fs)]
    | TTuple _ l _ _ fs =>
        (match l with Some l => [WTupleType (l_text l)] | None => [] end) ++ WTupleBegin ::
        parts (map (fun f first => WTupleValueBegin first :: method_calls false (snd f)) fs) ++ [WTupleEnd (none fs)]
    | TRecTup _ l _ _ fs =>
        (match l with Some l => [WRecordType (l_text l)] | None => [] end) ++ WRecordBegin ::
        parts (map (fun f => match f with (_, l, _, v) => fun first => WRecordValueBegin (l_text l) first :: method_calls false v end) fs) ++
        [WRecordEnd (none fs)]
    end.
End Calls.

(** As documented. *)
Definition documented : tree -> list tw := method_calls (fun first _ => first) false.
(** As it is. *)
Definition actual : tree -> list tw := method_calls seems_first false.

(** Keys that do not disturb the flag: no containers, tags or enums. *)
Fixpoint plain_key (k : tree) : bool :=
  match k with
  | TNull | TBool _ | TInt _ _ | TF32 _ | TF64 _ | TText _ _ => true
  | THint _ v => plain_key v
  | _ => false
  end.
Fixpoint plain_keys (t : tree) : bool :=
  match t with
  | THint _ v | TTagged _ _ _ v | TEnum _ _ _ v => plain_keys v
  | TSeq _ vs => forallb plain_keys vs
  | TMap _ es => forallb (fun e => plain_key (fst e) && plain_keys (snd e)) es
  | TRecord _ _ _ _ fs => forallb (fun f => plain_keys (snd f)) fs
  | TTuple _ _ _ _ fs => forallb (fun f => plain_keys (snd f)) fs
  | TRecTup _ _ _ _ fs => forallb (fun f => plain_keys (snd f)) fs
  | _ => true
  end.

(** ** Which kind of text a method writes

    An implementation may be concerned with kinds of text only: numbers, atoms, type
    names, field names, punctuation, whitespace, quotes and texts. *)
Definition of_kind (m : tw) : bool :=
  match m with
  | WNumber _ | WAtom _ | WType _ | WField _ | WPunct _ | WWs _ | WTextQuote | WText _ => true
  | _ => false
  end.
Definition comma (first : bool) : list tw := if first then [] else [WPunct (bs ",")].
Definition closing_space (empty : bool) : list tw := if empty then [] else [WWs (bs " ")].
(** The pieces, by kind, of what the other methods write. *)
Definition kinds (d32 d64 : float -> bytes) (m : tw) : list tw :=
  match m with
  | WInt _ z => [WNumber (dec z)]
  | WF32 x => [WNumber (d32 x)]
  | WF64 x => [WNumber (d64 x)]
  | WNull => [WAtom (bs "()")]
  | WBool true => [WAtom (bs "true")]
  | WBool false => [WAtom (bs "false")]
  | WMapBegin | WRecordBegin => [WPunct (bs "{")]
  | WMapKeyBegin first => comma first ++ [WWs (bs " ")]
  | WMapValueBegin _ => [WPunct (bs ":"); WWs (bs " ")]
  | WMapEnd empty | WRecordEnd empty => closing_space empty ++ [WPunct (bs "}")]
  | WRecordType s => [WType s; WWs (bs " ")]
  | WRecordValueBegin s first => comma first ++ [WWs (bs " "); WField s; WPunct (bs ":"); WWs (bs " ")]
  | WSeqBegin => [WPunct (bs "[")]
  | WSeqEnd _ => [WPunct (bs "]")]
  | WTupleType s => [WType s]
  | WTupleBegin => [WPunct (bs "(")]
  | WTupleEnd _ => [WPunct (bs ")")]
  | WSeqValueBegin true | WTupleValueBegin true => []
  | WSeqValueBegin false | WTupleValueBegin false => [WPunct (bs ","); WWs (bs " ")]
  | m => [m]
  end.
