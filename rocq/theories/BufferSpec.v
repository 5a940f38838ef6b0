(** * BufferSpec: what a buffered value should replay as *)

From Verif Require Import Base Event Tree.

(** An owned label: the text, static if it was static; no tag. *)
Definition kept_label (l : label) : label :=
  MkLabel (l_text l) (match l_kind l with LStatic => LStatic | _ => LOwned end) None.

(** A text or binary is replayed as one fragment; it is borrowed when the last
    fragment was borrowed and held the whole content, or there was none. *)
Definition is_empty (f : bool * bytes) : bool := match snd f with [] => true | _ => false end.
Definition borrowed_whole (fs : list (bool * bytes)) : bool :=
  match rev fs with
  | [] => true
  | (b, _) :: before => b && forallb is_empty before
  end.
Definition content (fs : list (bool * bytes)) : bytes := List.concat (map snd fs).

(** The same value with each text joined and each label replaced. *)
Fixpoint rebuilt (f : label -> label) (t : tree) : tree :=
  match t with
  | TText _ fs => TText (Some (blen (content fs))) [(borrowed_whole fs, content fs)]
  | TBin _ fs => TBin (Some (blen (content fs))) [(borrowed_whole fs, content fs)]
  | TTag t l i => TTag t (option_map f l) i
  | THint t v => THint t (rebuilt f v)
  | TTagged t l i v => TTagged t (option_map f l) i (rebuilt f v)
  | TEnum t l i v => TEnum t (option_map f l) i (rebuilt f v)
  | TSeq n vs => TSeq n (map (rebuilt f) vs)
  | TMap n es => TMap n (map (fun kv => match kv with (k, v) => (rebuilt f k, rebuilt f v) end) es)
  | TRecord t l i n fs =>
      TRecord t (option_map f l) i n
        (map (fun fd => match fd with (ft, fl, v) => (ft, f fl, rebuilt f v) end) fs)
  | TTuple t l i n fs =>
      TTuple t (option_map f l) i n
        (map (fun fd => match fd with (ft, fi, v) => (ft, fi, rebuilt f v) end) fs)
  | TRecTup t l i n fs =>
      TRecTup t (option_map f l) i n
        (map (fun fd => match fd with (ft, fl, fi, v) => (ft, f fl, fi, rebuilt f v) end) fs)
  | t => t
  end.

(** The labels of a call. *)
Definition ev_labels (e : ev) : list label :=
  match e with
  | EEnumBegin _ (Some l) _ | EEnumEnd _ (Some l) _ | ETaggedBegin _ (Some l) _ | ETaggedEnd _ (Some l) _
  | ETag _ (Some l) _ | ERecordBegin _ (Some l) _ _ | ERecordEnd _ (Some l) _
  | ETupleBegin _ (Some l) _ _ | ETupleEnd _ (Some l) _
  | ERecTupBegin _ (Some l) _ _ | ERecTupEnd _ (Some l) _
  | ERecordValBegin _ l | ERecordValEnd _ l | ERecTupValBegin _ l _ | ERecTupValEnd _ l _ => [l]
  | _ => []
  end.

(** [closes b e]: [e] is the call that ends what [b] began, with the same arguments. *)
Definition closes (b e : ev) : Prop :=
  match b, e with
  | EMapBegin _, EMapEnd | EMapKeyBegin, EMapKeyEnd | EMapValBegin, EMapValEnd
  | ESeqBegin _, ESeqEnd | ESeqValBegin, ESeqValEnd => True
  | EEnumBegin t l i, EEnumEnd t' l' i' | ETaggedBegin t l i, ETaggedEnd t' l' i'
  | ERecordBegin t l i _, ERecordEnd t' l' i' | ETupleBegin t l i _, ETupleEnd t' l' i'
  | ERecTupBegin t l i _, ERecTupEnd t' l' i' => t = t' /\ l = l' /\ i = i'
  | ERecordValBegin t l, ERecordValEnd t' l' => t = t' /\ l = l'
  | ETupleValBegin t i, ETupleValEnd t' i' => t = t' /\ i = i'
  | ERecTupValBegin t l i, ERecTupValEnd t' l' i' => t = t' /\ l = l' /\ i = i'
  | _, _ => False
  end.
Definition single (e : ev) : bool :=
  match e with
  | ENull | EBool _ | EInt _ _ | EF32 _ | EF64 _ | ETag _ _ _ | ETagHint _ => true
  | _ => false
  end.

(** Properly nested calls: whatever begins ends. *)
Inductive nested : list ev -> Prop :=
| nested_nil : nested []
| nested_single e es : single e = true -> nested es -> nested (e :: es)
| nested_text n b s es : nested es -> nested (ETextBegin n :: text_frag (b, s) :: ETextEnd :: es)
| nested_bin n b s es : nested es -> nested (EBinBegin n :: bin_frag (b, s) :: EBinEnd :: es)
| nested_node b e body es : closes b e -> nested body -> nested es -> nested (b :: body ++ e :: es).

Definition is_hint (e : ev) : bool := match e with ETagHint _ => true | _ => false end.
Definition is_fragment (e : ev) : bool :=
  match e with ETextFrag _ | ETextFragC _ | EBinFrag _ | EBinFragC _ => true | _ => false end.
(** A borrowed fragment with something in it. *)
Definition borrows (e : ev) : bool :=
  match e with ETextFrag (_ :: _) | EBinFrag (_ :: _) => true | _ => false end.
