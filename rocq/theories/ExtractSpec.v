(** * ExtractSpec: what the conversions should return *)

From Verif Require Import Base Event Tree.

(** The primitive inside wrappers: hints, tagged values and enums stand for the
    value they wrap. *)
Fixpoint peel (t : tree) : tree :=
  match t with
  | THint _ v | TTagged _ _ _ v | TEnum _ _ _ v => peel v
  | t => t
  end.

(** For well-formed values. *)
Definition bool_of (t : tree) : option bool :=
  match peel t with TBool b => Some b | _ => None end.
Definition f32_of (t : tree) : option float :=
  match peel t with TF32 f => Some f | _ => None end.
Definition f64_of (t : tree) : option float :=
  match peel t with TF64 f => Some f | TF32 f => Some (f32_to_f64 f) | _ => None end.
Definition unsigned (ty : ity) : bool :=
  match ty with U8 | U16 | U32 | U64 | U128 => true | _ => false end.
(** The integer inside, whatever its width. *)
Definition int_of (t : tree) : option (ity * Z) :=
  match peel t with TInt ty z => Some (ty, z) | _ => None end.
(** A text given as one borrowed fragment; a tag is its static label. *)
Definition text_of (t : tree) : option bytes :=
  match peel t with
  | TText _ [(true, s)] => Some s
  | TTag tg (Some l) _ => if otag_is tg RUST_OPTION_NONE then None else as_static_str l
  | _ => None
  end.
Definition bin_of (t : tree) : option bytes :=
  match peel t with TBin _ [(true, s)] => Some s | _ => None end.
(** The tag of the outermost call. *)
Fixpoint tag_of (t : tree) : option tag :=
  match t with
  | TTag tg _ _ | TTagged tg _ _ _ | TEnum tg _ _ _
  | TRecord tg _ _ _ _ | TTuple tg _ _ _ _ | TRecTup tg _ _ _ _ => tg
  | TInt _ _ | TF32 _ | TF64 _ => Some NUMBER
  | THint _ v => tag_of v
  | _ => None
  end.

(** For arbitrary behaviours: calls that say nothing by themselves. *)
Definition silent (e : ev) : bool :=
  match e with
  | ETagHint _ | ETaggedBegin _ _ _ | ETaggedEnd _ _ _ | EEnumBegin _ _ _ | EEnumEnd _ _ _
  | EBinFrag [] | EBinFragC [] => true
  | _ => false
  end.

(** [sel e] is the content of a call of the right kind.  The content streamed by
    a value that makes only calls of the right kind and silent ones (the last
    one, should it stream several). *)
Fixpoint only_content {A} (sel : ev -> option A) (acc : option A) (es : list ev) : option A :=
  match es with
  | [] => acc
  | e :: es' =>
      match sel e with
      | Some a => only_content sel (Some a) es'
      | None => if silent e then only_content sel acc es' else None
      end
  end.

Definition sel_bool (e : ev) : option bool := match e with EBool b => Some b | _ => None end.
Definition sel_f32 (e : ev) : option float := match e with EF32 f => Some f | _ => None end.
Definition sel_f64 (e : ev) : option float :=
  match e with EF64 f => Some f | EF32 f => Some (f32_to_f64 f) | _ => None end.
Definition sel_signed (e : ev) : option Z := match e with EInt I128 z => Some z | _ => None end.
Definition sel_unsigned (e : ev) : option Z :=
  match e with EInt ty z => if unsigned ty then Some z else None | _ => None end.

(** The borrowed pieces of text (binary) a value streams, if it streams nothing else. *)
Definition text_pieces (e : ev) : option (list bytes) :=
  match e with
  | ETextBegin _ | ETextEnd => Some []
  | ETextFrag s => Some [s]
  | ETag t (Some l) _ =>
      if otag_is t RUST_OPTION_NONE then None
      else match as_static_str l with Some s => Some [s] | None => None end
  | e => if silent e then Some [] else None
  end.
Definition bin_pieces (e : ev) : option (list bytes) :=
  match e with
  | EBinBegin _ | EBinEnd => Some []
  | EBinFrag s => Some [s]
  | EBinFragC _ => None
  | e => if silent e then Some [] else None
  end.
Fixpoint pieces (f : ev -> option (list bytes)) (es : list ev) : option (list bytes) :=
  match es with
  | [] => Some []
  | e :: es' =>
      match f e, pieces f es' with
      | Some a, Some b => Some (a ++ b)
      | _, _ => None
      end
  end.
Definition single (o : option (list bytes)) : option bytes :=
  match o with Some [s] => Some s | _ => None end.

(** The tag carried by the first call that is not a hint, an end of a wrapper
    or an empty binary fragment. *)
Fixpoint first_tag (es : list ev) : option tag :=
  match es with
  | [] => None
  | e :: es' =>
      match e with
      | ETagHint _ | ETaggedEnd _ _ _ | EEnumEnd _ _ _ | EBinFrag [] | EBinFragC [] => first_tag es'
      | ETag t _ _ | ETaggedBegin t _ _ | EEnumBegin t _ _
      | ERecordBegin t _ _ _ | ETupleBegin t _ _ _ | ERecTupBegin t _ _ _ => t
      | EInt _ _ | EF32 _ | EF64 _ => Some NUMBER
      | _ => None
      end
  end.
