(** * BufErrSpec: what the error of a failed collect should say *)

From Verif Require Import Base Event Tree LowerModel LowerSpec DataModel FragModel AdaptiveModel.

(** What a value amounts to, in the words of the errors. *)
Definition word (k : core) : string :=
  match k with
  | KNull => "null"
  | KBool _ => "boolean"
  | KInt _ => "integer"
  | KFloat _ => "floating point"
  | KText _ _ => "text"
  | KSeq _ _ => "sequence"
  end.
Definition unexpected (actual expected : string) : bytes :=
  bs "unexpected " ++ bs actual ++ bs ", expected " ++ bs expected.

(** Collecting bytes takes bytes, [u8]s and sequences of such; [inr]: the first thing met
    that is none of these. *)
Fixpoint bytes_or (t : tree) : bytes + string :=
  let fix all (vs : list tree) : bytes + string :=
      match vs with
      | [] => inl []
      | v :: vs' => match bytes_or v with
                    | inl a => match all vs' with inl b => inl (a ++ b) | inr w => inr w end
                    | inr w => inr w
                    end
      end in
  match t with
  | TBin _ fs => inl (List.concat (map snd fs))
  | TInt U8 z => inl [byte_of_Z z]
  | TSeq _ vs => all vs
  | TTuple _ _ _ _ fs =>
      (fix allf (fs : list (option tag * index * tree)) : bytes + string :=
         match fs with
         | [] => inl []
         | (_, _, v) :: fs' => match bytes_or v with
                               | inl a => match allf fs' with inl b => inl (a ++ b) | inr w => inr w end
                               | inr w => inr w
                               end
         end) fs
  | THint _ v | TTagged _ _ _ v | TEnum _ _ _ v => bytes_or v
  | TMap _ _ | TRecord _ _ _ _ _ | TRecTup _ _ _ _ _ => inr "map"%string
  | t => inr (word (simplify t))
  end.

(** What the text collector and the bytes collector say of a required or overridden method
    they refuse. *)
Definition refused_text (e : ev) : option string :=
  match e with
  | ENull => Some "null"%string
  | EBool _ => Some "boolean"%string
  | EInt I64 _ => Some "integer"%string
  | EF64 _ => Some "floating point"%string
  | ESeqBegin _ | ESeqValBegin | ESeqValEnd | ESeqEnd => Some "sequence"%string
  | _ => None
  end.
Definition refused_bytes (e : ev) : option string :=
  match e with
  | ETextBegin _ | ETextFragC _ | ETextEnd => Some "text"%string
  | ENull => Some "null"%string
  | EBool _ => Some "boolean"%string
  | EInt I64 _ => Some "integer"%string
  | EF64 _ => Some "floating point"%string
  | EMapBegin _ => Some "map"%string
  | _ => None
  end.
(** The last one refused. *)
Fixpoint last_some {A} (l : list (option A)) : option A :=
  match l with
  | [] => None
  | o :: l' => match last_some l' with Some a => Some a | None => o end
  end.

(** ** Histories of calls on a value buffer *)

(** The calls that begin something that has an end, and those ends; [text_begin] and
    [binary_begin] are not among them. *)
Definition opens (e : ev) : bool :=
  match e with
  | EMapBegin _ | EMapKeyBegin | EMapValBegin | ESeqBegin _ | ESeqValBegin
  | EEnumBegin _ _ _ | ETaggedBegin _ _ _
  | ERecordBegin _ _ _ _ | ERecordValBegin _ _ | ETupleBegin _ _ _ _ | ETupleValBegin _ _
  | ERecTupBegin _ _ _ _ | ERecTupValBegin _ _ _ => true
  | _ => false
  end.
Definition ends (e : ev) : bool :=
  match e with
  | EMapKeyEnd | EMapValEnd | EMapEnd | ESeqValEnd | ESeqEnd
  | EEnumEnd _ _ _ | ETaggedEnd _ _ _
  | ERecordValEnd _ _ | ERecordEnd _ _ _ | ETupleValEnd _ _ | ETupleEnd _ _ _
  | ERecTupValEnd _ _ _ | ERecTupEnd _ _ _ => true
  | _ => false
  end.
(** How many things are open after a history: an end with nothing open does nothing. *)
Definition open_after (es : list ev) : nat :=
  fold_left (fun n e => if opens e then S n else if ends e then Nat.pred n else n) es 0.
(** The last thing begun or streamed: a text, a binary, or something else. *)
Inductive thing := AText | ABinary | AnOther.
Definition thing_of (e : ev) : option thing :=
  match e with
  | ETextBegin _ => Some AText
  | EBinBegin _ => Some ABinary
  | ETextFrag _ | ETextFragC _ | ETextEnd | EBinFrag _ | EBinFragC _ | EBinEnd => None
  | e => if ends e then None else Some AnOther
  end.
Definition last_thing (es : list ev) : option thing := last_some (map thing_of es).

(** What a call says when it is refused after a history. *)
Definition refused (es : list ev) (e : ev) : option bytes :=
  match e with
  | ETextFrag _ | ETextFragC _ =>
      match last_thing es with
      | Some ABinary | Some AnOther => Some (bs "expected a fragment while buffering text")
      | _ => None
      end
  | EBinFrag _ | EBinFragC _ =>
      match last_thing es with
      | Some AText | Some AnOther => Some (bs "expected a fragment while buffering binary")
      | _ => None
      end
  | e => if ends e && Nat.eqb (open_after es) 0
         then Some (bs "the value is invalid: unbalanced calls to `begin` and `end`") else None
  end.
(** The last thing a history was told. *)
Fixpoint told (before es : list ev) : option bytes :=
  match es with
  | [] => None
  | e :: es' => match told (before ++ [e]) es' with Some m => Some m | None => refused before e end
  end.

(** The first call a value makes that is not an end, or how the value ends if there is none.  The
    ends of texts and binaries are accepted at any time, other ends are refused. *)
Fixpoint first_call (p : prog) : ev + bool :=
  match p with
  | PEnd ok => inr ok
  | PCall e k =>
      match e with
      | ETextEnd | EBinEnd => first_call (k true)
      | e => if ends e then first_call (k false) else inl e
      end
  | PValue v k | PComputed v k => match first_call v with inl e => inl e | inr ok => first_call (k ok) end
  end.
