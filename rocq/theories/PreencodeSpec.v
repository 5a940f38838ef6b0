(** * PreencodeSpec: replacing parts of a value by their own JSON *)

From Coq Require Import Relations.
From Verif Require Import Base Event Tree LowerModel JsonModel JsonGrammar JsonSpec JsonLocalProps.

Section Preencode.
  Variable r32 r64 : float -> bytes.

  (** What a [JsonStr] streams; the text may be cut into fragments, as a buffered one is. *)
  Definition json_tree (n : option N) (fs : list (bool * bytes)) : tree := TTagged (Some JSON_VALUE) None None (TText n fs).

  (** [preencode inside t t']: [t'] is [t] with one part replaced by the [JsonStr] of the
      text that part has on its own.  A part is anything that stands as a value: the
      whole, an element, a field, the payload of a tagged value, the value of a map entry.
      Map keys and the variants directly inside an enum ([inside]) are not parts, but the
      payloads and fields in such a variant are.  A map entry whose key is an enum or
      tagged value with a name is left out if a name follows it (C27 has the reason). *)
  Inductive preencode : bool -> tree -> tree -> Prop :=
  | pe_part t s n fs : alone r32 r64 t = SOk s -> List.concat (map snd fs) = s -> preencode false t (json_tree n fs)
  | pe_hint h t t' : preencode false t t' -> preencode false (THint h t) (THint h t')
  | pe_tagged inside g l i t t' : is_raw g = false -> preencode false t t' -> preencode inside (TTagged g l i t) (TTagged g l i t')
  | pe_enum inside g l i t t' : is_variant t = true -> preencode true t t' -> preencode inside (TEnum g l i t) (TEnum g l i t')
  | pe_seq n a t t' b : preencode false t t' -> preencode false (TSeq n (a ++ t :: b)) (TSeq n (a ++ t' :: b))
  | pe_tuple inside g l i n a ft fi t t' b : preencode false t t' ->
      preencode inside (TTuple g l i n (a ++ (ft, fi, t) :: b)) (TTuple g l i n (a ++ (ft, fi, t') :: b))
  | pe_record inside g l i n a ft fl t t' b : preencode false t t' ->
      preencode inside (TRecord g l i n (a ++ (ft, fl, t) :: b)) (TRecord g l i n (a ++ (ft, fl, t') :: b))
  | pe_rectup inside g l i n a ft fl fi t t' b : preencode false t t' ->
      preencode inside (TRecTup g l i n (a ++ (ft, fl, fi, t) :: b)) (TRecTup g l i n (a ++ (ft, fl, fi, t') :: b))
  | pe_map n a k t t' b : proper_key k = true -> key_leaks k && takes_name t = false -> preencode false t t' ->
      preencode false (TMap n (a ++ (k, t) :: b)) (TMap n (a ++ (k, t') :: b)).

  (** Any number of parts, one after the other. *)
  Definition preencoded : tree -> tree -> Prop := clos_refl_trans tree (preencode false).
End Preencode.
