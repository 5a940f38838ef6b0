(** * JsonErrSpec: where a value cannot be written as JSON (C77)

    In terms of trees (Tree.v) only. *)

From Verif Require Import Base Event Tree LowerSpec JsonModel JsonGrammar JsonSpec.

(** Tags whose text is written without quotes. *)
Definition unquoted (t : option tag) : bool := otag_is t JSON_VALUE || otag_is t NUMBER || otag_is t JSON_NUMBER.

(** Does a value end as a named variant does, so that the next value on the same level
    is taken for the inside of an enum?  [inside]: the value itself stands there. *)
Fixpoint lingers (inside : bool) (t : tree) : bool :=
  match t with
  | TNull | TBool _ | TInt _ _ | TF32 _ | TF64 _ | TText _ _ => inside
  | THint _ v => lingers inside v
  | TTagged _ l i _ => is_named l i
  | TEnum _ l i v => lingers true v || is_named l i
  | _ => false
  end.

(** Is there an array or an object where only a text, a number, a boolean or null can be
    written?  [scalar]: the value is (part of) a map key or of a value tagged to be
    written without quotes.  [inside]: it is a variant of an enum.  A named variant is an
    object too. *)
Fixpoint misplaced (scalar inside : bool) (t : tree) {struct t} : bool :=
  match t with
  | THint _ v => misplaced scalar inside v
  | TTagged t l i v =>
      (scalar || unquoted t) && inside && is_named l i || misplaced (scalar || unquoted t) false v
  | TEnum _ l i v => scalar && inside && is_named l i || misplaced scalar true v
  | TBin _ _ => scalar
  | TSeq _ vs => scalar || existsb (misplaced false false) vs
  | TMap _ es =>
      scalar || existsb (fun e => misplaced true false (fst e) || misplaced false (lingers false (fst e)) (snd e)) es
  | TRecord _ _ _ _ fs => scalar || existsb (fun f => misplaced false false (snd f)) fs
  | TTuple _ _ _ _ fs => scalar || existsb (fun f => misplaced false false (snd f)) fs
  | TRecTup _ _ _ _ fs => scalar || existsb (fun f => misplaced false false (snd f)) fs
  | _ => false
  end.

(** The keys of all maps of a value, except those inside keys. *)
Fixpoint keys_in (t : tree) : list tree :=
  match t with
  | THint _ v | TTagged _ _ _ v | TEnum _ _ _ v => keys_in v
  | TSeq _ vs => flat_map keys_in vs
  | TMap _ es => flat_map (fun e => fst e :: keys_in (snd e)) es
  | TRecord _ _ _ _ fs => flat_map (fun f => keys_in (snd f)) fs
  | TTuple _ _ _ _ fs => flat_map (fun f => keys_in (snd f)) fs
  | TRecTup _ _ _ _ fs => flat_map (fun f => keys_in (snd f)) fs
  | _ => []
  end.
(** No value is tagged to be written without quotes. *)
Fixpoint all_quoted (t : tree) : bool :=
  match t with
  | THint _ v | TEnum _ _ _ v => all_quoted v
  | TTagged t _ _ v => negb (unquoted t) && all_quoted v
  | TSeq _ vs => forallb all_quoted vs
  | TMap _ es => forallb (fun e => all_quoted (fst e) && all_quoted (snd e)) es
  | TRecord _ _ _ _ fs => forallb (fun f => all_quoted (snd f)) fs
  | TTuple _ _ _ _ fs => forallb (fun f => all_quoted (snd f)) fs
  | TRecTup _ _ _ _ fs => forallb (fun f => all_quoted (snd f)) fs
  | _ => true
  end.
(** A key that is an array or an object. *)
Fixpoint structured (inside : bool) (k : tree) : bool :=
  match k with
  | TBin _ _ | TSeq _ _ | TMap _ _ | TRecord _ _ _ _ _ | TTuple _ _ _ _ _ | TRecTup _ _ _ _ _ => true
  | THint _ k => structured inside k
  | TTagged _ l i k => inside && is_named l i || structured false k
  | TEnum _ l i k => inside && is_named l i || structured true k
  | _ => false
  end.
