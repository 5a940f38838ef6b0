(** * BufferedSpec: values whose JSON does not change when they are buffered first (C59) *)

From Verif Require Import Base Event Tree BufferSpec JsonFragProps.

(** A label that says it needs no escaping in JSON really needs none: no quote, no
    backslash, no control character. *)
Definition no_escape_needed (c : byte) : bool :=
  negb ((N_of_ascii c =? 34)%N || (N_of_ascii c =? 92)%N || (N_of_ascii c <? 32)%N).
Definition honest (l : label) : bool := negb (otag_is (l_tag l) VALUE_IDENT) || forallb no_escape_needed (l_text l).

Fixpoint honest_fields (t : tree) : bool :=
  match t with
  | THint _ v | TTagged _ _ _ v | TEnum _ _ _ v => honest_fields v
  | TSeq _ vs => forallb honest_fields vs
  | TMap _ es => forallb (fun e => honest_fields (fst e) && honest_fields (snd e)) es
  | TRecord _ _ _ _ fs => forallb (fun f => match f with (_, l, v) => honest l && honest_fields v end) fs
  | TTuple _ _ _ _ fs => forallb (fun f => honest_fields (snd f)) fs
  | TRecTup _ _ _ _ fs => forallb (fun f => match f with (_, l, _, v) => honest l && honest_fields v end) fs
  | _ => true
  end.

(** Texts under a [NUMBER] tag are in one piece, or may be cut anywhere ([place], [under] and
    [within] say where a text stands, as for C22). *)
Definition one_piece (fs : list (bool * bytes)) : bool := match fs with [_] => true | _ => false end.
Fixpoint steady (p : place) (t : tree) : bool :=
  match t with
  | TText _ fs =>
      match p with
      | Free => true
      | Number => one_piece fs || cut_safe (content fs)
      | Inside => one_piece fs
      end
  | THint _ v => steady p v
  | TTagged t _ _ v => steady (under p t) v
  | TEnum _ _ _ v => steady p v
  | TSeq _ vs => forallb (steady (within p)) vs
  | TMap _ es => forallb (fun e => steady (within p) (fst e) && steady (within p) (snd e)) es
  | TRecord _ _ _ _ fs => forallb (fun f => steady (within p) (snd f)) fs
  | TTuple _ _ _ _ fs => forallb (fun f => steady (within p) (snd f)) fs
  | TRecTup _ _ _ _ fs => forallb (fun f => steady (within p) (snd f)) fs
  | _ => true
  end.
