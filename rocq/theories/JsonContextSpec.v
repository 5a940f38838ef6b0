(** * JsonContextSpec: places for values inside other values (C27, C43) *)

From Verif Require Import Base Event Tree JsonSpec.

(** A value with one place left open, as deep inside as wanted. *)
Inductive ctx :=
| XHere
| XHint (t : tag) (c : ctx)
| XTagged (t : option tag) (l : option label) (i : option index) (c : ctx)
| XEnum (t : option tag) (l : option label) (i : option index) (c : ctx)
| XSeq (n : option N) (before : list tree) (c : ctx) (rest : list tree)
| XMap (n : option N) (before : list (tree * tree)) (k : tree) (c : ctx) (rest : list (tree * tree))
| XRecord (t : option tag) (l : option label) (i : option index) (n : option N)
    (before : list (option tag * label * tree)) (ft : option tag) (fl : label) (c : ctx) (rest : list (option tag * label * tree))
| XTuple (t : option tag) (l : option label) (i : option index) (n : option N)
    (before : list (option tag * index * tree)) (ft : option tag) (fi : index) (c : ctx) (rest : list (option tag * index * tree))
| XRecTup (t : option tag) (l : option label) (i : option index) (n : option N)
    (before : list (option tag * label * index * tree)) (ft : option tag) (fl : label) (fi : index) (c : ctx)
    (rest : list (option tag * label * index * tree)).

Fixpoint fill (c : ctx) (v : tree) : tree :=
  match c with
  | XHere => v
  | XHint t c => THint t (fill c v)
  | XTagged t l i c => TTagged t l i (fill c v)
  | XEnum t l i c => TEnum t l i (fill c v)
  | XSeq n before c rest => TSeq n (before ++ fill c v :: rest)
  | XMap n before k c rest => TMap n (before ++ (k, fill c v) :: rest)
  | XRecord t l i n before ft fl c rest => TRecord t l i n (before ++ (ft, fl, fill c v) :: rest)
  | XTuple t l i n before ft fi c rest => TTuple t l i n (before ++ (ft, fi, fill c v) :: rest)
  | XRecTup t l i n before ft fl fi c rest => TRecTup t l i n (before ++ (ft, fl, fi, fill c v) :: rest)
  end.

(** What enums hold, as they do: a tagged value, a record, a tuple, or an enum again. *)
Fixpoint variant (c : ctx) : bool :=
  match c with
  | XTagged _ _ _ _ | XRecord _ _ _ _ _ _ _ _ _ | XTuple _ _ _ _ _ _ _ _ _ | XRecTup _ _ _ _ _ _ _ _ _ _ => true
  | XHint _ c | XEnum _ _ _ c => variant c
  | _ => false
  end.

(** The place is not inside something tagged as embedded JSON or as a number, and
    the enums around it hold what enums hold. *)
Fixpoint plain_place (c : ctx) : bool :=
  match c with
  | XHere => true
  | XHint _ c => plain_place c
  | XTagged t _ _ c => negb (is_raw t) && plain_place c
  | XEnum _ _ _ c => variant c && plain_place c
  | XSeq _ _ c _ | XMap _ _ _ c _ | XRecord _ _ _ _ _ _ _ c _ | XTuple _ _ _ _ _ _ _ c _ | XRecTup _ _ _ _ _ _ _ _ c _ => plain_place c
  end.

(** The place is an element of a sequence or a field of a record or tuple (and not
    the value of a map entry, or directly inside a tagged value). *)
Fixpoint element_place (c : ctx) : bool :=
  match c with
  | XHere => false
  | XHint _ c | XTagged _ _ _ c | XEnum _ _ _ c | XMap _ _ _ c _ => element_place c
  | XSeq _ _ c _ | XRecord _ _ _ _ _ _ _ c _ | XTuple _ _ _ _ _ _ _ c _ | XRecTup _ _ _ _ _ _ _ _ c _ =>
      match c with XHere => true | _ => element_place c end
  end.
