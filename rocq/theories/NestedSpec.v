(** * NestedSpec: the recursive view of a value

    What a nested stream should be told about a value.  Nothing here mentions
    [FlatStream]. *)

From Verif Require Import Base Event Tree FragModel BufferSpec NestedModel.

(** ** The recursive view of a value

    Hints are discarded (documented, [nested/src/lib.rs:4-7]) and the size hints
    of texts are not part of the view; a record-tuple is seen as a record.
    Labels are kept up to their own tag: text, and whether it is static. *)
Inductive rview :=
| RNull
| RBool (b : bool)
| RInt (t : ity) (z : Z)
| RF32 (f : float)
| RF64 (f : float)
| RText (s : bytes)
| RBin (s : bytes)
| RTag (t : option tag) (l : option label) (i : option index)
| RTagged (t : option tag) (l : option label) (i : option index) (v : rview)
| REnum (t : option tag) (l : option label) (i : option index) (v : rview)
| RSeq (n : option N) (vs : list rview)
| RMap (n : option N) (es : list (rview * rview))
| RRecord (t : option tag) (l : option label) (i : option index) (n : option N)
          (fs : list (option tag * label * rview))
| RTuple (t : option tag) (l : option label) (i : option index) (n : option N)
         (fs : list (option tag * index * rview)).

Definition okept (l : option label) : option label := option_map kept_label l.

Fixpoint mirror (t : tree) : rview :=
  match t with
  | TNull => RNull
  | TBool b => RBool b
  | TInt t z => RInt t z
  | TF32 f => RF32 f
  | TF64 f => RF64 f
  | TText _ fs => RText (content fs)
  | TBin _ fs => RBin (content fs)
  | TTag t l i => RTag t (okept l) i
  | THint _ v => mirror v
  | TTagged t l i v => RTagged t (okept l) i (mirror v)
  | TEnum t l i v => REnum t (okept l) i (mirror v)
  | TSeq n vs => RSeq n (map mirror vs)
  | TMap n es => RMap n (map (fun kv => match kv with (k, v) => (mirror k, mirror v) end) es)
  | TRecord t l i n fs =>
      RRecord t (okept l) i n (map (fun f => match f with (ft, fl, v) => (ft, kept_label fl, mirror v) end) fs)
  | TTuple t l i n fs =>
      RTuple t (okept l) i n (map (fun f => match f with (ft, fi, v) => (ft, fi, mirror v) end) fs)
  | TRecTup t l i n fs =>
      RRecord t (okept l) i n (map (fun f => match f with (ft, fl, fi, v) => (ft, kept_label fl, mirror v) end) fs)
  end.

(** ** Values that recurse

    A value tree together with the places where the value recurses through
    [value] ([AVal true]) or [value_computed] ([AVal false]): each such call
    streams one whole subtree.  A sequence may leave out the
    [seq_value_begin]/[seq_value_end] calls around its elements
    ([marked = false]), as the buffer inside [sval_nested] does. *)
Inductive atree :=
| AVal (borrowed : bool) (v : atree)
| ANull
| ABool (b : bool)
| AInt (t : ity) (z : Z)
| AF32 (f : float)
| AF64 (f : float)
| AText (n : option N) (fs : list (bool * bytes))
| ABin (n : option N) (fs : list (bool * bytes))
| ATag (t : option tag) (l : option label) (i : option index)
| AHint (t : tag) (v : atree)
| ATagged (t : option tag) (l : option label) (i : option index) (v : atree)
| AEnum (t : option tag) (l : option label) (i : option index) (v : atree)
| ASeq (marked : bool) (n : option N) (vs : list atree)
| AMap (n : option N) (es : list (atree * atree))
| ARecord (t : option tag) (l : option label) (i : option index) (n : option N)
          (fs : list (option tag * label * atree))
| ATuple (t : option tag) (l : option label) (i : option index) (n : option N)
         (fs : list (option tag * index * atree))
| ARecTup (t : option tag) (l : option label) (i : option index) (n : option N)
          (fs : list (option tag * label * index * atree)).

(** The value described: the places where it recurses are forgotten. *)
Fixpoint tree_of (a : atree) : tree :=
  match a with
  | AVal _ v => tree_of v
  | ANull => TNull
  | ABool b => TBool b
  | AInt t z => TInt t z
  | AF32 f => TF32 f
  | AF64 f => TF64 f
  | AText n fs => TText n fs
  | ABin n fs => TBin n fs
  | ATag t l i => TTag t l i
  | AHint t v => THint t (tree_of v)
  | ATagged t l i v => TTagged t l i (tree_of v)
  | AEnum t l i v => TEnum t l i (tree_of v)
  | ASeq _ n vs => TSeq n (map tree_of vs)
  | AMap n es => TMap n (map (fun kv => match kv with (k, v) => (tree_of k, tree_of v) end) es)
  | ARecord t l i n fs => TRecord t l i n (map (fun f => match f with (ft, fl, v) => (ft, fl, tree_of v) end) fs)
  | ATuple t l i n fs => TTuple t l i n (map (fun f => match f with (ft, fi, v) => (ft, fi, tree_of v) end) fs)
  | ARecTup t l i n fs =>
      TRecTup t l i n (map (fun f => match f with (ft, fl, fi, v) => (ft, fl, fi, tree_of v) end) fs)
  end.

(** The calls it makes. *)
Fixpoint acalls (a : atree) : list call :=
  match a with
  | AVal true v => [CV (acalls v)]
  | AVal false v => [CVC (acalls v)]
  | ANull => [CE ENull]
  | ABool b => [CE (EBool b)]
  | AInt t z => [CE (EInt t z)]
  | AF32 f => [CE (EF32 f)]
  | AF64 f => [CE (EF64 f)]
  | AText n fs => CE (ETextBegin n) :: map (fun f => CE (text_frag f)) fs ++ [CE ETextEnd]
  | ABin n fs => CE (EBinBegin n) :: map (fun f => CE (bin_frag f)) fs ++ [CE EBinEnd]
  | ATag t l i => [CE (ETag t l i)]
  | AHint t v => CE (ETagHint t) :: acalls v
  | ATagged t l i v => CE (ETaggedBegin t l i) :: acalls v ++ [CE (ETaggedEnd t l i)]
  | AEnum t l i v => CE (EEnumBegin t l i) :: acalls v ++ [CE (EEnumEnd t l i)]
  | ASeq marked n vs =>
      CE (ESeqBegin n) ::
      flat_map (fun v => if marked then CE ESeqValBegin :: acalls v ++ [CE ESeqValEnd] else acalls v) vs ++
      [CE ESeqEnd]
  | AMap n es =>
      CE (EMapBegin n) ::
      flat_map (fun kv => match kv with (k, v) =>
                  CE EMapKeyBegin :: acalls k ++ CE EMapKeyEnd ::
                  CE EMapValBegin :: acalls v ++ [CE EMapValEnd] end) es ++
      [CE EMapEnd]
  | ARecord t l i n fs =>
      CE (ERecordBegin t l i n) ::
      flat_map (fun f => match f with (ft, fl, v) =>
                  CE (ERecordValBegin ft fl) :: acalls v ++ [CE (ERecordValEnd ft fl)] end) fs ++
      [CE (ERecordEnd t l i)]
  | ATuple t l i n fs =>
      CE (ETupleBegin t l i n) ::
      flat_map (fun f => match f with (ft, fi, v) =>
                  CE (ETupleValBegin ft fi) :: acalls v ++ [CE (ETupleValEnd ft fi)] end) fs ++
      [CE (ETupleEnd t l i)]
  | ARecTup t l i n fs =>
      CE (ERecTupBegin t l i n) ::
      flat_map (fun f => match f with (ft, fl, fi, v) =>
                  CE (ERecTupValBegin ft fl fi) :: acalls v ++ [CE (ERecTupValEnd ft fl fi)] end) fs ++
      [CE (ERecTupEnd t l i)]
  end.

(** Every sequence element is marked: the value follows the protocol. *)
Fixpoint marked_seqs (a : atree) : bool :=
  match a with
  | AVal _ v | AHint _ v | ATagged _ _ _ v | AEnum _ _ _ v => marked_seqs v
  | ASeq m _ vs => m && forallb marked_seqs vs
  | AMap _ es => forallb (fun kv => match kv with (k, v) => marked_seqs k && marked_seqs v end) es
  | ARecord _ _ _ _ fs => forallb (fun f => match f with (_, _, v) => marked_seqs v end) fs
  | ATuple _ _ _ _ fs => forallb (fun f => match f with (_, _, v) => marked_seqs v end) fs
  | ARecTup _ _ _ _ fs => forallb (fun f => match f with (_, _, _, v) => marked_seqs v end) fs
  | _ => true
  end.

(** ** What one level of a nested stream should receive *)

(** A child arrives as a value with the given recursive view. *)
Definition child (v : arg) (r : rview) : Prop :=
  exists a, snd v = acalls a /\ mirror (tree_of a) = r.

Section Answers.
Variable S : nstream.

Fixpoint fold_o {St A} (f : St -> A -> outcome St) (s : St) (l : list A) : outcome St :=
  match l with
  | [] => OOk s
  | x :: l' => s' <- f s x ;; fold_o f s' l'
  end.

(** The outcome [o] of streaming a value with view [r] into [S] is that of the
    matching calls on [S], in order, the first error ending it. *)
Fixpoint variant_answer (r : rview) (g : n_enum S -> outcome (n_ok S)) : Prop :=
  match r with
  | RTag t l i => exists l', okept l' = l /\ g = fun e => enum_tag S e t l' i
  | RTagged t l i v => exists l' a, okept l' = l /\ child a v /\ g = fun e => enum_tagged S e t l' i a
  | REnum t l i v => exists l' g', okept l' = l /\ variant_answer v g' /\ g = fun e => enum_nested S e t l' i g'
  | RTuple t l i n fs =>
      exists l' args, okept l' = l /\
        Forall2 (fun x f => match x, f with (xt, xi, a), (ft, fi, v) => xt = ft /\ xi = fi /\ child a v end) args fs /\
        g = fun e => s <- enum_tuple_begin S e t l' i n ;;
                     s' <- fold_o (fun s x => match x with (xt, xi, a) => vtuple_value S s xt xi a end) s args ;;
                     vtuple_end S s'
  | RRecord t l i n fs =>
      exists l' args, okept l' = l /\
        Forall2 (fun x f => match x, f with (xt, xl, a), (ft, fl, v) => xt = ft /\ kept_label xl = fl /\ child a v end) args fs /\
        g = fun e => s <- enum_record_begin S e t l' i n ;;
                     s' <- fold_o (fun s x => match x with (xt, xl, a) => vrecord_value S s xt xl a end) s args ;;
                     vrecord_end S s'
  | _ => False
  end.

Definition answer (r : rview) (o : outcome (n_ok S)) : Prop :=
  match r with
  | RNull => o = n_null S
  | RBool b => o = n_bool S b
  | RInt t z => o = n_int S t z
  | RF32 f => o = n_f32 S f
  | RF64 f => o = n_f64 S f
  | RText s => exists b, o = n_text S b s
  | RBin s => exists b, o = n_bin S b s
  | RTag t l i => exists l', okept l' = l /\ o = n_tag S t l' i
  | RTagged t l i v => exists l' a, okept l' = l /\ child a v /\ o = n_tagged S t l' i a
  | REnum t l i v => exists l' g, okept l' = l /\ variant_answer v g /\ o = e <- n_enum_begin S t l' i ;; g e
  | RSeq n vs =>
      exists args, Forall2 child args vs /\
        o = s <- n_seq_begin S n ;; s' <- fold_o (seq_value S) s args ;; seq_end S s'
  | RMap n es =>
      exists args, Forall2 (fun x e => match x, e with (a, b), (k, v) => child a k /\ child b v end) args es /\
        o = s <- n_map_begin S n ;;
            s' <- fold_o (fun s x => match x with (a, b) => s1 <- map_key S s a ;; map_value S s1 b end) s args ;;
            map_end S s'
  | RTuple t l i n fs =>
      exists l' args, okept l' = l /\
        Forall2 (fun x f => match x, f with (xt, xi, a), (ft, fi, v) => xt = ft /\ xi = fi /\ child a v end) args fs /\
        o = s <- n_tuple_begin S t l' i n ;;
            s' <- fold_o (fun s x => match x with (xt, xi, a) => tuple_value S s xt xi a end) s args ;;
            tuple_end S s'
  | RRecord t l i n fs =>
      exists l' args, okept l' = l /\
        Forall2 (fun x f => match x, f with (xt, xl, a), (ft, fl, v) => xt = ft /\ kept_label xl = fl /\ child a v end) args fs /\
        o = s <- n_record_begin S t l' i n ;;
            s' <- fold_o (fun s x => match x with (xt, xl, a) => record_value S s xt xl a end) s args ;;
            record_end S s'
  end.
End Answers.

(** ** Enums that are handled

    What may stand inside an enum: a tag, a tagged value, a tuple, a record, or
    another enum.  Inside an enum that is itself a variant, tuples and records
    are not handled. *)
Fixpoint inner_variant (v : rview) : bool :=
  match v with RTag _ _ _ | RTagged _ _ _ _ => true | REnum _ _ _ v => inner_variant v | _ => false end.
Definition handled1 (v : rview) : bool :=
  match v with
  | REnum _ _ _ v =>
      match v with
      | RTag _ _ _ | RTagged _ _ _ _ | RTuple _ _ _ _ _ | RRecord _ _ _ _ _ => true
      | REnum _ _ _ v => inner_variant v
      | _ => false
      end
  | _ => true
  end.
(** A tuple or a record inside an enum inside an enum. *)
Fixpoint ends_in_fields (v : rview) : bool :=
  match v with REnum _ _ _ v => ends_in_fields v | RTuple _ _ _ _ _ | RRecord _ _ _ _ _ => true | _ => false end.
Definition too_deep (v : rview) : bool :=
  match v with REnum _ _ _ (REnum _ _ _ v) => ends_in_fields v | _ => false end.
(** [handled1] here and in all children; for a [variant] the enclosing enum has
    been checked. *)
Fixpoint handled_at (variant : bool) (v : rview) : bool :=
  (variant || handled1 v) &&
  match v with
  | RTagged _ _ _ v => handled_at false v
  | REnum _ _ _ v => handled_at true v
  | RSeq _ vs => forallb (handled_at false) vs
  | RMap _ es => forallb (fun kv => match kv with (k, v) => handled_at false k && handled_at false v end) es
  | RTuple _ _ _ _ fs => forallb (fun f => match f with (_, _, v) => handled_at false v end) fs
  | RRecord _ _ _ _ fs => forallb (fun f => match f with (_, _, v) => handled_at false v end) fs
  | _ => true
  end.
Definition handled : rview -> bool := handled_at false.

(** How deeply values nest: the levels of recursion a reader needs. *)
Definition maxl (l : list nat) : nat := fold_right Nat.max 0 l.
Fixpoint levels (v : rview) : nat :=
  match v with
  | RTagged _ _ _ v | REnum _ _ _ v => S (levels v)
  | RSeq _ vs => S (maxl (map levels vs))
  | RMap _ es => S (maxl (map (fun kv => match kv with (k, v) => Nat.max (levels k) (levels v) end) es))
  | RTuple _ _ _ _ fs => S (maxl (map (fun f => match f with (_, _, v) => levels v end) fs))
  | RRecord _ _ _ _ fs => S (maxl (map (fun f => match f with (_, _, v) => levels v end) fs))
  | _ => 1
  end.

(** ** A nested stream that builds the recursive view

    A user stream overriding every method: it records what it is told and
    recurses into children by streaming them into itself. *)
Definition reader (recurse : arg -> outcome rview) : nstream :=
  {| n_ok := rview;
     n_seq := option N * list rview;
     n_map := option N * list (rview * rview) * option rview;
     n_tuple := (option tag * option label * option index * option N) * list (option tag * index * rview);
     n_record := (option tag * option label * option index * option N) * list (option tag * label * rview);
     n_enum := option tag * option label * option index;
     n_vtuple := (option tag * option label * option index *
                  (option tag * option label * option index * option N)) * list (option tag * index * rview);
     n_vrecord := (option tag * option label * option index *
                  (option tag * option label * option index * option N)) * list (option tag * label * rview);
     n_null := OOk RNull;
     n_bool b := OOk (RBool b);
     n_int t z := OOk (RInt t z);
     n_f32 f := OOk (RF32 f);
     n_f64 f := OOk (RF64 f);
     n_text _ s := OOk (RText s);
     n_bin _ s := OOk (RBin s);
     n_tag t l i := OOk (RTag t (okept l) i);
     n_tagged t l i a := v <- recurse a ;; OOk (RTagged t (okept l) i v);
     n_seq_begin n := OOk (n, []);
     n_map_begin n := OOk (n, [], None);
     n_tuple_begin t l i n := OOk ((t, okept l, i, n), []);
     n_record_begin t l i n := OOk ((t, okept l, i, n), []);
     n_enum_begin t l i := OOk (t, okept l, i);
     seq_value s a := v <- recurse a ;; OOk (fst s, snd s ++ [v]);
     seq_end s := OOk (RSeq (fst s) (snd s));
     map_key s a := match s with (n, es, _) => k <- recurse a ;; OOk (n, es, Some k) end;
     map_value s a := match s with
                      | (n, es, Some k) => v <- recurse a ;; OOk (n, es ++ [(k, v)], None)
                      | _ => OErr
                      end;
     map_end s := match s with (n, es, _) => OOk (RMap n es) end;
     tuple_value s t i a := v <- recurse a ;; OOk (fst s, snd s ++ [(t, i, v)]);
     tuple_end s := match s with ((t, l, i, n), fs) => OOk (RTuple t l i n fs) end;
     record_value s t l a := v <- recurse a ;; OOk (fst s, snd s ++ [(t, kept_label l, v)]);
     record_end s := match s with ((t, l, i, n), fs) => OOk (RRecord t l i n fs) end;
     enum_tag e t l i := match e with (et, el, ei) => OOk (REnum et el ei (RTag t (okept l) i)) end;
     enum_tagged e t l i a := match e with (et, el, ei) =>
       v <- recurse a ;; OOk (REnum et el ei (RTagged t (okept l) i v)) end;
     enum_tuple_begin e t l i n := OOk ((e, (t, okept l, i, n)), []);
     enum_record_begin e t l i n := OOk ((e, (t, okept l, i, n)), []);
     enum_nested e t l i k := match e with (et, el, ei) =>
       v <- k (t, okept l, i) ;; OOk (REnum et el ei v) end;
     enum_empty e := OErr;
     vtuple_value s t i a := v <- recurse a ;; OOk (fst s, snd s ++ [(t, i, v)]);
     vtuple_end s := match s with ((et, el, ei, (t, l, i, n)), fs) => OOk (REnum et el ei (RTuple t l i n fs)) end;
     vrecord_value s t l a := v <- recurse a ;; OOk (fst s, snd s ++ [(t, kept_label l, v)]);
     vrecord_end s := match s with ((et, el, ei, (t, l, i, n)), fs) => OOk (REnum et el ei (RRecord t l i n fs)) end
  |}.

(** Reading with at most [n] levels of recursion. *)
Fixpoint read (n : nat) (a : arg) : outcome rview :=
  match n with
  | 0 => OErr
  | S n' => nested_value (S := reader (read n')) (negb (fst a)) (snd a)
  end.

(** ** A user stream that never panics by itself *)
Record never_panics (S : nstream) : Prop := {
  np_null : n_null S <> OPanic;
  np_bool : forall b, n_bool S b <> OPanic;
  np_int : forall t z, n_int S t z <> OPanic;
  np_f32 : forall f, n_f32 S f <> OPanic;
  np_f64 : forall f, n_f64 S f <> OPanic;
  np_text : forall b s, n_text S b s <> OPanic;
  np_bin : forall b s, n_bin S b s <> OPanic;
  np_tag : forall t l i, n_tag S t l i <> OPanic;
  np_tagged : forall t l i a, n_tagged S t l i a <> OPanic;
  np_seq_begin : forall n, n_seq_begin S n <> OPanic;
  np_map_begin : forall n, n_map_begin S n <> OPanic;
  np_tuple_begin : forall t l i n, n_tuple_begin S t l i n <> OPanic;
  np_record_begin : forall t l i n, n_record_begin S t l i n <> OPanic;
  np_enum_begin : forall t l i, n_enum_begin S t l i <> OPanic;
  np_seq_value : forall s a, seq_value S s a <> OPanic;
  np_seq_end : forall s, seq_end S s <> OPanic;
  np_map_key : forall s a, map_key S s a <> OPanic;
  np_map_value : forall s a, map_value S s a <> OPanic;
  np_map_end : forall s, map_end S s <> OPanic;
  np_tuple_value : forall s t i a, tuple_value S s t i a <> OPanic;
  np_tuple_end : forall s, tuple_end S s <> OPanic;
  np_record_value : forall s t l a, record_value S s t l a <> OPanic;
  np_record_end : forall s, record_end S s <> OPanic;
  np_enum_tag : forall e t l i, enum_tag S e t l i <> OPanic;
  np_enum_tagged : forall e t l i a, enum_tagged S e t l i a <> OPanic;
  np_enum_tuple_begin : forall e t l i n, enum_tuple_begin S e t l i n <> OPanic;
  np_enum_record_begin : forall e t l i n, enum_record_begin S e t l i n <> OPanic;
  np_enum_nested : forall e t l i k, (forall e', k e' <> OPanic) -> enum_nested S e t l i k <> OPanic;
  np_vtuple_value : forall s t i a, vtuple_value S s t i a <> OPanic;
  np_vtuple_end : forall s, vtuple_end S s <> OPanic;
  np_vrecord_value : forall s t l a, vrecord_value S s t l a <> OPanic;
  np_vrecord_end : forall s, vrecord_end S s <> OPanic
}.

(** ** Values whose parts are values

    Whatever is handed on through [value] or [value_computed] is itself a whole
    value, at every depth. *)
Inductive whole_call : call -> Prop :=
| whole_ev e : whole_call (CE e)
| whole_value cs t : Forall whole_call cs -> streams cs t -> whole_call (CV cs)
| whole_computed cs t : Forall whole_call cs -> streams cs t -> whole_call (CVC cs).
Definition whole (v : list call) : Prop := Forall whole_call v.
