(** * StdSpec: what the values of the standard library types stream *)

From Verif Require Import Base Event Tree Utf8 StdModel.

(** A Unicode scalar value, and the scalar value an encoded character stands for. *)
Definition scalar (c : N) : Prop := (c < 55296 \/ 57344 <= c < 1114112)%N.
Definition decode_utf8 (s : bytes) : option N :=
  (let n := N_of_ascii in
   match s with
   | [a] => Some (n a)
   | [a; b] => Some ((n a - 192) * 64 + (n b - 128))
   | [a; b; c] => Some ((n a - 224) * 4096 + (n b - 128) * 64 + (n c - 128))
   | [a; b; c; d] => Some ((n a - 240) * 262144 + (n b - 128) * 4096 + (n c - 128) * 64 + (n d - 128))
   | _ => None
   end)%N.

Definition len {A} (l : list A) : N := N.of_nat (List.length l).
(** Elements paired with 0, 1, 2, ... *)
Fixpoint from {A} (i : Z) (l : list A) : list (Z * A) :=
  match l with
  | [] => []
  | a :: l' => (i, a) :: from (i + 1)%Z l'
  end.

(** The tree of a value. *)
Definition constant_size (t : tree) : tree := TTagged (Some CONSTANT_SIZE) None None t.
Fixpoint shape (v : rval) : tree :=
  match v with
  | RNull => TNull
  | RUnit => TTag (Some RUST_UNIT) None None
  | RBool b => TBool b
  | RInt t z => TInt t z
  | RF32 f => TF32 f
  | RF64 f => TF64 f
  | RChar c => TText (Some (blen (encode_utf8 c))) [(false, encode_utf8 c)]
  | RStr s | RString s => TText (Some (blen s)) [(true, s)]
  | RDisplay fs _ | RShown fs _ => TText None (map (fun s => (false, s)) fs)
  | RNumber fs _ => TTagged (Some NUMBER) None None (TText None (map (fun s => (false, s)) fs))
  | RBinarySlice s => TBin (Some (blen s)) [(true, s)]
  | RBinaryArray s => constant_size (TBin (Some (blen s)) [(true, s)])
  | RNone => TTag (Some RUST_OPTION_NONE) (Some (MkLabel (bs "None") LStatic (Some VALUE_IDENT)))
                  (Some (MkIndex 0 (Some VALUE_OFFSET)))
  | RSome v => TTagged (Some RUST_OPTION_SOME) (Some (MkLabel (bs "Some") LStatic (Some VALUE_IDENT)))
                       (Some (MkIndex 1 (Some VALUE_OFFSET))) (shape v)
  | RSlice vs | RVec vs => TSeq (Some (len vs)) (map shape vs)
  | RArray vs => constant_size (TSeq (Some (len vs)) (map shape vs))
  | RTuple vs =>
      TTuple None None None (Some (len vs))
        (map (fun p => (None, MkIndex (fst p) (Some VALUE_OFFSET), snd p)) (from 0 (map shape vs)))
  | RMapSlice es | RBTreeMap es | RHashMap es =>
      TMap (Some (len es)) (map (fun kv => match kv with (k, v) => (shape k, shape v) end) es)
  | RRef v | RBox v | RDyn v | RRefAdapter v => shape v
  | ROther _ t => t
  end.

(** The values Rust can build: integers of their type, tuples of 1 to 16 fields;
    [Display]s that do not fail; and values of other types that stream as they
    should. *)
Fixpoint sound (v : rval) : Prop :=
  match v with
  | RInt t z => fits t z = true
  | RChar c => scalar c
  | RDisplay _ ok | RNumber _ ok | RShown _ ok => ok = true
  | RSome v | RRef v | RBox v | RDyn v | RRefAdapter v => sound v
  | RSlice vs | RVec vs | RArray vs => fold_right and True (map sound vs)
  | RTuple vs => (1 <= List.length vs <= 16)%nat /\ fold_right and True (map sound vs)
  | RMapSlice es | RBTreeMap es | RHashMap es =>
      fold_right and True (map (fun kv => match kv with (k, v) => sound k /\ sound v end) es)
  | ROther cs t => streams cs t
  | _ => True
  end.

(** Exact size hints: every sequence, map, record and tuple is given the number of
    its elements; the size of a text or binary, when given, is that of its content. *)
Definition says (n : option N) (k : N) : bool := match n with Some m => (m =? k)%N | None => false end.
Definition total (fs : list (bool * bytes)) : N := blen (List.concat (map snd fs)).
Fixpoint exact_hints (t : tree) : bool :=
  match t with
  | TText n fs | TBin n fs => match n with Some m => (m =? total fs)%N | None => true end
  | THint _ v | TTagged _ _ _ v | TEnum _ _ _ v => exact_hints v
  | TSeq n vs => says n (len vs) && forallb exact_hints vs
  | TMap n es => says n (len es) && forallb (fun kv => match kv with (k, v) => exact_hints k && exact_hints v end) es
  | TRecord _ _ _ n fs => says n (len fs) && forallb (fun f => match f with (_, _, v) => exact_hints v end) fs
  | TTuple _ _ _ n fs => says n (len fs) && forallb (fun f => match f with (_, _, v) => exact_hints v end) fs
  | TRecTup _ _ _ n fs => says n (len fs) && forallb (fun f => match f with (_, _, _, v) => exact_hints v end) fs
  | _ => true
  end.

(** Every value of another type inside [v] satisfies [P]. *)
Fixpoint others (P : tree -> Prop) (v : rval) : Prop :=
  match v with
  | RSome v | RRef v | RBox v | RDyn v | RRefAdapter v => others P v
  | RSlice vs | RVec vs | RArray vs | RTuple vs => fold_right and True (map (others P) vs)
  | RMapSlice es | RBTreeMap es | RHashMap es =>
      fold_right and True (map (fun kv => match kv with (k, v) => others P k /\ others P v end) es)
  | ROther _ t => P t
  | _ => True
  end.

(** What is inside options and references. *)
Fixpoint inside (v : rval) : rval :=
  match v with
  | RSome v | RRef v | RBox v | RDyn v | RRefAdapter v => inside v
  | v => v
  end.
