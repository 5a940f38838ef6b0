(** * LowerModel: the default methods of [trait Stream]

    [src/stream.rs:1122-1609] (module [default_stream]).  [default_calls e] is
    the body of the default implementation of the method called by [e]: the
    calls it makes on the same stream, in order, each followed by [?].  [None]
    marks a required method. *)

From Verif Require Import Base Event.

(** [str::stream], [src/data/text.rs:104-108]. *)
Definition str_calls (s : bytes) : list call :=
  [CE (ETextBegin (Some (blen s))); CE (ETextFrag s); CE ETextEnd].

(** [if let Some(label) = label.as_static_str() { stream.value(label) } else
    { stream.value_computed(label.as_str()) }], [src/stream.rs:1408-1412, 1462-1466]. *)
Definition label_calls (l : label) : list call :=
  match as_static_str l with
  | Some s => [CV (str_calls s)]
  | None => [CVC (str_calls (l_text l))]
  end.

(** [Display::stream] of an integer, [src/data/text.rs:45-51, 70-82]. *)
Definition display_calls (z : Z) : list call :=
  CE (ETextBegin None) :: map (fun f => CE (ETextFragC f)) (dec_frags z) ++ [CE ETextEnd].

(** [stream_number], [src/data/number.rs:59-66]. *)
Definition stream_number_calls (z : Z) : list call :=
  [CE (ETaggedBegin (Some NUMBER) None None);
   CVC (display_calls z);
   CE (ETaggedEnd (Some NUMBER) None None)].

(** The next integer type a narrow integer is widened to:
    [src/stream.rs:1205-1228, 1244-1260]. *)
Definition wider (t : ity) : ity :=
  match t with
  | U8 => U16 | U16 => U32 | U32 => U64 | U64 => U128
  | I8 => I16 | I16 => I32 | I32 => I64
  | t => t
  end.

Definition default_calls (e : ev) : option (list call) :=
  match e with
  (* required methods *)
  | ENull | EBool _ | ETextBegin _ | ETextFragC _ | ETextEnd
  | EF64 _ | ESeqBegin _ | ESeqValBegin | ESeqValEnd | ESeqEnd => None
  | EInt I64 _ => None
  (* 1152 *)
  | ETextFrag s => Some [CE (ETextFragC s)]
  (* 1162, 1172, 1182, 1198 *)
  | EBinBegin n => Some [CE (ESeqBegin n)]
  | EBinFrag s => Some [CE (EBinFragC s)]
  | EBinFragC s =>
      Some (flat_map (fun b => [CE ESeqValBegin; CE (EInt U8 (byte_val b)); CE ESeqValEnd]) s)
  | EBinEnd => Some [CE ESeqEnd]
  (* 1233, 1265 *)
  | EInt U128 z | EInt I128 z =>
      if fits I64 z then Some [CE (EInt I64 z)] else Some (stream_number_calls z)
  (* 1205-1228, 1244-1260 *)
  | EInt t z => Some [CE (EInt (wider t) z)]
  (* 1276 *)
  | EF32 f => Some [CE (EF64 (f32_to_f64 f))]
  (* 1283-1327 *)
  | EMapBegin n => Some [CE (ESeqBegin n)]
  | EMapKeyBegin =>
      Some [CE ESeqValBegin; CE (ETupleBegin None None None (Some 2%N));
            CE (ETupleValBegin None (index_new 0))]
  | EMapKeyEnd => Some [CE (ETupleValEnd None (index_new 0))]
  | EMapValBegin => Some [CE (ETupleValBegin None (index_new 1))]
  | EMapValEnd =>
      Some [CE (ETupleValEnd None (index_new 1)); CE (ETupleEnd None None None); CE ESeqValEnd]
  | EMapEnd => Some [CE ESeqEnd]
  (* 1332, 1344 *)
  | EEnumBegin t l i => Some [CE (ETaggedBegin t l i)]
  | EEnumEnd t l i => Some [CE (ETaggedEnd t l i)]
  (* 1358, 1375 *)
  | ETaggedBegin _ _ _ => Some []
  | ETaggedEnd _ _ _ => Some []
  (* 1394 *)
  | ETag t l i =>
      Some (CE (ETaggedBegin t l i) ::
            (if otag_is t RUST_OPTION_NONE then [CE ENull]
             else match l with
                  | Some l => label_calls l
                  | None => [CE ENull]
                  end) ++
            [CE (ETaggedEnd t l i)])
  (* 1427 *)
  | ETagHint _ => Some []
  (* 1439-1498 *)
  | ERecordBegin t l i n => Some [CE (ETaggedBegin t l i); CE (EMapBegin n)]
  | ERecordValBegin _ l =>
      Some (CE EMapKeyBegin :: label_calls l ++ [CE EMapKeyEnd; CE EMapValBegin])
  | ERecordValEnd _ _ => Some [CE EMapValEnd]
  | ERecordEnd t l i => Some [CE EMapEnd; CE (ETaggedEnd t l i)]
  (* 1505-1555 *)
  | ETupleBegin t l i n => Some [CE (ETaggedBegin t l i); CE (ESeqBegin n)]
  | ETupleValBegin _ _ => Some [CE ESeqValBegin]
  | ETupleValEnd _ _ => Some [CE ESeqValEnd]
  | ETupleEnd t l i => Some [CE ESeqEnd; CE (ETaggedEnd t l i)]
  (* 1560-1608 *)
  | ERecTupBegin t l i n => Some [CE (ERecordBegin t l i n)]
  | ERecTupValBegin t l _ => Some [CE (ERecordValBegin t l)]
  | ERecTupValEnd t l _ => Some [CE (ERecordValEnd t l)]
  | ERecTupEnd t l i => Some [CE (ERecordEnd t l i)]
  end.

(** The method calls that finally reach overridden (or required) methods of an
    implementor that overrides the methods selected by [O], when the method of
    [e] is called on it.  The default bodies are expanded until only overridden
    or required methods are left.  [fuel] bounds the depth of defaults calling
    defaults; LowerProofs.v proves that [depth] is enough for every method, so
    an event left over because the fuel ran out never occurs. *)
Fixpoint lower (O : ev -> bool) (fuel : nat) (e : ev) : list ev :=
  if O e then [e]
  else match default_calls e with
       | None => [e]
       | Some cs =>
           match fuel with
           | 0 => [e]
           | S fuel' => flat_map (lower O fuel') (fst (flat cs false))
           end
       end.

Definition depth : nat := 8.

Definition lower_all (O : ev -> bool) (es : list ev) : list ev := flat_map (lower O depth) es.

(** An implementor that overrides nothing. *)
Definition overrides_nothing (e : ev) : bool := false.

Definition required (e : ev) : bool :=
  match default_calls e with None => true | Some _ => false end.

(** [v.stream(&mut s)] where [s] overrides the methods in [O] (and implements
    the required ones) as [step]. *)
Definition run_impl {S} (O : ev -> bool) (step : S -> ev -> res S) (s : S) (v : list call) : res S :=
  let (es, ok) := flat v false in
  run step s (lower_all O es) >>= fun s' => if ok then Ok s' else Err s'.
