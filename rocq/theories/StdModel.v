(** * StdModel: the [Value] implementations for standard library types

    [src/data.rs], [src/data/*.rs], [src/value.rs] (forwarding) and [ref/src/*.rs]. *)

From Verif Require Import Base Event Tree LowerModel ExtractModel.

(** A value of a type for which the core crate (or [sval_ref]) implements [Value]
    or [ValueRef].  Maps hold their entries in the order the standard library's
    iterator yields them, as many as [len()] says.  A [Display] is the fragments
    its [fmt] writes and whether it then succeeds.  [ROther] is a value of any
    other type, with the calls it makes and the tree they are meant to be. *)
Inductive rval :=
| RNull                                   (* [sval::Null] *)
| RUnit                                   (* [()] *)
| RBool (b : bool)
| RInt (t : ity) (z : Z)                  (* [u8] .. [i128] *)
| RF32 (f : float)
| RF64 (f : float)
| RChar (c : N)
| RStr (s : bytes)
| RString (s : bytes)
| RDisplay (fs : list bytes) (ok : bool)  (* [sval::Display<V>] *)
| RNumber (fs : list bytes) (ok : bool)   (* a type calling [sval::stream_number] *)
| RShown (fs : list bytes) (ok : bool)    (* a type calling [sval::stream_display] *)
| RBinarySlice (s : bytes)
| RBinaryArray (s : bytes)
| RNone
| RSome (v : rval)
| RSlice (vs : list rval)
| RVec (vs : list rval)
| RArray (vs : list rval)                 (* [[T; N]] *)
| RTuple (vs : list rval)
| RMapSlice (es : list (rval * rval))
| RBTreeMap (es : list (rval * rval))
| RHashMap (es : list (rval * rval))
| RRef (v : rval)                         (* [&T] *)
| RBox (v : rval)
| RDyn (v : rval) (* [dyn sval_dynamic::Value] over the value; [dynamic/src/value.rs:26-36] *)
| RRefAdapter (v : rval)                  (* [sval_ref::Ref<&V>], holding [v] *)
| ROther (cs : list call) (t : tree).

(** [char::encode_utf8] of the standard library, [src/data/text.rs:94-95]. *)
Definition encode_utf8 (c : N) : bytes :=
  (if c <? 128 then [ascii_of_N c]
   else if c <? 2048 then [ascii_of_N (192 + c / 64); ascii_of_N (128 + c mod 64)]
   else if c <? 65536 then
     [ascii_of_N (224 + c / 4096); ascii_of_N (128 + (c / 64) mod 64); ascii_of_N (128 + c mod 64)]
   else
     [ascii_of_N (240 + c / 262144); ascii_of_N (128 + (c / 4096) mod 64);
      ascii_of_N (128 + (c / 64) mod 64); ascii_of_N (128 + c mod 64)])%N.

(** [Label::new("Some").with_tag(&tags::VALUE_IDENT)],
    [Index::new(1).with_tag(&tags::VALUE_OFFSET)], [src/data/option.rs:20-21, 34-35]. *)
Definition ident (s : string) : label := label_with_tag (label_new (bs s)) VALUE_IDENT.
Definition offset (z : Z) : index := index_with_tag (index_new z) VALUE_OFFSET.

(** The [tuple!] tables, [src/data/seq.rs:46-214] and [ref/src/seq.rs:55-223]: for
    each tuple type its [$len] and its [$i]s, in the order of the fields. *)
Definition tuple_table : list (N * list Z) :=
  [(1%N, [0]); (2%N, [0; 1]); (3%N, [0; 1; 2]); (4%N, [0; 1; 2; 3]); (5%N, [0; 1; 2; 3; 4]);
   (6%N, [0; 1; 2; 3; 4; 5]); (7%N, [0; 1; 2; 3; 4; 5; 6]); (8%N, [0; 1; 2; 3; 4; 5; 6; 7]);
   (9%N, [0; 1; 2; 3; 4; 5; 6; 7; 8]); (10%N, [0; 1; 2; 3; 4; 5; 6; 7; 8; 9]);
   (11%N, [0; 1; 2; 3; 4; 5; 6; 7; 8; 9; 10]); (12%N, [0; 1; 2; 3; 4; 5; 6; 7; 8; 9; 10; 11]);
   (13%N, [0; 1; 2; 3; 4; 5; 6; 7; 8; 9; 10; 11; 12]);
   (14%N, [0; 1; 2; 3; 4; 5; 6; 7; 8; 9; 10; 11; 12; 13]);
   (15%N, [0; 1; 2; 3; 4; 5; 6; 7; 8; 9; 10; 11; 12; 13; 14]);
   (16%N, [0; 1; 2; 3; 4; 5; 6; 7; 8; 9; 10; 11; 12; 13; 14; 15])]%Z.
(** The implementation for a tuple of [n] fields: there is one for 1 to 16. *)
Definition tuple_impl (n : nat) : option (N * list Z) :=
  find (fun e => Nat.eqb (List.length (snd e)) n) tuple_table.

(** [Display::stream], [src/data/text.rs:45-52], with [stream_display_fragments],
    70-82: each [write_str] is one computed fragment; a failing [fmt] is an error. *)
Definition display_calls (fs : list bytes) (ok : bool) : list call :=
  CE (ETextBegin None) :: map (fun s => CE (ETextFragC s)) fs ++ (if ok then [CE ETextEnd] else [CFail]).

(** The loops of [src/data/seq.rs:4-14] and [src/data/map.rs:39-53, 62-76, 86-100];
    [each c] is what streams one element. *)
Definition seq_calls (each : list call -> list call) (vs : list (list call)) : list call :=
  CE (ESeqBegin (Some (N.of_nat (List.length vs)))) ::
  flat_map (fun c => CE ESeqValBegin :: each c ++ [CE ESeqValEnd]) vs ++ [CE ESeqEnd].
Definition map_calls (es : list (list call * list call)) : list call :=
  CE (EMapBegin (Some (N.of_nat (List.length es)))) ::
  flat_map (fun kv => [CE EMapKeyBegin; CV (fst kv); CE EMapKeyEnd;
                       CE EMapValBegin; CV (snd kv); CE EMapValEnd]) es ++ [CE EMapEnd].
(** [src/data/seq.rs:31-41]. *)
Definition tuple_calls (each : list call -> list call) (vs : list (list call)) : list call :=
  match tuple_impl (List.length vs) with
  | Some (len, is) =>
      CE (ETupleBegin None None None (Some len)) ::
      flat_map (fun ic => CE (ETupleValBegin None (offset (fst ic))) :: each (snd ic) ++
                          [CE (ETupleValEnd None (offset (fst ic)))]) (combine is vs) ++
      [CE (ETupleEnd None None None)]
  | None => []
  end.

(** [stream] of each type. *)
Fixpoint calls (v : rval) : list call :=
  match v with
  | RNull => [CE ENull]                                                    (* src/data/option.rs:10-12 *)
  | RUnit => [CE (ETag (Some RUST_UNIT) None None)]                        (* src/data.rs:544-546 *)
  | RBool b => [CE (EBool b)]                                              (* src/data.rs:550-552 *)
  | RInt t z => [CE (EInt t z)]                                            (* src/data/number.rs:23-25 *)
  | RF32 f => [CE (EF32 f)]
  | RF64 f => [CE (EF64 f)]
  | RChar c =>                                                             (* src/data/text.rs:93-100 *)
      let value := encode_utf8 c in
      [CE (ETextBegin (Some (blen value))); CE (ETextFragC value); CE ETextEnd]
  | RStr s | RString s =>                                                  (* src/data/text.rs:104-108, 126-128 *)
      [CE (ETextBegin (Some (blen s))); CE (ETextFrag s); CE ETextEnd]
  | RDisplay fs ok => display_calls fs ok
  | RNumber fs ok =>                                                       (* src/data/number.rs:58-65 *)
      [CE (ETaggedBegin (Some NUMBER) None None); CVC (display_calls fs ok); CE (ETaggedEnd (Some NUMBER) None None)]
  | RShown fs ok => [CVC (display_calls fs ok)]                            (* src/data/text.rs:60-65 *)
  | RBinarySlice s =>                                                      (* src/data/binary.rs:44-48 *)
      [CE (EBinBegin (Some (blen s))); CE (EBinFrag s); CE EBinEnd]
  | RBinaryArray s =>                                                      (* src/data/binary.rs:97-103 *)
      [CE (ETaggedBegin (Some CONSTANT_SIZE) None None);
       CE (EBinBegin (Some (blen s))); CE (EBinFrag s); CE EBinEnd;
       CE (ETaggedEnd (Some CONSTANT_SIZE) None None)]
  | RSome v =>                                                             (* src/data/option.rs:17-30 *)
      [CE (ETaggedBegin (Some RUST_OPTION_SOME) (Some (ident "Some")) (Some (offset 1)));
       CV (calls v);
       CE (ETaggedEnd (Some RUST_OPTION_SOME) (Some (ident "Some")) (Some (offset 1)))]
  | RNone =>                                                               (* src/data/option.rs:31-37 *)
      [CE (ETag (Some RUST_OPTION_NONE) (Some (ident "None")) (Some (offset 0)))]
  | RSlice vs => seq_calls (fun c => [CV c]) (map calls vs)                (* src/data/seq.rs:4-14 *)
  | RVec vs => seq_calls (fun c => [CV c]) (map calls vs)                  (* src/data/seq.rs:225-227 *)
  | RArray vs =>                                                           (* src/data/seq.rs:18-22 *)
      [CE (ETaggedBegin (Some CONSTANT_SIZE) None None);
       CV (seq_calls (fun c => [CV c]) (map calls vs));
       CE (ETaggedEnd (Some CONSTANT_SIZE) None None)]
  | RTuple vs => tuple_calls (fun c => [CV c]) (map calls vs)
  | RMapSlice es => map_calls (map (fun kv => match kv with (k, v) => (calls k, calls v) end) es)
  | RBTreeMap es => map_calls (map (fun kv => match kv with (k, v) => (calls k, calls v) end) es)
  | RHashMap es => map_calls (map (fun kv => match kv with (k, v) => (calls k, calls v) end) es)
  | RDyn v => calls v                                                      (* dynamic/src/value.rs:44-46, 116-118; that the stream is erased too does not matter (ForwardModel.v, C05) *)
  | RRef v | RBox v => calls v                                             (* src/value.rs:137-141, 248, 256 *)
  | RRefAdapter v => calls v                                               (* ref/src/lib.rs:89-91 *)
  | ROther cs _ => cs
  end.

(** [stream_ref], [ref/src/lib.rs:158-162, 178-206] and [ref/src/seq.rs]: elements
    are streamed by [stream_ref] directly.  [None]: not a [ValueRef]. *)
Fixpoint all_some {A} (os : list (option A)) : option (list A) :=
  match os with
  | [] => Some []
  | Some a :: os' => match all_some os' with Some l => Some (a :: l) | None => None end
  | None :: _ => None
  end.
Fixpoint ref_calls (v : rval) : option (list call) :=
  match v with
  | RSlice vs => option_map (seq_calls (fun c => c)) (all_some (map ref_calls vs))   (* ref/src/seq.rs:6-16 *)
  | RVec vs => option_map (seq_calls (fun c => c)) (all_some (map ref_calls vs))     (* 233-237 *)
  | RArray vs =>                                                                     (* 20-32 *)
      option_map (fun cs => CE (ETaggedBegin (Some CONSTANT_SIZE) None None) ::
                            seq_calls (fun c => c) cs ++ [CE (ETaggedEnd (Some CONSTANT_SIZE) None None)])
        (all_some (map ref_calls vs))
  | RTuple vs => option_map (tuple_calls (fun c => c)) (all_some (map ref_calls vs)) (* 41-51 *)
  | RRef v | RBox v => ref_calls v                                                   (* ref/src/lib.rs:174-202 *)
  | RRefAdapter v => Some (calls v)                                                  (* 154-158 *)
  | _ => None
  end.

(** ** The conversions: what each type overrides, else the default (ExtractModel.v)

    [src/data/number.rs:27-29], [src/data.rs:554-560], [src/data/text.rs:110-116,
    130-137], [src/data/binary.rs:51-53, 106-108], [src/data/option.rs:40-113],
    [src/value.rs:143-244], [ref/src/lib.rs:93-151] and [dynamic/src/value.rs:48-112,
    119-184] (forwarding). *)
Fixpoint r_to_int (ty : ity) (v : rval) : option Z :=
  match v with
  | RInt src z => prim_to_int ty src z
  | RSome v => r_to_int ty v
  | RNone => None
  | RRef v | RBox v | RDyn v | RRefAdapter v => r_to_int ty v
  | v => to_int ty (calls v)
  end.
Fixpoint r_to_bool (v : rval) : option bool :=
  match v with
  | RBool b => Some b
  | RSome v => r_to_bool v
  | RNone => None
  | RRef v | RBox v | RDyn v | RRefAdapter v => r_to_bool v
  | v => to_bool (calls v)
  end.
Fixpoint r_to_f32 (v : rval) : option float :=
  match v with
  | RF32 f => Some f
  | RSome v => r_to_f32 v
  | RNone => None
  | RRef v | RBox v | RDyn v | RRefAdapter v => r_to_f32 v
  | v => to_f32 (calls v)
  end.
Fixpoint r_to_f64 (v : rval) : option float :=
  match v with
  | RF64 f => Some f
  | RSome v => r_to_f64 v
  | RNone => None
  | RRef v | RBox v | RDyn v | RRefAdapter v => r_to_f64 v
  | v => to_f64 (calls v)
  end.
Fixpoint r_to_text (v : rval) : option bytes :=
  match v with
  | RStr s | RString s => Some s
  | RSome v => r_to_text v
  | RNone => None
  | RRef v | RBox v | RDyn v | RRefAdapter v => r_to_text v
  | v => to_text (calls v)
  end.
Fixpoint r_to_binary (v : rval) : option bytes :=
  match v with
  | RBinarySlice s | RBinaryArray s => Some s
  | RSome v => r_to_binary v
  | RNone => None
  | RRef v | RBox v | RDyn v | RRefAdapter v => r_to_binary v
  | v => to_binary (calls v)
  end.
(** [Option] keeps the default [tag]. *)
Fixpoint r_tag (v : rval) : option tag :=
  match v with
  | RBool _ | RStr _ | RString _ => None
  | RRef v | RBox v | RDyn v | RRefAdapter v => r_tag v
  | v => value_tag (calls v)
  end.
