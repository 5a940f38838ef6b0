(** * SerdeTextModel: what [sval_serde::ToSerialize] says went wrong

    [serde/src/to_serialize.rs] once more, this time also with the messages that
    [S::Error::custom] is given.  The stream is the one of SerdeErrModel.v, method
    for method; [sval_nested] is as in NestedErrModel.v.  SerdeTextProps.v relates
    it to SerdeErrModel.v. *)

From Verif Require Import Base Event Tree LowerModel DataModel FragModel StdModel NestedModel NestedErrModel SerdeModel SerdeErrModel.
Local Open Scope string_scope.

(** [Err(sval_nested::Error::invalid_value(text))]. *)
Definition says {A} (text : string) : got A := GErr (NInvalid (bs text)).
(** [o.ok_or_else(|| sval_nested::Error::invalid_value(text))]. *)
Definition asked {A} (text : string) (o : option A) : got A := match o with Some a => GOk a | None => says text end.
(** [label.and_then(|label| label.as_static_str())], 181-182, and
    [index.and_then(|index| index.to_u32())], 502. *)
Definition static_label (l : option label) : option bytes := match l with Some l => as_static_str l | None => None end.
Definition index_u32 (i : option index) : option Z := match i with Some i => index_to U32 i | None => None end.

(** As [einner], [efeed] and [eend]; [text] is what a failing child is reported as,
    e.g. 323-325. *)
Definition tinner {E A} (r : result E A) : got (A + E) :=
  match r with ROk x => GOk (inl x) | RErr e => GOk (inr e) | RPanic => GPanic end.
Definition tfeed {E A} (text : string) (s : A + E) (f : A -> result E A) : got (A + E) :=
  match s with
  | inl a => match f a with ROk x => GOk (inl x) | RErr _ => says text | RPanic => GPanic end
  | inr _ => says text
  end.
Definition tend {E A B} (s : A + E) (f : A -> result E B) : got (B + E) :=
  match s with inl a => tinner (f a) | inr e => GOk (inr e) end.

(** [Serializer], 50-308, and the streams it makes, 310-683. *)
Definition tserialize_stream (S : eserializer) (rec : list call -> e_ser S -> result (e_err S) (e_ok S)) (k : e_ser S) : xstream :=
  {| x_ok := e_ok S + e_err S;
     x_seq := e_seq S + e_err S;
     x_map := e_map S + e_err S;
     x_tuple := (e_tstruct S + e_tuple S) + e_err S;
     x_record := (e_struct S + e_tuple S) + e_err S;
     x_enum := bytes;
     x_vtuple := e_tvariant S + e_err S;
     x_vrecord := e_svariant S + e_err S;
     x_null := tinner (es_none S k); (* 107-109 *)
     x_bool b := tinner (es_bool S k b);
     x_int t z := tinner (es_int S k t z);
     x_f32 f := tinner (es_f32 S k f);
     x_f64 f := tinner (es_f64 S k f);
     x_text _ s := tinner (es_str S k s); (* 163-165 *)
     x_bin _ s := tinner (es_bytes S k s);
     x_tag t l _ := (* 171-190 *)
       if otag_is t RUST_OPTION_NONE then tinner (es_none S k)
       else if otag_is t RUST_UNIT then tinner (es_unit S k)
       else name <= asked "unit label must be static" (static_label l) ;; tinner (es_unit_struct S k name);
     x_tagged t l _ v := (* 192-215 *)
       if otag_is t RUST_OPTION_SOME then tinner (es_some S k (rec (snd v)))
       else name <= asked "newtype label must be static" (static_label l) ;; tinner (es_newtype_struct S k name (rec (snd v)));
     x_seq_begin n := tinner (es_seq S k n); (* 217-227 *)
     x_map_begin n := tinner (es_map S k n);
     x_tuple_begin _ l _ n := (* 229-259 *)
       len <= asked "missing tuple len" n ;;
       match l with
       | Some l => name <= asked "tuple label must be static" (as_static_str l) ;; tinner (rmap inl (es_tuple_struct S k name len))
       | None => tinner (rmap inr (es_tuple S k len))
       end;
     x_record_begin _ l _ n := (* 261-291 *)
       len <= asked "missing struct len" n ;;
       match l with
       | Some l => name <= asked "struct label must be static" (as_static_str l) ;; tinner (rmap inl (es_struct S k name len))
       | None => tinner (rmap inr (es_tuple S k len))
       end;
     x_enum_begin _ l _ := asked "enum label must be static" (static_label l); (* 293-307 *)
     x_seq_value s v := tfeed "failed to serialize sequence element" s (fun s => e_seq_element S s (rec (snd v))); (* 310-334 *)
     x_seq_end s := tend s (e_seq_end S);
     x_map_key s v := tfeed "failed to serialize map key" s (fun s => e_map_key S s (rec (snd v))); (* 336-375 *)
     x_map_value s v := tfeed "failed to serialize map value" s (fun s => e_map_value S s (rec (snd v)));
     x_map_end s := tend s (e_map_end S);
     x_tuple_value s _ _ v := (* 431-479 *)
       tfeed "failed to serialize tuple field" s (fun s => match s with
                         | inl s => rmap inl (e_tstruct_field S s (rec (snd v)))
                         | inr s => rmap inr (e_tuple_element S s (rec (snd v)))
                         end);
     x_tuple_end s := tend s (fun s => match s with inl s => e_tstruct_end S s | inr s => e_tuple_end S s end);
     x_record_value s _ l v := (* 377-429 *)
       match s with
       | inl (inl _) => field <= asked "struct field label must be static" (as_static_str l) ;;
                        tfeed "failed to serialize tuple field" s (fun s => match s with
                                          | inl s => rmap inl (e_struct_field S s field (rec (snd v)))
                                          | inr s => ROk (inr s)
                                          end)
       | _ => tfeed "failed to serialize tuple field" s (fun s => match s with
                                | inr s => rmap inr (e_tuple_element S s (rec (snd v)))
                                | inl s => ROk (inl s)
                                end)
       end;
     x_record_end s := tend s (fun s => match s with inl s => e_struct_end S s | inr s => e_tuple_end S s end);
     x_enum_tag name _ l i := (* 490-509 *)
       variant <= asked "unit variant label must be static" (static_label l) ;;
       index <= asked "unit variant index must a 32bit value" (index_u32 i) ;; tinner (es_unit_variant S k name index variant);
     x_enum_tagged name _ l i v := (* 511-534 *)
       variant <= asked "newtype variant label must be static" (static_label l) ;;
       index <= asked "newtype variant index must be a 32bit value" (index_u32 i) ;;
       tinner (es_newtype_variant S k name index variant (rec (snd v)));
     x_enum_tuple_begin name _ l i n := (* 536-564 *)
       variant <= asked "tuple variant label must be static" (static_label l) ;;
       index <= asked "tuple variant index must be a 32bit value" (index_u32 i) ;;
       len <= asked "missing tuple variant len" n ;;
       tinner (es_tuple_variant S k name index variant len);
     x_enum_record_begin name _ l i n := (* 566-594 *)
       variant <= asked "struct variant label must be static" (static_label l) ;;
       index <= asked "struct variant index must be a 32bit value" (index_u32 i) ;;
       len <= asked "missing struct variant len" n ;;
       tinner (es_struct_variant S k name index variant len);
     x_enum_nested _ _ _ _ _ := says "nested enums aren't supported"; (* 596-608 *)
     x_enum_empty name := tinner (es_unit_struct S k name); (* 610-612; never called *)
     x_vtuple_value s _ _ v := tfeed "failed to serialize tuple value" s (fun s => e_tvariant_field S s (rec (snd v))); (* 652-683 *)
     x_vtuple_end s := tend s (e_tvariant_end S);
     x_vrecord_value s _ l v := (* 615-650 *)
       field <= asked "struct variant field label must be static" (as_static_str l) ;; tfeed "failed to serialize struct value" s (fun s => e_svariant_field S s field (rec (snd v)));
     x_vrecord_end s := tend s (e_svariant_end S)
  |}.

(** [Serialize for ToSerialize], 42-48: [custom] is [S::Error::custom] of the message
    an error of [sval_nested] displays as.  [n] bounds how deeply values may nest; the
    theorems ask for enough. *)
Fixpoint tto_serialize (S : eserializer) (custom : bytes -> e_err S) (n : nat) (v : list call) (k : e_ser S) : result (e_err S) (e_ok S) :=
  match n with
  | 0 => RErr (custom [])
  | Datatypes.S n' =>
      match nested_got (tserialize_stream S (tto_serialize S custom n') k) false v with
      | GOk (inl x) => ROk x
      | GOk (inr e) => RErr e
      | GErr e => RErr (custom (nerr_text e))
      | GPanic => RPanic
      end
  end.
