(** * SerdeErrModel: the errors of [sval_serde::ToSerialize]

    [serde/src/to_serialize.rs] again, this time with the contents of [S::Error].
    SerdeErrProps.v relates it to SerdeModel.v.  The errors of [sval_nested] stay
    opaque, so [S::Error::custom] makes one error whatever the message. *)

From Verif Require Import Base Event Tree LowerModel DataModel FragModel StdModel NestedModel SerdeModel.

(** [Result<A, E>], or a panic. *)
Inductive result (E A : Type) := ROk (a : A) | RErr (e : E) | RPanic.
Arguments ROk {E A}. Arguments RErr {E A}. Arguments RPanic {E A}.
(** [r?]. *)
Definition rbind {E A B} (r : result E A) (k : A -> result E B) : result E B :=
  match r with ROk a => k a | RErr e => RErr e | RPanic => RPanic end.
Notation "x <~ r ;; k" := (rbind r (fun x => k)) (at level 61, r at next level, right associativity).

(** ** [serde::Serializer]

    As [SerdeModel.serializer], with [e_err] for [S::Error] and [e_custom] for
    what [S::Error::custom] returns. *)
Record eserializer := MkESer {
  e_err : Type; e_custom : e_err;
  e_ser : Type; e_ok : Type;
  e_seq : Type; e_tuple : Type; e_tstruct : Type; e_tvariant : Type;
  e_map : Type; e_struct : Type; e_svariant : Type;
  es_bool : e_ser -> bool -> result e_err e_ok;
  es_int : e_ser -> ity -> Z -> result e_err e_ok;
  es_f32 : e_ser -> float -> result e_err e_ok;
  es_f64 : e_ser -> float -> result e_err e_ok;
  es_char : e_ser -> N -> result e_err e_ok;
  es_str : e_ser -> bytes -> result e_err e_ok;
  es_bytes : e_ser -> bytes -> result e_err e_ok;
  es_collect_str : e_ser -> list bytes -> result e_err e_ok;
  es_none : e_ser -> result e_err e_ok;
  es_some : e_ser -> (e_ser -> result e_err e_ok) -> result e_err e_ok;
  es_unit : e_ser -> result e_err e_ok;
  es_unit_struct : e_ser -> bytes -> result e_err e_ok;
  es_unit_variant : e_ser -> bytes -> Z -> bytes -> result e_err e_ok;
  es_newtype_struct : e_ser -> bytes -> (e_ser -> result e_err e_ok) -> result e_err e_ok;
  es_newtype_variant : e_ser -> bytes -> Z -> bytes -> (e_ser -> result e_err e_ok) -> result e_err e_ok;
  es_seq : e_ser -> option N -> result e_err e_seq;
  es_tuple : e_ser -> N -> result e_err e_tuple;
  es_tuple_struct : e_ser -> bytes -> N -> result e_err e_tstruct;
  es_tuple_variant : e_ser -> bytes -> Z -> bytes -> N -> result e_err e_tvariant;
  es_map : e_ser -> option N -> result e_err e_map;
  es_struct : e_ser -> bytes -> N -> result e_err e_struct;
  es_struct_variant : e_ser -> bytes -> Z -> bytes -> N -> result e_err e_svariant;
  e_seq_element : e_seq -> (e_ser -> result e_err e_ok) -> result e_err e_seq;
  e_seq_end : e_seq -> result e_err e_ok;
  e_tuple_element : e_tuple -> (e_ser -> result e_err e_ok) -> result e_err e_tuple;
  e_tuple_end : e_tuple -> result e_err e_ok;
  e_tstruct_field : e_tstruct -> (e_ser -> result e_err e_ok) -> result e_err e_tstruct;
  e_tstruct_end : e_tstruct -> result e_err e_ok;
  e_tvariant_field : e_tvariant -> (e_ser -> result e_err e_ok) -> result e_err e_tvariant;
  e_tvariant_end : e_tvariant -> result e_err e_ok;
  e_map_key : e_map -> (e_ser -> result e_err e_ok) -> result e_err e_map;
  e_map_value : e_map -> (e_ser -> result e_err e_ok) -> result e_err e_map;
  e_map_end : e_map -> result e_err e_ok;
  e_struct_field : e_struct -> bytes -> (e_ser -> result e_err e_ok) -> result e_err e_struct;
  e_struct_end : e_struct -> result e_err e_ok;
  e_svariant_field : e_svariant -> bytes -> (e_ser -> result e_err e_ok) -> result e_err e_svariant;
  e_svariant_end : e_svariant -> result e_err e_ok
}.

(** ** [ToSerialize], [to_serialize.rs:17-48] *)

(** [Ok(r)] where [r: Result<A, S::Error>]: a [sval_nested::Result] that holds
    the serializer's own one. *)
Definition einner {E A} (r : result E A) : outcome (A + E) :=
  match r with ROk x => OOk (inl x) | RErr e => OOk (inr e) | RPanic => OPanic end.
(** The pattern of all [value_computed] methods, e.g. 313-326.  An error of the
    serializer is stored in [self] (320) and a new one is returned (323-325);
    nobody looks at [self] after that, so the stored one is gone. *)
Definition efeed {E A} (s : A + E) (f : A -> result E A) : outcome (A + E) :=
  match s with
  | inl a => match f a with ROk x => OOk (inl x) | RErr _ => OErr | RPanic => OPanic end
  | inr _ => OErr
  end.
(** The pattern of all [end] methods, e.g. 328-333. *)
Definition eend {E A B} (s : A + E) (f : A -> result E B) : outcome (B + E) :=
  match s with inl a => einner (f a) | inr e => OOk (inr e) end.
(** [.map(|serializer| ..)], 249, 254, 281, 286. *)
Definition rmap {E A B} (g : A -> B) (r : result E A) : result E B := x <~ r ;; ROk (g x).

(** The nested streams [Serializer], 50-308, and those it makes.  [rec] is
    [ToSerialize::serialize] of a child. *)
Definition eserialize_stream (S : eserializer) (rec : list call -> e_ser S -> result (e_err S) (e_ok S)) (k : e_ser S) : nstream :=
  {| n_ok := e_ok S + e_err S;
     n_seq := e_seq S + e_err S;
     n_map := e_map S + e_err S;
     n_tuple := (e_tstruct S + e_tuple S) + e_err S;
     n_record := (e_struct S + e_tuple S) + e_err S;
     n_enum := bytes;
     n_vtuple := e_tvariant S + e_err S;
     n_vrecord := e_svariant S + e_err S;
     n_null := einner (es_none S k);                                       (* 107-109 *)
     n_bool b := einner (es_bool S k b);
     n_int t z := einner (es_int S k t z);
     n_f32 f := einner (es_f32 S k f);
     n_f64 f := einner (es_f64 S k f);
     n_text _ s := einner (es_str S k s);                                  (* 163-165 *)
     n_bin _ s := einner (es_bytes S k s);
     n_tag t l _ :=                                                        (* 171-190 *)
       if otag_is t RUST_OPTION_NONE then einner (es_none S k)
       else if otag_is t RUST_UNIT then einner (es_unit S k)
       else name <- static_of l ;; einner (es_unit_struct S k name);
     n_tagged t l _ v :=                                                   (* 192-215 *)
       if otag_is t RUST_OPTION_SOME then einner (es_some S k (rec (snd v)))
       else name <- static_of l ;; einner (es_newtype_struct S k name (rec (snd v)));
     n_seq_begin n := einner (es_seq S k n);                               (* 217-227 *)
     n_map_begin n := einner (es_map S k n);
     n_tuple_begin _ l _ n :=                                              (* 229-259 *)
       len <- need n ;;
       match l with
       | Some l => name <- need (as_static_str l) ;; einner (rmap inl (es_tuple_struct S k name len))
       | None => einner (rmap inr (es_tuple S k len))
       end;
     n_record_begin _ l _ n :=                                             (* 261-291 *)
       len <- need n ;;
       match l with
       | Some l => name <- need (as_static_str l) ;; einner (rmap inl (es_struct S k name len))
       | None => einner (rmap inr (es_tuple S k len))
       end;
     n_enum_begin _ l _ := static_of l;                                    (* 293-307 *)
     seq_value s v := efeed s (fun s => e_seq_element S s (rec (snd v)));  (* 310-334 *)
     seq_end s := eend s (e_seq_end S);
     map_key s v := efeed s (fun s => e_map_key S s (rec (snd v)));        (* 336-375 *)
     map_value s v := efeed s (fun s => e_map_value S s (rec (snd v)));
     map_end s := eend s (e_map_end S);
     tuple_value s _ _ v :=                                                (* 431-479 *)
       efeed s (fun s => match s with
                         | inl s => rmap inl (e_tstruct_field S s (rec (snd v)))
                         | inr s => rmap inr (e_tuple_element S s (rec (snd v)))
                         end);
     tuple_end s := eend s (fun s => match s with inl s => e_tstruct_end S s | inr s => e_tuple_end S s end);
     record_value s _ l v :=                                               (* 377-429 *)
       match s with
       | inl (inl _) => field <- need (as_static_str l) ;;
                        efeed s (fun s => match s with
                                          | inl s => rmap inl (e_struct_field S s field (rec (snd v)))
                                          | inr s => ROk (inr s)
                                          end)
       | _ => efeed s (fun s => match s with
                                | inr s => rmap inr (e_tuple_element S s (rec (snd v)))
                                | inl s => ROk (inl s)
                                end)
       end;
     record_end s := eend s (fun s => match s with inl s => e_struct_end S s | inr s => e_tuple_end S s end);
     enum_tag name _ l i :=                                                (* 490-509 *)
       variant <- static_of l ;; index <- u32_of i ;; einner (es_unit_variant S k name index variant);
     enum_tagged name _ l i v :=                                           (* 511-534 *)
       variant <- static_of l ;; index <- u32_of i ;;
       einner (es_newtype_variant S k name index variant (rec (snd v)));
     enum_tuple_begin name _ l i n :=                                      (* 536-564 *)
       variant <- static_of l ;; index <- u32_of i ;; len <- need n ;;
       einner (es_tuple_variant S k name index variant len);
     enum_record_begin name _ l i n :=                                     (* 566-594 *)
       variant <- static_of l ;; index <- u32_of i ;; len <- need n ;;
       einner (es_struct_variant S k name index variant len);
     enum_nested _ _ _ _ _ := OErr;                                        (* 596-608 *)
     enum_empty name := einner (es_unit_struct S k name);                  (* 610-612; never called *)
     vtuple_value s _ _ v := efeed s (fun s => e_tvariant_field S s (rec (snd v)));          (* 652-683 *)
     vtuple_end s := eend s (e_tvariant_end S);
     vrecord_value s _ l v :=                                              (* 615-650 *)
       field <- need (as_static_str l) ;; efeed s (fun s => e_svariant_field S s field (rec (snd v)));
     vrecord_end s := eend s (e_svariant_end S)
  |}.

(** [Serialize for ToSerialize], 42-48: an error of [sval_nested] becomes
    [S::Error::custom].  [n] bounds how deeply values may nest; the theorems ask
    for enough. *)
Fixpoint eto_serialize (S : eserializer) (n : nat) (v : list call) (k : e_ser S) : result (e_err S) (e_ok S) :=
  match n with
  | 0 => RErr (e_custom S)
  | Datatypes.S n' =>
      match nested_stream (eserialize_stream S (eto_serialize S n') k) v with
      | OOk (inl x) => ROk x
      | OOk (inr e) => RErr e
      | OErr => RErr (e_custom S)
      | OPanic => RPanic
      end
  end.
