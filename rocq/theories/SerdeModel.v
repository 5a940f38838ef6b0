(** * SerdeModel: [sval_serde], between [sval::Value] and [serde::Serialize]

    [serde/src/to_value.rs] and [serde/src/to_serialize.rs], with the [alloc]
    feature.  Errors are opaque: [S::Error] and the messages are not kept. *)

From Verif Require Import Base Event Tree LowerModel DataModel FragModel StdModel NestedModel.

(** ** [serde::Serializer]

    A family of serializers as the [serde] crate defines them (its [ser] module,
    not in /repo).  [k_ser] is the type of serializer objects, with everything
    they write to; [k_ok] is [S::Ok] with what has been written; the other types
    are the associated compound serializers.  A method taking [self] is a
    function of the object it consumes; one taking [&mut self] returns the new
    object.  A child [&T] where [T: Serialize] can only be serialized, with a
    serializer of the family: it is a function [k_ser -> outcome k_ok].
    Simplifications: [serialize_i8] to [serialize_u128] are one function with
    the type as an argument; [skip_field], [serialize_entry], [collect_seq] and
    [collect_map] keep their defaults. *)
Record serializer := MkSer {
  k_ser : Type; k_ok : Type;
  k_seq : Type; k_tuple : Type; k_tstruct : Type; k_tvariant : Type;
  k_map : Type; k_struct : Type; k_svariant : Type;
  s_bool : k_ser -> bool -> outcome k_ok;
  s_int : k_ser -> ity -> Z -> outcome k_ok;
  s_f32 : k_ser -> float -> outcome k_ok;
  s_f64 : k_ser -> float -> outcome k_ok;
  s_char : k_ser -> N -> outcome k_ok;
  s_str : k_ser -> bytes -> outcome k_ok;
  s_bytes : k_ser -> bytes -> outcome k_ok;
  s_collect_str : k_ser -> list bytes -> outcome k_ok;
  s_none : k_ser -> outcome k_ok;
  s_some : k_ser -> (k_ser -> outcome k_ok) -> outcome k_ok;
  s_unit : k_ser -> outcome k_ok;
  s_unit_struct : k_ser -> bytes -> outcome k_ok;
  s_unit_variant : k_ser -> bytes -> Z -> bytes -> outcome k_ok;
  s_newtype_struct : k_ser -> bytes -> (k_ser -> outcome k_ok) -> outcome k_ok;
  s_newtype_variant : k_ser -> bytes -> Z -> bytes -> (k_ser -> outcome k_ok) -> outcome k_ok;
  s_seq : k_ser -> option N -> outcome k_seq;
  s_tuple : k_ser -> N -> outcome k_tuple;
  s_tuple_struct : k_ser -> bytes -> N -> outcome k_tstruct;
  s_tuple_variant : k_ser -> bytes -> Z -> bytes -> N -> outcome k_tvariant;
  s_map : k_ser -> option N -> outcome k_map;
  s_struct : k_ser -> bytes -> N -> outcome k_struct;
  s_struct_variant : k_ser -> bytes -> Z -> bytes -> N -> outcome k_svariant;
  k_seq_element : k_seq -> (k_ser -> outcome k_ok) -> outcome k_seq;
  k_seq_end : k_seq -> outcome k_ok;
  k_tuple_element : k_tuple -> (k_ser -> outcome k_ok) -> outcome k_tuple;
  k_tuple_end : k_tuple -> outcome k_ok;
  k_tstruct_field : k_tstruct -> (k_ser -> outcome k_ok) -> outcome k_tstruct;
  k_tstruct_end : k_tstruct -> outcome k_ok;
  k_tvariant_field : k_tvariant -> (k_ser -> outcome k_ok) -> outcome k_tvariant;
  k_tvariant_end : k_tvariant -> outcome k_ok;
  k_map_key : k_map -> (k_ser -> outcome k_ok) -> outcome k_map;
  k_map_value : k_map -> (k_ser -> outcome k_ok) -> outcome k_map;
  k_map_end : k_map -> outcome k_ok;
  k_struct_field : k_struct -> bytes -> (k_ser -> outcome k_ok) -> outcome k_struct;
  k_struct_end : k_struct -> outcome k_ok;
  k_svariant_field : k_svariant -> bytes -> (k_ser -> outcome k_ok) -> outcome k_svariant;
  k_svariant_end : k_svariant -> outcome k_ok
}.

(** ** A [serde::Serialize] value

    What its [serialize] does: one method of the serializer, with values as
    children.  [ok = false]: it gives up with an error after those fields.
    [DFail]: it gives up at once. *)
Inductive sdata :=
| DBool (b : bool)
| DInt (t : ity) (z : Z)
| DF32 (f : float)
| DF64 (f : float)
| DChar (c : N)
| DStr (s : bytes)
| DBytes (s : bytes)
| DDisplay (fs : list bytes)
| DNone
| DSome (v : sdata)
| DUnit
| DUnitStruct (name : bytes)
| DUnitVariant (name : bytes) (i : Z) (variant : bytes)
| DNewtypeStruct (name : bytes) (v : sdata)
| DNewtypeVariant (name : bytes) (i : Z) (variant : bytes) (v : sdata)
| DSeq (len : option N) (vs : list sdata)
| DTuple (len : N) (vs : list sdata)
| DTupleStruct (name : bytes) (len : N) (vs : list sdata)
| DTupleVariant (name : bytes) (i : Z) (variant : bytes) (len : N) (vs : list sdata)
| DMap (len : option N) (es : list (sdata * sdata))
| DStruct (name : bytes) (len : N) (fs : list (bytes * sdata)) (ok : bool)
| DStructVariant (name : bytes) (i : Z) (variant : bytes) (len : N) (fs : list (bytes * sdata)) (ok : bool)
| DFail.

(** The loop over the children, ended by the first error. *)
Section Each.
  Context {St A : Type} (f : St -> A -> outcome St).
  Fixpoint each (s : St) (l : list A) : outcome St :=
    match l with [] => OOk s | x :: l' => s' <- f s x ;; each s' l' end.
End Each.

(** Serializing it directly: [x.serialize(k)]. *)
Fixpoint ser (S : serializer) (x : sdata) (k : k_ser S) : outcome (k_ok S) :=
  match x with
  | DBool b => s_bool S k b
  | DInt t z => s_int S k t z
  | DF32 f => s_f32 S k f
  | DF64 f => s_f64 S k f
  | DChar c => s_char S k c
  | DStr s => s_str S k s
  | DBytes s => s_bytes S k s
  | DDisplay fs => s_collect_str S k fs
  | DNone => s_none S k
  | DSome v => s_some S k (ser S v)
  | DUnit => s_unit S k
  | DUnitStruct name => s_unit_struct S k name
  | DUnitVariant name i variant => s_unit_variant S k name i variant
  | DNewtypeStruct name v => s_newtype_struct S k name (ser S v)
  | DNewtypeVariant name i variant v => s_newtype_variant S k name i variant (ser S v)
  | DSeq n vs =>
      s <- s_seq S k n ;; s <- each (fun s v => k_seq_element S s (ser S v)) s vs ;; k_seq_end S s
  | DTuple n vs =>
      s <- s_tuple S k n ;; s <- each (fun s v => k_tuple_element S s (ser S v)) s vs ;; k_tuple_end S s
  | DTupleStruct name n vs =>
      s <- s_tuple_struct S k name n ;; s <- each (fun s v => k_tstruct_field S s (ser S v)) s vs ;; k_tstruct_end S s
  | DTupleVariant name i variant n vs =>
      s <- s_tuple_variant S k name i variant n ;;
      s <- each (fun s v => k_tvariant_field S s (ser S v)) s vs ;; k_tvariant_end S s
  | DMap n es =>
      s <- s_map S k n ;;
      s <- each (fun s e => match e with (a, b) => s <- k_map_key S s (ser S a) ;; k_map_value S s (ser S b) end) s es ;;
      k_map_end S s
  | DStruct name n fs ok =>
      s <- s_struct S k name n ;;
      s <- each (fun s f => match f with (l, v) => k_struct_field S s l (ser S v) end) s fs ;;
      if ok then k_struct_end S s else OErr
  | DStructVariant name i variant n fs ok =>
      s <- s_struct_variant S k name i variant n ;;
      s <- each (fun s f => match f with (l, v) => k_svariant_field S s l (ser S v) end) s fs ;;
      if ok then k_svariant_end S s else OErr
  | DFail => OErr
  end.

(** ** [ToValue], [to_value.rs:18-46]

    The serializer [Stream], 48-634.  It writes to a [sval::Stream]: what has
    been written is the list of calls made on it.  [OErr]: a child gave up; the
    calls made before that are not kept. *)

(** [stream_value], 110-116. *)
Definition stream_value (cs : list call) : outcome (list call) := OOk [CVC cs].
(** [self.stream.value_computed(&ToValue(value))]. *)
Definition child_value (c : unit -> outcome (list call)) : outcome (list call) := cs <- c tt ;; OOk [CVC cs].
Definition static (s : bytes) : option label := Some (label_new s).
(** [serialize_element] and [serialize_field] of [StreamTuple], 439-460, 469-490,
    and of [StreamTupleVariant], 499-520: the index counts the fields. *)
Definition tuple_field (s : Z) (c : unit -> outcome (list call)) : outcome (list call) :=
  cs <- child_value c ;;
  OOk (CE (ETupleValBegin None (index_new s)) :: cs ++ [CE (ETupleValEnd None (index_new s))]).
(** [serialize_field] of [StreamRecord], 573-594, and [StreamRecordVariant],
    603-624. *)
Definition record_field (key : bytes) (c : unit -> outcome (list call)) : outcome (list call) :=
  cs <- child_value c ;;
  OOk (CE (ERecordValBegin None (label_new key)) :: cs ++ [CE (ERecordValEnd None (label_new key))]).

Definition stream_ser : serializer :=
  {| k_ser := unit; k_ok := list call;
     k_seq := list call;
     k_tuple := list call * option label * Z;
     k_tstruct := list call * option label * Z;
     k_tvariant := list call * (bytes * Z * bytes) * Z;
     k_map := list call;
     k_struct := list call * option label;
     k_svariant := list call * (bytes * Z * bytes);
     s_bool _ b := stream_value (calls (RBool b));                         (* 130-132 *)
     s_int _ t z := stream_value (calls (RInt t z));                       (* 134-172 *)
     s_f32 _ f := stream_value (calls (RF32 f));                           (* 174-180 *)
     s_f64 _ f := stream_value (calls (RF64 f));
     s_char _ c := stream_value (calls (RChar c));                         (* 182-184 *)
     s_str _ s := stream_value (calls (RStr s));                           (* 186-188 *)
     s_bytes _ s := stream_value (calls (RBinarySlice s));                 (* 198-200 *)
     (* [sval::stream_display], [src/data/text.rs:58-63]: [stream.value_computed(&Display::new(value))] *)
     s_collect_str _ fs := OOk (calls (RShown fs true));                   (* 190-196 *)
     s_none _ := stream_value (calls RNone);                               (* 202-204 *)
     s_some _ c :=                                                         (* 206-211; only the calls of the child matter *)
       cs <- c tt ;; stream_value (calls (RSome (ROther cs TNull)));
     s_unit _ := stream_value (calls RUnit);                               (* 213-215 *)
     s_unit_struct _ name := OOk [CE (ETag None (static name) None)];      (* 217-221 *)
     s_unit_variant _ name i variant :=                                    (* 223-242 *)
       OOk [CE (EEnumBegin None (static name) None);
            CE (ETag None (static variant) (Some (index_new i)));
            CE (EEnumEnd None (static name) None)];
     s_newtype_struct _ name c :=                                          (* 244-261 *)
       cs <- child_value c ;;
       OOk (CE (ETaggedBegin None (static name) None) :: cs ++ [CE (ETaggedEnd None (static name) None)]);
     s_newtype_variant _ name i variant c :=                               (* 263-296 *)
       cs <- child_value c ;;
       OOk (CE (EEnumBegin None (static name) None) ::
            CE (ETaggedBegin None (static variant) (Some (index_new i))) :: cs ++
            [CE (ETaggedEnd None (static variant) (Some (index_new i)));
             CE (EEnumEnd None (static name) None)]);
     s_seq _ n := OOk [CE (ESeqBegin n)];                                  (* 298-304 *)
     s_tuple _ n := OOk ([CE (ETupleBegin None None None (Some n))], None, 0%Z);             (* 306-316 *)
     s_tuple_struct _ name n :=                                            (* 318-332 *)
       OOk ([CE (ETupleBegin None (static name) None (Some n))], static name, 0%Z);
     s_tuple_variant _ name i variant n :=                                 (* 334-360 *)
       OOk ([CE (EEnumBegin None (static name) None);
             CE (ETupleBegin None (static variant) (Some (index_new i)) (Some n))], (name, i, variant), 0%Z);
     s_map _ n := OOk [CE (EMapBegin n)];                                  (* 362-368 *)
     s_struct _ name n :=                                                  (* 370-383 *)
       OOk ([CE (ERecordBegin None (static name) None (Some n))], static name);
     s_struct_variant _ name i variant n :=                                (* 385-410 *)
       OOk ([CE (EEnumBegin None (static name) None);
             CE (ERecordBegin None (static variant) (Some (index_new i)) (Some n))], (name, i, variant));
     (* 413-437; 462-466; 492-496; 522-529 *)
     k_seq_element s c := cs <- child_value c ;; OOk (s ++ CE ESeqValBegin :: cs ++ [CE ESeqValEnd]);
     k_seq_end s := OOk (s ++ [CE ESeqEnd]);
     k_tuple_element s c := match s with (s, l, i) => cs <- tuple_field i c ;; OOk (s ++ cs, l, (i + 1)%Z) end;
     k_tuple_end s := match s with (s, l, _) => OOk (s ++ [CE (ETupleEnd None l None)]) end;
     k_tstruct_field s c := match s with (s, l, i) => cs <- tuple_field i c ;; OOk (s ++ cs, l, (i + 1)%Z) end;
     k_tstruct_end s := match s with (s, l, _) => OOk (s ++ [CE (ETupleEnd None l None)]) end;
     k_tvariant_field s c := match s with (s, l, i) => cs <- tuple_field i c ;; OOk (s ++ cs, l, (i + 1)%Z) end;
     k_tvariant_end s := match s with (s, (name, i, variant), _) =>
       OOk (s ++ [CE (ETupleEnd None (static variant) (Some (index_new i))); CE (EEnumEnd None (static name) None)]) end;
     (* 532-571; 596-600; 626-633 *)
     k_map_key s c := cs <- child_value c ;; OOk (s ++ CE EMapKeyBegin :: cs ++ [CE EMapKeyEnd]);
     k_map_value s c := cs <- child_value c ;; OOk (s ++ CE EMapValBegin :: cs ++ [CE EMapValEnd]);
     k_map_end s := OOk (s ++ [CE EMapEnd]);
     k_struct_field s key c := match s with (s, l) => cs <- record_field key c ;; OOk (s ++ cs, l) end;
     k_struct_end s := match s with (s, l) => OOk (s ++ [CE (ERecordEnd None l None)]) end;
     k_svariant_field s key c := match s with (s, l) => cs <- record_field key c ;; OOk (s ++ cs, l) end;
     k_svariant_end s := match s with (s, (name, i, variant)) =>
       OOk (s ++ [CE (ERecordEnd None (static variant) (Some (index_new i))); CE (EEnumEnd None (static name) None)]) end
  |}.

(** [sval::Value for ToValue], 40-46: the calls it makes on a stream. *)
Definition to_value (x : sdata) : outcome (list call) := ser stream_ser x tt.

(** ** [ToSerialize], [to_serialize.rs:17-48] *)

(** [Ok(r)] where [r: Result<S::Ok, S::Error>]. *)
Definition inner {A} (r : outcome A) : outcome (option A) :=
  match r with OOk x => OOk (Some x) | OErr => OOk None | OPanic => OPanic end.
(** The pattern of all [value_computed] methods, e.g. 313-326: a failure, now or
    before, is an error. *)
Definition feed {A} (s : option A) (f : A -> outcome A) : outcome (option A) :=
  match s with Some a => x <- f a ;; OOk (Some x) | None => OErr end.
(** [label.and_then(|label| label.as_static_str())] followed by [ok_or_else(..)?]. *)
Definition need {A} (o : option A) : outcome A := match o with Some a => OOk a | None => OErr end.
Definition static_of (l : option label) : outcome bytes :=
  match l with Some l => need (as_static_str l) | None => OErr end.
(** [index.and_then(|index| index.to_u32())]. *)
Definition u32_of (i : option index) : outcome Z :=
  match i with Some i => need (index_to U32 i) | None => OErr end.

(** The nested streams [Serializer], 50-308, and those it makes.  [rec] is
    [ToSerialize::serialize] of a child. *)
Definition serialize_stream (S : serializer) (rec : list call -> k_ser S -> outcome (k_ok S)) (k : k_ser S) : nstream :=
  {| n_ok := option (k_ok S);
     n_seq := option (k_seq S);
     n_map := option (k_map S);
     n_tuple := option (k_tstruct S + k_tuple S);
     n_record := option (k_struct S + k_tuple S);
     n_enum := bytes;
     n_vtuple := option (k_tvariant S);
     n_vrecord := option (k_svariant S);
     n_null := inner (s_none S k);                                         (* 107-109 *)
     n_bool b := inner (s_bool S k b);
     n_int t z := inner (s_int S k t z);
     n_f32 f := inner (s_f32 S k f);
     n_f64 f := inner (s_f64 S k f);
     n_text _ s := inner (s_str S k s);                                    (* 163-165; [text], [binary] and [tagged] default to these *)
     n_bin _ s := inner (s_bytes S k s);
     n_tag t l _ :=                                                        (* 171-190 *)
       if otag_is t RUST_OPTION_NONE then inner (s_none S k)
       else if otag_is t RUST_UNIT then inner (s_unit S k)
       else name <- static_of l ;; inner (s_unit_struct S k name);
     n_tagged t l _ v :=                                                   (* 192-215 *)
       if otag_is t RUST_OPTION_SOME then inner (s_some S k (rec (snd v)))
       else name <- static_of l ;; inner (s_newtype_struct S k name (rec (snd v)));
     n_seq_begin n := inner (s_seq S k n);                                 (* 217-227 *)
     n_map_begin n := inner (s_map S k n);
     n_tuple_begin _ l _ n :=                                              (* 229-259 *)
       len <- need n ;;
       match l with
       | Some l => name <- need (as_static_str l) ;; inner (s <- s_tuple_struct S k name len ;; OOk (inl s))
       | None => inner (s <- s_tuple S k len ;; OOk (inr s))
       end;
     n_record_begin _ l _ n :=                                             (* 261-291 *)
       len <- need n ;;
       match l with
       | Some l => name <- need (as_static_str l) ;; inner (s <- s_struct S k name len ;; OOk (inl s))
       | None => inner (s <- s_tuple S k len ;; OOk (inr s))
       end;
     n_enum_begin _ l _ := static_of l;                                    (* 293-307 *)
     seq_value s v := feed s (fun s => k_seq_element S s (rec (snd v)));   (* 310-334 *)
     seq_end s := match s with Some s => inner (k_seq_end S s) | None => OOk None end;
     map_key s v := feed s (fun s => k_map_key S s (rec (snd v)));         (* 336-375 *)
     map_value s v := feed s (fun s => k_map_value S s (rec (snd v)));
     map_end s := match s with Some s => inner (k_map_end S s) | None => OOk None end;
     tuple_value s _ _ v :=                                                (* 431-479 *)
       feed s (fun s => match s with
                        | inl s => x <- k_tstruct_field S s (rec (snd v)) ;; OOk (inl x)
                        | inr s => x <- k_tuple_element S s (rec (snd v)) ;; OOk (inr x)
                        end);
     tuple_end s :=
       match s with Some (inl s) => inner (k_tstruct_end S s) | Some (inr s) => inner (k_tuple_end S s) | None => OOk None end;
     record_value s _ l v :=                                               (* 377-429 *)
       feed s (fun s => match s with
                        | inl s => field <- need (as_static_str l) ;;
                                   x <- k_struct_field S s field (rec (snd v)) ;; OOk (inl x)
                        | inr s => x <- k_tuple_element S s (rec (snd v)) ;; OOk (inr x)
                        end);
     record_end s :=
       match s with Some (inl s) => inner (k_struct_end S s) | Some (inr s) => inner (k_tuple_end S s) | None => OOk None end;
     enum_tag name _ l i :=                                                (* 490-509 *)
       variant <- static_of l ;; index <- u32_of i ;; inner (s_unit_variant S k name index variant);
     enum_tagged name _ l i v :=                                           (* 511-534 *)
       variant <- static_of l ;; index <- u32_of i ;;
       inner (s_newtype_variant S k name index variant (rec (snd v)));
     enum_tuple_begin name _ l i n :=                                      (* 536-564 *)
       variant <- static_of l ;; index <- u32_of i ;; len <- need n ;;
       inner (s_tuple_variant S k name index variant len);
     enum_record_begin name _ l i n :=                                     (* 566-594 *)
       variant <- static_of l ;; index <- u32_of i ;; len <- need n ;;
       inner (s_struct_variant S k name index variant len);
     enum_nested _ _ _ _ _ := OErr;                                        (* 596-608 *)
     enum_empty name := inner (s_unit_struct S k name);                    (* 610-612; never called *)
     vtuple_value s _ _ v := feed s (fun s => k_tvariant_field S s (rec (snd v)));            (* 652-683 *)
     vtuple_end s := match s with Some s => inner (k_tvariant_end S s) | None => OOk None end;
     vrecord_value s _ l v :=                                              (* 615-650 *)
       field <- need (as_static_str l) ;; feed s (fun s => k_svariant_field S s field (rec (snd v)));
     vrecord_end s := match s with Some s => inner (k_svariant_end S s) | None => OOk None end
  |}.

(** [Serialize for ToSerialize], 42-48.  [n] bounds how deeply values may nest;
    the theorems ask for enough. *)
Fixpoint to_serialize (S : serializer) (n : nat) (v : list call) (k : k_ser S) : outcome (k_ok S) :=
  match n with
  | 0 => OErr
  | Datatypes.S n' =>
      r <- nested_stream (serialize_stream S (to_serialize S n') k) v ;;
      match r with Some x => OOk x | None => OErr end
  end.
