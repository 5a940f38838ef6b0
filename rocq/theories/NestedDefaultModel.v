(** * NestedDefaultModel: the default methods of [sval_nested::Stream]

    [nested/src/lib.rs:66-687] gives every method of the nested traits but a few
    a default body, in [default_stream], [lib.rs:925-1304].  Here a stream is
    reduced to the methods its author must write, and the others get those
    bodies. *)

From Verif Require Import Base Event LowerModel DataModel FragModel BufferModel NestedModel.

Section Defaults.
(** The author's stream.  Of its methods only the required ones are looked at:
    [null], [bool], [i64], [f64], [text_computed], the [_begin] methods, and for
    the containers the [_computed] methods, [end], and the methods of
    [StreamEnum] but [tagged]. *)
Variable S : nstream.
(** [self.value(v)] ([false]) and [self.value_computed(v)] ([true]) on the
    stream itself: see [level]. *)
Variable back : bool -> list call -> outcome (n_ok S).

(** [i64], [f64], [text_computed] as written by the author. *)
Definition req_i64 (z : Z) : outcome (n_ok S) := n_int S I64 z.
Definition req_text (s : bytes) : outcome (n_ok S) := n_text S false s.

(** [u128] and [i128], [lib.rs:1031-1039] and 990-998: [stream_number] into a new
    [FlatStream] around the stream, its result ignored, then [finish]. *)
Definition def_128 (z : Z) : outcome (n_ok S) :=
  if fits I64 z then req_i64 z else back false (stream_number_calls z).
(** [u64], 1024-1026; [u32], 1017-1019; [u16], 1010-1012; [u8], 1003-1005;
    [i32], 983-985; [i16], 976-978; [i8], 969-971.  The casts [as] are to a wider
    type of the same signedness and keep the value. *)
Definition def_u64 (z : Z) := def_128 z.
Definition def_u32 (z : Z) := def_u64 z.
Definition def_u16 (z : Z) := def_u32 z.
Definition def_u8 (z : Z) := def_u16 z.
Definition def_i32 (z : Z) := req_i64 z.
Definition def_i16 (z : Z) := def_i32 z.
Definition def_i8 (z : Z) := def_i16 z.
Definition def_int (t : ity) (z : Z) : outcome (n_ok S) :=
  match t with
  | U8 => def_u8 z | U16 => def_u16 z | U32 => def_u32 z | U64 => def_u64 z | U128 => def_128 z
  | I8 => def_i8 z | I16 => def_i16 z | I32 => def_i32 z | I64 => req_i64 z | I128 => def_128 z
  end.

(** [tagged_computed], 1159-1169; [tagged], 1133-1141. *)
Definition def_tagged (t : option tag) (l : option label) (i : option index) (v : list call) : outcome (n_ok S) :=
  back true v.

(** [Tag::stream_ref], 1098-1118, of [default_stream::tag]. *)
Definition tag_value (t : option tag) (l : option label) : list call :=
  if otag_is t RUST_OPTION_NONE then [CE ENull]
  else match l with Some l => label_calls l | None => [CE ENull] end.
(** [tag], 1078-1128. *)
Definition def_tag (t : option tag) (l : option label) (i : option index) : outcome (n_ok S) :=
  def_tagged t l i (tag_value t l).

(** [binary_computed], 1065-1073; [binary], 1058-1060. *)
Fixpoint each_byte (s : n_seq S) (b : bytes) : outcome (n_seq S) :=
  match b with
  | [] => OOk s
  | x :: b' => s' <- seq_value S s (false, [CE (EInt U8 (byte_val x))]) ;; each_byte s' b'
  end.
Definition def_bin (b : bytes) : outcome (n_ok S) :=
  s <- n_seq_begin S (Some (N.of_nat (List.length b))) ;; s' <- each_byte s b ;; seq_end S s'.

(** The stream with the default methods.  [f32], 1044-1046; [text], 1051-1053;
    [seq_value], 1174-1179; [map_key], 1194-1199; [map_value], 1214-1219;
    [tuple_value], 1234-1241; [record_value], 1258-1265; [enum_tagged],
    1282-1290: each calls its [_computed] form.  The [_ref] forms (949-954,
    1146-1154, 1184-1189, 1204-1209, 1224-1229, 1246-1253, 1270-1277, 1295-1303)
    call the plain ones and are reached by no other method. *)
Definition defaulted : nstream :=
  {| n_ok := n_ok S; n_seq := n_seq S; n_map := n_map S; n_tuple := n_tuple S; n_record := n_record S;
     n_enum := n_enum S; n_vtuple := n_vtuple S; n_vrecord := n_vrecord S;
     n_null := n_null S;
     n_bool := n_bool S;
     n_int := def_int;
     n_f32 f := n_f64 S (f32_to_f64 f);
     n_f64 := n_f64 S;
     n_text _ s := req_text s;
     n_bin _ s := def_bin s;
     n_tag := def_tag;
     n_tagged t l i a := def_tagged t l i (snd a);
     n_seq_begin := n_seq_begin S;
     n_map_begin := n_map_begin S;
     n_tuple_begin := n_tuple_begin S;
     n_record_begin := n_record_begin S;
     n_enum_begin := n_enum_begin S;
     seq_value s a := seq_value S s (false, snd a);
     seq_end := seq_end S;
     map_key s a := map_key S s (false, snd a);
     map_value s a := map_value S s (false, snd a);
     map_end := map_end S;
     tuple_value s t i a := tuple_value S s t i (false, snd a);
     tuple_end := tuple_end S;
     record_value s t l a := record_value S s t l (false, snd a);
     record_end := record_end S;
     enum_tag := enum_tag S;
     enum_tagged e t l i a := enum_tagged S e t l i (false, snd a);
     enum_tuple_begin := enum_tuple_begin S;
     enum_record_begin := enum_record_begin S;
     enum_nested := enum_nested S;
     enum_empty := enum_empty S;
     vtuple_value s t i a := vtuple_value S s t i (false, snd a);
     vtuple_end := vtuple_end S;
     vrecord_value s t l a := vrecord_value S s t l (false, snd a);
     vrecord_end := vrecord_end S |}.
End Defaults.

(** [value], [lib.rs:935-942], and [value_computed], 957-964, of a stream that
    keeps the defaults.  The default methods stream into the stream itself again;
    [n] bounds how often.  [OPanic] stands for running out, which the theorems
    exclude. *)
Fixpoint level (S : nstream) (n : nat) (computed : bool) (v : list call) : outcome (n_ok S) :=
  match n with
  | 0 => OPanic
  | Datatypes.S n' => nested_value (S := defaulted S (level S n')) computed v
  end.
