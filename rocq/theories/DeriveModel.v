(** * DeriveModel: [#[derive(Value)]]

    [derive_macros/src]: what the macro makes of a type definition, and what the
    code it generates does with a value of that type.  The two stages are kept
    apart: [derive] is the macro ([None] is a panic of the macro, which is a
    compile error), [derived_stream] runs the code it produced.

    A definition is given with its [sval] attributes already parsed; AttrModel.v
    models the parsing ([attr.rs]), the refusal of duplicates and of unknown names.
    Generics and bounds ([bound.rs]) do not affect what is streamed and are not
    modelled.  The [flatten] Cargo feature is on. *)

From Verif Require Import Base Event DataModel FlattenModel.

(** ** Definitions *)

(** [IndexValue], [index.rs:63-67]: a literal, or a path to a constant.  What
    [Index::from] makes of the constant is an argument, known to the generated
    code but not to the macro. *)
Inductive index_value := IConst (k : Z) | IIdent (i : index).
(** [LabelValue], [label.rs:3-7]; the path leads to a [Label]. *)
Inductive label_value := LConst (s : bytes) | LIdent (l : label).

(** A field: its name without [r#] ([None] in a tuple struct) and the
    attributes of [stream_record_tuple.rs:56-67]. *)
Record field_def := MkField {
  fd_name : option bytes;
  fd_tag : option tag;
  fd_data_tag : option tag;
  fd_label : option label_value;
  fd_index : option index_value;
  fd_skip : option bool;
  fd_flatten : option bool }.

Inductive fields_def := FsUnit | FsNamed (fs : list field_def) | FsUnnamed (fs : list field_def).

(** The attributes of a struct, a newtype, a unit struct or a variant. *)
Record attrs := MkAttrs {
  at_tag : option tag;
  at_label : option label_value;
  at_index : option index_value;
  at_unlabeled : option bool;      (* unlabeled_fields *)
  at_unindexed : option bool;      (* unindexed_fields *)
  at_transparent : option bool }.

(** A discriminant as [attr::IndexAttr.try_from_expr] sees it
    ([attr.rs:130-149]): an integer literal, perhaps negated; a path; another
    literal (the macro panics, [attr.rs:118-124]); any other expression (ignored).
    [v] is the discriminant's value. *)
Inductive discriminant := DLit (v : Z) | DPath (i : index) | DOtherLit (v : Z) | DExpr (v : Z).

Record variant_def := MkVariant {
  vd_name : bytes;
  vd_attrs : attrs;
  vd_disc : option discriminant;
  vd_fields : fields_def }.

(** [EnumAttrs], [derive_enum.rs:16-23]. *)
Record enum_attrs := MkEnumAttrs {
  ea_tag : option tag;
  ea_label : option label_value;
  ea_index : option index_value;
  ea_unlabeled : option bool;      (* unlabeled_variants *)
  ea_unindexed : option bool;      (* unindexed_variants *)
  ea_dynamic : option bool }.

Inductive type_def :=
| DStruct (name : bytes) (a : attrs) (fs : fields_def)
| DEnum (name : bytes) (a : enum_attrs) (vs : list variant_def).

Definition flag (o : option bool) : bool := match o with Some b => b | None => false end.
Definition absent {A} (o : option A) : bool := match o with None => true | Some _ => false end.

(** ** The macro *)

(** The tokens an index is quoted from: a literal, a path, or the block that
    reads the run-time counter and increments it ([index.rs:58-62]). *)
Inductive iexpr := XLit (k : Z) | XPath (i : index) | XCounter.
(** [Index], [index.rs:74-78]. *)
Inductive mindex := MImplicit (e : iexpr) | MExplicit (e : iexpr).

(** [IndexAllocator], [index.rs:1-4]. *)
Record alloc := MkAlloc { al_next : Z; al_explicit : bool }.
(** [IndexAllocator::new], [index.rs:7-12]. *)
Definition alloc_new : alloc := MkAlloc 0 false.

(** [IndexAllocator::const_index_of], [index.rs:14-19]. *)
Definition const_index_of (v : index_value) : mindex :=
  match v with
  | IConst k => MExplicit (XLit k)
  | IIdent i => MExplicit (XPath i)
  end.

(** [IndexAllocator::next_const_index], [index.rs:21-46]; [None] when the
    [isize] addition overflows. *)
Definition next_const_index (a : alloc) (explicit : option index_value) : option (mindex * alloc) :=
  match explicit with
  | Some v =>
      let k := match v with IConst k => k | IIdent _ => al_next a end in
      if fits isize (k + 1) then Some (const_index_of v, MkAlloc (k + 1) true) else None
  | None =>
      let k := al_next a in
      if fits isize (k + 1)
      then Some (if al_explicit a then MExplicit (XLit k) else MImplicit (XLit k),
                 MkAlloc (k + 1) (al_explicit a))
      else None
  end.

(** [IndexAllocator::next_computed_index], [index.rs:47-60]. *)
Definition next_computed_index (a : alloc) (explicit : option index_value) : option (mindex * alloc) :=
  match next_const_index a explicit with
  | Some (MImplicit _, a) => Some (MImplicit XCounter, a)
  | r => r
  end.

(** [explicit_label] and [ident_label] followed by [quote_label]:
    [label.rs:16-28, 47-55]. *)
Definition quote_explicit (v : label_value) : label :=
  match v with LConst s => label_new s | LIdent l => l end.
Definition quote_ident (s : bytes) : label := label_with_tag (label_new s) VALUE_IDENT.
(** [label_or_ident], [label.rs:30-34]. *)
Definition label_or_ident (v : option label_value) (ident : bytes) : label :=
  match v with Some v => quote_explicit v | None => quote_ident ident end.
(** [optional_label_or_ident], [label.rs:36-43]; [get_label],
    [stream_record_tuple.rs:278-283]. *)
Definition optional_label_or_ident (v : option label_value) (ident : option bytes) : option label :=
  match v with
  | Some v => Some (quote_explicit v)
  | None => option_map quote_ident ident
  end.

(** The code of one field, [stream_record_tuple.rs:123-187]: the block around
    the field's value, or a call of [flatten_to_*].  [n] is the number in the
    binding [field{n}] ([get_field], 264-276). *)
Inductive stmt :=
| SField (kind : fkind) (t : option tag) (l : label) (i : mindex) (data_tag : option tag) (n : nat)
| SFlatten (kind : fkind) (n : nat).

(** A match arm of the generated code. *)
Inductive arm :=
(* [stream_tag], [stream_tag.rs:10-23] *)
| ATag (t : option tag) (l : option label) (i : option mindex)
(* [stream_newtype], [stream_newtype.rs:11-40], transparent or not *)
| ATransparent
| ANewtype (t : option tag) (l : option label) (i : option mindex)
(* [stream_record_tuple], [stream_record_tuple.rs:208-261] *)
| AFields (kind : fkind) (t : option tag) (l : option label) (i : option mindex)
          (count : option N) (body : list stmt).

(** The variables of the loop of [stream_record_tuple] (42-53). *)
Record loop := MkLoop {
  lo_alloc : alloc; lo_target : fkind;
  lo_count : N; lo_labeled : N; lo_indexed : N; lo_const : bool;
  lo_body : list stmt }.

(** The labels and indexes of [SField] that its kind does not use. *)
Definition no_label : label := label_new [].
Definition no_index : mindex := MExplicit (XLit 0).

(** One iteration, [stream_record_tuple.rs:55-191]. *)
Definition field_iter (unlabeled unindexed : bool) (lo : loop) (n : nat) (f : field_def) : option loop :=
  if flag (fd_skip f) then Some lo
  else if unlabeled && negb (absent (fd_label f)) then None
  else if unindexed && negb (absent (fd_index f)) then None
  else
    let label := if unlabeled then None else optional_label_or_ident (fd_label f) (fd_name f) in
    match (if unindexed then Some (None, lo_alloc lo)
           else option_map (fun r => match r with (i, a) => (Some i, a) end)
                           (next_computed_index (lo_alloc lo) (fd_index f))) with
    | None => None
    | Some (index, a) =>
        let flatten := flag (fd_flatten f) in
        let kind := match label, index with
                    | Some _, Some _ => FRecTup
                    | None, Some _ => FTuple
                    | Some _, None => FRecord
                    | None, None => FSeq
                    end in
        let s := if flatten then SFlatten kind n
                 else SField kind (fd_tag f)
                        (match label with Some l => l | None => no_label end)
                        (match index with Some i => i | None => no_index end)
                        (fd_data_tag f) n in
        Some (MkLoop a kind (lo_count lo + 1)
                (match label with Some _ => lo_labeled lo + 1 | None => lo_labeled lo end)
                (match index with Some _ => lo_indexed lo + 1 | None => lo_indexed lo end)
                (lo_const lo && negb flatten)
                (lo_body lo ++ [s]))
    end%N.

Fixpoint field_loop (unlabeled unindexed : bool) (lo : loop) (n : nat) (fs : list field_def) : option loop :=
  match fs with
  | [] => Some lo
  | f :: fs' =>
      match field_iter unlabeled unindexed lo n f with
      | Some lo => field_loop unlabeled unindexed lo (S n) fs'
      | None => None
      end
  end.

(** [stream_record_tuple], [stream_record_tuple.rs:28-262]. *)
Definition stream_record_tuple (target : fkind) (fs : list field_def)
    (t : option tag) (l : option label) (i : option mindex) (unlabeled unindexed : bool) : option arm :=
  match field_loop unlabeled unindexed (MkLoop alloc_new target 0 0 0 true []) 0 fs with
  | Some lo =>
      if ((lo_labeled lo =? 0) || (lo_labeled lo =? lo_count lo))%N
         && ((lo_indexed lo =? 0) || (lo_indexed lo =? lo_count lo))%N
      then Some (AFields (lo_target lo) t l i
                   (if lo_const lo then Some (lo_count lo) else None) (lo_body lo))
      else None
  | None => None
  end.

(** [attr::ensure_empty("newtype field")], [stream_newtype.rs:19]. *)
Definition no_attrs (f : field_def) : bool :=
  absent (fd_tag f) && absent (fd_data_tag f) && absent (fd_label f) && absent (fd_index f)
  && absent (fd_skip f) && absent (fd_flatten f).

(** [NewtypeAttrs::from_attrs], [derive_newtype.rs:19-49]. *)
Definition newtype_attrs (a : attrs) : bool :=
  absent (at_unlabeled a) && absent (at_unindexed a)
  && (negb (flag (at_transparent a)) || absent (at_tag a) && absent (at_label a) && absent (at_index a)).
(** [UnitStructAttrs::from_attrs], [derive_unit_struct.rs:18-36]. *)
Definition unit_attrs (a : attrs) : bool :=
  absent (at_unlabeled a) && absent (at_unindexed a) && absent (at_transparent a).
(** [StructAttrs::from_attrs], [derive_struct.rs:20-50]. *)
Definition struct_attrs (a : attrs) : bool := absent (at_transparent a).

(** The generated implementation: what is around the match, and its arms. *)
Record impl := MkImpl {
  im_enum : option (option tag * option label * option mindex);
  im_arms : list arm;
  (* [fn tag], [derive.rs:55-76]: [None] when it is not overridden *)
  im_tag : option (option tag) }.

(** [derive_unit_struct.rs:51-84], [derive_newtype.rs:69-105],
    [derive_struct.rs:73-117], as chosen in [derive.rs:15-37]. *)
Definition derive_struct (name : bytes) (a : attrs) (fs : fields_def) : option impl :=
  let l := Some (label_or_ident (at_label a) name) in
  let i := option_map const_index_of (at_index a) in
  match
    match fs with
    | FsUnit => if unit_attrs a then Some (ATag (at_tag a) l i) else None
    | FsUnnamed [f] =>
        if newtype_attrs a && no_attrs f
        then Some (if flag (at_transparent a) then ATransparent else ANewtype (at_tag a) l i) else None
    | FsNamed fs =>
        if struct_attrs a
        then stream_record_tuple FRecTup fs (at_tag a) l i (flag (at_unlabeled a)) (flag (at_unindexed a))
        else None
    | FsUnnamed fs =>
        if struct_attrs a
        then stream_record_tuple FTuple fs (at_tag a) l i (flag (at_unlabeled a)) (flag (at_unindexed a))
        else None
    end
  with
  | Some arm => Some (MkImpl None [arm] (Some (at_tag a)))
  | None => None
  end.

(** [EnumAttrs::from_attrs], [derive_enum.rs:49-56]. *)
Definition enum_attrs_ok (a : enum_attrs) : bool :=
  negb (flag (ea_dynamic a))
  || absent (ea_tag a) && absent (ea_label a) && absent (ea_index a)
     && negb (flag (ea_unlabeled a)) && negb (flag (ea_unindexed a)).

(** [derive_enum.rs:140-143] with [attr.rs:130-149]: the outer [None] is a
    panic. *)
Definition disc_value (d : option discriminant) : option (option index_value) :=
  match d with
  | None | Some (DExpr _) => Some None
  | Some (DLit v) => Some (Some (IConst v))
  | Some (DPath i) => Some (Some (IIdent i))
  | Some (DOtherLit _) => None
  end.

(** [variant_index], [derive_enum.rs:95-103]. *)
Definition variant_index (ea : enum_attrs) (al : alloc) (index : option mindex)
    (d : option index_value) : option (option mindex * alloc) :=
  match index with
  | Some i => Some (Some i, al)
  | None =>
      if flag (ea_dynamic ea) || flag (ea_unindexed ea) then Some (None, al)
      else option_map (fun r => match r with (i, al) => (Some i, al) end) (next_const_index al d)
  end.

(** [variant_label] and [unit_variant_label], [derive_enum.rs:105-119]. *)
Definition variant_label (ea : enum_attrs) (l : option label_value) (name : bytes) : option label :=
  if flag (ea_dynamic ea) || flag (ea_unlabeled ea) then None else Some (label_or_ident l name).
Definition unit_variant_label (ea : enum_attrs) (l : option label_value) (name : bytes) : option label :=
  if flag (ea_unlabeled ea) then None else Some (label_or_ident l name).

(** One iteration of the loop over the variants, [derive_enum.rs:123-199]. *)
Definition variant_iter (ea : enum_attrs) (al : alloc) (v : variant_def) : option (arm * alloc) :=
  let a := vd_attrs v in
  if negb (absent (at_transparent a)) then None
  else
    match disc_value (vd_disc v) with
    | None => None
    | Some d =>
        match variant_index ea al (option_map const_index_of (at_index a)) d with
        | None => None
        | Some (i, al) =>
            let l := variant_label ea (at_label a) (vd_name v) in
            match
              match vd_fields v with
              | FsUnnamed [f] =>
                  if newtype_attrs a && no_attrs f
                  then Some (if flag (ea_dynamic ea) then ATransparent else ANewtype (at_tag a) l i) else None
              | FsUnit =>
                  if unit_attrs a
                  then Some (ATag (at_tag a) (unit_variant_label ea (at_label a) (vd_name v)) i) else None
              | FsNamed fs =>
                  stream_record_tuple FRecTup fs (at_tag a) l i
                    (flag (at_unlabeled a)) (flag (at_unindexed a))
              | FsUnnamed fs =>
                  stream_record_tuple FTuple fs (at_tag a) l i
                    (flag (at_unlabeled a)) (flag (at_unindexed a))
              end
            with
            | Some arm => Some (arm, al)
            | None => None
            end
        end
    end.

Fixpoint variant_loop (ea : enum_attrs) (al : alloc) (vs : list variant_def) : option (list arm) :=
  match vs with
  | [] => Some []
  | v :: vs' =>
      match variant_iter ea al v with
      | Some (arm, al) => option_map (cons arm) (variant_loop ea al vs')
      | None => None
      end
  end.

(** [derive_enum.rs:81-239]; [derive_void.rs] for an enum without variants,
    which takes no attributes and has no values. *)
Definition derive_enum (name : bytes) (ea : enum_attrs) (vs : list variant_def) : option impl :=
  match vs with
  | [] =>
      if absent (ea_tag ea) && absent (ea_label ea) && absent (ea_index ea) && absent (ea_unlabeled ea)
         && absent (ea_unindexed ea) && absent (ea_dynamic ea)
      then Some (MkImpl None [] None) else None
  | _ =>
      if enum_attrs_ok ea then
        match variant_loop ea alloc_new vs with
        | Some arms =>
            Some (if flag (ea_dynamic ea) then MkImpl None arms None
                  else MkImpl (Some (ea_tag ea, Some (label_or_ident (ea_label ea) name),
                                     option_map const_index_of (ea_index ea)))
                              arms (Some (ea_tag ea)))
        | None => None
        end
      else None
  end.

(** [derive], [derive.rs:13-51].  Unions are refused and are not definitions here. *)
Definition derive (d : type_def) : option impl :=
  match d with
  | DStruct name a fs => derive_struct name a fs
  | DEnum name a vs => derive_enum name a vs
  end.

(** ** The generated code *)

Section Generated.
  Variable W : Type.
  Variable out : W -> ev -> res W.
  Variable r64 : float -> bytes.

  (** [quote_index], [index.rs:75-82], evaluated with the counter at [c]; [None]
      is the overflow panic of [__sval_index += 1].  The counter is an [isize]
      when a field is flattened; without, its type is inferred to be [i32] and
      it counts fields of the definition. *)
  Definition eval_expr (e : iexpr) (c : Z) : option (index * Z) :=
    match e with
    | XLit k => Some (index_new k, c)
    | XPath i => Some (i, c)
    | XCounter => if fits isize (c + 1) then Some (index_new c, c + 1)%Z else None
    end.
  Definition eval_index (i : mindex) (c : Z) : option (index * Z) :=
    match i with
    | MExplicit e => eval_expr e c
    | MImplicit e =>
        match eval_expr e c with
        | Some (i, c) => Some (index_with_tag i VALUE_OFFSET, c)
        | None => None
        end
    end.

  (** An optional index outside a loop: no counter is in scope, and no
      [XCounter] is ever quoted there. *)
  Definition eval_const (i : option mindex) : option index :=
    match i with
    | Some i => option_map fst (eval_index i 0)
    | None => None
    end.

  (** [stream.value(field)?] between the calls of [data_tag],
      [stream_record_tuple.rs:109-121]. *)
  Definition field_value (data_tag : option tag) (v : list call) (w : W) : res W :=
    match data_tag with
    | Some t =>
        out w (ETaggedBegin (Some t) None None)
        >>= (fun w => stream_value out w v)
        >>= (fun w => out w (ETaggedEnd (Some t) None None))
    | None => stream_value out w v
    end.

  Definition field_calls (kind : fkind) (t : option tag) (l : label) (i : index) : ev * ev :=
    match kind with
    | FRecTup => (ERecTupValBegin t l i, ERecTupValEnd t l i)
    | FTuple => (ETupleValBegin t i, ETupleValEnd t i)
    | FRecord => (ERecordValBegin t l, ERecordValEnd t l)
    | _ => (ESeqValBegin, ESeqValEnd)
    end.

  (** One field's code: [stream_record_tuple.rs:126-183]. *)
  Definition exec_stmt (s : stmt) (vs : list (list call)) (w : W) (c : Z) : fres W :=
    match s with
    | SFlatten FSeq n =>
        match flatten_to out r64 FSeq w (nth n vs []) 0 with
        | FOk w _ => FOk w c
        | r => r
        end
    | SFlatten kind n => flatten_to out r64 kind w (nth n vs []) c
    | SField kind t l i dt n =>
        match eval_index i c with
        | None => FPanic
        | Some (i, c) =>
            let (b, e) := field_calls kind t l i in
            match out w b >>= field_value dt (nth n vs []) >>= (fun w => out w e) with
            | Ok w => FOk w c
            | Err w => FErr w
            | Panic => FPanic
            end
        end
    end.

  Fixpoint exec (body : list stmt) (vs : list (list call)) (w : W) (c : Z) : res W :=
    match body with
    | [] => Ok w
    | s :: body' =>
        match exec_stmt s vs w c with
        | FOk w c => exec body' vs w c
        | FErr w => Err w
        | FPanic => Panic
        end
    end.

  (** An arm's code, with the values of all its fields. *)
  Definition exec_arm (a : arm) (vs : list (list call)) (w : W) : res W :=
    match a with
    | ATag t l i => out w (ETag t l (eval_const i))
    | ATransparent => stream_value out w (nth 0 vs [])
    | ANewtype t l i =>
        out w (ETaggedBegin t l (eval_const i))
        >>= (fun w => stream_value out w (nth 0 vs []))
        >>= (fun w => out w (ETaggedEnd t l (eval_const i)))
    | AFields kind t l i n body =>
        let i := eval_const i in
        match kind with
        | FRecTup =>
            out w (ERecTupBegin t l i n) >>= (fun w => exec body vs w 0)
            >>= (fun w => out w (ERecTupEnd t l i))
        | FTuple =>
            out w (ETupleBegin t l i n) >>= (fun w => exec body vs w 0)
            >>= (fun w => out w (ETupleEnd t l i))
        | FRecord =>
            out w (ERecordBegin t l i n) >>= (fun w => exec body vs w 0)
            >>= (fun w => out w (ERecordEnd t l i))
        | _ =>
            out w (ETaggedBegin t l i) >>= (fun w => out w (ESeqBegin n))
            >>= (fun w => exec body vs w 0)
            >>= (fun w => out w ESeqEnd) >>= (fun w => out w (ETaggedEnd t l i))
        end
    end.

  (** [Value::stream] of a value of the type: which variant it is (0 for a
      struct) and the values of that variant's fields, skipped ones included. *)
  Definition derived_stream (m : impl) (variant : nat) (vs : list (list call)) (w : W) : res W :=
    match nth_error (im_arms m) variant with
    | None => Ok w
    | Some a =>
        match im_enum m with
        | Some (t, l, i) =>
            out w (EEnumBegin t l (eval_const i)) >>= exec_arm a vs
            >>= (fun w => out w (EEnumEnd t l (eval_const i)))
        | None => exec_arm a vs w
        end
    end.
End Generated.
Arguments derived_stream {W} out r64 m variant vs w.
Arguments exec_arm {W} out r64 a vs w.
Arguments exec {W} out r64 body vs w c.
Arguments exec_stmt {W} out r64 s vs w c.
Arguments field_value {W} out data_tag v w.
