(** * DeriveSpec: what a derived implementation is meant to stream

    From a type definition and the trees of its fields to the tree of the value,
    following the documentation in [derive/src/lib.rs].  Nothing here mentions
    the macro's allocator, its loops or the code it generates. *)

From Verif Require Import Base Event Tree FlattenModel FlattenSpec DeriveModel.

(** Skipped fields are left out of everything. *)
Definition streamed (f : field_def) : bool := negb (flag (fd_skip f)).
Definition flattening (f : field_def) : bool := flag (fd_flatten f).

(** ** Names and numbers *)

Definition given_label (v : label_value) : label :=
  match v with LConst s => MkLabel s LStatic None | LIdent l => l end.
Definition ident_label (s : bytes) : label := MkLabel s LStatic (Some VALUE_IDENT).
Definition type_label (v : option label_value) (name : bytes) : label :=
  match v with Some v => given_label v | None => ident_label name end.

Definition given_index (v : index_value) : index :=
  match v with IConst k => MkIndex k None | IIdent i => i end.

(** Numbering as Rust numbers enum variants: one more than the one before, from
    a given number on.  [before] is in reverse order; a number given by path is
    not known and counts like one not given. *)
Fixpoint next_number (before : list (option index_value)) : Z :=
  match before with
  | [] => 0
  | Some (IConst k) :: _ => k + 1
  | _ :: before => next_number before + 1
  end.

(** The index of a field or variant at position [pos]: the given one; the next
    number if any was given before; otherwise its position, which is an offset. *)
Definition any_given (before : list (option index_value)) : bool :=
  existsb (fun o => negb (absent o)) before.
Definition own_index (before : list (option index_value)) (pos : Z) (given : option index_value) : index :=
  match given with
  | Some v => given_index v
  | None => if any_given before then MkIndex (next_number before) None
            else MkIndex pos (Some VALUE_OFFSET)
  end.

(** ** Fields *)

(** Labelled and indexed fields make a record tuple, only labelled ones a
    record, only indexed ones a tuple, others a sequence. *)
Definition labelled (unlabeled : bool) (f : field_def) : bool :=
  negb unlabeled && negb (absent (fd_label f) && absent (fd_name f)).
Definition kind_of (unlabeled unindexed : bool) (f : field_def) : fkind :=
  match labelled unlabeled f, unindexed with
  | true, false => FRecTup
  | true, true => FRecord
  | false, false => FTuple
  | false, true => FSeq
  end.

Record slot := MkSlot { s_tag : option tag; s_label : label; s_index : index; s_value : tree }.

Section Fields.
  Variable key_label : tree -> bytes.
  Variable kind : fkind.

  (** Where the next field goes: after the last child of a flattened field.
      Fields with a number of their own take no position, and only indexed
      fields take one. *)
  Definition advance (before : list (option index_value)) (pos : Z) (f : field_def) (t : tree) : Z :=
    if flattening f then match kind with FSeq => pos | _ => end_offset pos pos (children false t) end
    else match kind with
         | FTuple | FRecTup => if any_given (fd_index f :: before) then pos else pos + 1
         | _ => pos
         end.

  (** Each field with what came before it. *)
  Fixpoint contexts (before : list (option index_value)) (pos : Z) (fs : list (field_def * tree))
    : list (list (option index_value) * Z * field_def * tree) :=
    match fs with
    | [] => []
    | (f, t) :: fs' =>
        (before, pos, f, t) :: contexts (fd_index f :: before) (advance before pos f t) fs'
    end.

  Definition own_slot (before : list (option index_value)) (pos : Z) (f : field_def) (t : tree) : slot :=
    MkSlot (fd_tag f)
      (match fd_label f, fd_name f with
       | Some v, _ => given_label v
       | None, Some s => ident_label s
       | None, None => MkLabel [] LStatic None
       end)
      (own_index before pos (fd_index f))
      (match fd_data_tag f with Some d => TTagged (Some d) None None t | None => t end).

  (** A field is one slot; a flattened field one per child of its value. *)
  Definition slots_of (x : list (option index_value) * Z * field_def * tree) : list slot :=
    let '(before, pos, f, t) := x in
    if flattening f
    then map (fun ci => match ci with (c, i) =>
                MkSlot (c_tag c) (label_for key_label (c_name c) i) i (c_value c) end)
             (placed pos pos (children false t))
    else [own_slot before pos f t].

  Definition field_slots (fs : list (field_def * tree)) : list slot :=
    flat_map slots_of (contexts [] 0 fs).

  (** Positions stay in the range of [isize], and flattened values are none of
      those [sval_flatten] mangles (C32). *)
  Definition slots_ok (x : list (option index_value) * Z * field_def * tree) : bool :=
    let '(before, pos, f, t) := x in
    if flattening f
    then negb (tagged_enum t) && room pos pos (children false t)
         && forallb (fun c => negb (has_entry (c_value c))) (children false t)
    else fits I64 (advance before pos f t).
  Definition fields_ok (fs : list (field_def * tree)) : bool :=
    forallb slots_ok (contexts [] 0 fs).

  Definition fields_tree (t : option tag) (l : option label) (i : option index) (n : option N)
      (ss : list slot) : tree :=
    match kind with
    | FRecTup => TRecTup t l i n (map (fun s => (s_tag s, s_label s, s_index s, s_value s)) ss)
    | FTuple => TTuple t l i n (map (fun s => (s_tag s, s_index s, s_value s)) ss)
    | FRecord => TRecord t l i n (map (fun s => (s_tag s, s_label s, s_value s)) ss)
    | _ => TTagged t l i (TSeq n (map s_value ss))
    end.
End Fields.

(** The number of fields, when it is fixed by the definition. *)
Definition size_of (fs : list field_def) : option N :=
  if existsb flattening fs then None else Some (N.of_nat (length fs)).

Definition streamed_fields (fs : list field_def) (ts : list tree) : list (field_def * tree) :=
  filter (fun ft => streamed (fst ft)) (combine fs ts).

(** The kind of a definition's fields: [empty] when none is streamed. *)
Definition fields_kind (empty : fkind) (a : attrs) (fs : list field_def) : fkind :=
  match filter streamed fs with
  | [] => empty
  | f :: _ => kind_of (flag (at_unlabeled a)) (flag (at_unindexed a)) f
  end.

(** ** Values *)

Section Value.
  Variable key_label : tree -> bytes.

  Definition record_tree (empty : fkind) (a : attrs) (l : option label) (i : option index)
      (fs : list field_def) (ts : list tree) : tree :=
    let kind := fields_kind empty a fs in
    fields_tree kind (at_tag a) l i (size_of (filter streamed fs))
      (field_slots key_label kind (streamed_fields fs ts)).

  Definition body_tree (a : attrs) (transparent : bool) (l : option label) (unit_l : option label)
      (i : option index) (fs : fields_def) (ts : list tree) : tree :=
    match fs with
    | FsUnit => TTag (at_tag a) unit_l i
    | FsUnnamed [_] =>
        let v := nth 0 ts TNull in
        if transparent then v else TTagged (at_tag a) l i v
    | FsNamed fs => record_tree FRecTup a l i fs ts
    | FsUnnamed fs => record_tree FTuple a l i fs ts
    end.

  (** A variant's index: the one in its attribute; or it is numbered among the
      variants without one. *)
  Definition disc_given (v : variant_def) : option index_value :=
    match vd_disc v with
    | Some (DLit k) => Some (IConst k)
    | Some (DPath i) => Some (IIdent i)
    | _ => None
    end.
  Definition variant_number (before : list variant_def) (v : variant_def) : index :=
    let before := map disc_given (filter (fun v => absent (at_index (vd_attrs v))) before) in
    own_index before (Z.of_nat (length before)) (disc_given v).
  Definition spec_variant_index (ea : enum_attrs) (before : list variant_def) (v : variant_def) : option index :=
    match at_index (vd_attrs v) with
    | Some x => Some (given_index x)
    | None => if flag (ea_dynamic ea) || flag (ea_unindexed ea) then None
              else Some (variant_number before v)
    end.

  Definition variant_tree (ea : enum_attrs) (before : list variant_def) (v : variant_def) (ts : list tree) : tree :=
    let l := if flag (ea_unlabeled ea) then None else Some (type_label (at_label (vd_attrs v)) (vd_name v)) in
    body_tree (vd_attrs v) (flag (ea_dynamic ea))
      (if flag (ea_dynamic ea) then None else l) l
      (spec_variant_index ea before v) (vd_fields v) ts.

  (** The tree of a value of the type: its variant (0 for a struct) and the
      trees of the variant's fields. *)
  Definition derived_tree (d : type_def) (variant : nat) (ts : list tree) : option tree :=
    match d with
    | DStruct name a fs =>
        match variant with
        | O => let l := Some (type_label (at_label a) name) in
               Some (body_tree a (flag (at_transparent a)) l l (option_map given_index (at_index a)) fs ts)
        | S _ => None
        end
    | DEnum name ea vs =>
        match nth_error vs variant with
        | None => None
        | Some v =>
            let t := variant_tree ea (rev (firstn variant vs)) v ts in
            Some (if flag (ea_dynamic ea) then t
                  else TEnum (ea_tag ea) (Some (type_label (ea_label ea) name))
                             (option_map given_index (ea_index ea)) t)
        end
    end.
End Value.

(** The fields of a variant, and whether flattening them is unproblematic. *)
Definition fields_of (d : type_def) (variant : nat) : option (attrs * fields_def) :=
  match d with
  | DStruct _ a fs => match variant with O => Some (a, fs) | S _ => None end
  | DEnum _ _ vs => option_map (fun v => (vd_attrs v, vd_fields v)) (nth_error vs variant)
  end.
Definition field_list (fs : fields_def) : list field_def :=
  match fs with FsUnit => [] | FsNamed fs | FsUnnamed fs => fs end.
Definition flattens_well (d : type_def) (variant : nat) (ts : list tree) : bool :=
  match fields_of d variant with
  | None => true
  | Some (_, FsUnit) => true
  | Some (a, FsNamed fs) => fields_ok (fields_kind FRecTup a fs) (streamed_fields fs ts)
  | Some (_, FsUnnamed [_]) => true
  | Some (a, FsUnnamed fs) => fields_ok (fields_kind FTuple a fs) (streamed_fields fs ts)
  end.
Definition field_count (d : type_def) (variant : nat) : nat :=
  match fields_of d variant with Some (_, fs) => length (field_list fs) | None => 0 end.
