(** * FlatRustSpec: a struct with flattened fields written out by hand, and what
    [serde_json] makes of it

    This file does not mention the macro or [sval_flatten]. *)

From Verif Require Import Base Event Utf8 RustModel RustSpec FlatRustModel JsonTextSpec.

(** ** The struct written out *)

(** The name of a field; the name of an entry of a map is known at run time only. *)
Definition field_label (s : bytes) : label := MkLabel s LStatic (Some VALUE_IDENT).
Definition entry_label (s : bytes) : label := MkLabel s LComputed None.

(** Fields with their positions; the one after the last. *)
Definition member_at := (Z * label * fdatum)%type.
Definition m_pos (m : member_at) : Z := fst (fst m).
Definition m_label (m : member_at) : label := snd (fst m).
Definition m_value (m : member_at) : fdatum := snd m.
Fixpoint after (pos : Z) (ms : list member_at) : Z :=
  match ms with [] => pos | m :: ms => after (m_pos m + 1) ms end.
Fixpoint numbered (pos : Z) (ms : list (label * datum)) : list member_at :=
  match ms with [] => [] | (l, v) :: ms => (pos, l, FPlain v) :: numbered (pos + 1) ms end.

Definition key_of (k : datum) : bytes := match serde_key k with Some s => s | None => [] end.
(** What is left of plain data that is flattened: the fields of a struct or struct
    variant, the entries of a map, a newtype variant under its name.  [Some] and
    newtype structs are looked through. *)
Fixpoint plain_members (pos : Z) (v : datum) : list member_at :=
  match v with
  | VSome v | VRef v => plain_members pos v
  | VMap es => numbered pos (map (fun kv => (entry_label (key_of (fst kv)), snd kv)) es)
  | VData (PStruct _ (PTuple 1)) _ [v] => plain_members pos v
  | VData (PStruct _ (PNamed names)) _ fs => numbered pos (combine (map field_label names) fs)
  | VData (PEnum _ vs) i fs =>
      match nth_error vs i, fs with
      | Some (name, PTuple 1), [v] => [((pos + Z.of_nat i)%Z, field_label name, FPlain v)]
      | Some (_, PNamed names), fs => numbered pos (combine (map field_label names) fs)
      | _, _ => []
      end
  | _ => []
  end.

Section Written.
  Variable members : Z -> fdatum -> list member_at.
  Fixpoint written_with (pos : Z) (fs : list (bytes * bool * fdatum)) : list member_at :=
    match fs with
    | [] => []
    | (n, b, v) :: fs =>
        let ms := if b then members pos v else [(pos, field_label n, v)] in
        ms ++ written_with (after pos ms) fs
    end.
End Written.
Fixpoint members (pos : Z) (v : fdatum) {struct v} : list member_at :=
  match v with
  | FPlain v => plain_members pos v
  | FSome v => members pos v
  | FStruct _ fs => written_with members pos fs
  end.
Definition written := written_with members.

(** The same struct without [#[sval(flatten)]]. *)
Definition by_hand (name : bytes) (fs : list (bytes * bool * fdatum)) : fdatum :=
  FStruct name (map (fun m => (l_text (m_label m), false, m_value m)) (written 0 fs)).

(** ** The values that are looked at *)

(** Flattened values that [serde] allows to be flattened. *)
Fixpoint plain_flattens (v : datum) : bool :=
  match v with
  | VNone => true
  | VSome v | VRef v => plain_flattens v
  | VMap es => forallb (fun kv => match serde_key (fst kv) with Some _ => true | None => false end) es
  | VData (PStruct _ (PTuple 1)) _ [v] => plain_flattens v
  | VData (PStruct _ (PNamed _)) _ _ => true
  | VData (PEnum _ vs) i _ =>
      match nth_error vs i with Some (_, PTuple 1) | Some (_, PNamed _) => true | _ => false end
  | _ => false
  end.
Fixpoint serde_flattens (v : fdatum) : bool :=
  match v with
  | FPlain v => plain_flattens v
  | FSome v => serde_flattens v
  | FStruct _ _ => true
  end.

(** Of every flattened field. *)
Fixpoint flattened_all (p : fdatum -> bool) (v : fdatum) : bool :=
  match v with
  | FPlain _ => true
  | FSome v => flattened_all p v
  | FStruct _ fs => forallb (fun f : bytes * bool * fdatum => match f with (_, b, v) => (if b then p v else true) && flattened_all p v end) fs
  end.
(** Of all plain data. *)
Fixpoint plain_all (p : datum -> bool) (v : fdatum) : bool :=
  match v with
  | FPlain v => p v
  | FSome v => plain_all p v
  | FStruct _ fs => forallb (fun f => match f with (_, _, v) => plain_all p v end) fs
  end.

(** As [typed]: names are identifiers and positions fit. *)
Fixpoint ftyped (v : fdatum) : Prop :=
  match v with
  | FPlain v => typed v
  | FSome v => ftyped v
  | FStruct name fs =>
      identifier name = true /\ sized (List.length fs) = true /\ fits I64 (after 0 (written 0 fs)) = true /\
      fold_right and True (map (fun f => match f with (n, _, v) => identifier n = true /\ ftyped v end) fs)
  end.

(** ** Where flattening goes wrong *)

(** An enum inside [Some] or a newtype struct. *)
Fixpoint an_enum (v : datum) : bool :=
  match v with
  | VSome v | VRef v => an_enum v
  | VData (PEnum _ _) _ _ => true
  | VData (PStruct _ (PTuple 1)) _ [v] => an_enum v
  | _ => false
  end.
Fixpoint wrapped_enum (v : datum) : bool :=
  match v with
  | VRef v => wrapped_enum v
  | VSome v => an_enum v
  | VData (PStruct _ (PTuple 1)) _ [v] => an_enum v
  | _ => false
  end.
Fixpoint fenum (v : fdatum) : bool := match v with FPlain v => an_enum v | FSome v => fenum v | FStruct _ _ => false end.
Definition fwrapped_enum (v : fdatum) : bool :=
  match v with FPlain v => wrapped_enum v | FSome v => fenum v | FStruct _ _ => false end.

(** A map with an entry; one inside something that is flattened. *)
Fixpoint mapped (v : datum) : bool :=
  match v with
  | VSome v | VRef v => mapped v
  | VVec vs | VArray vs | VTup vs | VData _ _ vs => existsb mapped vs
  | VMap es => match es with [] => false | _ => true end
  | _ => false
  end.
Fixpoint mapped_inside (v : datum) : bool :=
  match v with
  | VSome v | VRef v => mapped_inside v
  | VMap es => existsb (fun kv => mapped (snd kv)) es
  | VData (PStruct _ (PTuple 1)) _ [v] => mapped_inside v
  | VData _ _ vs => existsb mapped vs
  | _ => false
  end.
Fixpoint fmapped (inside : bool) (v : fdatum) : bool :=
  match v with
  | FPlain v => if inside then mapped_inside v else mapped v
  | FSome v => fmapped inside v
  | FStruct _ fs => existsb (fun f => match f with (_, b, v) => fmapped b v end) fs
  end.

(** A struct variant. *)
Fixpoint struct_variant (v : datum) : bool :=
  match v with
  | VSome v | VRef v => struct_variant v
  | VData (PStruct _ (PTuple 1)) _ [v] => struct_variant v
  | VData (PEnum _ vs) i _ => match nth_error vs i with Some (_, PNamed _) => true | _ => false end
  | _ => false
  end.
Fixpoint fstruct_variant (v : fdatum) : bool :=
  match v with FPlain v => struct_variant v | FSome v => fstruct_variant v | FStruct _ _ => false end.

(** Nothing but structs. *)
Fixpoint a_struct (v : datum) : bool :=
  match v with
  | VNone => true
  | VSome v | VRef v => a_struct v
  | VData (PStruct _ (PTuple 1)) _ [v] => a_struct v
  | VData (PStruct _ (PNamed _)) _ _ => true
  | _ => false
  end.
Fixpoint fa_struct (v : fdatum) : bool :=
  match v with
  | FPlain v => a_struct v
  | FSome v => fa_struct v
  | FStruct _ fs => forallb (fun f : bytes * bool * fdatum => match f with (_, b, v) => if b then fa_struct v else true end) fs
  end.

(** ** [serde_json] with [#[serde(flatten)]] *)
Section SerdeJson.
  Variable ryu32 ryu64 : float -> bytes.
  Notation serde_json := (serde_json ryu32 ryu64).

  (** The members [serde]'s [FlatMapSerializer] adds. *)
  Fixpoint plain_added (v : datum) : list bytes :=
    match v with
    | VSome v | VRef v => plain_added v
    | VMap es => map (fun kv => member (key_of (fst kv)) (serde_json (snd kv))) es
    | VData (PStruct _ (PTuple 1)) _ [v] => plain_added v
    | VData (PStruct _ (PNamed names)) _ fs => map (fun nv => member (fst nv) (serde_json (snd nv))) (combine names fs)
    | VData (PEnum _ vs) i fs =>
        match nth_error vs i with
        | Some (name, s) => [member name (json_fields s (map serde_json fs))]
        | None => []
        end
    | _ => []
    end.
  (** The text of a value, and the members it adds when flattened. *)
  Fixpoint flat_json (v : fdatum) : bytes * list bytes :=
    match v with
    | FPlain v => (serde_json v, plain_added v)
    | FSome v => flat_json v
    | FStruct _ fs =>
        let ms := flat_map (fun f : bytes * bool * fdatum => match f with (n, b, v) =>
                    let (x, added) := flat_json v in if b then added else [member n x] end) fs in
        (object ms, ms)
    end.
End SerdeJson.

(** Flattened values that [serde] allows and none of which goes wrong. *)
Definition flattens_fine (v : fdatum) : bool := serde_flattens v && negb (fwrapped_enum v) && negb (fmapped true v).
