(** * AttrModel: the attributes of [#[derive(Value)]]

    [derive_macros/src/attr.rs] and the places that read attributes.  A
    definition carries its attributes as written; [parse_def] is what the macro
    reads out of them, in the form [DeriveModel.derive] takes.  [None] is a panic
    of the macro, which is a compile error; which panic comes first cannot be
    seen, so checks that the code interleaves with code generation come first
    here.  A path is its text, and what the constant at a path is comes from
    [tag_at], [label_at] and [index_at]; [path_ok] says which texts [syn] parses
    as paths ([tag = "..."]).  The [flatten] Cargo feature is on. *)

From Verif Require Import Base Event DataModel DeriveModel.

(** [syn::Lit]: strings, integers (the value of the digits, without a sign), booleans, and
    the rest. *)
Inductive lit := LStr (s : bytes) | LInt (n : N) | LBool (b : bool) | LOther.
(** [syn::Expr], as far as it is looked at. *)
Inductive expr := ELit (l : lit) | EPath (p : bytes) | ENeg (e : expr) | EOther.

(** [syn::Attribute]: its path, and the items [key] or [key = value] between the parentheses
    ([None]: they do not parse). *)
Record attribute := MkAttribute { a_path : bytes; a_items : option (list (bytes * option expr)) }.

(** [sval_attr], [attr.rs:454-482], over all the attributes of an item: the outer [None] is
    a panic.  The iterators of the code are lazy, but [check] and [ensure_empty] run through
    all attributes before anything is read. *)
Definition with_value (i : bytes * option expr) : bytes * expr :=
  (fst i, match snd i with Some e => e | None => ELit (LBool true) end).
Fixpoint sval_items (ats : list attribute) : option (list (bytes * expr)) :=
  match ats with
  | [] => Some []
  | a :: ats' =>
      if bytes_eqb (a_path a) (bs "sval") then
        match a_items a, sval_items ats' with
        | Some is, Some rest => Some (map with_value is ++ rest)
        | _, _ => None
        end
      else sval_items ats'
  end.

Definition mem (k : bytes) (ks : list bytes) : bool := existsb (bytes_eqb k) ks.

(** [check], [attr.rs:408-434]; [seen] is the [HashSet]. *)
Fixpoint check_loop (allowed seen : list bytes) (is : list (bytes * expr)) : bool :=
  match is with
  | [] => true
  | (k, _) :: is' => mem k allowed && negb (mem k seen) && check_loop allowed (k :: seen) is'
  end.
Definition check (allowed : list bytes) (is : list (bytes * expr)) : bool := check_loop allowed [] is.
(** [ensure_empty], [attr.rs:389-398]. *)
Definition ensure_empty (is : list (bytes * expr)) : bool := match is with [] => true | _ => false end.

(** [get_unchecked], [attr.rs:436-452]: the first item with the key.  [read] is
    [try_from_expr(..).expect("unexpected value")], [None] being a panic; the outer [None] is
    one, too. *)
Fixpoint find_item (k : bytes) (is : list (bytes * expr)) : option expr :=
  match is with
  | [] => None
  | (k', e) :: is' => if bytes_eqb k' k then Some e else find_item k is'
  end.
Definition get {A} (read : expr -> option A) (k : bytes) (is : list (bytes * expr)) : option (option A) :=
  match find_item k is with
  | None => Some None
  | Some e => match read e with Some a => Some (Some a) | None => None end
  end.

Section Paths.
  Variable path_ok : bytes -> bool.
  Variable tag_at : bytes -> tag.
  Variable label_at : bytes -> label.
  Variable index_at : bytes -> index.

  (** [TagAttr], [DataTagAttr], [attr.rs:15-73]. *)
  Definition read_tag (e : expr) : option tag :=
    match e with
    | ELit (LStr s) => if path_ok s then Some (tag_at s) else None
    | EPath p => Some (tag_at p)
    | _ => None
    end.
  (** [LabelAttr], [attr.rs:83-107]. *)
  Definition read_label (e : expr) : option label_value :=
    match e with
    | ELit (LStr s) => Some (LConst s)
    | EPath p => Some (LIdent (label_at p))
    | _ => None
    end.
  (** [const_from_lit], [attr.rs:117-125]. *)
  Definition const_from_lit (l : lit) : option Z :=
    match l with
    | LInt n => if fits isize (Z.of_N n) then Some (Z.of_N n) else None
    | _ => None
    end.
  (** [IndexAttr::try_from_expr], [attr.rs:130-149]: the outer [None] is a panic. *)
  Definition try_index (e : expr) : option (option index_value) :=
    match e with
    | ENeg (ELit l) => option_map (fun k => Some (IConst (- k))) (const_from_lit l)
    | ENeg _ => Some None
    | ELit l => option_map (fun k => Some (IConst k)) (const_from_lit l)
    | EPath p => Some (Some (IIdent (index_at p)))
    | EOther => Some None
    end.
  Definition read_index (e : expr) : option index_value :=
    match try_index e with Some (Some v) => Some v | _ => None end.
  (** The flags, [attr.rs:170-365] with the default [try_from_expr], 375-381. *)
  Definition read_flag (e : expr) : option bool :=
    match e with ELit (LBool b) => Some b | _ => None end.

  (** Definitions as written. *)
  Record raw_field := MkRawField { rf_name : option bytes; rf_attrs : list attribute }.
  Inductive raw_fields := RFUnit | RFNamed (fs : list raw_field) | RFUnnamed (fs : list raw_field).
  (** A discriminant: the expression, and its value. *)
  Record raw_variant := MkRawVariant {
    rv_name : bytes; rv_attrs : list attribute; rv_disc : option (expr * Z); rv_fields : raw_fields }.
  Inductive raw_def :=
  | RStruct (name : bytes) (ats : list attribute) (fs : raw_fields)
  | REnum (name : bytes) (ats : list attribute) (vs : list raw_variant)
  | RUnion (name : bytes).

  Notation "x <- m ;; k" := (match m with Some x => k | None => None end) (at level 60, m at next level, right associativity).
  Notation "b ?; k" := (if b then k else None) (at level 60, right associativity).

  (** A field of a struct, [stream_record_tuple.rs:55-113]: the other attributes of a skipped
      field are not read. *)
  Definition parse_field (f : raw_field) : option field_def :=
    is <- sval_items (rf_attrs f) ;;
    check [bs "tag"; bs "data_tag"; bs "index"; bs "label"; bs "skip"; bs "flatten"] is ?;
    skip <- get read_flag (bs "skip") is ;;
    if flag skip then Some (MkField (rf_name f) None None None None (Some true) None)
    else
      t <- get read_tag (bs "tag") is ;;
      l <- get read_label (bs "label") is ;;
      i <- get read_index (bs "index") is ;;
      fl <- get read_flag (bs "flatten") is ;;
      d <- get read_tag (bs "data_tag") is ;;
      Some (MkField (rf_name f) t d l i skip fl).
  Fixpoint parse_all {A B} (p : A -> option B) (l : list A) : option (list B) :=
    match l with
    | [] => Some []
    | a :: l' => b <- p a ;; bs <- parse_all p l' ;; Some (b :: bs)
    end.
  (** The field of a newtype, [stream_newtype.rs:19]. *)
  Definition parse_newtype_field (f : raw_field) : option field_def :=
    is <- sval_items (rf_attrs f) ;;
    ensure_empty is ?; Some (MkField (rf_name f) None None None None None None).
  (** Which of the two, [derive.rs:23-37], [derive_enum.rs:148-189]. *)
  Definition parse_fields (fs : raw_fields) : option fields_def :=
    match fs with
    | RFUnit => Some FsUnit
    | RFNamed fs => option_map FsNamed (parse_all parse_field fs)
    | RFUnnamed [f] => option_map (fun f => FsUnnamed [f]) (parse_newtype_field f)
    | RFUnnamed fs => option_map FsUnnamed (parse_all parse_field fs)
    end.

  (** [UnitStructAttrs::from_attrs], [derive_unit_struct.rs:19-31];
      [NewtypeAttrs::from_attrs], [derive_newtype.rs:20-36];
      [StructAttrs::from_attrs], [derive_struct.rs:21-50].  The assertions that follow in
      [derive_newtype.rs] are in [DeriveModel.newtype_attrs]. *)
  Definition parse_attrs (fs : raw_fields) (is : list (bytes * expr)) : option attrs :=
    match fs with
    | RFUnit =>
        check [bs "tag"; bs "label"; bs "index"] is ?;
        t <- get read_tag (bs "tag") is ;; l <- get read_label (bs "label") is ;; i <- get read_index (bs "index") is ;;
        Some (MkAttrs t l i None None None)
    | RFUnnamed [_] =>
        check [bs "tag"; bs "label"; bs "index"; bs "transparent"] is ?;
        t <- get read_tag (bs "tag") is ;; l <- get read_label (bs "label") is ;; i <- get read_index (bs "index") is ;;
        x <- get read_flag (bs "transparent") is ;;
        Some (MkAttrs t l i None None x)
    | _ =>
        check [bs "tag"; bs "label"; bs "index"; bs "unlabeled_fields"; bs "unindexed_fields"] is ?;
        t <- get read_tag (bs "tag") is ;; l <- get read_label (bs "label") is ;; i <- get read_index (bs "index") is ;;
        ul <- get read_flag (bs "unlabeled_fields") is ;; ui <- get read_flag (bs "unindexed_fields") is ;;
        Some (MkAttrs t l i ul ui None)
    end.

  (** [derive_enum.rs:140-143]; a panic of [try_from_expr] is [DOtherLit]. *)
  Definition parse_disc (d : expr * Z) : discriminant :=
    match try_index (fst d) with
    | None => DOtherLit (snd d)
    | Some None => DExpr (snd d)
    | Some (Some (IConst k)) => DLit k
    | Some (Some (IIdent i)) => DPath i
    end.
  (** A variant, [derive_enum.rs:123-146]. *)
  Definition parse_variant (v : raw_variant) : option variant_def :=
    is <- sval_items (rv_attrs v) ;;
    check [bs "tag"; bs "label"; bs "index"; bs "unlabeled_fields"; bs "unindexed_fields"] is ?;
    a <- parse_attrs (rv_fields v) is ;;
    fs <- parse_fields (rv_fields v) ;;
    Some (MkVariant (rv_name v) a (option_map parse_disc (rv_disc v)) fs).
  (** [EnumAttrs::from_attrs], [derive_enum.rs:26-47]; [VoidAttrs::from_attrs],
      [derive_void.rs:8-12]. *)
  Definition parse_enum_attrs (void : bool) (is : list (bytes * expr)) : option enum_attrs :=
    if void then ensure_empty is ?; Some (MkEnumAttrs None None None None None None)
    else
      check [bs "tag"; bs "label"; bs "index"; bs "dynamic"; bs "unlabeled_variants"; bs "unindexed_variants"] is ?;
      t <- get read_tag (bs "tag") is ;; l <- get read_label (bs "label") is ;; i <- get read_index (bs "index") is ;;
      ul <- get read_flag (bs "unlabeled_variants") is ;; ui <- get read_flag (bs "unindexed_variants") is ;;
      d <- get read_flag (bs "dynamic") is ;;
      Some (MkEnumAttrs t l i ul ui d).

  (** [derive], [derive.rs:13-51], up to the choice of what to generate. *)
  Definition parse_def (d : raw_def) : option type_def :=
    match d with
    | RStruct name ats fs =>
        is <- sval_items ats ;; a <- parse_attrs fs is ;; fs <- parse_fields fs ;; Some (DStruct name a fs)
    | REnum name ats vs =>
        is <- sval_items ats ;;
        a <- parse_enum_attrs (match vs with [] => true | _ => false end) is ;;
        vs <- parse_all parse_variant vs ;; Some (DEnum name a vs)
    | RUnion _ => None
    end.
  (** The whole macro, [lib.rs:19-22]. *)
  Definition derive_raw (d : raw_def) : option impl := d <- parse_def d ;; derive d.
End Paths.
