(** * JsonSpec: the JSON image of a value

    What [sval_json]'s documentation and tests promise a value looks like, in
    terms of its tree (Tree.v) and JSON values (JsonGrammar.v).  Nothing here
    refers to the formatter; the tags [JSON_VALUE], [JSON_TEXT] and [JSON_NUMBER]
    are the public constants of [json/src/tags.rs]. *)

From Verif Require Import Base Event Tree LowerSpec JsonModel JsonGrammar.

(** How a variant is named: by its label, or else by its index when that is an
    [i64]. *)
Definition name_of (l : option label) (i : option index) : option bytes :=
  match l with
  | Some l => Some (l_text l)
  | None => match i with
            | Some i => if fits I64 (i_val i) then Some (dec (i_val i)) else None
            | None => None
            end
  end.
Definition is_named (l : option label) (i : option index) : bool :=
  match name_of l i with Some _ => true | None => false end.

(** A variant with content is an object with one member, its name; without a name it
    is its content. *)
Definition wrap (inside : bool) (l : option label) (i : option index) (j : jv) : jv :=
  if inside then match name_of l i with Some k => JObj [(k, j)] | None => j end else j.

(** A unit variant or tag is its label, or its index, or null. *)
Definition tag_image (t : option tag) (l : option label) (i : option index) : jv :=
  if otag_is t RUST_OPTION_NONE then JNull
  else match l with
       | Some l => JStr (l_text l)
       | None => match i with
                 | Some i => if fits I64 (i_val i) then JNum (i_val i) 0 else JNull
                 | None => JNull
                 end
       end.

Definition frags_text (fs : list (bool * bytes)) : bytes := List.concat (map snd fs).

(** The text a value consists of, ignoring hints. *)
Fixpoint text_of (t : tree) : option bytes :=
  match t with
  | TText _ fs => Some (frags_text fs)
  | THint _ v => text_of v
  | _ => None
  end.

(** Tags that give a text a meaning in JSON. *)
Definition is_raw (t : option tag) : bool :=
  otag_is t JSON_TEXT || otag_is t JSON_VALUE || otag_is t NUMBER || otag_is t JSON_NUMBER.

(** The value a text stands for under such a tag. *)
Definition raw_image (t : option tag) (s : bytes) (j : jv) : Prop :=
  if otag_is t JSON_TEXT then exists x, unescape s = Some x /\ j = JStr x
  else if otag_is t JSON_VALUE then json_text s j
  else if otag_is t NUMBER then exists l, lit_ok l /\ s = lit_text l /\ j = JNum (lit_m l) (lit_e l)
  else exists m e, json_number s m e /\ j = JNum m e.

(** The text of a map key: its JSON text without quotes.  [None]: not a key. *)
Definition float_key (ryu : float -> bytes) (f : float) : bytes :=
  if is_nan f || is_infinite f then bs "null" else ryu f.
Section Image.
  Variable ryu32 ryu64 : float -> bytes.

  (** The contract of the [ryu] crate used here: finite floats are printed as JSON
      numbers. *)
  Definition json_printer (ryu : float -> bytes) : Prop :=
    forall f, is_nan f = false -> is_infinite f = false -> exists m e, json_number (ryu f) m e.

  Fixpoint key_text (inside : bool) (k : tree) : option bytes :=
    match k with
    | TNull => Some (bs "null")
    | TBool b => Some (if b then bs "true" else bs "false")
    | TInt _ z => Some (dec z)
    | TF32 f => Some (float_key ryu32 f)
    | TF64 f => Some (float_key ryu64 f)
    | TText _ fs => Some (frags_text fs)
    | TTag t l i =>
        if otag_is t RUST_OPTION_NONE then Some (bs "null")
        else match name_of l i with Some s => Some s | None => Some (bs "null") end
    | THint _ k => key_text inside k
    | TTagged t l i k => if is_raw t || inside && is_named l i then None else key_text false k
    | TEnum _ l i k =>
        if negb (is_variant k) || inside && is_named l i then None else key_text true k
    | _ => None
    end.

  Definition float_image (ryu : float -> bytes) (f : float) (j : jv) : Prop :=
    if is_nan f || is_infinite f then j = JNull
    else exists m e, json_number (ryu f) m e /\ j = JNum m e.

  (** Record fields under their labels.  A label tagged as a Rust identifier has no
      quote, backslash or control character. *)
  Definition ident_ok (l : label) : bool :=
    negb (otag_is (l_tag l) VALUE_IDENT) ||
    forallb (fun b => let n := N_of_ascii b in negb (n =? 34)%N && negb (n =? 92)%N && (32 <=? n)%N) (l_text l).

  (** [image inside t j]: the documented image of [t] is [j].  [inside] says that
      [t] stands directly inside an enum. *)
  Fixpoint image (inside : bool) (t : tree) (j : jv) {struct t} : Prop :=
    match t with
    | TNull => j = JNull
    | TBool b => j = JBool b
    | TInt _ z => j = JNum z 0
    | TF32 f => float_image ryu32 f j
    | TF64 f => float_image ryu64 f j
    | TText _ fs => j = JStr (frags_text fs)
    | TBin _ fs => j = JArr (map (fun b => JNum (byte_val b) 0) (frags_text fs))
    | TTag t l i => j = tag_image t l i
    | THint _ v => image inside v j
    | TTagged t l i v =>
        exists c, j = wrap inside l i c /\
          if is_raw t then exists s, text_of v = Some s /\ raw_image t s c else image false v c
    | TEnum _ l i v => is_variant v = true /\ exists c, j = wrap inside l i c /\ image true v c
    | TSeq _ vs =>
        exists js, j = JArr js /\
          (fix all (vs : list tree) (js : list jv) : Prop :=
             match vs, js with
             | [], [] => True
             | v :: vs, j :: js => image false v j /\ all vs js
             | _, _ => False
             end) vs js
    | TMap _ es =>
        exists ms, j = JObj ms /\
          (fix all (es : list (tree * tree)) (ms : list (bytes * jv)) : Prop :=
             match es, ms with
             | [], [] => True
             | (k, v) :: es, (s, j) :: ms => key_text false k = Some s /\ image false v j /\ all es ms
             | _, _ => False
             end) es ms
    | TRecord _ l i _ fs =>
        exists ms, j = wrap inside l i (JObj ms) /\
          (fix all (fs : list (option tag * label * tree)) (ms : list (bytes * jv)) : Prop :=
             match fs, ms with
             | [], [] => True
             | (_, fl, v) :: fs, (s, j) :: ms => ident_ok fl = true /\ s = l_text fl /\ image false v j /\ all fs ms
             | _, _ => False
             end) fs ms
    | TTuple _ l i _ fs =>
        exists js, j = wrap inside l i (JArr js) /\
          (fix all (fs : list (option tag * index * tree)) (js : list jv) : Prop :=
             match fs, js with
             | [], [] => True
             | (_, _, v) :: fs, j :: js => image false v j /\ all fs js
             | _, _ => False
             end) fs js
    | TRecTup _ l i _ fs =>
        exists ms, j = wrap inside l i (JObj ms) /\
          (fix all (fs : list (option tag * label * index * tree)) (ms : list (bytes * jv)) : Prop :=
             match fs, ms with
             | [], [] => True
             | (_, fl, _, v) :: fs, (s, j) :: ms => ident_ok fl = true /\ s = l_text fl /\ image false v j /\ all fs ms
             | _, _ => False
             end) fs ms
    end.
End Image.

(** ** Where the formatter keeps the promise

    [safe t] excludes four shapes for which it does not (JsonProps.v shows each
    of them failing). *)

(** An integer part of zeroes only directly followed by an exponent, ["0e5"]. *)
Definition zero_exp (s : bytes) : Prop :=
  exists l, lit_ok l /\ s = lit_text l /\ dval (lt_int l) = 0%Z /\ lt_frac l = None /\ lt_exp l <> None.

(** What a key that is an enum or a tagged value leaves behind. *)
Fixpoint key_leaks (k : tree) : bool :=
  match k with
  | THint _ k => key_leaks k
  | TTagged _ l i _ | TEnum _ l i _ => is_named l i
  | _ => false
  end.
(** Values whose name would be written if they stood inside an enum. *)
Fixpoint takes_name (v : tree) : bool :=
  match v with
  | THint _ v => takes_name v
  | TTagged _ l i _ | TEnum _ l i _ | TRecord _ l i _ _ | TTuple _ l i _ _ | TRecTup _ l i _ _ => is_named l i
  | _ => false
  end.
(** A variant whose text is kept without quotes and that is named. *)
Definition named_unquoted (v : tree) : bool :=
  match v with
  | TTagged t l i _ => is_raw t && negb (otag_is t JSON_TEXT) && is_named l i
  | _ => false
  end.
Definition unnamed_enum_of_named (v : tree) : bool :=
  match v with TEnum _ l i c => negb (is_named l i) && takes_name c | _ => false end.

Fixpoint safe (t : tree) : Prop :=
  match t with
  | THint _ v => safe v
  | TTagged t _ _ v =>
      if is_raw t then (otag_is t NUMBER = true -> forall s, text_of v = Some s -> ~ zero_exp s) else safe v
  | TEnum _ _ _ v => safe v /\ named_unquoted v = false /\ unnamed_enum_of_named v = false
  | TSeq _ vs => (fix all (vs : list tree) : Prop := match vs with [] => True | v :: vs => safe v /\ all vs end) vs
  | TMap _ es =>
      (fix all (es : list (tree * tree)) : Prop :=
         match es with
         | [] => True
         | (k, v) :: es => key_leaks k && takes_name v = false /\ safe v /\ all es
         end) es
  | TRecord _ _ _ _ fs =>
      (fix all (fs : list (option tag * label * tree)) : Prop :=
         match fs with [] => True | (_, _, v) :: fs => safe v /\ all fs end) fs
  | TTuple _ _ _ _ fs =>
      (fix all (fs : list (option tag * index * tree)) : Prop :=
         match fs with [] => True | (_, _, v) :: fs => safe v /\ all fs end) fs
  | TRecTup _ _ _ _ fs =>
      (fix all (fs : list (option tag * label * index * tree)) : Prop :=
         match fs with [] => True | (_, _, _, v) :: fs => safe v /\ all fs end) fs
  | _ => True
  end.

(** Values without raw-text tags, whose map keys are texts, numbers, booleans, null
    or unit variants: each has an image. *)
Fixpoint ordinary (t : tree) : Prop :=
  match t with
  | THint _ v => ordinary v
  | TTagged t _ _ v => is_raw t = false /\ ordinary v
  | TEnum _ _ _ v => is_variant v = true /\ ordinary v
  | TSeq _ vs => (fix all (vs : list tree) : Prop := match vs with [] => True | v :: vs => ordinary v /\ all vs end) vs
  | TMap _ es =>
      (fix all (es : list (tree * tree)) : Prop :=
         match es with
         | [] => True
         | (k, v) :: es => key_text (fun _ => []) (fun _ => []) false k <> None /\ ordinary v /\ all es
         end) es
  | TRecord _ _ _ _ fs =>
      (fix all (fs : list (option tag * label * tree)) : Prop :=
         match fs with [] => True | (_, l, v) :: fs => ident_ok l = true /\ ordinary v /\ all fs end) fs
  | TTuple _ _ _ _ fs =>
      (fix all (fs : list (option tag * index * tree)) : Prop :=
         match fs with [] => True | (_, _, v) :: fs => ordinary v /\ all fs end) fs
  | TRecTup _ _ _ _ fs =>
      (fix all (fs : list (option tag * label * index * tree)) : Prop :=
         match fs with [] => True | (_, l, _, v) :: fs => ident_ok l = true /\ ordinary v /\ all fs end) fs
  | _ => True
  end.
