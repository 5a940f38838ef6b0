(** * SerdeTextSpec: what serializing a value should be told to have failed with

    The [serde] side and the recursive view of a value only. *)

From Verif Require Import Base Event Tree DataModel FragModel BufferSpec StdModel NestedModel NestedSpec SerdeModel SerdeSpec SerdeErrModel.
Local Open Scope string_scope.

Section Tells.
Variable S : eserializer.
(** [S::Error::custom]. *)
Variable custom : bytes -> e_err S.
Notation answer := (result (e_err S) (e_ok S)).

(** What comes of serializing a value: something the serializer answered, which is
    passed on, or a message. *)
Inductive told := Given (r : answer) | Told (reason : string).
Definition give (o : told) : answer :=
  match o with
  | Given r => r
  | Told reason => RErr (custom (bs "the value is invalid: " ++ bs reason)%list)
  end.

(** Something that is needed, or a message. *)
Definition required {A} (text : string) (o : option A) (f : A -> told) : told :=
  match o with Some a => f a | None => Told text end.

(** ** Containers

    A part of a container: [late] is said if the container could not even begin,
    otherwise [act] is done, which may fail with a message. *)
Record part (K : Type) := MkPart { late : string; act : K -> K + told }.
Arguments MkPart {K}. Arguments late {K}. Arguments act {K}.
(** Something for the serializer to do, [text] being said if it fails. *)
Definition attempt {K} (text : string) (r : result (e_err S) K) : K + told :=
  match r with ROk s => inl s | RErr _ => inr (Told text) | RPanic => inr (Given RPanic) end.
Fixpoint go_on {K} (s : K) (ps : list (part K)) (fin : K -> answer) : told :=
  match ps with
  | [] => Given (fin s)
  | p :: ps' => match act p s with inl s' => go_on s' ps' fin | inr o => o end
  end.
(** An error of beginning a container is passed on only if nothing should follow. *)
Definition in_all {K} (beg : result (e_err S) K) (ps : list (part K)) (fin : K -> answer) : told :=
  match beg with
  | ROk s => go_on s ps fin
  | RErr e => match ps with [] => Given (RErr e) | p :: _ => Told (late p) end
  | RPanic => Given RPanic
  end.
Definition simply {K} (text : string) (f : K -> result (e_err S) K) : part K := MkPart text (fun s => attempt text (f s)).

(** ** Children

    A child, for the serializer, is something to be serialized with one serializer
    or another. *)
Notation child_of := (e_ser S -> answer).

Section All.
  Context {A B : Type} (P : A -> B -> Prop).
  Fixpoint all2 (l : list A) (m : list B) {struct m} : Prop :=
    match m, l with
    | [], [] => True
    | y :: m', x :: l' => P x y /\ all2 l' m'
    | _, _ => False
    end.
End All.

(** What is said of values that an enum cannot have for variants. *)
Fixpoint no_variant (r : rview) : told :=
  match r with
  | RSeq _ _ => Told "sequences cannot be used as enum variants"
  | RMap _ _ => Told "maps cannot be used as enum variants"
  | REnum _ _ _ v => no_variant v
  | RTag _ _ _ | RTagged _ _ _ _ => Told "nested enums aren't supported"
  | RTuple _ _ _ _ _ | RRecord _ _ _ _ _ => Given RPanic
  | _ => Told "cannot stream an enum; the stream is in an invalid state"
  end.
(** A variant that is [hidden] is one that is not streamed by calls, but handed over
    as a value: what is said of it is lost. *)
Definition hush (hidden : bool) (o : told) : told :=
  match o with Told _ => if hidden then Told "failed to stream value" else o | o => o end.

(** [o] is what comes of serializing [r] with [k]. *)
Fixpoint tells (hidden : bool) (r : rview) (k : e_ser S) (o : told) {struct r} : Prop :=
  let kid (c : child_of) (v : rview) := exists h, forall k', exists o', tells h v k' o' /\ c k' = give o' in
  match r with
  | RNull => o = Given (es_none S k)
  | RBool b => o = Given (es_bool S k b)
  | RInt t z => o = Given (es_int S k t z)
  | RF32 f => o = Given (es_f32 S k f)
  | RF64 f => o = Given (es_f64 S k f)
  | RText s => o = Given (es_str S k s)
  | RBin s => o = Given (es_bytes S k s)
  | RTag t l _ =>
      o = if otag_is t RUST_OPTION_NONE then Given (es_none S k)
          else if otag_is t RUST_UNIT then Given (es_unit S k)
          else required "unit label must be static" (name_of l) (fun name => Given (es_unit_struct S k name))
  | RTagged t l _ v =>
      exists c, kid c v /\
      o = if otag_is t RUST_OPTION_SOME then Given (es_some S k c)
          else required "newtype label must be static" (name_of l) (fun name => Given (es_newtype_struct S k name c))
  | RSeq n vs =>
      exists cs, all2 kid cs vs /\
      o = in_all (es_seq S k n)
            (map (fun c => simply "failed to serialize sequence element" (fun s => e_seq_element S s c)) cs) (e_seq_end S)
  | RMap n es =>
      exists cs, all2 (fun c e => match c, e with (c, d), (a, b) => kid c a /\ kid d b end) cs es /\
      o = in_all (es_map S k n)
            (flat_map (fun c => match c with (c, d) =>
               [simply "failed to serialize map key" (fun s => e_map_key S s c);
                simply "failed to serialize map value" (fun s => e_map_value S s d)] end) cs) (e_map_end S)
  | RTuple _ l _ n fs =>
      exists cs, all2 (fun c f => match f with (_, _, v) => kid c v end) cs fs /\
      o = required "missing tuple len" n (fun len =>
          match l with
          | None =>
              in_all (es_tuple S k len)
                (map (fun c => simply "failed to serialize tuple field" (fun s => e_tuple_element S s c)) cs) (e_tuple_end S)
          | Some l => required "tuple label must be static" (as_static_str l) (fun name =>
              in_all (es_tuple_struct S k name len)
                (map (fun c => simply "failed to serialize tuple field" (fun s => e_tstruct_field S s c)) cs) (e_tstruct_end S))
          end)
  | RRecord _ l _ n fs =>
      exists cs, all2 (fun c f => match c, f with (cl, c), (_, fl, v) => cl = fl /\ kid c v end) cs fs /\
      o = required "missing struct len" n (fun len =>
          match l with
          | None =>
              in_all (es_tuple S k len)
                (map (fun c => simply "failed to serialize tuple field" (fun s => e_tuple_element S s (snd c))) cs) (e_tuple_end S)
          | Some l => required "struct label must be static" (as_static_str l) (fun name =>
              in_all (es_struct S k name len)
                (map (fun c => match c with (fl, c) =>
                   MkPart "failed to serialize tuple field" (fun s =>
                     match as_static_str fl with
                     | Some f => attempt "failed to serialize tuple field" (e_struct_field S s f c)
                     | None => inr (Told "struct field label must be static")
                     end) end) cs) (e_struct_end S))
          end)
  | REnum _ l _ v =>
      exists o', o = required "enum label must be static" (name_of l) (fun name => hush hidden (o' name)) /\ forall name,
      match v with
      | RTag _ l i =>
          o' name = required "unit variant label must be static" (name_of l) (fun variant =>
                    required "unit variant index must a 32bit value" (index_of i) (fun index =>
                    Given (es_unit_variant S k name index variant)))
      | RTagged _ l i v =>
          exists c, kid c v /\
          o' name = required "newtype variant label must be static" (name_of l) (fun variant =>
                    required "newtype variant index must be a 32bit value" (index_of i) (fun index =>
                    Given (es_newtype_variant S k name index variant c)))
      | RTuple _ l i n fs =>
          exists cs, all2 (fun c f => match f with (_, _, v) => kid c v end) cs fs /\
          o' name = required "tuple variant label must be static" (name_of l) (fun variant =>
                    required "tuple variant index must be a 32bit value" (index_of i) (fun index =>
                    required "missing tuple variant len" n (fun len =>
                    in_all (es_tuple_variant S k name index variant len)
                      (map (fun c => simply "failed to serialize tuple value" (fun s => e_tvariant_field S s c)) cs)
                      (e_tvariant_end S))))
      | RRecord _ l i n fs =>
          exists cs, all2 (fun c f => match c, f with (cl, c), (_, fl, v) => cl = fl /\ kid c v end) cs fs /\
          o' name = required "struct variant label must be static" (name_of l) (fun variant =>
                    required "struct variant index must be a 32bit value" (index_of i) (fun index =>
                    required "missing struct variant len" n (fun len =>
                    in_all (es_struct_variant S k name index variant len)
                      (map (fun c => match c with (fl, c) =>
                         match as_static_str fl with
                         | Some f => simply "failed to serialize struct value" (fun s => e_svariant_field S s f c)
                         | None => MkPart "struct variant field label must be static"
                                     (fun _ => inr (Told "struct variant field label must be static"))
                         end end) cs)
                      (e_svariant_end S))))
      | v => o' name = no_variant v
      end
  end.
End Tells.
Arguments Given {S}. Arguments Told {S}.

(** ** All that can be said *)
Definition texts : list string :=
  [ (* Names, indexes and lengths that [serde] needs. *)
    "unit label must be static"; "newtype label must be static"; "tuple label must be static"; "struct label must be static";
    "enum label must be static"; "struct field label must be static"; "struct variant field label must be static";
    "unit variant label must be static"; "newtype variant label must be static"; "tuple variant label must be static";
    "struct variant label must be static";
    "unit variant index must a 32bit value"; "newtype variant index must be a 32bit value";
    "tuple variant index must be a 32bit value"; "struct variant index must be a 32bit value";
    "missing tuple len"; "missing struct len"; "missing tuple variant len"; "missing struct variant len";
    (* Parts of containers. *)
    "failed to serialize sequence element"; "failed to serialize map key"; "failed to serialize map value";
    "failed to serialize tuple field"; "failed to serialize tuple value"; "failed to serialize struct value";
    (* Enums. *)
    "nested enums aren't supported"; "sequences cannot be used as enum variants"; "maps cannot be used as enum variants";
    "cannot stream an enum; the stream is in an invalid state"; "failed to stream value" ].

(** A serializer all of whose errors satisfy [P], as long as those of the children do. *)
Section Gives.
Variable S : eserializer.
Variable P : e_err S -> Prop.
Definition errs_in {A} (r : result (e_err S) A) : Prop := forall e, r = RErr e -> P e.
Definition kid_in (c : e_ser S -> result (e_err S) (e_ok S)) : Prop := forall k, errs_in (c k).
Record gives_only : Prop := {
  go_bool : forall k b, errs_in (es_bool S k b);
  go_int : forall k t z, errs_in (es_int S k t z);
  go_f32 : forall k f, errs_in (es_f32 S k f);
  go_f64 : forall k f, errs_in (es_f64 S k f);
  go_str : forall k s, errs_in (es_str S k s);
  go_bytes : forall k s, errs_in (es_bytes S k s);
  go_none : forall k, errs_in (es_none S k);
  go_unit : forall k, errs_in (es_unit S k);
  go_unit_struct : forall k n, errs_in (es_unit_struct S k n);
  go_unit_variant : forall k n i v, errs_in (es_unit_variant S k n i v);
  go_some : forall k c, kid_in c -> errs_in (es_some S k c);
  go_newtype_struct : forall k n c, kid_in c -> errs_in (es_newtype_struct S k n c);
  go_newtype_variant : forall k n i v c, kid_in c -> errs_in (es_newtype_variant S k n i v c);
  go_seq : forall k n, errs_in (es_seq S k n);
  go_tuple : forall k n, errs_in (es_tuple S k n);
  go_tuple_struct : forall k l n, errs_in (es_tuple_struct S k l n);
  go_tuple_variant : forall k l i v n, errs_in (es_tuple_variant S k l i v n);
  go_map : forall k n, errs_in (es_map S k n);
  go_struct : forall k l n, errs_in (es_struct S k l n);
  go_struct_variant : forall k l i v n, errs_in (es_struct_variant S k l i v n);
  go_seq_end : forall s, errs_in (e_seq_end S s);
  go_tuple_end : forall s, errs_in (e_tuple_end S s);
  go_tstruct_end : forall s, errs_in (e_tstruct_end S s);
  go_tvariant_end : forall s, errs_in (e_tvariant_end S s);
  go_map_end : forall s, errs_in (e_map_end S s);
  go_struct_end : forall s, errs_in (e_struct_end S s);
  go_svariant_end : forall s, errs_in (e_svariant_end S s)
}.
End Gives.

(** ** Containers of which no part can be serialized *)
Definition fails {E A} (r : result E A) : Prop := exists e, r = RErr e.
Definition no_panic {E A} (r : result E A) : Prop := r <> RPanic.
Record refuses_parts (S : eserializer) : Prop := {
  rp_seq : forall s c, fails (e_seq_element S s c);
  rp_map : forall s c, fails (e_map_key S s c);
  rp_tuple : forall s c, fails (e_tuple_element S s c);
  rp_tstruct : forall s c, fails (e_tstruct_field S s c);
  rp_tvariant : forall s c, fails (e_tvariant_field S s c);
  rp_struct : forall s f c, fails (e_struct_field S s f c);
  rp_svariant : forall s f c, fails (e_svariant_field S s f c);
  rp_seq_begin : forall k n, no_panic (es_seq S k n);
  rp_map_begin : forall k n, no_panic (es_map S k n);
  rp_tuple_begin : forall k n, no_panic (es_tuple S k n);
  rp_tstruct_begin : forall k l n, no_panic (es_tuple_struct S k l n);
  rp_tvariant_begin : forall k l i v n, no_panic (es_tuple_variant S k l i v n);
  rp_struct_begin : forall k l n, no_panic (es_struct S k l n);
  rp_svariant_begin : forall k l i v n, no_panic (es_struct_variant S k l i v n)
}.
(** The first part of a container, in words; nothing for a container that does not
    even begin because a name, an index or the length is missing. *)
Definition is_some {A} (o : option A) : bool := match o with Some _ => true | None => false end.
Definition first_part (r : rview) : option string :=
  match r with
  | RSeq _ (_ :: _) => Some "sequence element"
  | RMap _ (_ :: _) => Some "map key"
  | RTuple _ None _ (Some _) (_ :: _) => Some "tuple field"
  | RTuple _ (Some l) _ (Some _) (_ :: _) => if is_some (as_static_str l) then Some "tuple field" else None
  | RRecord _ None _ (Some _) (_ :: _) => Some "tuple field"
  | RRecord _ (Some l) _ (Some _) ((_, fl, _) :: _) =>
      if is_some (as_static_str l) && is_some (as_static_str fl) then Some "struct field" else None
  | REnum _ name _ (RTuple _ l i (Some _) (_ :: _)) =>
      if is_some (name_of name) && is_some (name_of l) && is_some (index_of i) then Some "tuple value" else None
  | REnum _ name _ (RRecord _ l i (Some _) ((_, fl, _) :: _)) =>
      if is_some (name_of name) && is_some (name_of l) && is_some (index_of i) && is_some (as_static_str fl) then Some "struct value" else None
  | _ => None
  end.
Definition a_struct (r : rview) : bool := match r with RRecord _ (Some _) _ _ _ => true | _ => false end.
