(** * DeriveAcceptSpec: the definitions [#[derive(Value)]] is meant to accept

    One clause for each rule, over the attributes as written in the source.
    Nothing here mentions the macro's allocator or its loops. *)

From Verif Require Import Base Event DataModel FlattenModel DeriveModel DeriveSpec.

(** The numbers a list of fields or variants takes, given the numbers written
    on them, can be counted in an [isize]: after each one there is a next. *)
Definition countable (given : list (option index_value)) : Prop :=
  forall before after, given = before ++ after -> before <> [] -> fits isize (next_number (rev before)) = true.

(** *** Fields of a struct or of a struct-like variant

    Skipped fields do not matter.  Of the others: with [unlabeled_fields] none
    has a label and with [unindexed_fields] none has an index; all of them are
    labelled or none is; and they can be numbered. *)
Definition good_fields (a : attrs) (fs : list field_def) : Prop :=
  let fs := filter streamed fs in
  (at_unlabeled a = Some true -> forall f, In f fs -> fd_label f = None) /\
  (at_unindexed a = Some true -> forall f, In f fs -> fd_index f = None) /\
  ((forall f, In f fs -> labelled (flag (at_unlabeled a)) f = true) \/
   (forall f, In f fs -> labelled (flag (at_unlabeled a)) f = false)) /\
  (at_unindexed a <> Some true -> countable (map fd_index fs)).

(** *** A body: the fields of a struct or a variant, with the attributes on it

    - unit: none of [unlabeled_fields], [unindexed_fields], [transparent];
    - one unnamed field: neither [unlabeled_fields] nor [unindexed_fields], no
      tag, label or index if it is transparent, and no attribute on the field;
    - other fields: not [transparent]. *)
Definition good_body (a : attrs) (fs : fields_def) : Prop :=
  match fs with
  | FsUnit => at_unlabeled a = None /\ at_unindexed a = None /\ at_transparent a = None
  | FsUnnamed [f] =>
      at_unlabeled a = None /\ at_unindexed a = None /\
      (at_transparent a = Some true -> at_tag a = None /\ at_label a = None /\ at_index a = None) /\
      f = MkField (fd_name f) None None None None None None
  | FsNamed fs | FsUnnamed fs => at_transparent a = None /\ good_fields a fs
  end.

(** *** A definition

    An enum without variants takes no attributes.  A dynamic enum has no tag,
    label or index, and neither [unlabeled_variants] nor [unindexed_variants].
    No variant is [transparent], no discriminant is a literal other than an
    integer, and the variants without an index of their own can be numbered,
    unless variants are not numbered at all. *)
Definition acceptable (d : type_def) : Prop :=
  match d with
  | DStruct _ a fs => good_body a fs
  | DEnum _ ea [] => ea = MkEnumAttrs None None None None None None
  | DEnum _ ea vs =>
      (ea_dynamic ea = Some true ->
         ea_tag ea = None /\ ea_label ea = None /\ ea_index ea = None /\
         ea_unlabeled ea <> Some true /\ ea_unindexed ea <> Some true) /\
      (forall v, In v vs -> good_body (vd_attrs v) (vd_fields v) /\ at_transparent (vd_attrs v) = None /\
                            (forall z, vd_disc v <> Some (DOtherLit z))) /\
      (ea_dynamic ea <> Some true -> ea_unindexed ea <> Some true ->
         countable (map disc_given (filter (fun v => absent (at_index (vd_attrs v))) vs)))
  end.
