(** * AttrSpec: which attributes may stand where *)

From Verif Require Import Base Event DataModel FlattenModel DeriveModel AttrModel.
From Coq Require Import Permutation.

(** The places in a definition. *)
Inductive place := PUnit | PNewtype | PStruct | PEnum | PVoid | PUnitVariant | PNewtypeVariant | PStructVariant | PField | PNewtypeField.

(** The attributes documented for each. *)
Definition allowed (p : place) : list bytes :=
  match p with
  | PUnit | PUnitVariant | PNewtypeVariant => [bs "tag"; bs "label"; bs "index"]
  | PNewtype => [bs "tag"; bs "label"; bs "index"; bs "transparent"]
  | PStruct | PStructVariant => [bs "tag"; bs "label"; bs "index"; bs "unlabeled_fields"; bs "unindexed_fields"]
  | PEnum => [bs "tag"; bs "label"; bs "index"; bs "dynamic"; bs "unlabeled_variants"; bs "unindexed_variants"]
  | PField => [bs "tag"; bs "data_tag"; bs "index"; bs "label"; bs "skip"; bs "flatten"]
  | PVoid | PNewtypeField => []
  end.

(** What kind of value each takes; nothing means [true]. *)
Definition value_kind (k : bytes) (e : expr) : Prop :=
  if existsb (bytes_eqb k) [bs "tag"; bs "data_tag"; bs "label"] then
    (exists s, e = ELit (LStr s)) \/ (exists p, e = EPath p)
  else if bytes_eqb k (bs "index") then
    (exists n, e = ELit (LInt n)) \/ (exists n, e = ENeg (ELit (LInt n))) \/ (exists p, e = EPath p)
  else exists b, e = ELit (LBool b).

(** The [sval] items of a list of attributes, all lists joined. *)
Definition items (ats : list attribute) : list (bytes * expr) :=
  flat_map (fun a => if bytes_eqb (a_path a) (bs "sval")
                     then match a_items a with Some is => map with_value is | None => [] end else []) ats.
Definition parses (ats : list attribute) : Prop :=
  Forall (fun a => a_path a = bs "sval" -> a_items a <> None) ats.

(** All the places of a definition, each with the attributes written there. *)
Definition field_places (fs : raw_fields) : list (place * list attribute) :=
  match fs with
  | RFUnit => []
  | RFUnnamed [f] => [(PNewtypeField, rf_attrs f)]
  | RFNamed fs | RFUnnamed fs => map (fun f => (PField, rf_attrs f)) fs
  end.
Definition struct_place (fs : raw_fields) : place :=
  match fs with RFUnit => PUnit | RFUnnamed [_] => PNewtype | _ => PStruct end.
Definition variant_place (fs : raw_fields) : place :=
  match fs with RFUnit => PUnitVariant | RFUnnamed [_] => PNewtypeVariant | _ => PStructVariant end.
Definition places (d : raw_def) : list (place * list attribute) :=
  match d with
  | RStruct _ ats fs => (struct_place fs, ats) :: field_places fs
  | REnum _ ats vs =>
      (match vs with [] => PVoid | _ => PEnum end, ats) ::
      flat_map (fun v => (variant_place (rv_fields v), rv_attrs v) :: field_places (rv_fields v)) vs
  | RUnion _ => []
  end.

(** Every key is one for the place, and is there once. *)
Definition proper (pa : place * list attribute) : Prop :=
  parses (snd pa) /\ NoDup (map fst (items (snd pa))) /\ Forall (fun i => In (fst i) (allowed (fst pa))) (items (snd pa)).

(** The same definition with the [sval] items of each place in another order, or spread
    differently over [#[sval(..)]] attributes, or among other attributes. *)
Definition reordered (a b : list attribute) : Prop := parses a /\ parses b /\ Permutation (items a) (items b).
Definition reordered_field (f g : raw_field) : Prop := rf_name f = rf_name g /\ reordered (rf_attrs f) (rf_attrs g).
Inductive reordered_fields : raw_fields -> raw_fields -> Prop :=
| ro_unit : reordered_fields RFUnit RFUnit
| ro_named fs gs : Forall2 reordered_field fs gs -> reordered_fields (RFNamed fs) (RFNamed gs)
| ro_unnamed fs gs : Forall2 reordered_field fs gs -> reordered_fields (RFUnnamed fs) (RFUnnamed gs).
Definition reordered_variant (v w : raw_variant) : Prop :=
  rv_name v = rv_name w /\ reordered (rv_attrs v) (rv_attrs w) /\ rv_disc v = rv_disc w /\ reordered_fields (rv_fields v) (rv_fields w).
Inductive reordered_def : raw_def -> raw_def -> Prop :=
| ro_struct name a b fs gs : reordered a b -> reordered_fields fs gs -> reordered_def (RStruct name a fs) (RStruct name b gs)
| ro_enum name a b vs ws : reordered a b -> Forall2 reordered_variant vs ws -> reordered_def (REnum name a vs) (REnum name b ws)
| ro_union name : reordered_def (RUnion name) (RUnion name).

(** A flag that is set, with [= true] or without; an attribute as it is written. *)
Definition says (k : bytes) (ats : list attribute) : Prop := In (k, ELit (LBool true)) (items ats).
Definition skipped := says (bs "skip").
Definition sval (is : list (bytes * option expr)) : attribute := MkAttribute (bs "sval") (Some is).
(** A number written as a literal. *)
Definition written (z : Z) : expr :=
  if Z.ltb z 0 then ENeg (ELit (LInt (Z.to_N (- z)))) else ELit (LInt (Z.to_N z)).

(** What a generated match arm calls its variant, and whether it gives its [n]th field a tag: the
    values of a sequence have none. *)
Definition arm_label (a : arm) : option label :=
  match a with
  | ATag _ l _ | ANewtype _ l _ | AFields _ _ l _ _ _ => l
  | ATransparent => None
  end.
Definition tags_field (t : tag) (n : nat) (a : arm) : Prop :=
  match a with
  | AFields _ _ _ _ _ body =>
      exists k l i d, In (SField k (Some t) l i d n) body /\ In k [FRecTup; FTuple; FRecord]
  | _ => False
  end.
