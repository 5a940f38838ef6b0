(** * FlatRustModel: structs with [#[sval(flatten)]] fields

    As RustModel.v, nothing new is modelled here: [frust] puts the macro of
    DeriveModel.v, which calls [sval_flatten] (FlattenModel.v), around the values of
    RustModel.v. *)

From Verif Require Import Base Event FlattenModel StdModel DeriveModel RustModel.

(** Plain data; [Some]; and a struct with named fields, some of which ([true]) carry
    [#[sval(flatten)]]. *)
Inductive fdatum :=
| FPlain (v : datum)
| FSome (v : fdatum)
| FStruct (name : bytes) (fs : list (bytes * bool * fdatum)).

(** The definition the macro is given. *)
Definition field_of (name : bytes) (flatten : bool) : field_def :=
  MkField (Some name) None None None None None (if flatten then Some true else None).
Definition fdef (name : bytes) (fs : list (bytes * bool * fdatum)) : type_def :=
  DStruct name plain_attrs (FsNamed (map (fun f => match f with (n, b, _) => field_of n b end) fs)).

(** Calls are made one after the other until one fails, so they are known from a
    stream that none fails on.  FlatRustProofs.v proves that every stream gets just
    these ([fstruct_stream]).  A panic leaves no calls; the theorems exclude it. *)
Definition keep (w : list ev) (e : ev) : res (list ev) := Ok (w ++ [e]).
Fixpoint frust (r64 : float -> bytes) (v : fdatum) : list call :=
  match v with
  | FPlain v => rust v
  | FSome v => calls (RSome (elem (frust r64 v)))
  | FStruct name fs =>
      match derive (fdef name fs) with
      | Some m =>
          match derived_stream keep r64 m 0 (map (fun f => match f with (_, _, v) => frust r64 v end) fs) [] with
          | Ok es => map CE es
          | _ => []
          end
      | None => []
      end
  end.
