(** * JsonErrModel: what a caller sees of an error of the JSON encoder

    [json/src/error.rs].  The kind is private: its text and source are all there is. *)

From Verif Require Import Base Event LowerModel DataModel JsonModel.

(** [impl fmt::Display for Error], 19-28. *)
Definition error_text (e : jerr) : bytes :=
  match e with
  | EGeneric => bs "an error occurred serializing a value to JSON"
  | EIO => bs "failed to write JSON"
  | EInvalidKey => bs "attempt to serialize a non-string key"
  end.
(** [source], 50-57: is there one?  It is the [io::Error] the writer gave. *)
Definition error_has_source (e : jerr) : bool := match e with EIO => true | _ => false end.
