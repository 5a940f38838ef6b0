(** * PreencodeModel: the other ways to get JSON in memory
    ([json/src/to_vec.rs], [json/src/to_string.rs]) *)

From Verif Require Import Base Event LowerModel JsonModel AdapterModel.

(** [impl io::Write for Vec<u8>] of the standard library, reached through
    [&mut out] in [json/src/to_vec.rs:10-15]: everything is appended at once.
    Simplified: a failing allocation aborts the process and is not modelled. *)
Definition vec_write (out : bytes) (buf : bytes) : bytes * io_resp := (out ++ buf, IoN (List.length buf)).

(** [stream_to_vec], [json/src/to_vec.rs:10-15].  One answer per write is enough, so the
    fuel of [io_loop] is one per byte. *)
Definition json_to_vec (r32 r64 : float -> bytes) (v : list call) : sresult :=
  match json_to_io bytes vec_write 1 r32 r64 [] v with
  | JOk w => SOk (io_st bytes w)
  | JErr e _ => SErr e
  | JPanic => SPanic
  end.

(** [stream_to_json_str], [json/src/to_string.rs:22-24], followed by streaming the
    [JsonStr] it gives, [json/src/value.rs:61-67]: [Some] are the calls it makes. *)
Definition json_to_json_str (r32 r64 : float -> bytes) (v : list call) : sresult := json_to_string r32 r64 v.
Definition encoded (r32 r64 : float -> bytes) (v : list call) : option (list call) :=
  match json_to_json_str r32 r64 v with SOk s => Some (json_str s) | _ => None end.
