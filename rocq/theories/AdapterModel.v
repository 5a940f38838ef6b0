(** * AdapterModel: values made from [fmt] traits and from encoded JSON

    [fmt/src/to_value.rs], [src/data/text.rs:22-84], [json/src/value.rs]. *)

From Verif Require Import Base Event LowerModel JsonModel FmtModel StdModel.

(** A [Display] or [Debug] impl, formatting into a [fmt::Write] whose [write_str] is [wr]. *)
Definition shows (W : Type) : Type := (W -> bytes -> res W) -> W -> res W.

(** One that writes [ps] in turn, stops at the first write that fails, and then succeeds
    if [ok] and fails otherwise; what [write!] and the derived impls do. *)
Fixpoint plain_show {W} (ps : list bytes) (ok : bool) (wr : W -> bytes -> res W) (w : W) : res W :=
  match ps with
  | [] => if ok then Ok w else Err w
  | s :: ps' => wr w s >>= fun w => plain_show ps' ok wr w
  end.

(** [ToFmt(v)], [fmt/src/to_fmt.rs:40-57]: its [Debug] is its [Display]. *)
Definition to_fmt_show {W} r32 r64 uni (v : list call) : shows W :=
  fun wr w => to_fmt_display W (generic_tok wr) r32 r64 uni w v.

Section Stream.
  Context {St : Type}.
  Variable step : St -> ev -> res St.

  (** [stream_display_fragments], [src/data/text.rs:70-82]; the [Writer]s of
      [fmt/src/to_value.rs:76-84, 97-105] and [src/data/text.rs:86-92]. *)
  Definition stream_fragments (show : shows St) (s : St) : res St :=
    show (fun s x => step s (ETextFragC x)) s.
  (** [DebugToValue::stream], [fmt/src/to_value.rs:74-91]; [DisplayToValue::stream],
      95-112; [Display::stream], [src/data/text.rs:45-52]. *)
  Definition stream_shown (show : shows St) (s : St) : res St :=
    step s (ETextBegin None) >>= fun s => stream_fragments show s >>= fun s => step s ETextEnd.
End Stream.

(** [JsonStr::stream], [json/src/value.rs:60-66]. *)
Definition json_str (s : bytes) : list call :=
  [CE (ETaggedBegin (Some JSON_VALUE) None None); CV (str_calls s); CE (ETaggedEnd (Some JSON_VALUE) None None)].
