(** * FormatterModel: [ToFmt] under a format with width, fill, sign and precision

    [impl TokenWrite for fmt::Formatter], [fmt/src/writer.rs:10-58], and
    [impl Display for ToFmt], [fmt/src/to_fmt.rs:43-53], with the options of the
    [Formatter].  [core::fmt] is modelled from its source: the options, [padding],
    [pad_integral] and the [Display] of integers; the [Display] of floats is any
    function of the options.  [Formatter::write_fmt], which the default
    [write_token] and [to_fmt.rs:50] use, formats its arguments with no options. *)

From Verif Require Import Base Event LowerModel FmtModel TokenWriteModel.

Inductive alignment := ALeft | ACenter | ARight.
(** The options of a format: [format!("{:fill<+#0width.precision}", _)]. *)
Record flags := MkFlags {
  fl_fill : bytes;                  (* one character *)
  fl_align : option alignment;
  fl_plus : bool; fl_alternate : bool; fl_zero : bool;
  fl_width : option nat; fl_precision : option nat }.
Definition no_flags : flags := MkFlags (bs " ") None false false false None None.

(** Writes, each followed by [?]. *)
Fixpoint writes {W} (wstr : W -> bytes -> res W) (w : W) (ps : list bytes) : res W :=
  match ps with
  | [] => Ok w
  | p :: ps' => wstr w p >>= fun w => writes wstr w ps'
  end.

(** [core::fmt::Formatter::padding]: the fill characters before and after. *)
Definition padding (fl : flags) (n : nat) (default : alignment) : list bytes * list bytes :=
  let (before, after) :=
    match match fl_align fl with Some a => a | None => default end with
    | ALeft => (0, n)
    | ARight => (n, 0)
    | ACenter => (Nat.div2 n, Nat.div2 (n + 1))
    end in
  (repeat (fl_fill fl) before, repeat (fl_fill fl) after).

(** [core::fmt::Formatter::pad_integral]. *)
Definition pad_integral (fl : flags) (nonnegative : bool) (prefix buf : bytes) : list bytes :=
  let sign := if negb nonnegative then [bs "-"] else if fl_plus fl then [bs "+"] else [] in
  let prefix := if fl_alternate fl then [prefix] else [] in
  let width := length buf + length sign + length (List.concat prefix) in
  match fl_width fl with
  | None => sign ++ prefix ++ [buf]
  | Some min =>
      if Nat.leb min width then sign ++ prefix ++ [buf]
      else if fl_zero fl then
        let (pre, post) := padding (MkFlags (bs "0") (Some ARight) (fl_plus fl) (fl_alternate fl) (fl_zero fl) (fl_width fl) (fl_precision fl))
                                   (min - width) ARight in
        sign ++ prefix ++ pre ++ [buf] ++ post
      else
        let (pre, post) := padding fl (min - width) ARight in
        pre ++ sign ++ prefix ++ [buf] ++ post
  end.
(** [impl Display for u8], .. [i128]. *)
Definition display_int (fl : flags) (z : Z) : list bytes :=
  pad_integral fl (0 <=? z)%Z [] (dec_N (Z.abs_N z)).

Section Formatter.
  Variable W : Type.
  Variable wstr : W -> bytes -> res W.              (* the writer below the [Formatter] *)
  Variable f32w f64w : flags -> float -> list bytes. (* [Display] of floats *)
  Variable uni : bytes -> list bytes.
  Definition plain32 (x : float) : bytes := List.concat (f32w no_flags x).
  Definition plain64 (x : float) : bytes := List.concat (f64w no_flags x).

  (** [writer.rs:10-58]. *)
  Definition flagged_own (fl : flags) (w : W) (m : tw) : option (res W) :=
    match m with
    | WInt _ z => Some (writes wstr w (display_int fl z))
    | WF32 x => Some (writes wstr w (f32w fl x))
    | WF64 x => Some (writes wstr w (f64w fl x))
    | _ => None
    end.
  (** [stream_to_fmt], [to_fmt.rs:33-35]. *)
  Definition stream_to_fmt (fl : flags) (w : W) (v : list call) : res W :=
    to_custom W (tw_call plain32 plain64 uni W (flagged_own fl) wstr) w v.
  (** [Display for ToFmt], [to_fmt.rs:43-53]; [Debug], 37-41, is the same. *)
  Definition display_to_fmt (fl : flags) (w : W) (v : list call) : res W :=
    match stream_to_fmt fl w v with
    | Err w => writes wstr w [bs "<"; bs "an error occurred when formatting an argument"; bs ">"]
    | r => r
    end.
End Formatter.

(** [format!("{:..}", ToFmt(v))]. *)
Definition format_to_fmt f32w f64w uni (fl : flags) (v : list call) : option bytes :=
  match display_to_fmt bytes (fun w s => Ok (w ++ s)) f32w f64w uni fl [] v with
  | Ok s => Some s
  | Err _ | Panic => None
  end.
