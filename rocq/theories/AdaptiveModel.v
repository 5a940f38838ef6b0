(** * AdaptiveModel: values that look at the result of each call

    Elsewhere a value is the list of the calls it makes, each followed by [?].
    [sval::Value::stream] ([src/value.rs:10]) may do anything with the result of
    a call, such as ignore it.  Here a value is a tree of decisions: what it does
    next may depend on whether the call before succeeded. *)

From Verif Require Import Base Event LowerModel MethProofs ForwardModel ExtractModel FragModel JsonModel BufferModel.

(** [PEnd ok]: return [Ok(())] or an error.  [PCall e k]: call a method of the
    stream.  [PValue v k], [PComputed v k]: [stream.value(&v)] and
    [stream.value_computed(&v)], where [v] is such a value too. *)
Inductive prog :=
| PEnd (ok : bool)
| PCall (e : ev) (k : bool -> prog)
| PValue (v : prog) (k : bool -> prog)
| PComputed (v : prog) (k : bool -> prog).

(** The value sees whether a call succeeded; after a panic it sees nothing. *)
Definition answer {S} (r : res S) (k : bool -> S -> res S) : res S :=
  match r with Ok s => k true s | Err s => k false s | Panic => Panic end.

Section Run.
  Context {S : Type} (step : S -> ev -> res S).

  (** [p.stream(o)] through a stack of wrappers.  [value] and [value_computed] as in
      [do_call] of ForwardModel.v: [src/stream.rs:459-467, 799-806, 1132-1147],
      [dynamic/src/stream.rs:214-216, 505-507]. *)
  Fixpoint do_prog (p : prog) : obj -> S -> res S :=
    match p with
    | PEnd ok => fun _ s => if ok then Ok s else Err s
    | PCall e k => fun o s => answer (do_ev step o e s) (fun b s' => do_prog (k b) o s')
    | PValue v k => fun o s =>
        answer ((fix dv (o : obj) (s : S) : res S :=
                   match o with
                   | OBase => do_prog v OBase s
                   | OMut o' | OBox o' => dv o' s
                   | OComputed o' => do_prog v (OComputed o') s
                   | ODyn o' => do_prog v (ODyn o') s
                   end) o s) (fun b s' => do_prog (k b) o s')
    | PComputed v k => fun o s =>
        answer ((fix dvc (o : obj) (layers : nat) (s : S) : res S :=
                   match o with
                   | OBase => do_prog v (dyn_layers layers (OComputed OBase)) s
                   | OMut o' | OBox o' | OComputed o' => dvc o' layers s
                   | ODyn o' => dvc o' (Datatypes.S layers) s
                   end) o 0 s) (fun b s' => do_prog (k b) o s')
    end.
End Run.

(** [p.stream(&mut s)] where [s] overrides the methods in [O]. *)
Definition run_prog {S} (O : ev -> bool) (step : S -> ev -> res S) (s : S) (p : prog) : res S :=
  do_prog (meth O step) p OBase s.

(** ** The entry points, as in ExtractModel.v, FragModel.v and JsonModel.v *)

(** [src/value.rs:389-442], [595-652], [685-742], [567-590, 657-680]. *)
Definition adaptive_bool (p : prog) : option bool := finish (run_prog overrides_nothing bool_step None p).
Definition adaptive_i128 (p : prog) : option Z := finish (run_prog i128_overrides i128_step None p).
Definition adaptive_u128 (p : prog) : option Z := finish (run_prog u128_overrides u128_step None p).
Definition adaptive_int (t : ity) (p : prog) : option Z :=
  match t with
  | I8 | I16 | I32 | I64 => try_into t (adaptive_i128 p)
  | I128 => adaptive_i128 p
  | U8 | U16 | U32 | U64 => try_into t (adaptive_u128 p)
  | U128 => adaptive_u128 p
  end.
(** [src/value.rs:747-821], [826-912]. *)
Definition adaptive_text (p : prog) : option bytes :=
  match run_prog text_overrides text_step (None, false) p with Ok s => fst s | _ => None end.
Definition adaptive_binary (p : prog) : option bytes :=
  match run_prog bin_overrides bin_step (None, false) p with Ok s => fst s | _ => None end.
(** [TextBuf::collect], [buffer/src/fragments.rs:37-50]. *)
Definition adaptive_text_collect (p : prog) : outcome cow :=
  collect_end (run_prog text_col_over text_col_step (text_buf_new, false) p).
(** [BinaryBuf::collect], [buffer/src/fragments.rs:294-307]. *)
Definition adaptive_binary_collect (p : prog) : outcome cow :=
  collect_end (run_prog bin_col_over bin_col_step (text_buf_new, false) p).
(** [ValueBuf::collect], [buffer/src/value.rs:153-162]. *)
Definition adaptive_vbuf_collect (p : prog) : outcome vbuf :=
  match do_prog vbuf_step p OBase vbuf_new with Ok b => OOk b | Err _ => OErr | Panic => OPanic end.
(** [stream_to_fmt_write], [json/src/to_fmt.rs:27-34]. *)
Definition adaptive_to_fmt (W : Type) (wr : W -> bytes -> res W) (r32 r64 : float -> bytes) (w : W) (p : prog) : jresult W :=
  match run_prog json_over (json_step W wr r32 r64) (fm_new W w) p with
  | Ok f => JOk (f_out f)
  | Err f => JErr (match f_err f with Some e => e | None => EGeneric end) (f_out f)
  | Panic => JPanic
  end.
(** [stream_to_string], [json/src/to_string.rs:10-15]. *)
Definition adaptive_to_string (r32 r64 : float -> bytes) (p : prog) : sresult :=
  match adaptive_to_fmt bytes string_write r32 r64 [] p with
  | JOk s => SOk s
  | JErr e _ => SErr e
  | JPanic => SPanic
  end.
