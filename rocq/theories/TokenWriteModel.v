(** * TokenWriteModel: [TokenWrite] with any of its methods overridden

    [fmt/src/token_write.rs], [fmt/src/writer.rs], [fmt/src/to_write.rs].  FmtModel.v has
    the [Writer] with the default methods of [TokenWrite] written out; here the
    [Writer] calls the methods of an arbitrary implementation, and the defaults
    are used for those it leaves out.  A [Display] argument is its text; the
    default [write_token] is modelled as one [write_str] of that text. *)

From Verif Require Import Base Event LowerModel Utf8 FmtModel.

(** The methods, [token_write.rs:15-330]. *)
Inductive tw :=
| WToken (k : tkind) (s : bytes)
| WInt (t : ity) (z : Z)               (* write_u8 .. write_i128 *)
| WF32 (x : float) | WF64 (x : float)
| WNumber (s : bytes)
| WNull | WBool (b : bool) | WAtom (s : bytes)
| WType (s : bytes) | WField (s : bytes) | WIdent (s : bytes) | WPunct (s : bytes) | WWs (s : bytes)
| WTextQuote | WText (s : bytes)
| WMapBegin | WMapKeyBegin (first : bool) | WMapValueBegin (first : bool) | WMapEnd (empty : bool)
| WRecordType (s : bytes) | WRecordBegin | WRecordValueBegin (s : bytes) (first : bool) | WRecordEnd (empty : bool)
| WSeqBegin | WSeqValueBegin (first : bool) | WSeqEnd (empty : bool)
| WTupleType (s : bytes) | WTupleBegin | WTupleValueBegin (first : bool) | WTupleEnd (empty : bool).

(** A number of method calls, each followed by [?]. *)
Fixpoint calls {W} (call : W -> tw -> res W) (w : W) (ms : list tw) : res W :=
  match ms with
  | [] => Ok w
  | m :: ms' => call w m >>= fun w => calls call w ms'
  end.

Section Methods.
  Variable d32 d64 : float -> bytes.     (* [Display] of floats *)
  Variable uni : bytes -> list bytes.

  (** The bodies of the default methods other than [write_token]. *)
  Definition tw_default (m : tw) : list tw :=
    match m with
    | WToken _ _ => []
    (* 26-112 *)
    | WInt _ z => [WNumber (dec z)]
    | WF32 x => [WNumber (d32 x)]
    | WF64 x => [WNumber (d64 x)]
    | WNumber s => [WToken KNumber s]
    (* 114-133 *)
    | WNull => [WAtom (bs "()")]
    | WBool b => [WAtom (if b then bs "true" else bs "false")]
    | WAtom s => [WToken KAtom s]
    (* 135-168 *)
    | WType s => [WIdent s]
    | WField s => [WIdent s]
    | WIdent s => [WToken KIdent s]
    | WPunct s => [WToken KPunct s]
    | WWs s => [WToken KWs s]
    (* 170-184 *)
    | WTextQuote => [WToken KText [ascii_of_N 34]]
    | WText s => map (WToken KText) (escape_pieces uni (chars s) [])
    (* 186-225 *)
    | WMapBegin => [WPunct (bs "{")]
    | WMapKeyBegin first => (if first then [] else [WPunct (bs ",")]) ++ [WWs (bs " ")]
    | WMapValueBegin _ => [WPunct (bs ":"); WWs (bs " ")]
    | WMapEnd empty => (if empty then [] else [WWs (bs " ")]) ++ [WPunct (bs "}")]
    (* 227-268 *)
    | WRecordType s => [WType s; WWs (bs " ")]
    | WRecordBegin => [WPunct (bs "{")]
    | WRecordValueBegin s first =>
        (if first then [] else [WPunct (bs ",")]) ++ [WWs (bs " "); WField s; WPunct (bs ":"); WWs (bs " ")]
    | WRecordEnd empty => (if empty then [] else [WWs (bs " ")]) ++ [WPunct (bs "}")]
    (* 270-296 *)
    | WSeqBegin => [WPunct (bs "[")]
    | WSeqValueBegin first => if first then [] else [WPunct (bs ","); WWs (bs " ")]
    | WSeqEnd _ => [WPunct (bs "]")]
    (* 298-329 *)
    | WTupleType s => [WType s]
    | WTupleBegin => [WPunct (bs "(")]
    | WTupleValueBegin first => if first then [] else [WPunct (bs ","); WWs (bs " ")]
    | WTupleEnd _ => [WPunct (bs ")")]
    end.

  (** An implementation: [own w m] is the result of its own method, [None] if the
      method is left to the default; [wstr] is its [write_str].  Defaults are nested
      at most [tw_fuel] deep ([TokenWriteProps.C69_fuel]). *)
  Variable W : Type.
  Variable own : W -> tw -> option (res W).
  Variable wstr : W -> bytes -> res W.
  Fixpoint dispatch (fuel : nat) (w : W) (m : tw) : res W :=
    match own w m with
    | Some r => r
    | None =>
        match m, fuel with
        | WToken _ s, _ => wstr w s
        | _, O => Panic
        | _, S fuel => calls (dispatch fuel) w (tw_default m)
        end
    end.
  Definition tw_fuel : nat := 4.
  Definition tw_call : W -> tw -> res W := dispatch tw_fuel.
End Methods.

(** ** [impl Stream for Writer], [writer.rs:136-526], over any [TokenWrite] *)
Section Writer.
  Variable W : Type.
  Variable call : W -> tw -> res W.
  Notation st := (wst W).

  Definition wputs (ms : list tw) (s : st) : res st :=
    match calls call (w_out W s) ms with
    | Ok w => Ok (MkWr W (w_empty W s) (w_num W s) w)
    | Err w => Err (MkWr W (w_empty W s) (w_num W s) w)
    | Panic => Panic
    end.
  Definition w_text_edge (s : st) : res st := if w_num W s then Ok s else wputs [WTextQuote] s. (* 149-155, 169-175 *)
  Definition w_text_frag (v : bytes) (s : st) : res st := (* 157-167 *)
    if w_num W s then wputs [WNumber v] s else wputs [WText v] s.
  Definition w_open (ms : list tw) (s : st) : res st := wputs ms (set_empty W true (set_num W false s)). (* 267-274, 310-317 *)
  Definition w_seq_value_begin (s : st) : res st := wputs [WSeqValueBegin (w_empty W s)] s. (* 319-325 *)
  Definition w_value_end (s : st) : res st := Ok (set_empty W false s). (* 296-300, 327-331 *)
  Definition w_int (t : ity) (z : Z) (s : st) : res st := wputs [WInt t z] s. (* 195-253 *)
  Fixpoint w_bytes (v : bytes) (s : st) : res st := (* 181-189 *)
    match v with
    | [] => Ok s
    | b :: v' => w_seq_value_begin s >>= w_int U8 (byte_val b) >>= w_value_end >>= w_bytes v'
    end.
  Definition w_tag (l : option label) (s : st) : res st := (* 408-425 *)
    wputs [match l with Some l => WType (l_text l) | None => WNull end] (set_empty W false s).
  Definition w_enum_end (l : option label) (s : st) : res st := (* 352-363 *)
    if w_empty W s then w_tag l s else Ok s.
  Definition w_tagged_begin (t : option tag) (l : option label) (s : st) : res st := (* 365-387 *)
    let s := set_empty W false s in
    let s := if otag_is t NUMBER then set_num W true s else s in
    wputs (match l with Some l => [WTupleType (l_text l); WTupleBegin] | None => [] end) s.
  Definition w_tagged_end (t : option tag) (l : option label) (s : st) : res st := (* 389-406 *)
    let s := if otag_is t NUMBER then set_num W false s else s in
    wputs (match l with Some _ => [WTupleEnd false] | None => [] end) s.
  Definition w_record_begin (l : option label) (s : st) : res st := (* 427-448 *)
    w_open ((match l with Some l => [WRecordType (l_text l)] | None => [] end) ++ [WRecordBegin]) s.
  Definition w_tuple_begin (l : option label) (s : st) : res st := (* 477-498 *)
    w_open ((match l with Some l => [WTupleType (l_text l)] | None => [] end) ++ [WTupleBegin]) s.

  Definition tw_step (s : st) (e : ev) : res st :=
    match e with
    | ENull => wputs [WNull] s (* 137-141 *)
    | EBool b => wputs [WBool b] s (* 143-147 *)
    | ETextBegin _ => w_text_edge s
    | ETextFragC v => w_text_frag v s
    | ETextEnd => w_text_edge s
    | EBinBegin _ => w_open [WSeqBegin] s (* 177-179 *)
    | EBinFragC v => w_bytes v s
    | EBinEnd => wputs [WSeqEnd (w_empty W s)] s (* 191-193 *)
    | EInt t z => w_int t z s
    | EF32 x => wputs [WF32 x] s (* 255-259 *)
    | EF64 x => wputs [WF64 x] s (* 261-265 *)
    | EMapBegin _ => w_open [WMapBegin] s
    | EMapKeyBegin => wputs [WMapKeyBegin (w_empty W s)] s (* 276-282 *)
    | EMapKeyEnd => wputs [WMapValueBegin (w_empty W s)] s (* 284-290 *)
    | EMapValBegin => Ok s (* 292-294 *)
    | EMapValEnd => w_value_end s
    | EMapEnd => wputs [WMapEnd (w_empty W s)] s (* 302-308 *)
    | ESeqBegin _ => w_open [WSeqBegin] s
    | ESeqValBegin => w_seq_value_begin s
    | ESeqValEnd => w_value_end s
    | ESeqEnd => wputs [WSeqEnd (w_empty W s)] s (* 333-339 *)
    | EEnumBegin _ _ _ => Ok (set_empty W true s) (* 341-350 *)
    | EEnumEnd _ l _ => w_enum_end l s
    | ETaggedBegin t l _ => w_tagged_begin t l s
    | ETaggedEnd t l _ => w_tagged_end t l s
    | ETag _ l _ => w_tag l s
    | ERecordBegin _ l _ _ => w_record_begin l s
    | ERecordValBegin _ l => wputs [WRecordValueBegin (l_text l) (w_empty W s)] s (* 450-456 *)
    | ERecordValEnd _ _ => w_value_end s (* 458-462 *)
    | ERecordEnd _ _ _ => wputs [WRecordEnd (w_empty W s)] s (* 464-475 *)
    | ETupleBegin _ l _ _ => w_tuple_begin l s
    | ETupleValBegin _ _ => wputs [WTupleValueBegin (w_empty W s)] s (* 500-506 *)
    | ETupleValEnd _ _ => w_value_end s (* 508-512 *)
    | ETupleEnd _ _ _ => wputs [WTupleEnd (w_empty W s)] s (* 514-525 *)
    | _ => Err s (* not a method of this impl: the defaults apply (LowerModel.v) *)
    end.

  (** [stream_to_token_write], [to_write.rs:23-25]. *)
  Definition to_custom (w : W) (v : list Event.call) : res W :=
    match run_impl fmt_over tw_step (wr_new W w) v with
    | Ok s => Ok (w_out W s)
    | Err s => Err (w_out W s)
    | Panic => Panic
    end.
End Writer.

(** ** The implementations of the crate *)

(** [impl TokenWrite for &mut W], [token_write.rs:376-533]: every method is
    forwarded. *)
Definition forward {W} (call : W -> tw -> res W) (w : W) (m : tw) : option (res W) := Some (call w m).

(** [impl TokenWrite for GenericWriter], [writer.rs:76-124]: numbers are written
    with [write_str], floats with [ryu]. *)
Definition generic_own {W} (wstr : W -> bytes -> res W) (r32 r64 : float -> bytes) (w : W) (m : tw) : option (res W) :=
  match m with
  | WInt _ z => Some (wstr w (dec z))
  | WF32 x => Some (wstr w (r32 x))
  | WF64 x => Some (wstr w (r64 x))
  | _ => None
  end.
(** [impl TokenWrite for fmt::Formatter], [writer.rs:10-58], without width, fill
    and precision: numbers with their own [Display]. *)
Definition formatter_own {W} (wstr : W -> bytes -> res W) (d32 d64 : float -> bytes) (w : W) (m : tw) : option (res W) :=
  match m with
  | WInt _ z => Some (wstr w (dec z))
  | WF32 x => Some (wstr w (d32 x))
  | WF64 x => Some (wstr w (d64 x))
  | _ => None
  end.
(** An implementation with a [write_token] and nothing else, as in FmtModel.v. *)
Definition token_own {W} (tok : W -> tkind -> bytes -> res W) (w : W) (m : tw) : option (res W) :=
  match m with WToken k s => Some (tok w k s) | _ => None end.
