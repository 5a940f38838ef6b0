(** * JsonModel: the JSON formatter

    [json/src/to_fmt.rs], [json/src/to_io.rs], [json/src/to_string.rs],
    [json/src/tags.rs].  The writer is arbitrary: [wr w s] is
    [fmt::Write::write_str], which either accepts [s] or fails having changed the
    writer in any way.  [write_char] is [write_str] of the character's bytes.
    The decimal renderings of floats (the [ryu] crate) are parameters. *)

From Verif Require Import Base Event LowerModel DataModel.

(** [json/src/tags.rs:12, 21, 35] *)
Definition JSON_VALUE : tag := bs "JSON_VALUE".
Definition JSON_TEXT : tag := bs "JSON_TEXT".
Definition JSON_NUMBER : tag := bs "JSON_NUMBER".

(** [ErrorKind], [json/src/error.rs:12-17]. *)
Inductive jerr := EGeneric | EInvalidKey | EIO.

(** [NumberTextHandler], 556-561, and [TextHandler], 551-554. *)
Record num := MkNum { n_start : bool; n_neg : bool; n_zeroes : N; n_nan : bool }.
Inductive handler := HNative | HNumber (n : num).
(** [TextHandler::number], 568-575. *)
Definition handler_number : handler := HNumber (MkNum true false 0 false).

(** [Formatter], 37-44. *)
Record fm (W : Type) := MkF { f_it : bool; f_cde : bool; f_tq : bool; f_th : option handler; f_err : option jerr; f_out : W }.
Arguments MkF {W}. Arguments f_it {W}. Arguments f_cde {W}. Arguments f_tq {W}. Arguments f_th {W}.
Arguments f_err {W}. Arguments f_out {W}.

(** [str::is_char_boundary] and [&v[a..b]]; [None] is the panic. *)
Definition is_cont (b : byte) : bool := let n := N_of_ascii b in (128 <=? n)%N && (n <? 192)%N.
Definition char_boundary (v : bytes) (i : nat) : bool :=
  match i with
  | 0 => true
  | _ => match nth_error v i with
         | Some b => negb (is_cont b)
         | None => Nat.eqb i (List.length v)
         end
  end.
Definition str_slice (v : bytes) (a b : nat) : option bytes :=
  if Nat.leb a b && char_boundary v a && char_boundary v b then Some (firstn (b - a) (skipn a v)) else None.

Definition dquote : byte := ascii_of_N 34.
Definition backslash : byte := ascii_of_N 92.

(** [ESCAPE], 711-741, and the [match escape], 684-699: what is written for a byte
    that is escaped. *)
Definition hex_digit (n : N) : byte := (* [HEX_DIGITS], 693 *)
  if (n <? 10)%N then ascii_of_N (48 + n) else ascii_of_N (87 + n).
Definition escape_of (b : byte) : option (list bytes) :=
  let n := N_of_ascii b in
  if (n =? 8)%N then Some [[backslash; "b"%char]]
  else if (n =? 9)%N then Some [[backslash; "t"%char]]
  else if (n =? 10)%N then Some [[backslash; "n"%char]]
  else if (n =? 12)%N then Some [[backslash; "f"%char]]
  else if (n =? 13)%N then Some [[backslash; "r"%char]]
  else if (n =? 34)%N then Some [[backslash; dquote]]
  else if (n =? 92)%N then Some [[backslash; backslash]]
  else if (n <? 32)%N then Some [[backslash; "u"%char; "0"%char; "0"%char]; [hex_digit (N.shiftr n 4)]; [hex_digit (N.land n 15)]]
  else None.

Section Formatter.
  Variable W : Type.
  Variable wr : W -> bytes -> res W.
  Variable ryu32 ryu64 : float -> bytes.

  Definition fmt := fm W.

  (** [Formatter::new], 47-56. *)
  Definition fm_new (w : W) : fmt := MkF false true true None None w.

  Definition set_it (x : bool) (f : fmt) : fmt := MkF x (f_cde f) (f_tq f) (f_th f) (f_err f) (f_out f).
  Definition set_cde (x : bool) (f : fmt) : fmt := MkF (f_it f) x (f_tq f) (f_th f) (f_err f) (f_out f).
  Definition set_tq (x : bool) (f : fmt) : fmt := MkF (f_it f) (f_cde f) x (f_th f) (f_err f) (f_out f).
  Definition set_th (x : option handler) (f : fmt) : fmt := MkF (f_it f) (f_cde f) (f_tq f) x (f_err f) (f_out f).
  Definition set_err (x : option jerr) (f : fmt) : fmt := MkF (f_it f) (f_cde f) (f_tq f) (f_th f) x (f_out f).
  Definition set_out (w : W) (f : fmt) : fmt := MkF (f_it f) (f_cde f) (f_tq f) (f_th f) (f_err f) w.
  Definition lift (f : fmt) (r : res W) : res fmt :=
    match r with Ok w => Ok (set_out w f) | Err w => Err (set_out w f) | Panic => Panic end.

  (** [_try!(self.out.write_str(s))] *)
  Definition put (s : bytes) (f : fmt) : res fmt := lift f (wr (f_out f) s).

  (** A sequence of writes, each followed by [?]. *)
  Fixpoint writes (w : W) (ss : list bytes) : res W :=
    match ss with
    | [] => Ok w
    | s :: ss' => wr w s >>= fun w' => writes w' ss'
    end.

  (** [escape_str], 669-709.  [pending] is the slice [value[start..i]]; it is
      written when it is not empty. *)
  Fixpoint escape_loop (rest pending : bytes) (w : W) : res W :=
    match rest with
    | [] => match pending with [] => Ok w | _ => wr w pending end
    | b :: rest' =>
        match escape_of b with
        | None => escape_loop rest' (pending ++ [b]) w
        | Some es =>
            (match pending with [] => Ok w | _ => wr w pending end) >>= fun w =>
            writes w es >>= fun w => escape_loop rest' [] w
        end
    end.
  Definition escape_str (v : bytes) (w : W) : res W := escape_loop v [] w.

  (** [NumberTextHandler::text_fragment], 586-653: the loop over the bytes with
      [range = a..b], and the slice written at the end. *)
  Definition nstate := (num * nat * nat * W)%type.
  Fixpoint num_loop (rest : bytes) (h : num) (a b : nat) (w : W) : res nstate :=
    match rest with
    | [] => Ok (h, a, b, w)
    | c :: rest' =>
        let n := N_of_ascii c in
        if (n =? 48)%N && n_start h then
          num_loop rest' (MkNum (n_start h) (n_neg h) (n_zeroes h + 1) (n_nan h)) (S a) (S b) w
        else if (48 <=? n)%N && (n <=? 57)%N then
          match (if n_start h && n_neg h then wr w ["-"%char] else Ok w) with
          | Ok w => num_loop rest' (MkNum false (n_neg h) (n_zeroes h) (n_nan h)) a (S b) w
          | Err w => Err (h, a, b, w)
          | Panic => Panic
          end
        else if (n =? 46)%N then
          match (if n_start h then (if n_neg h then wr w ["-"%char] else Ok w) >>= fun w => wr w ["0"%char] else Ok w) with
          | Ok w => num_loop rest' (MkNum false (n_neg h) (n_zeroes h) (n_nan h)) a (S b) w
          | Err w => Err (h, a, b, w)
          | Panic => Panic
          end
        else if (n =? 45)%N && n_start h then
          num_loop rest' (MkNum (n_start h) true (n_zeroes h) (n_nan h)) (S a) (S b) w
        else if (n =? 43)%N && n_start h then
          num_loop rest' h (S a) (S b) w
        else if (n =? 115)%N || (n =? 110)%N || (n =? 105)%N || (n =? 83)%N || (n =? 78)%N || (n =? 73)%N then
          let h := MkNum false (n_neg h) (n_zeroes h) true in
          match wr w (bs "null") with
          | Ok w => Ok (h, 0, 0, w)
          | Err w => Err (h, a, b, w)
          | Panic => Panic
          end
        else num_loop rest' h a (S b) w
    end.
  Definition num_fragment (v : bytes) (h : num) (w : W) : res (num * W) :=
    if n_nan h then Ok (h, w)
    else match num_loop v h 0 0 w with
         | Ok (h, a, b, w) =>
             match str_slice v a b with
             | None => Panic
             | Some s => match wr w s with Ok w => Ok (h, w) | Err w => Err (h, w) | Panic => Panic end
             end
         | Err (h, _, _, w) => Err (h, w)
         | Panic => Panic
         end.
  (** [NumberTextHandler::end], 655-661. *)
  Definition num_end (h : num) (w : W) : res W := if n_start h then wr w ["0"%char] else Ok w.

  (** [TextHandler::text_fragment], 577-582, and [text_fragment_computed], 102-109. *)
  Definition text_fragment_computed (v : bytes) (f : fmt) : res fmt :=
    match f_th f with
    | None => lift f (escape_str v (f_out f))
    | Some HNative => put v f
    | Some (HNumber n) =>
        match num_fragment v n (f_out f) with
        | Ok (n, w) => Ok (set_th (Some (HNumber n)) (set_out w f))
        | Err (n, w) => Err (set_th (Some (HNumber n)) (set_out w f))
        | Panic => Panic
        end
    end.

  (** 80-100, 111-117 *)
  Definition j_null (f : fmt) : res fmt := put (bs "null") (set_cde false f).
  Definition j_bool (b : bool) (f : fmt) : res fmt := put (if b then bs "true" else bs "false") (set_cde false f).
  Definition j_text_begin (f : fmt) : res fmt :=
    let f := set_cde false f in if f_tq f then put [dquote] f else Ok f.
  Definition j_text_end (f : fmt) : res fmt := if f_tq f then put [dquote] f else Ok f.

  (** The integer methods, 119-197: all write [itoa]'s decimal numeral. *)
  Definition j_int (z : Z) (f : fmt) : res fmt := put (dec z) (set_cde false f).
  (** [f32], [f64], 199-221. *)
  Definition j_float (ryu : float -> bytes) (x : float) (f : fmt) : res fmt :=
    let f := set_cde false f in
    if is_nan x || is_infinite x then j_null f else put (ryu x) f.

  (** [Err(self.err(Error::invalid_key()))], 58-61. *)
  Definition invalid_key (f : fmt) : res fmt := Err (set_err (Some EInvalidKey) f).

  (** Maps, 223-269; sequences, 271-302. *)
  Definition j_map_begin (f : fmt) : res fmt :=
    if f_tq f then put (bs "{") (set_cde true f) else invalid_key f.
  Definition j_map_key_begin (f : fmt) : res fmt :=
    let f := set_it false (set_tq false f) in
    if f_cde f then put [dquote] f else put [","%char; dquote] f.
  Definition j_map_key_end (f : fmt) : res fmt :=
    put [dquote; ":"%char] f >>= fun f => Ok (set_tq true f).
  Definition j_map_end (f : fmt) : res fmt := put (bs "}") (set_cde false f).
  Definition j_seq_begin (f : fmt) : res fmt :=
    if f_tq f then put (bs "[") (set_cde true f) else invalid_key f.
  Definition j_seq_value_begin (f : fmt) : res fmt :=
    let f := set_it false f in if f_cde f then Ok f else put (bs ",") f.
  Definition j_seq_end (f : fmt) : res fmt := put (bs "]") (set_cde false f).

  (** [index.and_then(|index| index.to_i64())] *)
  Definition index_i64 (i : option index) : option Z :=
    match i with Some i => index_to I64 i | None => None end.

  (** [internally_tagged_*], 491-549. *)
  Definition tagged_map_begin_label (l : bytes) (f : fmt) : res fmt :=
    j_map_begin f >>= j_map_key_begin >>= (fun f => lift f (escape_str l (f_out f))) >>= j_map_key_end.
  Definition tagged_map_begin_index (z : Z) (f : fmt) : res fmt :=
    j_map_begin f >>= j_map_key_begin >>= j_int z >>= j_map_key_end.
  Definition internally_tagged_begin (l : option label) (i : option index) (f : fmt) : res fmt :=
    if f_it f then
      let f := set_it false f in
      match l with
      | Some l => tagged_map_begin_label (l_text l) f
      | None => match index_i64 i with
                | Some z => tagged_map_begin_index z f
                | None => Ok f
                end
      end
    else Ok f.
  Definition internally_tagged_end (l : option label) (i : option index) (f : fmt) : res fmt :=
    Ok (set_it (match l with Some _ => true | None => match index_i64 i with Some _ => true | None => false end end) f).

  (** [str::stream] into [self], [src/data/text.rs:104-108]: [self.value(label.as_str())]. *)
  Definition j_str (s : bytes) (f : fmt) : res fmt :=
    j_text_begin f >>= text_fragment_computed s >>= j_text_end.

  (** [tag], 404-425. *)
  Definition j_tag (t : option tag) (l : option label) (i : option index) (f : fmt) : res fmt :=
    let f := set_cde false (set_it false f) in
    if otag_is t RUST_OPTION_NONE then j_null f
    else match l with
         | Some l => j_str (l_text l) f
         | None => match index_i64 i with
                   | Some z => j_int z f
                   | None => j_null f
                   end
         end.

  (** [enum_begin], [enum_end], 304-333. *)
  Definition j_enum_begin (l : option label) (i : option index) (f : fmt) : res fmt :=
    internally_tagged_begin l i f >>= fun f => Ok (set_cde true (set_it true f)).
  Definition j_enum_end (t : option tag) (l : option label) (i : option index) (f : fmt) : res fmt :=
    (if f_cde f then j_tag t l i f else Ok f) >>= fun f =>
    if f_it f then j_map_end f else internally_tagged_end l i f.

  (** [tagged_begin], 335-367. *)
  Definition j_tagged_begin (t : option tag) (l : option label) (i : option index) (f : fmt) : res fmt :=
    let f :=
      if otag_is t JSON_TEXT then set_th (Some HNative) f
      else if otag_is t JSON_VALUE then set_th (Some HNative) (set_tq false f)
      else if otag_is t NUMBER then
        let f := set_tq false f in
        match f_th f with None => set_th (Some handler_number) f | Some _ => f end
      else if otag_is t JSON_NUMBER then set_th (Some HNative) (set_tq false f)
      else f in
    internally_tagged_begin l i f >>= fun f => Ok (set_cde true f).

  (** [tagged_end], 369-402. *)
  Definition j_tagged_end (t : option tag) (l : option label) (i : option index) (f : fmt) : res fmt :=
    (if otag_is t JSON_TEXT then Ok (set_th None f)
     else if otag_is t JSON_VALUE then Ok (set_th None (set_tq true f))
     else if otag_is t NUMBER then
       let f := set_tq true f in
       let h := f_th f in
       let f := set_th None f in
       match h with
       | Some (HNumber n) => lift f (num_end n (f_out f))
       | _ => Ok f
       end
     else if otag_is t JSON_NUMBER then Ok (set_th None (set_tq true f))
     else Ok f) >>= fun f =>
    (if f_cde f then j_tag t l i f else Ok f) >>= internally_tagged_end l i.

  (** [record_begin], [record_value_begin], [record_end], [tuple_begin],
      [tuple_end], 427-488. *)
  Definition j_record_begin (l : option label) (i : option index) (f : fmt) : res fmt :=
    internally_tagged_begin l i f >>= j_map_begin.
  Definition j_record_value_begin (l : label) (f : fmt) : res fmt :=
    let f := set_it false f in
    (if f_cde f then put [dquote] f else put [","%char; dquote] f) >>= fun f =>
    (if otag_is (l_tag l) VALUE_IDENT then put (l_text l) f else lift f (escape_str (l_text l) (f_out f))) >>= fun f =>
    put [dquote; ":"%char] f.
  Definition j_record_end (l : option label) (i : option index) (f : fmt) : res fmt :=
    j_map_end f >>= internally_tagged_end l i.
  Definition j_tuple_begin (l : option label) (i : option index) (f : fmt) : res fmt :=
    internally_tagged_begin l i f >>= j_seq_begin.
  Definition j_tuple_end (l : option label) (i : option index) (f : fmt) : res fmt :=
    j_seq_end f >>= internally_tagged_end l i.

  (** The methods [impl Stream for Formatter], 76-489, overrides or must define. *)
  Definition json_over (e : ev) : bool :=
    match e with
    | ETextFrag _ | EBinBegin _ | EBinFrag _ | EBinFragC _ | EBinEnd | ETagHint _ | ERecordValEnd _ _
    | ETupleValBegin _ _ | ETupleValEnd _ _
    | ERecTupBegin _ _ _ _ | ERecTupValBegin _ _ _ | ERecTupValEnd _ _ _ | ERecTupEnd _ _ _ => false
    | _ => true
    end.
  Definition json_step (f : fmt) (e : ev) : res fmt :=
    match e with
    | ENull => j_null f
    | EBool b => j_bool b f
    | ETextBegin _ => j_text_begin f
    | ETextFragC s => text_fragment_computed s f
    | ETextEnd => j_text_end f
    | EInt _ z => j_int z f
    | EF32 x => j_float ryu32 x f
    | EF64 x => j_float ryu64 x f
    | EMapBegin _ => j_map_begin f
    | EMapKeyBegin => j_map_key_begin f
    | EMapKeyEnd => j_map_key_end f
    | EMapValBegin | EMapValEnd => Ok f
    | EMapEnd => j_map_end f
    | ESeqBegin _ => j_seq_begin f
    | ESeqValBegin => j_seq_value_begin f
    | ESeqValEnd => Ok f
    | ESeqEnd => j_seq_end f
    | EEnumBegin _ l i => j_enum_begin l i f
    | EEnumEnd t l i => j_enum_end t l i f
    | ETaggedBegin t l i => j_tagged_begin t l i f
    | ETaggedEnd t l i => j_tagged_end t l i f
    | ETag t l i => j_tag t l i f
    | ERecordBegin _ l i _ => j_record_begin l i f
    | ERecordValBegin _ l => j_record_value_begin l f
    | ERecordEnd _ l i => j_record_end l i f
    | ETupleBegin _ l i _ => j_tuple_begin l i f
    | ETupleEnd _ l i => j_tuple_end l i f
    | _ => Err f (* not a method of this impl: the defaults apply (LowerModel.v) *)
    end.

  (** [stream_to_fmt_write], 28-35. *)
  Inductive jresult := JOk (w : W) | JErr (e : jerr) (w : W) | JPanic.
  Definition json_to_fmt (w : W) (v : list call) : jresult :=
    match run_impl json_over json_step (fm_new w) v with
    | Ok f => JOk (f_out f)
    | Err f => JErr (match f_err f with Some e => e | None => EGeneric end) (f_out f)
    | Panic => JPanic
    end.
End Formatter.

Arguments JOk {W}. Arguments JErr {W}. Arguments JPanic {W}.

(** [String] as a writer never fails ([alloc]); [stream_to_string],
    [json/src/to_string.rs:10-15]. *)
Definition string_write (w : bytes) (s : bytes) : res bytes := Ok (w ++ s).
Inductive sresult := SOk (s : bytes) | SErr (e : jerr) | SPanic.
Definition json_to_string (ryu32 ryu64 : float -> bytes) (v : list call) : sresult :=
  match json_to_fmt bytes string_write ryu32 ryu64 [] v with
  | JOk s => SOk s
  | JErr e _ => SErr e
  | JPanic => SPanic
  end.

(** ** [stream_to_io_write], [json/src/to_io.rs:11-53]

    The [io::Write] is any state machine answering [write] calls.  [io_taken] is a
    ghost: what it has accepted so far.  The [while] loop has fuel, because a
    writer may answer [Interrupted] for ever: [io_fuel] answers per byte to
    write. *)
Inductive io_resp := IoN (n : nat) | IoInterrupted | IoErr.
Section Io.
  Variable IO : Type.
  Variable io_write : IO -> bytes -> IO * io_resp.

  Record iow := MkIo { io_st : IO; io_taken : bytes; io_err : bool; io_fuel : nat }.
  (** 17-37; [Panic] is [&buf[n..]] out of range, or the fuel running out. *)
  Fixpoint io_loop (fuel : nat) (w : iow) (buf : bytes) : res iow :=
    match buf with
    | [] => Ok w
    | _ =>
        match fuel with
        | 0 => Panic
        | S fuel' =>
            let (st, r) := io_write (io_st w) buf in
            let w' := MkIo st (io_taken w) (io_err w) (io_fuel w) in
            match r with
            | IoN 0 => Ok w'
            | IoN n =>
                if Nat.leb n (List.length buf) then
                  io_loop fuel' (MkIo st (io_taken w ++ firstn n buf) (io_err w) (io_fuel w)) (skipn n buf)
                else Panic
            | IoInterrupted => io_loop fuel' w' buf
            | IoErr => Err (MkIo st (io_taken w) true (io_fuel w))
            end
        end
    end.
  Definition io_write_str (w : iow) (s : bytes) : res iow := io_loop (io_fuel w * List.length s) w s.

  Definition json_to_io (fuel : nat) (ryu32 ryu64 : float -> bytes) (io : IO) (v : list call) : jresult iow :=
    match json_to_fmt iow io_write_str ryu32 ryu64 (MkIo io [] false fuel) v with
    | JErr e w => JErr (if io_err w then EIO else e) w
    | r => r
    end.
End Io.
