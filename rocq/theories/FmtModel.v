(** * FmtModel: the Debug-style writer

    [fmt/src/writer.rs], [fmt/src/token_write.rs], [fmt/src/to_write.rs],
    [fmt/src/to_string.rs], [fmt/src/to_fmt.rs].  A [TokenWrite] is an arbitrary
    [tok w k s]: [write_token] of the text [s] with the tag [k].  The methods of
    [TokenWrite] other than [write_token] are the defaults; those that override
    them are in TokenWriteModel.v.  [GenericWriter]
    ([writer.rs:60-124]) ignores the tag and writes numbers with [write_str];
    a [fmt::Formatter] ([writer.rs:10-58]) is modelled without width, fill or
    precision.  Floats are printed by a parameter ([ryu], [core::fmt]). *)

From Verif Require Import Base Event LowerModel Utf8.

(** [fmt/src/tags.rs] *)
Inductive tkind := KNumber | KAtom | KIdent | KPunct | KWs | KText.
Definition token := (tkind * bytes)%type.

(** ** [char::escape_debug]

    For ASCII characters: a backslash and a letter or the character itself for NUL, tab,
    CR, LF, quotes and backslash, [\u{..}] for the other control characters.  For other characters it depends on the Unicode tables of
    [core]: [uni c] is the list of characters it gives for [c]. *)
Definition hexd (n : N) : byte := if (n <? 10)%N then ascii_of_N (48 + n) else ascii_of_N (87 + n).
Definition bslash : byte := ascii_of_N 92.
Definition esc_ascii (c : byte) : list bytes :=
  let n := N_of_ascii c in
  if (n =? 0)%N then [[bslash]; ["0"%char]]
  else if (n =? 9)%N then [[bslash]; ["t"%char]]
  else if (n =? 13)%N then [[bslash]; ["r"%char]]
  else if (n =? 10)%N then [[bslash]; ["n"%char]]
  else if (n =? 39)%N || (n =? 34)%N || (n =? 92)%N then [[bslash]; [c]]
  else if (n <? 16)%N then [[bslash]; ["u"%char]; ["{"%char]; [hexd n]; ["}"%char]]
  else if (n <? 32)%N || (n =? 127)%N then
    [[bslash]; ["u"%char]; ["{"%char]; [hexd (N.shiftr n 4)]; [hexd (N.land n 15)]; ["}"%char]]
  else [[c]].

(** [str::char_indices]: a leading byte with the continuation bytes after it. *)
Fixpoint chars (s : bytes) : list bytes :=
  match s with
  | [] => []
  | c :: s' =>
      match s' with
      | d :: _ =>
          if tail_byte d then
            match chars s' with
            | ch :: rest => (c :: ch) :: rest
            | [] => [[c]]
            end
          else [c] :: chars s'
      | [] => [[c]]
      end
  end.

Section Writer.
  Variable W : Type.
  Variable tok : W -> tkind -> bytes -> res W.
  Variable r32 r64 : float -> bytes.
  Variable uni : bytes -> list bytes.

  Definition escape_debug (ch : bytes) : list bytes :=
    match ch with
    | [c] => if (N_of_ascii c <? 128)%N then esc_ascii c else uni ch
    | _ => uni ch
    end.

  (** The pieces [write_escape_debug] writes, [token_write.rs:332-374]; [pending]
      is [input[from..i]]. *)
  Fixpoint escape_pieces (cs : list bytes) (pending : bytes) : list bytes :=
    match cs with
    | [] => match pending with [] => [] | _ => [pending] end
    | ch :: cs' =>
        let esc := escape_debug ch in
        if Nat.ltb 1 (List.length esc) then
          (match pending with [] => [] | _ => [pending] end) ++ esc ++ escape_pieces cs' []
        else escape_pieces cs' (pending ++ ch)
    end.

  (** [Writer], [writer.rs:4-8]. *)
  Record wst := MkWr { w_empty : bool; w_num : bool; w_out : W }.
  (** [Writer::new], 127-133. *)
  Definition wr_new (w : W) : wst := MkWr true false w.
  Definition set_empty (x : bool) (s : wst) : wst := MkWr x (w_num s) (w_out s).
  Definition set_num (x : bool) (s : wst) : wst := MkWr (w_empty s) x (w_out s).

  (** Token writes, each followed by [?]. *)
  Fixpoint toks (w : W) (ts : list token) : res W :=
    match ts with
    | [] => Ok w
    | (k, s) :: ts' => tok w k s >>= fun w => toks w ts'
    end.
  Definition puts (ts : list token) (s : wst) : res wst :=
    match toks (w_out s) ts with
    | Ok w => Ok (MkWr (w_empty s) (w_num s) w)
    | Err w => Err (MkWr (w_empty s) (w_num s) w)
    | Panic => Panic
    end.

  (** The default methods of [TokenWrite], [token_write.rs:15-330], as the
      [write_token] calls they make. *)
  Definition punct (s : bytes) : token := (KPunct, s).
  Definition ws : token := (KWs, bs " ").
  Definition t_null : list token := [(KAtom, bs "()")].
  Definition t_bool (b : bool) : list token := [(KAtom, if b then bs "true" else bs "false")].
  Definition t_quote : list token := [(KText, [ascii_of_N 34])].
  Definition t_text (s : bytes) : list token := map (fun p => (KText, p)) (escape_pieces (chars s) []).
  Definition t_type (l : bytes) : list token := [(KIdent, l)].
  Definition t_map_begin : list token := [punct (bs "{")].
  Definition t_map_key_begin (first : bool) : list token := (if first then [] else [punct (bs ",")]) ++ [ws].
  Definition t_map_value_begin : list token := [punct (bs ":"); ws].
  Definition t_map_end (empty : bool) : list token := (if empty then [] else [ws]) ++ [punct (bs "}")].
  Definition t_record_type (l : bytes) : list token := t_type l ++ [ws].
  Definition t_record_begin : list token := [punct (bs "{")].
  Definition t_record_value_begin (l : bytes) (first : bool) : list token :=
    (if first then [] else [punct (bs ",")]) ++ [ws] ++ t_type l ++ [punct (bs ":"); ws].
  Definition t_record_end (empty : bool) : list token := (if empty then [] else [ws]) ++ [punct (bs "}")].
  Definition t_seq_begin : list token := [punct (bs "[")].
  Definition t_seq_value_begin (first : bool) : list token := if first then [] else [punct (bs ","); ws].
  Definition t_seq_end : list token := [punct (bs "]")].
  Definition t_tuple_begin : list token := [punct (bs "(")].
  Definition t_tuple_value_begin (first : bool) : list token := if first then [] else [punct (bs ","); ws].
  Definition t_tuple_end : list token := [punct (bs ")")].

  (** [impl Stream for Writer], [writer.rs:136-526]. *)
  Definition d_text_begin (s : wst) : res wst := if w_num s then Ok s else puts t_quote s. (* 149-155, 169-175 *)
  Definition d_text_frag (v : bytes) (s : wst) : res wst := (* 157-167 *)
    if w_num s then puts [(KNumber, v)] s else puts (t_text v) s.
  Definition d_open (ts : list token) (s : wst) : res wst := (* 267-274, 310-317 *)
    puts ts (set_empty true (set_num false s)).
  Definition d_seq_value_begin (s : wst) : res wst := puts (t_seq_value_begin (w_empty s)) s. (* 319-325 *)
  Definition d_value_end (s : wst) : res wst := Ok (set_empty false s). (* 296-300, 327-331 *)
  Definition d_int (z : Z) (s : wst) : res wst := puts [(KNumber, dec z)] s. (* 195-253 *)
  Fixpoint d_bytes (v : bytes) (s : wst) : res wst := (* 181-189 *)
    match v with
    | [] => Ok s
    | b :: v' => d_seq_value_begin s >>= d_int (byte_val b) >>= d_value_end >>= d_bytes v'
    end.
  Definition d_tag (l : option label) (s : wst) : res wst := (* 408-425 *)
    puts (match l with Some l => t_type (l_text l) | None => t_null end) (set_empty false s).
  Definition d_enum_end (l : option label) (s : wst) : res wst := (* 352-363 *)
    if w_empty s then d_tag l s else Ok s.
  Definition d_tagged_begin (t : option tag) (l : option label) (s : wst) : res wst := (* 365-387 *)
    let s := set_empty false s in
    let s := if otag_is t NUMBER then set_num true s else s in
    puts (match l with Some l => t_type (l_text l) ++ t_tuple_begin | None => [] end) s.
  Definition d_tagged_end (t : option tag) (l : option label) (s : wst) : res wst := (* 389-406 *)
    let s := if otag_is t NUMBER then set_num false s else s in
    puts (match l with Some _ => t_tuple_end | None => [] end) s.
  Definition d_record_begin (l : option label) (s : wst) : res wst := (* 427-448 *)
    d_open ((match l with Some l => t_record_type (l_text l) | None => [] end) ++ t_record_begin) s.
  Definition d_tuple_begin (l : option label) (s : wst) : res wst := (* 477-498 *)
    d_open ((match l with Some l => t_type (l_text l) | None => [] end) ++ t_tuple_begin) s.

  (** The methods overridden or required. *)
  Definition fmt_over (e : ev) : bool :=
    match e with
    | ETextFrag _ | EBinFrag _ | ETagHint _
    | ERecTupBegin _ _ _ _ | ERecTupValBegin _ _ _ | ERecTupValEnd _ _ _ | ERecTupEnd _ _ _ => false
    | _ => true
    end.
  Definition fmt_step (s : wst) (e : ev) : res wst :=
    match e with
    | ENull => puts t_null s
    | EBool b => puts (t_bool b) s
    | ETextBegin _ => d_text_begin s
    | ETextFragC v => d_text_frag v s
    | ETextEnd => d_text_begin s
    | EBinBegin _ => d_open t_seq_begin s
    | EBinFragC v => d_bytes v s
    | EBinEnd => puts t_seq_end s
    | EInt _ z => d_int z s
    | EF32 x => puts [(KNumber, r32 x)] s
    | EF64 x => puts [(KNumber, r64 x)] s
    | EMapBegin _ => d_open t_map_begin s
    | EMapKeyBegin => puts (t_map_key_begin (w_empty s)) s
    | EMapKeyEnd => puts t_map_value_begin s
    | EMapValBegin => Ok s
    | EMapValEnd => d_value_end s
    | EMapEnd => puts (t_map_end (w_empty s)) s
    | ESeqBegin _ => d_open t_seq_begin s
    | ESeqValBegin => d_seq_value_begin s
    | ESeqValEnd => d_value_end s
    | ESeqEnd => puts t_seq_end s
    | EEnumBegin _ _ _ => Ok (set_empty true s)
    | EEnumEnd _ l _ => d_enum_end l s
    | ETaggedBegin t l _ => d_tagged_begin t l s
    | ETaggedEnd t l _ => d_tagged_end t l s
    | ETag _ l _ => d_tag l s
    | ERecordBegin _ l _ _ => d_record_begin l s
    | ERecordValBegin _ l => puts (t_record_value_begin (l_text l) (w_empty s)) s
    | ERecordValEnd _ _ => d_value_end s
    | ERecordEnd _ _ _ => puts (t_record_end (w_empty s)) s
    | ETupleBegin _ l _ _ => d_tuple_begin l s
    | ETupleValBegin _ _ => puts (t_tuple_value_begin (w_empty s)) s
    | ETupleValEnd _ _ => d_value_end s
    | ETupleEnd _ _ _ => puts t_tuple_end s
    | _ => Err s (* not a method of this impl: the defaults apply (LowerModel.v) *)
    end.

  (** [stream_to_token_write], [to_write.rs:23-25]; [Err] is [fmt::Error]. *)
  Definition to_token_write (w : W) (v : list call) : res W :=
    match run_impl fmt_over fmt_step (wr_new w) v with
    | Ok s => Ok (w_out s)
    | Err s => Err (w_out s)
    | Panic => Panic
    end.

  (** [impl Display for ToFmt], [to_fmt.rs:43-53].  [fmt::Error] displays as the text
      below; [write!] makes one write per piece. *)
  Definition to_fmt_display (w : W) (v : list call) : res W :=
    match to_token_write w v with
    | Err w => toks w [(KAtom, bs "<"); (KAtom, bs "an error occurred when formatting an argument"); (KAtom, bs ">")]
    | r => r
    end.
End Writer.

(** [GenericWriter] over a [fmt::Write], [writer.rs:60-124]: the tag is dropped. *)
Definition generic_tok {W} (wr : W -> bytes -> res W) (w : W) (k : tkind) (s : bytes) : res W := wr w s.

(** [stream_to_write], [to_write.rs:12-15]. *)
Definition fmt_to_write {W} (wr : W -> bytes -> res W) r32 r64 uni (w : W) (v : list call) : res W :=
  to_token_write W (generic_tok wr) r32 r64 uni w v.

(** [stream_to_string], [to_string.rs:8-12]: [.expect("infallible write")].  Writing to a
    [String] never fails. *)
Definition fmt_to_string r32 r64 uni (v : list call) : option bytes :=
  match fmt_to_write (fun w s => Ok (w ++ s)) r32 r64 uni [] v with
  | Ok s => Some s
  | Err _ | Panic => None
  end.
(** [ToFmt(v).to_string()]. *)
Definition to_fmt_string r32 r64 uni (v : list call) : option bytes :=
  match to_fmt_display bytes (generic_tok (fun w s => Ok (w ++ s))) r32 r64 uni [] v with
  | Ok s => Some s
  | Err _ | Panic => None
  end.
