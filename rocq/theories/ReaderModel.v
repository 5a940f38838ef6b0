(** * ReaderModel: the JSON reader

    [experiments/src/json/from_slice.rs], all of it; the container stack is
    StackModel.v.  The source text and [head] are modelled by the bytes from
    [head] on.  (After a string without a closing quote [head] is one past the
    end; only [head < src.len()] is then asked, so this is the empty rest too.) *)

From Verif Require Import Base Event Utf8 StackModel JsonModel.

(** [enum Position], 352-360. *)
Inductive pos := PRoot | PMapEmpty | PMapKey | PMapValue | PSeqEmpty | PSeqElem.

(** The fields [in_str], [stack] and [position] of [JsonSliceReader], 26-32. *)
Record reader := MkReader { r_in_str : bool; r_stack : stack; r_pos : pos }.
(** [JsonSliceReader::new], 35-43. *)
Definition reader_new : reader := MkReader false stack_new PRoot.
Definition set_pos (p : pos) (r : reader) : reader := MkReader (r_in_str r) (r_stack r) p.
Definition set_in_str (b : bool) (r : reader) : reader := MkReader b (r_stack r) (r_pos r).

(** What a method does to the stream and how it ends.  A call that fails ends the
    method through [?]; the calls listed are those made if none fails.  [MPanic]
    is [todo!()] or an index out of bounds. *)
Inductive ends (A : Type) := MOk (a : A) | MErr | MPanic.
Arguments MOk {A}. Arguments MErr {A}. Arguments MPanic {A}.
Definition does (A : Type) : Type := list ev * ends A.
Definition ret {A} (a : A) : does A := ([], MOk a).
Definition say (e : ev) : does unit := ([e], MOk tt).
Definition todo {A} : does A := ([], MPanic).
Definition andthen {A B} (x : does A) (f : A -> does B) : does B :=
  match x with
  | (es, MOk a) => let (es', r) := f a in (es ++ es', r)
  | (es, MErr) => (es, MErr)
  | (es, MPanic) => (es, MPanic)
  end.
Notation "x >>> f" := (andthen x f) (at level 50, left associativity).
Definition lift_stack (r : reader) (x : res stack) : does reader :=
  match x with
  | Ok s => ret (MkReader (r_in_str r) s (r_pos r))
  | Err _ => ([], MErr)
  | Panic => ([], MPanic)
  end.
(** [Stack::position], 413-419, as a [Position]. *)
Definition stack_pos (s : stack) : pos :=
  match position s with InMap => PMapValue | InSeq => PSeqElem | InRoot => PRoot end.

(** [map_begin], 45-57, and [seq_begin], 87-102. *)
Definition begin_container (r : reader) : does unit :=
  match r_pos r with
  | PSeqEmpty | PSeqElem => say ESeqValBegin
  | PMapValue => say EMapValBegin
  | PRoot => ret tt
  | _ => todo
  end.
Definition rd_map_begin (r : reader) : does reader :=
  begin_container r >>> fun _ => lift_stack r (push_map (r_stack r)) >>> fun r =>
  say (EMapBegin None) >>> fun _ => ret (set_pos PMapEmpty r).
Definition rd_seq_begin (r : reader) : does reader :=
  begin_container r >>> fun _ => lift_stack r (push_seq (r_stack r)) >>> fun r =>
  say (ESeqBegin None) >>> fun _ => ret (set_pos PSeqEmpty r).
(** [map_key_end], 59-67. *)
Definition rd_map_key_end (r : reader) : does reader :=
  match r_pos r with
  | PMapKey => say EMapKeyEnd >>> fun _ => ret (set_pos PMapValue r)
  | _ => todo
  end.
(** [map_end], 69-85, and [seq_end], 104-120. *)
Definition rd_map_end (r : reader) : does reader :=
  (match r_pos r with PMapEmpty => ret tt | PMapValue => say EMapValEnd | _ => todo end) >>> fun _ =>
  lift_stack r (pop_map (r_stack r)) >>> fun r =>
  say EMapEnd >>> fun _ => ret (set_pos (stack_pos (r_stack r)) r).
Definition rd_seq_end (r : reader) : does reader :=
  (match r_pos r with PSeqEmpty => ret tt | PSeqElem => say ESeqValEnd | _ => todo end) >>> fun _ =>
  lift_stack r (pop_seq (r_stack r)) >>> fun r =>
  say ESeqEnd >>> fun _ => ret (set_pos (stack_pos (r_stack r)) r).
(** [map_value_seq_value_end], 122-132. *)
Definition rd_comma (r : reader) : does reader :=
  match r_pos r with
  | PSeqElem => say ESeqValEnd >>> fun _ => ret r
  | PMapValue => say EMapValEnd >>> fun _ => ret (set_pos PMapKey r)
  | _ => todo
  end.
(** [str_begin], 134-150. *)
Definition rd_str_begin (r : reader) : does reader :=
  match r_pos r with
  | PSeqEmpty | PSeqElem => say ESeqValBegin >>> fun _ => ret (set_pos PSeqElem r)
  | PMapEmpty => say EMapKeyBegin >>> fun _ => ret (set_pos PMapKey r)
  | PMapKey => say EMapKeyBegin >>> fun _ => ret r
  | PMapValue => say EMapValBegin >>> fun _ => ret r
  | PRoot => ret r
  end.
(** [value_begin], 152-163. *)
Definition rd_value_begin (r : reader) : does reader :=
  match r_pos r with
  | PSeqEmpty | PSeqElem => say ESeqValBegin >>> fun _ => ret (set_pos PSeqElem r)
  | PMapValue => say EMapValBegin >>> fun _ => ret r
  | PRoot => ret r
  | _ => todo
  end.

Definition byte_is (n : N) (b : byte) : bool := (N_of_ascii b =? n)%N.

(** [number], 430-446: the bytes [0-9], [-], [+], [.] and [e]; ASCII, so
    [from_utf8] succeeds. *)
Definition number_byte (b : byte) : bool :=
  let n := N_of_ascii b in
  ((48 <=? n)%N && (n <=? 57)%N) || (n =? 45)%N || (n =? 43)%N || (n =? 46)%N || (n =? 101)%N.
Fixpoint number (s : bytes) : bytes * bytes :=
  match s with
  | b :: s' => if number_byte b then let (n, r) := number s' in (b :: n, r) else ([], s)
  | [] => ([], [])
  end.

(** [str_fragment], 448-481: the fragment, whether the string goes on, the rest. *)
Fixpoint scan_fragment (s : bytes) : bytes * bool * bytes :=
  match s with
  | [] => ([], false, [])
  | b :: s' =>
      if byte_is 92 b then ([], true, s)
      else if byte_is 34 b then ([], false, s')
      else match scan_fragment s' with (f, p, r) => (b :: f, p, r) end
  end.
Definition str_fragment (s : bytes) : ends (bytes * bool * bytes) :=
  match s with
  | [] => MPanic
  | b :: s' =>
      if byte_is 92 b then
        match s' with
        | [] => MPanic
        | e :: s'' =>
            if byte_is 110 e then MOk ([ascii_of_N 10], true, s'')
            else if byte_is 114 e then MOk ([ascii_of_N 13], true, s'')
            else if byte_is 34 e then MOk ([ascii_of_N 34], true, s'')
            else if byte_is 92 e then MOk ([ascii_of_N 92], true, s'')
            else MPanic
        end
      else match scan_fragment s with (f, p, r) => if utf8 f then MOk (f, p, r) else MErr end
  end.

(** What [stream_resume] returns: [Ok(true)], with the rest, or [Ok(false)]. *)
Inductive resumed := More (s : bytes) (r : reader) | Done.
(** [maybe_done], 165-173. *)
Definition maybe_done (s : bytes) (r : reader) : does resumed :=
  match s with
  | _ :: _ => ret (More s r)
  | [] => if finish (r_stack r) then ret Done else ([], MErr)
  end.

(** [self.src.get(head..head + n)] is the given word. *)
Fixpoint word (w s : bytes) : option bytes :=
  match w, s with
  | [], s => Some s
  | a :: w, b :: s => if Ascii.eqb a b then word w s else None
  | _, [] => None
  end.
Definition rd_word (w : string) (e : ev) (s : bytes) (r : reader) : does resumed :=
  match word (bs w) s with
  | Some s' => rd_value_begin r >>> fun r => say e >>> fun _ => maybe_done s' r
  | None => todo
  end.
(** One byte of the [match], 202-345; [None] for white space. *)
Definition rd_string (s : bytes) (r : reader) : does resumed :=
  rd_str_begin r >>> fun r =>
  match str_fragment s with
  | MOk (f, partial, s') =>
      say (ETextBegin None) >>> fun _ => say (ETextFrag f) >>> fun _ =>
      if partial then ret (More s' (set_in_str true r))
      else say ETextEnd >>> fun _ => maybe_done s' r
  | MErr => ([], MErr)
  | MPanic => ([], MPanic)
  end.
Definition rd_number (s : bytes) (r : reader) : does resumed :=
  let (n, s') := number s in
  rd_value_begin r >>> fun r =>
  say (ETaggedBegin (Some JSON_NUMBER) None None) >>> fun _ =>
  say (ETaggedBegin (Some NUMBER) None None) >>> fun _ =>
  say (ETextBegin (Some (blen n))) >>> fun _ =>
  say (ETextFrag n) >>> fun _ =>
  say ETextEnd >>> fun _ =>
  say (ETaggedEnd (Some NUMBER) None None) >>> fun _ =>
  say (ETaggedEnd (Some JSON_NUMBER) None None) >>> fun _ =>
  maybe_done s' r.
Definition rd_more (s : bytes) (x : does reader) : does resumed := x >>> fun r => ret (More s r).
Definition rd_done (s : bytes) (x : does reader) : does resumed := x >>> fun r => maybe_done s r.
(** The loop of [stream_resume], 201-348, outside of strings. *)
Fixpoint resume_out (s : bytes) (r : reader) : does resumed :=
  match s with
  | [] => maybe_done [] r
  | b :: s' =>
      if byte_is 34 b then rd_string s' r
      else if byte_is 123 b then rd_more s' (rd_map_begin r)
      else if byte_is 125 b then rd_done s' (rd_map_end r)
      else if byte_is 91 b then rd_more s' (rd_seq_begin r)
      else if byte_is 93 b then rd_done s' (rd_seq_end r)
      else if byte_is 58 b then rd_more s' (rd_map_key_end r)
      else if byte_is 44 b then rd_more s' (rd_comma r)
      else if byte_is 116 b then rd_word "true" (EBool true) s r
      else if byte_is 102 b then rd_word "false" (EBool false) s r
      else if byte_is 110 b then rd_word "null" ENull s r
      else if byte_is 32 b || byte_is 9 b || byte_is 13 b || byte_is 10 b then resume_out s' r
      else if ((48 <=? N_of_ascii b)%N && (N_of_ascii b <=? 57)%N) || byte_is 45 b then rd_number s r
      else todo
  end.
(** [stream_resume], 175-349. *)
Definition resume (s : bytes) (r : reader) : does resumed :=
  if r_in_str r then
    match str_fragment s with
    | MOk (f, partial, s') =>
        say (ETextFrag f) >>> fun _ =>
        if partial then ret (More s' r)
        else say ETextEnd >>> fun _ => maybe_done s' (set_in_str false r)
    | MErr => ([], MErr)
    | MPanic => ([], MPanic)
    end
  else resume_out s r.

(** [Value for JsonSlice], 16-24.  Every turn takes a byte, so there are at most
    as many as the text is long (ReaderProofs.v shows that the [None] of running
    out of turns is never reached). *)
Fixpoint resume_all (n : nat) (s : bytes) (r : reader) : option (does unit) :=
  match n with
  | 0 => None
  | S n =>
      match resume s r with
      | (es, MOk (More s' r')) =>
          match resume_all n s' r' with Some (es', e) => Some (es ++ es', e) | None => None end
      | (es, MOk Done) => Some (es, MOk tt)
      | (es, MErr) => Some (es, MErr)
      | (es, MPanic) => Some (es, MPanic)
      end
  end.
Definition from_slice (s : bytes) : does unit :=
  match resume_all (S (List.length s)) s reader_new with Some x => x | None => ([], MErr) end.
(** The same as a [sval::Value], for texts on which it does not panic. *)
Definition slice_calls (s : bytes) : list call :=
  match from_slice s with
  | (es, MOk _) => map CE es
  | (es, _) => map CE es ++ [CFail]
  end.
