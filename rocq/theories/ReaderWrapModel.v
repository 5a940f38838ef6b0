(** * ReaderWrapModel: the JSON reader in a build without overflow checks

    [experiments/src/json/from_slice.rs] again.  In such a build (release is one
    by default) [1 + self.seq] and [1 + self.map] in the four methods of [Stack]
    (381-411) wrap around to 0 at [u64::MAX] instead of panicking.  There is no
    other arithmetic in the reader that could overflow: [head] is at most one
    past the length of the text.  Everything that does not touch the stack is
    that of ReaderModel.v. *)

From Verif Require Import Base Event StackModel ReaderModel.

(** [1 + n] on [u64], wrapping. *)
Definition wrap_one (n : N) : N := if (1 + n <? U64_LIM)%N then (1 + n)%N else 0%N.

(** [push_map], 381-387. *)
Definition push_map_w (s : stack) : res stack :=
  match checked_add (s_map s) (wrap_one (s_seq s)) with
  | Some m => Ok (MkStack m (s_seq s))
  | None => Err s
  end.
(** [pop_map], 389-395. *)
Definition pop_map_w (s : stack) : res stack :=
  match checked_sub (s_map s) (wrap_one (s_seq s)) with
  | Some m => Ok (MkStack m (s_seq s))
  | None => Err s
  end.
(** [push_seq], 397-403. *)
Definition push_seq_w (s : stack) : res stack :=
  match checked_add (s_seq s) (wrap_one (s_map s)) with
  | Some q => Ok (MkStack (s_map s) q)
  | None => Err s
  end.
(** [pop_seq], 405-411. *)
Definition pop_seq_w (s : stack) : res stack :=
  match checked_sub (s_seq s) (wrap_one (s_map s)) with
  | Some q => Ok (MkStack (s_map s) q)
  | None => Err s
  end.
(** A history of calls. *)
Definition stack_op_w (s : stack) (o : sop) : res stack :=
  match o with
  | PushMap => push_map_w s
  | PopMap => pop_map_w s
  | PushSeq => push_seq_w s
  | PopSeq => pop_seq_w s
  end.
Fixpoint stack_run_w (s : stack) (os : list sop) : res stack :=
  match os with
  | [] => Ok s
  | o :: os' => stack_op_w s o >>= fun s' => stack_run_w s' os'
  end.

(** [map_begin], 45-57, and [seq_begin], 87-102. *)
Definition rd_map_begin_w (r : reader) : does reader :=
  begin_container r >>> fun _ => lift_stack r (push_map_w (r_stack r)) >>> fun r =>
  say (EMapBegin None) >>> fun _ => ret (set_pos PMapEmpty r).
Definition rd_seq_begin_w (r : reader) : does reader :=
  begin_container r >>> fun _ => lift_stack r (push_seq_w (r_stack r)) >>> fun r =>
  say (ESeqBegin None) >>> fun _ => ret (set_pos PSeqEmpty r).
(** [map_end], 69-85, and [seq_end], 104-120. *)
Definition rd_map_end_w (r : reader) : does reader :=
  (match r_pos r with PMapEmpty => ret tt | PMapValue => say EMapValEnd | _ => todo end) >>> fun _ =>
  lift_stack r (pop_map_w (r_stack r)) >>> fun r =>
  say EMapEnd >>> fun _ => ret (set_pos (stack_pos (r_stack r)) r).
Definition rd_seq_end_w (r : reader) : does reader :=
  (match r_pos r with PSeqEmpty => ret tt | PSeqElem => say ESeqValEnd | _ => todo end) >>> fun _ =>
  lift_stack r (pop_seq_w (r_stack r)) >>> fun r =>
  say ESeqEnd >>> fun _ => ret (set_pos (stack_pos (r_stack r)) r).

(** The loop of [stream_resume], 201-348, outside of strings. *)
Fixpoint resume_out_w (s : bytes) (r : reader) : does resumed :=
  match s with
  | [] => maybe_done [] r
  | b :: s' =>
      if byte_is 34 b then rd_string s' r
      else if byte_is 123 b then rd_more s' (rd_map_begin_w r)
      else if byte_is 125 b then rd_done s' (rd_map_end_w r)
      else if byte_is 91 b then rd_more s' (rd_seq_begin_w r)
      else if byte_is 93 b then rd_done s' (rd_seq_end_w r)
      else if byte_is 58 b then rd_more s' (rd_map_key_end r)
      else if byte_is 44 b then rd_more s' (rd_comma r)
      else if byte_is 116 b then rd_word "true" (EBool true) s r
      else if byte_is 102 b then rd_word "false" (EBool false) s r
      else if byte_is 110 b then rd_word "null" ENull s r
      else if byte_is 32 b || byte_is 9 b || byte_is 13 b || byte_is 10 b then resume_out_w s' r
      else if ((48 <=? N_of_ascii b)%N && (N_of_ascii b <=? 57)%N) || byte_is 45 b then rd_number s r
      else todo
  end.
(** [stream_resume], 175-349; within strings it does not reach the stack. *)
Definition resume_w (s : bytes) (r : reader) : does resumed :=
  if r_in_str r then resume s r else resume_out_w s r.
(** [Value for JsonSlice], 16-24. *)
Fixpoint resume_all_w (n : nat) (s : bytes) (r : reader) : option (does unit) :=
  match n with
  | 0 => None
  | S n =>
      match resume_w s r with
      | (es, MOk (More s' r')) =>
          match resume_all_w n s' r' with Some (es', e) => Some (es ++ es', e) | None => None end
      | (es, MOk Done) => Some (es, MOk tt)
      | (es, MErr) => Some (es, MErr)
      | (es, MPanic) => Some (es, MPanic)
      end
  end.
Definition from_slice_w (s : bytes) : does unit :=
  match resume_all_w (S (List.length s)) s reader_new with Some x => x | None => ([], MErr) end.
