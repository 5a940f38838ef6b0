(** * ReaderFateSpec: how reading a JSON text ends

    For any JSON text, from its bytes alone.  Outside of strings a capital [E]
    panics; a bracket goes on, is an error or overflows as the counters of C41
    do (StackExactProps.v); in strings every piece between quotes and escapes
    has to be UTF-8, and an escape other than [\n], [\r], a quote or a backslash
    panics.  The first of these that comes up is how reading ends. *)

From Verif Require Import Base Utf8 StackModel StackProps StackExactProps ReaderSpec.

Inductive fate := Reads | Fails | Panics.

(** The bytes up to the next quote or escape. *)
Fixpoint piece (s : bytes) : bytes :=
  match s with
  | [] => []
  | b :: s' => if (N_of_ascii b =? 34)%N || (N_of_ascii b =? 92)%N then [] else b :: piece s'
  end.
Definition bracket (b : byte) : option sop :=
  let n := N_of_ascii b in
  if (n =? 123)%N then Some PushMap else if (n =? 125)%N then Some PopMap
  else if (n =? 91)%N then Some PushSeq else if (n =? 93)%N then Some PopSeq else None.
Fixpoint fate_from (l : lexer) (ks : list ckind) (s : bytes) : fate :=
  match s with
  | [] => Reads
  | b :: s' =>
      let n := N_of_ascii b in
      let string_goes_on := if utf8 (piece s') then fate_from LStr ks s' else Fails in
      match l with
      | LOut =>
          if (n =? 69)%N then Panics
          else if (n =? 34)%N then string_goes_on
          else match bracket b with
               | None => fate_from LOut ks s'
               | Some o => match counted_op ks o with
                           | Goes ks' => fate_from LOut ks' s'
                           | Refused => Fails
                           | Overflows => Panics
                           end
               end
      | LStr =>
          if (n =? 34)%N then fate_from LOut ks s' else if (n =? 92)%N then fate_from LEsc ks s' else fate_from LStr ks s'
      | LEsc =>
          if (n =? 110)%N || (n =? 114)%N || (n =? 34)%N || (n =? 92)%N then string_goes_on else Panics
      end
  end.
Definition fate_of (s : bytes) : fate := fate_from LOut [] s.
