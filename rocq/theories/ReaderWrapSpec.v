(** * ReaderWrapSpec: when the reader's counters overflow (C83)

    From the bytes alone: the brackets outside of strings are followed until the
    first that the counters of C41 (StackExactProps.v) do not take; a text meets
    an overflow if that is because of [1 + u64::MAX]. *)

From Verif Require Import Base StackModel StackProps StackExactProps ReaderSpec ReaderFateSpec.

Fixpoint overflow_from (l : lexer) (ks : list ckind) (s : bytes) : bool :=
  match s with
  | [] => false
  | b :: s' =>
      match l, bracket b with
      | LOut, Some o => match counted_op ks o with
                        | Goes ks' => overflow_from LOut ks' s'
                        | Refused => false
                        | Overflows => true
                        end
      | _, _ => overflow_from (str_byte l b) ks s'
      end
  end.
Definition meets_overflow (s : bytes) : bool := overflow_from LOut [] s.

(** The brackets outside of strings never nest more than [n] deep: [d] are open. *)
Fixpoint nests_within (n : nat) (l : lexer) (d : nat) (s : bytes) : bool :=
  (d <=? n) &&
  match s with
  | [] => true
  | b :: s' =>
      match l, bracket b with
      | LOut, Some (PushMap | PushSeq) => nests_within n LOut (S d) s'
      | LOut, Some (PopMap | PopSeq) => nests_within n LOut (Nat.pred d) s'
      | _, _ => nests_within n (str_byte l b) d s'
      end
  end.

(** What the counters come to without overflow checks, on a stack of containers:
    when the counter of the other kind is [u64::MAX], opening and closing
    containers of this kind is not noticed at all. *)
Definition unchecked_op (ks : list ckind) (o : sop) : option (list ckind) :=
  if u64 (other ks o + 1) then
    match real_op ks o with
    | Some ks' => if u64 (fst (counters ks')) && u64 (snd (counters ks')) then Some ks' else None
    | None => None
    end
  else Some ks.
Fixpoint unchecked_run (ks : list ckind) (os : list sop) : option (list ckind) :=
  match os with
  | [] => Some ks
  | o :: os' => match unchecked_op ks o with Some ks' => unchecked_run ks' os' | None => None end
  end.
