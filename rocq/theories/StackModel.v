(** * StackModel: the JSON reader's container stack

    [experiments/src/json/from_slice.rs:360-428] (struct [Stack]): two [u64]
    counters instead of a stack of container kinds. *)

From Verif Require Import Base.

Record stack := MkStack { s_map : N; s_seq : N }.

(** [Stack::new], 377-379. *)
Definition stack_new : stack := MkStack 0 0.

Definition U64_LIM : N := 2 ^ 64.

(** [1 + self.seq]: an ordinary addition, which panics when it overflows in a
    build with overflow checks.  [checked_add]/[checked_sub] give an error. *)
Definition add_one (n : N) : option N := if (1 + n <? U64_LIM)%N then Some (1 + n)%N else None.
Definition checked_add (a b : N) : option N := if (a + b <? U64_LIM)%N then Some (a + b)%N else None.
Definition checked_sub (a b : N) : option N := if (b <=? a)%N then Some (a - b)%N else None.

(** [push_map], 381-387. *)
Definition push_map (s : stack) : res stack :=
  match add_one (s_seq s) with
  | None => Panic
  | Some d => match checked_add (s_map s) d with
              | Some m => Ok (MkStack m (s_seq s))
              | None => Err s
              end
  end.
(** [pop_map], 389-395. *)
Definition pop_map (s : stack) : res stack :=
  match add_one (s_seq s) with
  | None => Panic
  | Some d => match checked_sub (s_map s) d with
              | Some m => Ok (MkStack m (s_seq s))
              | None => Err s
              end
  end.
(** [push_seq], 397-403. *)
Definition push_seq (s : stack) : res stack :=
  match add_one (s_map s) with
  | None => Panic
  | Some d => match checked_add (s_seq s) d with
              | Some q => Ok (MkStack (s_map s) q)
              | None => Err s
              end
  end.
(** [pop_seq], 405-411. *)
Definition pop_seq (s : stack) : res stack :=
  match add_one (s_map s) with
  | None => Panic
  | Some d => match checked_sub (s_seq s) d with
              | Some q => Ok (MkStack (s_map s) q)
              | None => Err s
              end
  end.

(** [Position], 349-357, as far as [Stack::position] (413-419) produces it. *)
Inductive inside := InRoot | InMap | InSeq.
Definition position (s : stack) : inside :=
  match (s_map s ?= s_seq s)%N with
  | Gt => InMap
  | Lt => InSeq
  | Eq => InRoot
  end.
(** [finish], 421-427. *)
Definition finish (s : stack) : bool := (s_map s =? 0)%N && (s_seq s =? 0)%N.

(** A history of calls. *)
Inductive sop := PushMap | PopMap | PushSeq | PopSeq.
Definition stack_op (s : stack) (o : sop) : res stack :=
  match o with
  | PushMap => push_map s
  | PopMap => pop_map s
  | PushSeq => push_seq s
  | PopSeq => pop_seq s
  end.
Fixpoint stack_run (s : stack) (os : list sop) : res stack :=
  match os with
  | [] => Ok s
  | o :: os' => stack_op s o >>= fun s' => stack_run s' os'
  end.
