(** * LabelThreadSpec: what can go wrong between threads

    Independent of how the model looks for data races: a history of accesses and
    hand-overs, and the ordinary notions of happening before and of a data race. *)

From Verif Require Import Base LabelHeapModel LabelThreadModel.

(** [before h i t j]: the access at place [i] of the history happens before whatever
    thread [t] does at place [j].  A thread's own accesses happen in order; and if an
    access happens before [a] hands something over to [b], it happens before all that
    [b] does afterwards. *)
Inductive before (h : list event) : nat -> nat -> nat -> Prop :=
| b_own i t x w j : nth_error h i = Some (EAcc t x w) -> i < j -> before h i t j
| b_tell i a b m j : before h i a m -> nth_error h m = Some (ETell a b) -> m < j -> before h i b j.

(** Two accesses to one place, at least one of which writes, that nothing orders. *)
Definition race (h : list event) : Prop :=
  exists i j t u x w v,
    i < j /\ nth_error h i = Some (EAcc t x w) /\ nth_error h j = Some (EAcc u x v) /\
    (w = true \/ v = true) /\ ~ before h i u j.

(** No label is left. *)
Definition all_dropped (s : tstate) : Prop := forall k, tlab s k = None.
(** Every box has been given back. *)
Definition all_freed (s : tstate) : Prop := forall id x, nth_error (t_heap s) id <> Some (Some x).
(** How many live labels own a box. *)
Definition owners (s : tstate) (id : nat) : nat :=
  length (filter (fun o => match o with
                           | Some l => match l_owned l with Some (i, _) => Nat.eqb i id | None => false end
                           | None => false
                           end) (t_labels s)).
