(** * ArrayVecSpec: a bounded list *)

From Verif Require Import Base ArrayVecModel.

(** The same operations on a list holding at most [cap] elements: the list, what
    the caller gets back, what is dropped. *)
Definition bounded {A} (cap : nat) (l : list A) (o : vop) : list A * list A * list A :=
  match o with
  | OPush x => if Nat.ltb (List.length l) cap then (l ++ [x], [], []) else (l, [], [x])
  | OPop => match rev l with [] => ([], [], []) | x :: r => (rev r, [x], []) end
  | OClear => ([], [], l)
  | OSet i x =>
      match nth_error l i with
      | None => (l, [], [x])
      | Some old => (firstn i l ++ x :: skipn (S i) l, [], [old])
      end
  end.
Fixpoint bounded_all {A} (cap : nat) (l : list A) (os : list vop) : list A * list A * list A :=
  match os with
  | [] => (l, [], [])
  | o :: r =>
      match bounded cap l o with
      | (l1, got1, dropped1) =>
          match bounded_all cap l1 r with
          | (l2, got2, dropped2) => (l2, got1 ++ got2, dropped1 ++ dropped2)
          end
      end
  end.

(** The values handed to the vector by a history. *)
Definition given {A} (os : list (@vop A)) : list A :=
  flat_map (fun o => match o with OPush x | OSet _ x => [x] | _ => [] end) os.
