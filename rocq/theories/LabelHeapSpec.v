(** * LabelHeapSpec: labels as plain values

    What a history of label operations should mean, with no pointers: each slot
    is a text, whether it is static, owned or borrowed (and from which slot), and
    a tag. *)

From Verif Require Import Base LabelHeapModel.

Inductive vkind := VStatic | VOutside | VOwned | VFrom (k : nat).
Record vlabel := MkVL { v_text : bytes; v_kind : vkind; v_tag : option tag }.

Definition vslot (s : list (option vlabel)) (k : nat) : option vlabel :=
  match nth_error s k with Some (Some l) => Some l | _ => None end.

Definition vborrowed (s : list (option vlabel)) (k : nat) : bool :=
  existsb (fun o => match o with Some (MkVL _ (VFrom j) _) => Nat.eqb j k | _ => false end) s.

(** Which slot a label's lifetime borrows from. *)
Definition clone_of (l : vlabel) : vlabel :=
  match v_kind l with
  | VOwned => MkVL (v_text l) VOwned None
  | _ => l
  end.
Definition owned_of (l : vlabel) : vlabel :=
  match v_kind l with
  | VStatic => MkVL (v_text l) VStatic None
  | _ => MkVL (v_text l) VOwned None
  end.

Definition vstep (s : list (option vlabel)) (o : hop) : list (option vlabel) :=
  match o with
  | HNew t => s ++ [Some (MkVL t VStatic None)]
  | HNewComputed t => s ++ [Some (MkVL t VOutside None)]
  | HNewOwned t => s ++ [Some (MkVL t VOwned None)]
  | HBorrow k =>
      match vslot s k with Some l => s ++ [Some (MkVL (v_text l) (VFrom k) None)] | None => s end
  | HWithTag k t =>
      match vslot s k with
      | Some l => if vborrowed s k then s else set_nth s k (Some (MkVL (v_text l) (v_kind l) (Some t)))
      | None => s end
  | HClone k => match vslot s k with Some l => s ++ [Some (clone_of l)] | None => s end
  | HToOwned k => match vslot s k with Some l => s ++ [Some (owned_of l)] | None => s end
  | HDrop k => if vborrowed s k then s else set_nth s k None
  end.

Definition vrun (os : list hop) : list (option vlabel) := fold_left vstep os [].
