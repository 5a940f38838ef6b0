(** * FlattenWrapSpec: what flattening leaves behind without overflow checks (C84)

    The ends of the tagged values around an enum, from the inside out.  Nothing
    began them. *)

From Verif Require Import Base Event Tree FlattenModel FlattenSpec.

Fixpoint stray_ends (t : tree) : list ev :=
  match t with
  | THint _ v => stray_ends v
  | TTagged g l i v => if enum_below v then stray_ends v ++ [ETaggedEnd g l i] else []
  | _ => []
  end.

(** Positions where adding wraps around, within [isize] (from [- 2 ^ 63] up to
    [2 ^ 63 - 1]): the number in the range that differs by a multiple of
    [2 ^ 64]. *)
Definition around (z : Z) : Z := (z - 2 ^ 64 * ((z + 2 ^ 63) / 2 ^ 64))%Z.
Definition place_around (offset next : Z) (i : option index) : index :=
  match i with
  | None => MkIndex next (Some VALUE_OFFSET)
  | Some i =>
      if otag_is (i_tag i) VALUE_OFFSET && fits I64 (i_val i)
      then MkIndex (around (i_val i + offset)) (Some VALUE_OFFSET)
      else i
  end.
Definition next_around (next : Z) (i : index) : Z :=
  around ((if fits I64 (i_val i) then i_val i else next) + 1).
Fixpoint placed_around (offset next : Z) (cs : list child) : list (child * index) :=
  match cs with
  | [] => []
  | c :: cs' =>
      let i := place_around offset next (c_index c) in
      (c, i) :: placed_around offset (next_around next i) cs'
  end.
Fixpoint end_around (offset next : Z) (cs : list child) : Z :=
  match cs with
  | [] => next
  | c :: cs' => end_around offset (next_around next (place_around offset next (c_index c))) cs'
  end.
