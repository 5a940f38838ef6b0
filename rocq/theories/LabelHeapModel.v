(** * LabelHeapModel: labels that own their text

    [src/data.rs:29-58, 63-107, 120-160, 566-620].  A [Label] holds a raw pointer
    to its text ([value_computed]) and, when it owns the text, the raw pointer of
    the box ([backing_field_owned]).  Here boxes live in an explicit heap; reading
    or freeing a dead box is undefined behaviour.  Text borrowed from outside
    ([&'static str], [&'computed str]) is a value: the borrow checker keeps it
    alive.  A label may also borrow the text of another label
    ([Label::new_computed(other.as_str())]); its lifetime then ends before the
    other label is dropped, which is the borrow checker's rule, kept as a
    condition on histories ([allowed]). *)

From Verif Require Import Base.

(** Boxes: [Some] while allocated. *)
Definition heap := list (option bytes).

Inductive ptr := PText (s : bytes) | PBox (id : nat).

Record hlabel := MkHL {
  h_ptr : ptr;               (* value_computed *)
  h_static : option bytes;   (* backing_field_static *)
  h_owned : option nat;      (* backing_field_owned *)
  h_tag : option tag;
  h_from : option nat        (* ghost: the label slot the lifetime borrows from *)
}.

Record hstate := MkHS { hs_heap : heap; hs_slots : list (option hlabel) }.

Inductive hop :=
| HNew (s : bytes)              (* Label::new *)
| HNewComputed (s : bytes)      (* Label::new_computed of outside text *)
| HNewOwned (s : bytes)         (* Label::new_owned *)
| HBorrow (k : nat)             (* Label::new_computed(slot k .as_str()) *)
| HWithTag (k : nat) (t : tag)  (* with_tag *)
| HClone (k : nat)
| HToOwned (k : nat)
| HDrop (k : nat).

(** Undefined behaviour is [None]. *)
Definition deref (h : heap) (p : ptr) : option bytes :=
  match p with
  | PText s => Some s
  | PBox id => match nth_error h id with Some (Some s) => Some s | _ => None end
  end.

Fixpoint set_nth {A} (l : list A) (n : nat) (x : A) : list A :=
  match l, n with
  | [], _ => []
  | _ :: r, 0 => x :: r
  | y :: r, S n' => y :: set_nth r n' x
  end.

(** [Box::from_raw] and drop: the box must be allocated. *)
Definition free (h : heap) (id : nat) : option heap :=
  match nth_error h id with Some (Some _) => Some (set_nth h id None) | _ => None end.

Definition slot (s : hstate) (k : nat) : option hlabel :=
  match nth_error (hs_slots s) k with Some (Some l) => Some l | _ => None end.

Definition push_slot (s : hstate) (l : hlabel) : hstate :=
  MkHS (hs_heap s) (hs_slots s ++ [Some l]).

(** [Label::new_owned], [src/data.rs:605-617]: a new box, pointed to twice. *)
Definition alloc_label (s : hstate) (text : bytes) : hstate :=
  let id := List.length (hs_heap s) in
  MkHS (hs_heap s ++ [Some text])
       (hs_slots s ++ [Some (MkHL (PBox id) None (Some id) None None)]).

(** One operation; an operation on a dead slot cannot be written in Rust and does
    nothing here. *)
Definition hstep (s : hstate) (o : hop) : option hstate :=
  match o with
  | HNew t => Some (push_slot s (MkHL (PText t) (Some t) None None None))
  | HNewComputed t => Some (push_slot s (MkHL (PText t) None None None None))
  | HNewOwned t => Some (alloc_label s t)
  | HBorrow k =>
      match slot s k with
      | Some l =>
          match deref (hs_heap s) (h_ptr l) with
          | Some _ => Some (push_slot s (MkHL (h_ptr l) None None None (Some k)))
          | None => None
          end
      | None => Some s
      end
  | HWithTag k t =>
      match slot s k with
      | Some l =>
          Some (MkHS (hs_heap s)
                     (set_nth (hs_slots s) k
                        (Some (MkHL (h_ptr l) (h_static l) (h_owned l) (Some t) (h_from l)))))
      | None => Some s
      end
  | HClone k => (* src/data.rs:569-584 *)
      match slot s k with
      | Some l =>
          match h_owned l with
          | Some id =>
              match deref (hs_heap s) (PBox id) with
              | Some t => Some (alloc_label s t)
              | None => None
              end
          | None => Some (push_slot s (MkHL (h_ptr l) (h_static l) None (h_tag l) (h_from l)))
          end
      | None => Some s
      end
  | HToOwned k => (* src/data.rs:592-598 *)
      match slot s k with
      | Some l =>
          match h_static l with
          | Some t => Some (push_slot s (MkHL (PText t) (Some t) None None None))
          | None =>
              match deref (hs_heap s) (h_ptr l) with
              | Some t => Some (alloc_label s t)
              | None => None
              end
          end
      | None => Some s
      end
  | HDrop k => (* src/data.rs:44-54 *)
      match slot s k with
      | Some l =>
          match h_owned l with
          | Some id =>
              match free (hs_heap s) id with
              | Some h => Some (MkHS h (set_nth (hs_slots s) k None))
              | None => None
              end
          | None => Some (MkHS (hs_heap s) (set_nth (hs_slots s) k None))
          end
      | None => Some s
      end
  end.

(** [as_str], [src/data.rs:110-117]; [None] is undefined behaviour or a dead slot. *)
Definition hread (s : hstate) (k : nat) : option bytes :=
  match slot s k with Some l => deref (hs_heap s) (h_ptr l) | None => None end.

(** The borrow checker's rule: a label is dropped (or moved) only when no live
    label still borrows from it.  [with_tag] takes [self] by value, so it too
    needs the label not to be borrowed. *)
Definition borrowed_from (s : hstate) (k : nat) : bool :=
  existsb (fun o => match o with
                    | Some l => match h_from l with Some j => Nat.eqb j k | None => false end
                    | None => false
                    end) (hs_slots s).
Definition allowed (s : hstate) (o : hop) : bool :=
  match o with
  | HDrop k | HWithTag k _ => negb (borrowed_from s k)
  | _ => true
  end.

(** A history: operations the borrow checker rejects cannot be written. *)
Fixpoint hrun (s : hstate) (os : list hop) : option hstate :=
  match os with
  | [] => Some s
  | o :: os' =>
      if allowed s o then match hstep s o with Some s' => hrun s' os' | None => None end
      else hrun s os'
  end.

Definition hinit : hstate := MkHS [] [].
