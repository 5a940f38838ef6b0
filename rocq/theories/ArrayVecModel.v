(** * ArrayVecModel: the storage buffers use without an allocator

    [buffer/src/value.rs:1353-1448], [array_vec::ArrayVec]: an array of
    [MaybeUninit] slots and a length.  Dropping or cloning an element is taken
    not to panic; which values are dropped, and when, is part of the model. *)

From Verif Require Import Base.

(** A [MaybeUninit<T>] slot: nothing was ever written to it, or the bits of a
    value are in it.  Reading does not change the slot: after a move out of it
    the bits are still there. *)
Inductive slot (A : Type) := Uninit | Bits (a : A).
Arguments Uninit {A}.
Arguments Bits {A} a.

(** [ArrayVec], 1362-1365. *)
Record avec (A : Type) := MkAV { av_buf : list (slot A); av_len : nat }.
Arguments MkAV {A}.
Arguments av_buf {A}.
Arguments av_len {A}.

(** What unsafe code can come to: a result, a panic, or undefined behaviour
    (here: an uninitialised slot taken as a value). *)
Inductive mem (A : Type) := MOk (a : A) | MPanic | MUb.
Arguments MOk {A} a.
Arguments MPanic {A}.
Arguments MUb {A}.
Definition mbind {A B} (m : mem A) (f : A -> mem B) : mem B :=
  match m with MOk a => f a | MPanic => MPanic | MUb => MUb end.

(** [assume_init]/[assume_init_read] of a slot. *)
Definition assume_init {A} (s : slot A) : mem A :=
  match s with Bits a => MOk a | Uninit => MUb end.
Fixpoint assume_init_all {A} (ss : list (slot A)) : mem (list A) :=
  match ss with
  | [] => MOk []
  | s :: r => mbind (assume_init s) (fun a => mbind (assume_init_all r) (fun l => MOk (a :: l)))
  end.

Fixpoint set_slot {A} (l : list (slot A)) (i : nat) (s : slot A) : list (slot A) :=
  match l, i with
  | [], _ => []
  | _ :: r, 0 => s :: r
  | x :: r, S i' => x :: set_slot r i' s
  end.

Section ArrayVec.
  Context {A : Type}.
  (** The const parameter [N]. *)
  Variable cap : nat.

  (** [Default], 1379-1389. *)
  Definition av_default : avec A := MkAV (repeat Uninit cap) 0.

  (** [Deref], 1406-1415, and [DerefMut], 1417-1424: [&self.buf[..self.len]]
      panics when the length is past the array. *)
  Definition av_deref (v : avec A) : mem (list A) :=
    if Nat.leb (av_len v) (List.length (av_buf v))
    then assume_init_all (firstn (av_len v) (av_buf v))
    else MPanic.

  (** [Drop], 1391-1398: the values dropped, in order. *)
  Definition av_drop (v : avec A) : mem (list A) := av_deref v.

  (** [push], 1427-1436: the vector and, on [Err], the value that was given,
      which is dropped on return.  [self.buf[self.len]] is bounds checked, and
      [MaybeUninit::write] drops nothing. *)
  Definition av_push (v : avec A) (x : A) : mem (avec A * option A) :=
    if Nat.eqb (av_len v) cap then MOk (v, Some x)
    else if Nat.ltb (av_len v) (List.length (av_buf v))
    then MOk (MkAV (set_slot (av_buf v) (av_len v) (Bits x)) (S (av_len v)), None)
    else MPanic.

  (** [pop], 1438-1448. *)
  Definition av_pop (v : avec A) : mem (avec A * option A) :=
    match av_len v with
    | 0 => MOk (v, None)
    | S i =>
        match nth_error (av_buf v) i with
        | None => MPanic
        | Some s => mbind (assume_init s) (fun a => MOk (MkAV (av_buf v) i, Some a))
        end
    end.

  (** [clear], 1450-1452: the assignment drops the old vector. *)
  Definition av_clear (v : avec A) : mem (avec A * list A) :=
    mbind (av_drop v) (fun d => MOk (av_default, d)).

  (** [*v.get_mut(i).unwrap() = x] through [DerefMut], as [push_end], 934-977,
      and [current_mut], 979-981, reach a part: [None] when there is no such
      element, otherwise the old value, which the assignment drops. *)
  Definition av_set (v : avec A) (i : nat) (x : A) : mem (avec A * option A) :=
    mbind (av_deref v) (fun l =>
      match nth_error l i with
      | None => MOk (v, None)
      | Some old => MOk (MkAV (set_slot (av_buf v) i (Bits x)) (av_len v), Some old)
      end).

  (** [Clone], 1367-1377: [buf.push(value).unwrap()] for each element's clone. *)
  Fixpoint av_extend (v : avec A) (l : list A) : mem (avec A) :=
    match l with
    | [] => MOk v
    | x :: r =>
        mbind (av_push v x) (fun p =>
          match snd p with None => av_extend (fst p) r | Some _ => MPanic end)
    end.
  Definition av_clone (clone : A -> A) (v : avec A) : mem (avec A) :=
    mbind (av_deref v) (fun l => av_extend av_default (map clone l)).

  (** A history: each operation, the value it hands back and the values it drops.
      [OSet] of an index that is not there drops the value it was given. *)
  Inductive vop := OPush (x : A) | OPop | OClear | OSet (i : nat) (x : A).
  (** The vector, what the caller got back, what was dropped. *)
  Definition av_op (v : avec A) (o : vop) : mem (avec A * list A * list A) :=
    match o with
    | OPush x => mbind (av_push v x) (fun p =>
        MOk (fst p, [], match snd p with Some x => [x] | None => [] end))
    | OPop => mbind (av_pop v) (fun p =>
        MOk (fst p, match snd p with Some x => [x] | None => [] end, []))
    | OClear => mbind (av_clear v) (fun p => MOk (fst p, [], snd p))
    | OSet i x => mbind (av_set v i x) (fun p =>
        MOk (fst p, [], match snd p with Some old => [old] | None => [x] end))
    end.
  Fixpoint av_ops (v : avec A) (os : list vop) : mem (avec A * list A * list A) :=
    match os with
    | [] => MOk (v, [], [])
    | o :: r =>
        mbind (av_op v o) (fun p => match p with (v1, got1, dropped1) =>
          mbind (av_ops v1 r) (fun q => match q with (v2, got2, dropped2) =>
            MOk (v2, got1 ++ got2, dropped1 ++ dropped2) end) end)
    end.
End ArrayVec.
