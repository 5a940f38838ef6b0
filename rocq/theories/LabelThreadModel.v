(** * LabelThreadModel: labels used from several threads

    [src/data.rs:29-60, 63-117, 566-620], in particular the [unsafe impl Send] and
    [unsafe impl Sync], [src/data.rs:56-59].  The methods are those of
    LabelHeapModel.v, but they run in any number of threads and their steps
    interleave: a text is read byte by byte.  Every access to a label or to its box is
    recorded.  Reading or freeing a dead box is undefined behaviour, and so are two
    accesses by two threads of which one is a write or a free and neither happens
    before the other (a data race).

    What happens before what: each access has a time, and each thread knows the accesses
    that happen before whatever it does next.  It learns what another thread knows when
    that thread hands something over to it (a channel, a lock, spawning or joining a
    thread).  Something in flight is a thread of its own that only passes it on.

    Simplified: a new box is written in one step, since nobody else can see it yet. *)

From Verif Require Import Base LabelHeapModel.

(** The raw pointer to the text, with its length. *)
Inductive tptr := TText (s : bytes) | TBox (id : nat) (len : nat).

Record tlabel := MkTL {
  l_ptr : tptr;               (* value_computed *)
  l_static : option bytes;    (* backing_field_static *)
  l_owned : option (nat * nat); (* backing_field_owned: the box and its length *)
  l_tag : option tag;
  l_from : option nat;        (* ghost: the label its lifetime borrows from *)
  l_owner : nat;              (* ghost: the thread that has it *)
  l_made : bytes              (* ghost: the text it was made of *)
}.

(** Where a label is, and where its box is. *)
Inductive loc := AtLabel (k : nat) | AtBox (id : nat).
Definition loc_eqb (x y : loc) : bool :=
  match x, y with AtLabel a, AtLabel b | AtBox a, AtBox b => Nat.eqb a b | _, _ => false end.
Record access := MkAcc { a_loc : loc; a_time : nat; a_write : bool }.

(** What threads can notice of each other: that a thread accesses a place, and that
    [a] hands something over to [b]. *)
Inductive event := EAcc (t : nat) (x : loc) (w : bool) | ETell (a b : nat).

(** What is done with a text once it is read. *)
Inductive use := Look | Copy.

Record tstate := MkTS {
  t_heap : heap;
  t_labels : list (option tlabel);
  t_refs : list (nat * nat);                 (* ghost: thread, label: the shared references *)
  t_busy : nat -> option (nat * tptr * use * bytes); (* the label and the pointer a thread is reading through, and what it has read *)
  t_accs : list access;
  t_time : nat;
  t_know : nat -> nat -> bool;               (* thread, time *)
  t_seen : list (bytes * bytes);             (* ghost: texts read, and what should have been read *)
  t_hist : list event                        (* all that happened so far, in order *)
}.
Definition tinit : tstate := MkTS [] [] [] (fun _ => None) [] 0 (fun _ _ => false) [] [].

Definition upd {A} (f : nat -> A) (k : nat) (x : A) : nat -> A := fun j => if Nat.eqb j k then x else f j.
Definition set_heap h s := MkTS h (t_labels s) (t_refs s) (t_busy s) (t_accs s) (t_time s) (t_know s) (t_seen s) (t_hist s).
Definition set_labels l s := MkTS (t_heap s) l (t_refs s) (t_busy s) (t_accs s) (t_time s) (t_know s) (t_seen s) (t_hist s).
Definition set_refs r s := MkTS (t_heap s) (t_labels s) r (t_busy s) (t_accs s) (t_time s) (t_know s) (t_seen s) (t_hist s).
Definition set_busy t b s := MkTS (t_heap s) (t_labels s) (t_refs s) (upd (t_busy s) t b) (t_accs s) (t_time s) (t_know s) (t_seen s) (t_hist s).
Definition add_seen e s := MkTS (t_heap s) (t_labels s) (t_refs s) (t_busy s) (t_accs s) (t_time s) (t_know s) (e :: t_seen s) (t_hist s).
(** [b] learns what [a] knows. *)
Definition tell (a b : nat) s :=
  MkTS (t_heap s) (t_labels s) (t_refs s) (t_busy s) (t_accs s) (S (t_time s))
       (upd (t_know s) b (fun p => t_know s b p || t_know s a p)) (t_seen s) (t_hist s ++ [ETell a b]).

(** An access; [None] is a data race. *)
Definition races (s : tstate) (t : nat) (x : loc) (w : bool) : bool :=
  existsb (fun a => loc_eqb (a_loc a) x && (w || a_write a) && negb (t_know s t (a_time a))) (t_accs s).
Definition touch (t : nat) (x : loc) (w : bool) (s : tstate) : option tstate :=
  if races s t x w then None
  else Some (MkTS (t_heap s) (t_labels s) (t_refs s) (t_busy s) (MkAcc x (t_time s) w :: t_accs s) (S (t_time s))
                  (upd (t_know s) t (fun p => t_know s t p || Nat.eqb p (t_time s))) (t_seen s)
                  (t_hist s ++ [EAcc t x w])).

Definition tlab (s : tstate) (k : nat) : option tlabel :=
  match nth_error (t_labels s) k with Some (Some l) => Some l | _ => None end.

(** A new label, in a place of its own. *)
Definition add_label (t : nat) (l : tlabel) (s : tstate) : option tstate :=
  match touch t (AtLabel (length (t_labels s))) true s with
  | Some s => Some (set_labels (t_labels s ++ [Some l]) s)
  | None => None
  end.
(** [Label::new_owned], [src/data.rs:605-617]. *)
Definition add_owned (t : nat) (text made : bytes) (s : tstate) : option tstate :=
  let id := length (t_heap s) in
  match touch t (AtBox id) true s with
  | Some s =>
      add_label t (MkTL (TBox id (length text)) None (Some (id, length text)) None None t made)
                (set_heap (t_heap s ++ [Some text]) s)
  | None => None
  end.

Inductive act :=
| MNew (s : bytes)               (* Label::new *)
| MComputed (s : bytes)          (* Label::new_computed of outside text *)
| MOwned (s : bytes)             (* Label::new_owned *)
| MBorrow (k : nat)              (* Label::new_computed(label.as_str()) *)
| MTag (k : nat) (g : tag)       (* with_tag *)
| MRead (k : nat)                (* as_str, and reading what it points to *)
| MClone (k : nat)
| MToOwned (k : nat)
| MNext                          (* goes on with what it was reading *)
| MDrop (k : nat)
| MSend (k b : nat)              (* gives the label to thread b *)
| MLend (k b : nat)              (* gives thread b a reference to the label *)
| MReturn (k b : nat)            (* is done with a reference it had, and thread b gets to know *)
| MSync (b : nat).               (* any other communication with thread b *)

(** The next byte of a text. *)
Definition text_len (p : tptr) : nat := match p with TText s => length s | TBox _ n => n end.
Definition read_byte (t : nat) (p : tptr) (i : nat) (s : tstate) : option (byte * tstate) :=
  match p with
  | TText x => match nth_error x i with Some b => Some (b, s) | None => None end
  | TBox id _ =>
      match nth_error (t_heap s) id with
      | Some (Some x) =>
          match nth_error x i, touch t (AtBox id) false s with
          | Some b, Some s => Some (b, s)
          | _, _ => None
          end
      | _ => None
      end
  end.

Fixpoint remove_one (r : nat * nat) (rs : list (nat * nat)) : list (nat * nat) :=
  match rs with
  | [] => []
  | q :: rs => if Nat.eqb (fst q) (fst r) && Nat.eqb (snd q) (snd r) then rs else q :: remove_one r rs
  end.

(** One step of thread [t]; [None] is undefined behaviour.  On a label that is not
    there it does nothing: such a step cannot be written. *)
Definition tstep (s : tstate) (t : nat) (a : act) : option tstate :=
  match a with
  | MNew x => add_label t (MkTL (TText x) (Some x) None None None t x) s
  | MComputed x => add_label t (MkTL (TText x) None None None None t x) s
  | MOwned x => add_owned t x x s
  | MBorrow k =>
      match tlab s k with
      | Some l =>
          match touch t (AtLabel k) false s with
          | Some s => add_label t (MkTL (l_ptr l) None None None (Some k) t (l_made l)) s
          | None => None
          end
      | None => Some s
      end
  | MTag k g => (* src/data.rs, with_tag *)
      match tlab s k with
      | Some l =>
          match touch t (AtLabel k) true s with
          | Some s =>
              Some (set_labels (set_nth (t_labels s) k
                      (Some (MkTL (l_ptr l) (l_static l) (l_owned l) (Some g) (l_from l) (l_owner l) (l_made l)))) s)
          | None => None
          end
      | None => Some s
      end
  | MRead k =>
      match tlab s k with
      | Some l => match touch t (AtLabel k) false s with Some s => Some (set_busy t (Some (k, l_ptr l, Look, [])) s) | None => None end
      | None => Some s
      end
  | MClone k => (* src/data.rs:569-584 *)
      match tlab s k with
      | Some l =>
          match touch t (AtLabel k) false s with
          | Some s =>
              match l_owned l with
              | Some (id, n) => Some (set_busy t (Some (k, TBox id n, Copy, [])) s)
              | None => add_label t (MkTL (l_ptr l) (l_static l) None (l_tag l) (l_from l) t (l_made l)) s
              end
          | None => None
          end
      | None => Some s
      end
  | MToOwned k => (* src/data.rs:592-598 *)
      match tlab s k with
      | Some l =>
          match touch t (AtLabel k) false s with
          | Some s =>
              match l_static l with
              | Some x => add_label t (MkTL (TText x) (Some x) None None None t (l_made l)) s
              | None => Some (set_busy t (Some (k, l_ptr l, Copy, [])) s)
              end
          | None => None
          end
      | None => Some s
      end
  | MNext =>
      match t_busy s t with
      | Some (k, p, u, x) =>
          match tlab s k with
          | Some l =>
              if Nat.ltb (length x) (text_len p) then
                match read_byte t p (length x) s with
                | Some (b, s) => Some (set_busy t (Some (k, p, u, x ++ [b])) s)
                | None => None
                end
              else
                let s := add_seen (x, l_made l) (set_busy t None s) in
                match u with
                | Look => Some s
                | Copy => add_owned t x (l_made l) s
                end
          | None => None
          end
      | None => Some s
      end
  | MDrop k => (* src/data.rs:44-54 *)
      match tlab s k with
      | Some l =>
          match touch t (AtLabel k) true s with
          | Some s =>
              match l_owned l with
              | Some (id, _) =>
                  match touch t (AtBox id) true s with
                  | Some s =>
                      match free (t_heap s) id with
                      | Some h => Some (set_labels (set_nth (t_labels s) k None) (set_heap h s))
                      | None => None
                      end
                  | None => None
                  end
              | None => Some (set_labels (set_nth (t_labels s) k None) s)
              end
          | None => None
          end
      | None => Some s
      end
  | MSend k b =>
      match tlab s k with
      | Some l =>
          match touch t (AtLabel k) true s with
          | Some s =>
              Some (tell t b (set_labels (set_nth (t_labels s) k
                      (Some (MkTL (l_ptr l) (l_static l) (l_owned l) (l_tag l) (l_from l) b (l_made l)))) s))
          | None => None
          end
      | None => Some s
      end
  | MLend k b => match tlab s k with Some _ => Some (tell t b (set_refs ((b, k) :: t_refs s) s)) | None => Some s end
  | MReturn k b => Some (tell t b (set_refs (remove_one (t, k) (t_refs s)) s))
  | MSync b => Some (tell t b s)
  end.

(** ** What the borrow checker accepts

    A thread uses a label that it has or has a reference to.  Who has it may drop it,
    tag it or send it on if there is no reference to it and no label borrows from it.
    A label that borrows from another may only go, or be shared, where the other can be
    reached.  A reference is given up by a thread that has nothing left that borrows from
    the label, and someone who can still reach the label gets to know: that is what a
    scoped thread's end does. *)
Definition has (s : tstate) (t k : nat) : bool :=
  match tlab s k with
  | Some l => Nat.eqb (l_owner l) t || existsb (fun r => Nat.eqb (fst r) t && Nat.eqb (snd r) k) (t_refs s)
  | None => false
  end.
Definition owns (s : tstate) (t k : nat) : bool := match tlab s k with Some l => Nat.eqb (l_owner l) t | None => false end.
Definition no_refs (s : tstate) (k : nat) : bool := negb (existsb (fun r => Nat.eqb (snd r) k) (t_refs s)).
Definition borrows (o : option tlabel) (k : nat) : bool :=
  match o with Some l => match l_from l with Some j => Nat.eqb j k | None => false end | None => false end.
Definition no_borrows (s : tstate) (k : nat) : bool := negb (existsb (fun o => borrows o k) (t_labels s)).
(** Nothing that thread [t] can reach borrows from [k]. *)
Definition nothing_from (s : tstate) (t k : nat) : bool :=
  forallb (fun j => negb (borrows (nth j (t_labels s) None) k && has s t j)) (seq 0 (length (t_labels s))).
Definition reaches_origin (s : tstate) (b k : nat) : bool :=
  match tlab s k with Some l => match l_from l with Some p => has s b p | None => true end | None => false end.
Definition may (s : tstate) (t : nat) (a : act) : bool :=
  match t_busy s t with
  | Some _ => match a with MNext => true | _ => false end
  | None =>
      match a with
      | MNew _ | MComputed _ | MOwned _ | MSync _ => true
      | MBorrow k | MRead k | MClone k | MToOwned k => has s t k
      | MTag k _ | MDrop k => owns s t k && no_refs s k && no_borrows s k
      | MSend k b => owns s t k && no_refs s k && no_borrows s k && reaches_origin s b k
      | MLend k b => has s t k && reaches_origin s b k
      | MReturn k b =>
          existsb (fun r => Nat.eqb (fst r) t && Nat.eqb (snd r) k) (t_refs s) &&
          (let s' := set_refs (remove_one (t, k) (t_refs s)) s in has s' b k && (has s' t k || nothing_from s' t k))
      | MNext => false
      end
  end.

(** A run: any threads, in any order.  What the borrow checker rejects cannot be
    written. *)
Fixpoint trun (s : tstate) (sched : list (nat * act)) : option tstate :=
  match sched with
  | [] => Some s
  | (t, a) :: sched =>
      if may s t a then match tstep s t a with Some s' => trun s' sched | None => None end
      else trun s sched
  end.
