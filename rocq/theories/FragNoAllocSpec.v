(** * FragNoAllocSpec: what text and binary buffers hold without an allocator *)

From Verif Require Import Base Tree FragModel BufferSpec.

(** The fragments a buffer can take without allocating: all borrowed, with
    nothing in any but the last. *)
Definition one_borrow (fs : list (bool * bytes)) : bool :=
  forallb fst fs && forallb is_empty (removelast fs).

(** The fragments of bytes in a value up to the first part that is not made of
    bytes, and whether there is no such part. *)
Section Heard.
  Context {A : Type} (heard : A -> list (bool * bytes) * bool).
  Fixpoint heard_all (l : list A) : list (bool * bytes) * bool :=
    match l with
    | [] => ([], true)
    | a :: l' =>
        let '(fs, ok) := heard a in
        if ok then let '(fs', ok') := heard_all l' in (fs ++ fs', ok') else (fs, false)
    end.
End Heard.
Fixpoint bytes_heard (t : tree) : list (bool * bytes) * bool :=
  match t with
  | TBin _ fs => (fs, true)
  | TInt U8 z => ([(false, [byte_of_Z z])], true)
  | TSeq _ vs => heard_all bytes_heard vs
  | TTuple _ _ _ _ fs => heard_all (fun f => bytes_heard (snd f)) fs
  | THint _ v | TTagged _ _ _ v | TEnum _ _ _ v => bytes_heard v
  | _ => ([], false)
  end.

(** What a buffer holds after a history: the first fragment borrowed since the
    last clear that is not empty. *)
Definition held_next (c : bytes) (o : fop) : bytes :=
  match o with
  | FClear => []
  | FPush s => match c with [] => s | _ => c end
  | _ => c
  end.
Definition held (os : list fop) : bytes := fold_left held_next os [].
(** The operations that need an allocator when a buffer holds [c]. *)
Definition needs_alloc (c : bytes) (o : fop) : bool :=
  match o with
  | FPush _ => match c with [] => false | _ => true end
  | FPushComputed _ => true
  | FPushDisplay ps _ => match ps with [] => false | _ => true end
  | FClear | FIntoOwned => false
  end.
