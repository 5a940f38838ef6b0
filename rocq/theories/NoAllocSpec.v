(** * NoAllocSpec: the values a buffer holds without an allocator *)

From Verif Require Import Base Event Tree.

(** A text or binary that is one piece of borrowed data: every fragment is
    borrowed, and all but the last are empty. *)
Definition one_borrow (fs : list (bool * bytes)) : bool :=
  forallb fst fs && forallb (fun f => match snd f with [] => true | _ => false end) (removelast fs).

(** Labels that need no allocation, or any label when [sval] itself allocates. *)
Definition fixed_label (sa : bool) (l : option label) : bool :=
  sa || match l with
        | None => true
        | Some l => match l_kind l with LStatic => true | _ => false end
        end.

(** One part and no nesting: scalars, a single borrowed text, empty containers. *)
Definition storable (sa : bool) (t : tree) : bool :=
  match t with
  | TNull | TBool _ | TInt _ _ | TF32 _ | TF64 _ => true
  | TText _ fs | TBin _ fs => one_borrow fs
  | TTag _ l _ => fixed_label sa l
  | THint _ _ | TTagged _ _ _ _ | TEnum _ _ _ _ => false
  | TSeq _ [] | TMap _ [] => true
  | TRecord _ l _ _ [] | TTuple _ l _ _ [] | TRecTup _ l _ _ [] => fixed_label sa l
  | _ => false
  end.

(** Whether a text or binary has any data, even empty, to hold on to. *)
Definition no_fragments (t : tree) : bool :=
  match t with TText _ (_ :: _) | TBin _ (_ :: _) => false | _ => true end.
