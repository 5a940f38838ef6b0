(** * MemBufSpec: what the borrow checker lets a program do, and what it should see (C86) *)

From Verif Require Import Base Event LowerModel DataModel FragModel BufferModel MemBufModel.

(** A text may go away unless it is static, or a buffer's type says it borrows
    it; only what is there can be borrowed. *)
Definition borrow_checked (w : world) (x : act) : Prop :=
  match x with
  | ARelease a => a <> empty_text /\ Forall (fun b => ~ In a (snd b)) (w_bufs w)
  | ABorrowed i text a => exists s, read (w_mem w) a = Some s
  | _ => True
  end.
Fixpoint checked (w : world) (xs : list act) : Prop :=
  match xs with
  | [] => True
  | x :: xs => borrow_checked w x /\ forall w', do_act w x = Some w' -> checked w' xs
  end.

(** The same program on buffers that hold plain texts: the texts there have been,
    and the buffers. *)
Record plain := MkP { p_texts : list bytes; p_bufs : list vbuf }.
Definition plain_new : plain := MkP [[]] [].
Fixpoint put {A} (l : list A) (i : nat) (x : A) : list A :=
  match l, i with
  | [], _ => []
  | _ :: l, O => x :: l
  | y :: l, S i => y :: put l i x
  end.
Definition after (b : vbuf) (r : res vbuf) : vbuf := match r with Ok b' | Err b' => b' | Panic => b end.
Definition frag_ev (text borrowed : bool) (s : bytes) : ev :=
  match text, borrowed with
  | true, true => ETextFrag s
  | true, false => ETextFragC s
  | false, true => EBinFrag s
  | false, false => EBinFragC s
  end.
Definition is_frag (e : ev) : bool :=
  match e with ETextFrag _ | ETextFragC _ | EBinFrag _ | EBinFragC _ => true | _ => false end.
Definition plain_act (p : plain) (x : act) : plain :=
  let on i f := MkP (p_texts p) (match nth_error (p_bufs p) i with Some b => put (p_bufs p) i (f b) | None => p_bufs p end) in
  match x with
  | AKeep s => MkP (p_texts p ++ [s]) (p_bufs p)
  | ARelease _ => p
  | ANew => MkP (p_texts p) (p_bufs p ++ [vbuf_new])
  | ACall i e => if is_frag e then p else on i (fun b => after b (vbuf_step b e))
  | ABorrowed i text a => on i (fun b => after b (vbuf_step b (frag_ev text true (nth a (p_texts p) []))))
  | AComputed i text s =>
      MkP (p_texts p ++ [s]) (p_bufs (on i (fun b => after b (vbuf_step b (frag_ev text false s)))))
  | AClear i => on i vbuf_clear
  | AOwn i => on i vbuf_into_owned
  | AValue i =>
      match nth_error (p_bufs p) i with
      | Some b => MkP (p_texts p) (p_bufs p ++ [MkVB (to_value b) [] false false])
      | None => p
      end
  | AIntoValue i => on i (fun b => MkVB (into_value b) [] false false)
  | ADrop i => on i (fun _ => vbuf_new)
  end.
Definition plain_acts (xs : list act) : plain := fold_left plain_act xs plain_new.

(** The texts a buffer refers to: those it would hand out as borrowed. *)
Definition cow_refers (c : mcow) : list nat := match c with MBorrowed a => [a] | MOwned _ => [] end.
Definition part_refers (p : mpart) : list nat :=
  match p with MText c | MBin c => cow_refers c | _ => [] end.
Definition refers (b : mbuf) : list nat := flat_map part_refers (m_parts b).

(** The labels a buffered part holds. *)
Definition opt_label (l : option label) : list label := match l with Some l => [l] | None => [] end.
Definition part_labels (p : part) : list label :=
  match p with
  | PLeaf (VTag _ l _) => opt_label l
  | PNode _ (NEnum _ l _ | NTagged _ l _ | NRecord _ l _ _ | NTuple _ l _ _ | NRecTup _ l _ _) => opt_label l
  | PNode _ (NRecordValue _ l | NRecTupValue _ l _) => [l]
  | _ => []
  end.
