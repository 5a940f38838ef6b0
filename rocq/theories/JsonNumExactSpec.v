(** * JsonNumExactSpec: what any text tagged as a number becomes in JSON (C24, C22, C77)

    On bytes; nothing here refers to the formatter. *)

From Verif Require Import Base Event Tree JsonModel.

(** Digits and points that begin a number; zeroes and signs to be dropped before it;
    letters of [snan] and [inf]. *)
Definition begins (b : byte) : bool := let n := N_of_ascii b in (49 <=? n)%N && (n <=? 57)%N || (n =? 46)%N.
Definition dropped (b : byte) : bool := let n := N_of_ascii b in (n =? 48)%N || (n =? 45)%N || (n =? 43)%N.
Definition wordy (b : byte) : bool :=
  let n := N_of_ascii b in (n =? 115)%N || (n =? 110)%N || (n =? 105)%N || (n =? 83)%N || (n =? 78)%N || (n =? 73)%N.

(** The part before, and from, the first byte with [p]. *)
Fixpoint before (p : byte -> bool) (s : bytes) : bytes :=
  match s with [] => [] | b :: r => if p b then [] else b :: before p r end.
Fixpoint from (p : byte -> bool) (s : bytes) : bytes :=
  match s with [] => [] | b :: r => if p b then s else from p r end.

(** How far a number has been read: nothing of it yet, with or without a minus sign; some
    of it; or it turned out to be no number. *)
Inductive progress := Waiting (minus : bool) | Reading | Over.

(** What a fragment adds to the text and where it leads; [None] is a panic.  The dropped
    bytes are counted, but it is the first that many bytes that are left out. *)
Definition piece (p : progress) (s : bytes) : option (bytes * progress) :=
  let word := existsb wordy s in
  match p with
  | Over => Some ([], Over)
  | Reading => if word then Some (bs "null", Over) else Some (s, Reading)
  | Waiting minus =>
      let q := before wordy s in
      let z := before begins q in
      let minus := minus || existsb (fun b => (N_of_ascii b =? 45)%N) z in
      let sign := if minus then bs "-" else [] in
      let '(head, p) :=
        match from begins q with
        | [] => ([], Waiting minus)
        | c :: _ => (sign ++ (if (N_of_ascii c =? 46)%N then bs "0" else []), Reading)
        end in
      let a := List.length (filter dropped z) in
      if word then Some (head ++ bs "null", Over)
      else if char_boundary s a then Some (head ++ skipn a s, p) else None
  end.
Fixpoint pieces (p : progress) (fs : list bytes) : option (bytes * progress) :=
  match fs with
  | [] => Some ([], p)
  | s :: fs =>
      match piece p s with
      | None => None
      | Some (o, p) => match pieces p fs with None => None | Some (o', p) => Some (o ++ o', p) end
      end
  end.
Definition number_becomes (fs : list bytes) : option bytes :=
  match pieces (Waiting false) fs with
  | None => None
  | Some (o, Waiting _) => Some (o ++ bs "0")
  | Some (o, _) => Some o
  end.
