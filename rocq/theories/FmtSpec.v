(** * FmtSpec: the Debug-style text of a value, and balanced brackets *)

From Verif Require Import Base Event Tree FmtModel.

(** ** Brackets *)

(** The brackets among the punctuation tokens, in order.  Brackets inside texts,
    identifiers and numbers are not punctuation. *)
Definition is_bracket (c : byte) : bool := existsb (Ascii.eqb c) (bs "()[]{}").
Definition brackets (ts : list token) : bytes :=
  flat_map (fun t => match t with (KPunct, s) => filter is_bracket s | _ => [] end) ts.
Inductive balanced : bytes -> Prop :=
| bal_nil : balanced []
| bal_paren a b : balanced a -> balanced b -> balanced (bs "(" ++ a ++ bs ")" ++ b)
| bal_square a b : balanced a -> balanced b -> balanced (bs "[" ++ a ++ bs "]" ++ b)
| bal_brace a b : balanced a -> balanced b -> balanced (bs "{" ++ a ++ bs "}" ++ b).

(** ** Text *)
Definition pieces (fs : list (bool * bytes)) : bytes := List.concat (map snd fs).

(** Nothing in it: an empty container, possibly tagged. *)
Fixpoint hollow (t : tree) : bool :=
  match t with
  | TBin _ fs => match pieces fs with [] => true | _ => false end
  | TSeq _ [] | TMap _ [] | TRecord _ _ _ _ [] | TTuple _ _ _ _ [] | TRecTup _ _ _ _ [] => true
  | THint _ v | TTagged _ _ _ v => hollow v
  | _ => false
  end.
(** The contents of an enum after which its label is written (again): nothing in it, or
    a plain value that is not a variant. *)
Fixpoint echoed (t : tree) : bool :=
  match t with
  | TNull | TBool _ | TInt _ _ | TF32 _ | TF64 _ | TText _ _ => true
  | THint _ v => echoed v
  | t => hollow t
  end.

Section Debug.
  Variable r32 r64 : float -> bytes.
  Variable uni : bytes -> list bytes.
  (** Write the labels of enums after their contents when they are [echoed]. *)
  Variable echo : bool.

  (** A text with its characters escaped. *)
  Definition esc_char (ch : bytes) : bytes :=
    let e := escape_debug uni ch in if Nat.ltb 1 (List.length e) then List.concat e else ch.
  Definition esc_text (s : bytes) : bytes := List.concat (map esc_char (chars s)).

  Fixpoint commas (xs : list bytes) : bytes :=
    match xs with
    | [] => []
    | [x] => x
    | x :: xs' => x ++ bs ", " ++ commas xs'
    end.
  Definition in_braces (xs : list bytes) : bytes :=
    match xs with [] => bs "{}" | _ => bs "{ " ++ commas xs ++ bs " }" end.
  Definition name (l : option label) : bytes := match l with Some l => l_text l | None => [] end.

  (** With [echo = false], what [#[derive(Debug)]] would print; [num] is true below a [NUMBER] tag. *)
  Fixpoint debug (num : bool) (t : tree) : bytes :=
    match t with
    | TNull => bs "()"
    | TBool b => if b then bs "true" else bs "false"
    | TInt _ z => dec z
    | TF32 x => r32 x
    | TF64 x => r64 x
    | TText _ fs => if num then pieces fs else ascii_of_N 34 :: esc_text (pieces fs) ++ [ascii_of_N 34]
    | TBin _ fs => bs "[" ++ commas (map (fun b => dec (byte_val b)) (pieces fs)) ++ bs "]"
    | TTag _ l _ => match l with Some l => l_text l | None => bs "()" end
    | THint _ v => debug num v
    | TTagged t l _ v =>
        let v := debug (num || otag_is t NUMBER) v in
        match l with Some l => l_text l ++ bs "(" ++ v ++ bs ")" | None => v end
    | TEnum _ l _ v => debug num v ++ (if echo && echoed v then match l with Some l => l_text l | None => bs "()" end else [])
    | TSeq _ vs => bs "[" ++ commas (map (debug false) vs) ++ bs "]"
    | TMap _ es => in_braces (map (fun e => debug false (fst e) ++ bs ": " ++ debug false (snd e)) es)
    | TRecord _ l _ _ fs =>
        (match l with Some l => l_text l ++ bs " " | None => [] end) ++
        in_braces (map (fun f => match f with (_, l, v) => l_text l ++ bs ": " ++ debug false v end) fs)
    | TTuple _ l _ _ fs => name l ++ bs "(" ++ commas (map (fun f => debug false (snd f)) fs) ++ bs ")"
    | TRecTup _ l _ _ fs =>
        (match l with Some l => l_text l ++ bs " " | None => [] end) ++
        in_braces (map (fun f => match f with (_, l, _, v) => l_text l ++ bs ": " ++ debug false v end) fs)
    end.
End Debug.

(** Every enum holds a variant with something in it. *)
Fixpoint filled (t : tree) : bool :=
  match t with
  | THint _ v | TTagged _ _ _ v => filled v
  | TEnum _ _ _ v => negb (echoed v) && filled v
  | TSeq _ vs => forallb filled vs
  | TMap _ es => forallb (fun e => filled (fst e) && filled (snd e)) es
  | TRecord _ _ _ _ fs => forallb (fun f => filled (snd f)) fs
  | TTuple _ _ _ _ fs => forallb (fun f => filled (snd f)) fs
  | TRecTup _ _ _ _ fs => forallb (fun f => filled (snd f)) fs
  | _ => true
  end.
