(** * WrittenSpec: the JSON text of a value as it really comes out

    JsonTextSpec.v gives the text a value should have.  This is the text it has, by a
    rule just as simple.  There are two differences.  A name that should be written
    only inside an enum is also written after a map key that is itself named, and
    nothing closes its brace.  And an enum closes a brace whenever something inside it
    was named, also when an enum in between has closed it already. *)

From Verif Require Import Base Event Tree LowerSpec JsonModel JsonGrammar JsonSpec JsonTextSpec.

Definition opening (named : bool) (l : option label) (i : option index) : bytes :=
  if named then match name_of l i with Some k => bs "{" ++ json_string k ++ bs ":" | None => [] end else [].

(** Whether an enum with this inside closes a brace. *)
Fixpoint closes_brace (v : tree) : bool :=
  match v with
  | TTagged _ l i _ | TRecord _ l i _ _ | TTuple _ l i _ _ | TRecTup _ l i _ _ => is_named l i
  | TEnum _ l i v => closes_brace v || is_named l i
  | _ => false
  end.

Section Written.
  Variable ryu32 ryu64 : float -> bytes.

  Fixpoint written (named : bool) (t : tree) : bytes :=
    match t with
    | THint _ v => written named v
    | TTagged _ l i v => opening named l i ++ written false v
    | TEnum _ l i v => opening named l i ++ written true v ++ (if closes_brace v then bs "}" else [])
    | TSeq _ vs => array (map (written false) vs)
    | TMap _ es =>
        object (map (fun kv => match kv with (k, v) =>
          member (match key_text ryu32 ryu64 false k with Some s => s | None => [] end) (written (key_leaks k) v) end) es)
    | TRecord _ l i _ fs =>
        opening named l i ++ object (map (fun f => match f with (_, fl, v) => member (l_text fl) (written false v) end) fs)
    | TTuple _ l i _ fs => opening named l i ++ array (map (fun f => match f with (_, _, v) => written false v end) fs)
    | TRecTup _ l i _ fs =>
        opening named l i ++ object (map (fun f => match f with (_, fl, _, v) => member (l_text fl) (written false v) end) fs)
    | t => compact ryu32 ryu64 named t
    end.
End Written.

(** ** The two kinds of trouble, counted *)
Definition total (zs : list Z) : Z := fold_right Z.add 0%Z zs.

(** Named values after named keys. *)
Fixpoint leaks (t : tree) : Z :=
  match t with
  | THint _ v | TTagged _ _ _ v | TEnum _ _ _ v => leaks v
  | TSeq _ vs => total (map leaks vs)
  | TMap _ es => total (map (fun kv => match kv with (k, v) => ((if key_leaks k && takes_name v then 1 else 0) + leaks v)%Z end) es)
  | TRecord _ _ _ _ fs => total (map (fun f => match f with (_, _, v) => leaks v end) fs)
  | TTuple _ _ _ _ fs => total (map (fun f => match f with (_, _, v) => leaks v end) fs)
  | TRecTup _ _ _ _ fs => total (map (fun f => match f with (_, _, _, v) => leaks v end) fs)
  | _ => 0%Z
  end.
(** Enums that close a brace although what they hold has no name. *)
Fixpoint closings (t : tree) : Z :=
  match t with
  | TEnum _ _ _ v => ((if closes_brace v && negb (takes_name v) then 1 else 0) + closings v)%Z
  | THint _ v | TTagged _ _ _ v => closings v
  | TSeq _ vs => total (map closings vs)
  | TMap _ es => total (map (fun kv => match kv with (_, v) => closings v end) es)
  | TRecord _ _ _ _ fs => total (map (fun f => match f with (_, _, v) => closings v end) fs)
  | TTuple _ _ _ _ fs => total (map (fun f => match f with (_, _, v) => closings v end) fs)
  | TRecTup _ _ _ _ fs => total (map (fun f => match f with (_, _, _, v) => closings v end) fs)
  | _ => 0%Z
  end.

(** ** Counting bytes that are not in strings

    [count w Outside s] is the sum of the weights of the bytes of [s] outside its
    strings, the quote that starts a string included. *)
Inductive place := Outside | InString | AfterBackslash.
Fixpoint count (w : byte -> Z) (p : place) (s : bytes) : Z :=
  match s with
  | [] => 0%Z
  | b :: s =>
      match p with
      | Outside => (w b + count w (if is_byte 34 b then InString else Outside) s)%Z
      | InString => count w (if is_byte 34 b then Outside else if is_byte 92 b then AfterBackslash else InString) s
      | AfterBackslash => count w InString s
      end
  end.
(** Opening braces less closing ones. *)
Definition braces (s : bytes) : Z := count (fun b => if is_byte 123 b then 1 else if is_byte 125 b then -1 else 0)%Z Outside s.
