(** * JsonTextSpec: the compact JSON text of a value

    The bytes, not just a text with the right meaning: no white space, members in
    order, only the characters that must be are escaped.  Nothing here mentions
    the formatter. *)

From Verif Require Import Base Event Tree LowerSpec JsonModel JsonGrammar JsonSpec.

(** How a byte of a string is written: the two-character escapes of RFC 8259 where
    there is one (but for the slash), [\u00XX] for the other control characters. *)
Definition hex (n : N) : byte := nth (N.to_nat n) (bs "0123456789abcdef") "0"%char.
Definition json_char (b : byte) : bytes :=
  let n := N_of_ascii b in
  let esc c := [ascii_of_N 92; c] in
  (if n =? 8 then esc "b"%char else if n =? 9 then esc "t"%char else if n =? 10 then esc "n"%char
   else if n =? 12 then esc "f"%char else if n =? 13 then esc "r"%char
   else if (n =? 34) || (n =? 92) then esc b
   else if n <? 32 then ascii_of_N 92 :: bs "u00" ++ [hex (n / 16); hex (n mod 16)]
   else [b])%N.
Definition json_string (s : bytes) : bytes := [ascii_of_N 34] ++ flat_map json_char s ++ [ascii_of_N 34].

Fixpoint commas (xs : list bytes) : bytes :=
  match xs with
  | [] => []
  | [x] => x
  | x :: xs' => x ++ bs "," ++ commas xs'
  end.
Definition array (xs : list bytes) : bytes := bs "[" ++ commas xs ++ bs "]".
Definition member (k : bytes) (x : bytes) : bytes := json_string k ++ bs ":" ++ x.
Definition object (ms : list bytes) : bytes := bs "{" ++ commas ms ++ bs "}".

(** A number in its own text, as it is written: no plus sign, no zeroes before other
    digits, at least one digit before a point, and no sign for a bare zero. *)
Fixpoint no_zeroes (s : bytes) : bytes :=
  match s with
  | [] => []
  | c :: s' => if (N_of_ascii c =? 48)%N then no_zeroes s' else s
  end.
Definition number_out (s : bytes) : bytes :=
  let '(neg, r) := match s with
                   | c :: r => if (N_of_ascii c =? 45)%N then (true, r) else if (N_of_ascii c =? 43)%N then (false, r) else (false, s)
                   | [] => (false, [])
                   end in
  match no_zeroes r with
  | [] => bs "0"
  | c :: d => (if neg then bs "-" else []) ++ (if is_digit c then [] else bs "0") ++ c :: d
  end.
(** A text under one of the tags that give it a meaning in JSON: between quotes as
    it is, as it is, or a number. *)
Definition raw_out (t : option tag) (s : bytes) : bytes :=
  if otag_is t JSON_TEXT then [ascii_of_N 34] ++ s ++ [ascii_of_N 34]
  else if otag_is t NUMBER then number_out s
  else s.

Section Compact.
  Variable ryu32 ryu64 : float -> bytes.

  (** The name of a variant. *)
  Definition under (inside : bool) (l : option label) (i : option index) (x : bytes) : bytes :=
    if inside then match name_of l i with Some k => object [member k x] | None => x end else x.

  Fixpoint compact (inside : bool) (t : tree) : bytes :=
    match t with
    | TNull => bs "null"
    | TBool b => if b then bs "true" else bs "false"
    | TInt _ z => dec z
    | TF32 f => float_key ryu32 f
    | TF64 f => float_key ryu64 f
    | TText _ fs => json_string (frags_text fs)
    | TBin _ fs => array (map (fun b => dec (byte_val b)) (frags_text fs))
    | TTag t l i =>
        if otag_is t RUST_OPTION_NONE then bs "null"
        else match l with
             | Some l => json_string (l_text l)
             | None => match i with
                       | Some i => if fits I64 (i_val i) then dec (i_val i) else bs "null"
                       | None => bs "null"
                       end
             end
    | THint _ v => compact inside v
    | TTagged t l i v =>
        under inside l i (if is_raw t then match text_of v with Some s => raw_out t s | None => [] end else compact false v)
    | TEnum _ l i v => under inside l i (compact true v)
    | TSeq _ vs => array (map (compact false) vs)
    | TMap _ es =>
        object (map (fun kv => match kv with (k, v) =>
          member (match key_text ryu32 ryu64 false k with Some s => s | None => [] end) (compact false v) end) es)
    | TRecord _ l i _ fs =>
        under inside l i (object (map (fun f => match f with (_, fl, v) => member (l_text fl) (compact false v) end) fs))
    | TTuple _ l i _ fs => under inside l i (array (map (fun f => match f with (_, _, v) => compact false v end) fs))
    | TRecTup _ l i _ fs =>
        under inside l i (object (map (fun f => match f with (_, fl, _, v) => member (l_text fl) (compact false v) end) fs))
    end.
End Compact.

(** Values whose text this file gives: as [ordinary], but for texts that are numbers,
    or JSON already. *)
Fixpoint writable (t : tree) : Prop :=
  match t with
  | THint _ v => writable v
  | TTagged t _ _ v =>
      if is_raw t then exists s, text_of v = Some s /\ (otag_is t NUMBER = true -> number_text s) else writable v
  | TEnum _ _ _ v => is_variant v = true /\ writable v
  | TSeq _ vs => (fix all (vs : list tree) : Prop := match vs with [] => True | v :: vs => writable v /\ all vs end) vs
  | TMap _ es =>
      (fix all (es : list (tree * tree)) : Prop :=
         match es with
         | [] => True
         | (k, v) :: es => key_text (fun _ => []) (fun _ => []) false k <> None /\ writable v /\ all es
         end) es
  | TRecord _ _ _ _ fs =>
      (fix all (fs : list (option tag * label * tree)) : Prop :=
         match fs with [] => True | (_, l, v) :: fs => ident_ok l = true /\ writable v /\ all fs end) fs
  | TTuple _ _ _ _ fs =>
      (fix all (fs : list (option tag * index * tree)) : Prop :=
         match fs with [] => True | (_, _, v) :: fs => writable v /\ all fs end) fs
  | TRecTup _ _ _ _ fs =>
      (fix all (fs : list (option tag * label * index * tree)) : Prop :=
         match fs with [] => True | (_, l, _, v) :: fs => ident_ok l = true /\ writable v /\ all fs end) fs
  | _ => True
  end.
