(** * FormatterSpec: the text of a value under a format

    From the documentation of [std::fmt]: an integer is padded to the width, with the
    fill and to the right unless the format says otherwise; [+] gives it a sign; [0]
    puts zeros between the sign and the digits, whatever the fill and the alignment. *)

From Verif Require Import Base Event Tree FmtModel FmtSpec FormatterModel.

Definition fills (n : nat) (fill : bytes) : bytes := List.concat (repeat fill n).
Definition padded (fl : flags) (z : Z) : bytes :=
  let sign := if (z <? 0)%Z then bs "-" else if fl_plus fl then bs "+" else [] in
  let digits := dec (Z.abs z) in
  let missing := match fl_width fl with Some w => w - length (sign ++ digits) | None => 0 end in
  if fl_zero fl then sign ++ fills missing (bs "0") ++ digits
  else
    match fl_align fl with
    | Some ALeft => sign ++ digits ++ fills missing (fl_fill fl)
    | Some ACenter => fills (missing / 2) (fl_fill fl) ++ sign ++ digits ++ fills (missing - missing / 2) (fl_fill fl)
    | Some ARight | None => fills missing (fl_fill fl) ++ sign ++ digits
    end.

(** [FmtSpec.debug], with integers and floats written by the functions given. *)
Section Formatted.
  Variable int : Z -> bytes.
  Variable r32 r64 : float -> bytes.
  Variable uni : bytes -> list bytes.
  Fixpoint formatted (num : bool) (t : tree) : bytes :=
    match t with
    | TNull => bs "()"
    | TBool b => if b then bs "true" else bs "false"
    | TInt _ z => int z
    | TF32 x => r32 x
    | TF64 x => r64 x
    | TText _ fs => if num then pieces fs else ascii_of_N 34 :: esc_text uni (pieces fs) ++ [ascii_of_N 34]
    | TBin _ fs => bs "[" ++ commas (map (fun b => int (byte_val b)) (pieces fs)) ++ bs "]"
    | TTag _ l _ => match l with Some l => l_text l | None => bs "()" end
    | THint _ v => formatted num v
    | TTagged t l _ v =>
        let v := formatted (num || otag_is t NUMBER) v in
        match l with Some l => l_text l ++ bs "(" ++ v ++ bs ")" | None => v end
    | TEnum _ l _ v => formatted num v ++ (if echoed v then match l with Some l => l_text l | None => bs "()" end else [])
    | TSeq _ vs => bs "[" ++ commas (map (formatted false) vs) ++ bs "]"
    | TMap _ es => in_braces (map (fun e => formatted false (fst e) ++ bs ": " ++ formatted false (snd e)) es)
    | TRecord _ l _ _ fs =>
        (match l with Some l => l_text l ++ bs " " | None => [] end) ++
        in_braces (map (fun f => match f with (_, l, v) => l_text l ++ bs ": " ++ formatted false v end) fs)
    | TTuple _ l _ _ fs => name l ++ bs "(" ++ commas (map (fun f => formatted false (snd f)) fs) ++ bs ")"
    | TRecTup _ l _ _ fs =>
        (match l with Some l => l_text l ++ bs " " | None => [] end) ++
        in_braces (map (fun f => match f with (_, l, _, v) => l_text l ++ bs ": " ++ formatted false v end) fs)
    end.
End Formatted.

(** No integers, floats or bytes in it; numbers given as texts there may be. *)
Fixpoint numberless (t : tree) : bool :=
  match t with
  | TInt _ _ | TF32 _ | TF64 _ => false
  | TBin _ fs => match pieces fs with [] => true | _ => false end
  | THint _ v | TTagged _ _ _ v | TEnum _ _ _ v => numberless v
  | TSeq _ vs => forallb numberless vs
  | TMap _ es => forallb (fun e => numberless (fst e) && numberless (snd e)) es
  | TRecord _ _ _ _ fs => forallb (fun f => numberless (snd f)) fs
  | TTuple _ _ _ _ fs => forallb (fun f => numberless (snd f)) fs
  | TRecTup _ _ _ _ fs => forallb (fun f => numberless (snd f)) fs
  | _ => true
  end.
