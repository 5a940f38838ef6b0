(** * JsonGrammar: JSON texts (RFC 8259) and the values they denote

    Specification only: nothing here mentions sval.  The sections cited are those
    of RFC 8259. *)

From Verif Require Import Base LowerSpec.

(** A JSON value.  A number is the decimal [m * 10^e]; an object keeps its members
    in order, duplicates included. *)
Inductive jv :=
| JNull
| JBool (b : bool)
| JNum (m e : Z)
| JStr (s : bytes)
| JArr (vs : list jv)
| JObj (ms : list (bytes * jv)).

(** ** White space, section 2 *)
Definition is_ws (b : byte) : bool :=
  let n := N_of_ascii b in (n =? 32)%N || (n =? 9)%N || (n =? 10)%N || (n =? 13)%N.
Definition ws (s : bytes) : Prop := forallb is_ws s = true.

(** ** Numerals

    A decimal literal, as in the [NUMBER] tag's documentation: an optional sign,
    digits, an optional fraction and an optional exponent. *)
Inductive sgn := NoSign | Plus | Minus.
Definition sgn_text (s : sgn) : bytes := match s with NoSign => [] | Plus => bs "+" | Minus => bs "-" end.
Definition sgn_apply (s : sgn) (z : Z) : Z := match s with Minus => (- z)%Z | _ => z end.

Record literal := MkLit { lt_sign : sgn; lt_int : bytes; lt_frac : option bytes; lt_exp : option (byte * sgn * bytes) }.

Definition frac_text (f : option bytes) : bytes := match f with None => [] | Some d => bs "." ++ d end.
Definition exp_text (e : option (byte * sgn * bytes)) : bytes :=
  match e with None => [] | Some (e, s, d) => e :: sgn_text s ++ d end.
Definition lit_text (l : literal) : bytes :=
  sgn_text (lt_sign l) ++ lt_int l ++ frac_text (lt_frac l) ++ exp_text (lt_exp l).

Definition lit_ok (l : literal) : Prop :=
  digits1 (lt_int l) /\
  (match lt_frac l with None => True | Some d => digits1 d end) /\
  (match lt_exp l with None => True | Some (e, _, d) => (e = "e"%char \/ e = "E"%char) /\ digits1 d end).

(** The value of a string of digits. *)
Definition dval (s : bytes) : Z := fold_left (fun acc b => (10 * acc + (byte_val b - 48))%Z) s 0%Z.

(** Mantissa and exponent of ten. *)
Definition lit_frac_digits (l : literal) : bytes := match lt_frac l with None => [] | Some d => d end.
Definition lit_m (l : literal) : Z := sgn_apply (lt_sign l) (dval (lt_int l ++ lit_frac_digits l)).
Definition lit_e (l : literal) : Z :=
  ((match lt_exp l with None => 0 | Some (_, s, d) => sgn_apply s (dval d) end)
   - Z.of_nat (List.length (lit_frac_digits l)))%Z.

(** Equality of the numbers [m * 10^e] and [m' * 10^e']. *)
Definition dec_eq (m e m' e' : Z) : Prop :=
  (m * 10 ^ (e - Z.min e e') = m' * 10 ^ (e' - Z.min e e'))%Z.

(** Section 6: no plus sign, and no leading zero unless the integer part is zero. *)
Definition json_lit (l : literal) : Prop :=
  lit_ok l /\ lt_sign l <> Plus /\
  (lt_int l = bs "0" \/ match lt_int l with b :: _ => b <> "0"%char | [] => False end).
Definition json_number (s : bytes) (m e : Z) : Prop :=
  exists l, json_lit l /\ s = lit_text l /\ dec_eq (lit_m l) (lit_e l) m e.

(** ** Strings, section 7 *)
Definition hex_val (b : byte) : option N :=
  let n := N_of_ascii b in
  if (48 <=? n)%N && (n <=? 57)%N then Some (n - 48)%N
  else if (97 <=? n)%N && (n <=? 102)%N then Some (n - 87)%N
  else if (65 <=? n)%N && (n <=? 70)%N then Some (n - 55)%N
  else None.
Definition hex4 (a b c d : byte) : option N :=
  match hex_val a, hex_val b, hex_val c, hex_val d with
  | Some a, Some b, Some c, Some d => Some (((a * 16 + b) * 16 + c) * 16 + d)%N
  | _, _, _, _ => None
  end.
(** RFC 3629 *)
Definition utf8_encode (c : N) : bytes :=
  if (c <? 128)%N then [ascii_of_N c]
  else if (c <? 2048)%N then [ascii_of_N (192 + c / 64); ascii_of_N (128 + c mod 64)]
  else if (c <? 65536)%N then
    [ascii_of_N (224 + c / 4096); ascii_of_N (128 + (c / 64) mod 64); ascii_of_N (128 + c mod 64)]
  else [ascii_of_N (240 + c / 262144); ascii_of_N (128 + (c / 4096) mod 64);
        ascii_of_N (128 + (c / 64) mod 64); ascii_of_N (128 + c mod 64)].
Definition high_surrogate (c : N) : bool := (55296 <=? c)%N && (c <? 56320)%N.
Definition low_surrogate (c : N) : bool := (56320 <=? c)%N && (c <? 57344)%N.

(** The text a string body (between the quotes) stands for; [None] when it is not
    a string body.  A lone surrogate stands for no text. *)
Definition simple_escape (b : byte) : option byte :=
  match N_of_ascii b with
  | 34%N => Some (ascii_of_N 34)
  | 92%N => Some (ascii_of_N 92)
  | 47%N => Some (ascii_of_N 47)
  | 98%N => Some (ascii_of_N 8)
  | 102%N => Some (ascii_of_N 12)
  | 110%N => Some (ascii_of_N 10)
  | 114%N => Some (ascii_of_N 13)
  | 116%N => Some (ascii_of_N 9)
  | _ => None
  end.
Definition is_byte (n : N) (b : byte) : bool := (N_of_ascii b =? n)%N.

Fixpoint unescape (s : bytes) : option bytes :=
  match s with
  | [] => Some []
  | b :: r =>
      if is_byte 34 b then None
      else if is_byte 92 b then
        match r with
        | e :: r' =>
            if is_byte 117 e then
              match r' with
              | a1 :: a2 :: a3 :: a4 :: r'' =>
                  match hex4 a1 a2 a3 a4 with
                  | None => None
                  | Some c =>
                      if high_surrogate c then
                        match r'' with
                        | b1 :: b2 :: c1 :: c2 :: c3 :: c4 :: r3 =>
                            if is_byte 92 b1 && is_byte 117 b2 then
                              match hex4 c1 c2 c3 c4 with
                              | Some d =>
                                  if low_surrogate d then
                                    option_map (app (utf8_encode (65536 + (c - 55296) * 1024 + (d - 56320)))) (unescape r3)
                                  else None
                              | None => None
                              end
                            else None
                        | _ => None
                        end
                      else if low_surrogate c then None
                      else option_map (app (utf8_encode c)) (unescape r'')
                  end
              | _ => None
              end
            else
              match simple_escape e with
              | Some c => option_map (cons c) (unescape r')
              | None => None
              end
        | [] => None
        end
      else if (N_of_ascii b <? 32)%N then None
      else option_map (cons b) (unescape r)
  end.

Definition quoted (body : bytes) : bytes := [ascii_of_N 34] ++ body ++ [ascii_of_N 34].

(** ** Values, sections 2-5

    [json_text s v]: the text [s] is a JSON text for the value [v]. *)
Inductive json_value : bytes -> jv -> Prop :=
| jv_null : json_value (bs "null") JNull
| jv_true : json_value (bs "true") (JBool true)
| jv_false : json_value (bs "false") (JBool false)
| jv_num : forall s m e, json_number s m e -> json_value s (JNum m e)
| jv_str : forall b s, unescape b = Some s -> json_value (quoted b) (JStr s)
| jv_arr0 : forall w, ws w -> json_value (bs "[" ++ w ++ bs "]") (JArr [])
| jv_arr : forall s vs, json_elems s vs -> json_value (bs "[" ++ s ++ bs "]") (JArr vs)
| jv_obj0 : forall w, ws w -> json_value (bs "{" ++ w ++ bs "}") (JObj [])
| jv_obj : forall s ms, json_members s ms -> json_value (bs "{" ++ s ++ bs "}") (JObj ms)
with json_text : bytes -> jv -> Prop :=
| jt : forall w1 s w2 v, ws w1 -> ws w2 -> json_value s v -> json_text (w1 ++ s ++ w2) v
with json_elems : bytes -> list jv -> Prop :=
| je_one : forall s v, json_text s v -> json_elems s [v]
| je_more : forall s v r vs, json_text s v -> json_elems r vs -> json_elems (s ++ bs "," ++ r) (v :: vs)
with json_members : bytes -> list (bytes * jv) -> Prop :=
| jm_one : forall w1 w2 b k s v, ws w1 -> ws w2 -> unescape b = Some k -> json_text s v ->
    json_members (w1 ++ quoted b ++ w2 ++ bs ":" ++ s) [(k, v)]
| jm_more : forall w1 w2 b k s v r ms, ws w1 -> ws w2 -> unescape b = Some k -> json_text s v ->
    json_members r ms ->
    json_members (w1 ++ quoted b ++ w2 ++ bs ":" ++ s ++ bs "," ++ r) ((k, v) :: ms).

Scheme json_value_mind := Induction for json_value Sort Prop
  with json_text_mind := Induction for json_text Sort Prop
  with json_elems_mind := Induction for json_elems Sort Prop
  with json_members_mind := Induction for json_members Sort Prop.
