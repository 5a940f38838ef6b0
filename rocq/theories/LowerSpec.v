(** * LowerSpec: what a stream with only the required methods should receive

    Independent of the default methods: the documented simplification of a
    value into nulls, booleans, 64-bit integers, floats, texts and sequences. *)

From Verif Require Import Base Event Tree.

Inductive core :=
| KNull
| KBool (b : bool)
| KInt (z : Z)
| KFloat (f : float)
| KText (n : option N) (fs : list bytes)
| KSeq (n : option N) (vs : list core).

Fixpoint emit_core (c : core) : list ev :=
  match c with
  | KNull => [ENull]
  | KBool b => [EBool b]
  | KInt z => [EInt I64 z]
  | KFloat f => [EF64 f]
  | KText n fs => ETextBegin n :: map ETextFragC fs ++ [ETextEnd]
  | KSeq n vs =>
      ESeqBegin n :: flat_map (fun v => ESeqValBegin :: emit_core v ++ [ESeqValEnd]) vs ++ [ESeqEnd]
  end.

(** A text known in full. *)
Definition whole (s : bytes) : core := KText (Some (blen s)) [s].

(** A key and a value as a pair. *)
Definition pair_of (k v : core) : core := KSeq (Some 2%N) [k; v].

Fixpoint simplify (v : tree) : core :=
  match v with
  | TNull => KNull
  | TBool b => KBool b
  | TInt _ z => if fits I64 z then KInt z else KText None (dec_frags z)
  | TF32 f => KFloat (f32_to_f64 f)
  | TF64 f => KFloat f
  | TText n fs => KText n (map snd fs)
  | TBin n fs => KSeq n (map (fun b => KInt (byte_val b)) (List.concat (map snd fs)))
  | TTag t l _ =>
      if otag_is t RUST_OPTION_NONE then KNull
      else match l with Some l => whole (l_text l) | None => KNull end
  | THint _ v | TTagged _ _ _ v | TEnum _ _ _ v => simplify v
  | TSeq n vs => KSeq n (map simplify vs)
  | TMap n es => KSeq n (map (fun kv => match kv with (k, v) => pair_of (simplify k) (simplify v) end) es)
  | TRecord _ _ _ n fs =>
      KSeq n (map (fun f => match f with (_, l, v) => pair_of (whole (l_text l)) (simplify v) end) fs)
  | TTuple _ _ _ n fs => KSeq n (map (fun f => match f with (_, _, v) => simplify v end) fs)
  | TRecTup _ _ _ n fs =>
      KSeq n (map (fun f => match f with (_, l, _, v) => pair_of (whole (l_text l)) (simplify v) end) fs)
  end.

(** ** The grammar of NUMBER texts, [src/data/tags.rs:43-45]:
    [^[+-]?[0-9]+(\.[0-9]+)?([eE][+-]?[0-9]+)?$] *)
Definition is_digit (b : byte) : bool :=
  let n := N_of_ascii b in (48 <=? n)%N && (n <=? 57)%N.

Definition digits1 (s : bytes) : Prop := s <> [] /\ forallb is_digit s = true.
Definition opt_sign (s : bytes) : Prop := s = [] \/ s = bs "+" \/ s = bs "-".
Definition opt_frac (s : bytes) : Prop := s = [] \/ exists d, s = bs "." ++ d /\ digits1 d.
Definition opt_exp (s : bytes) : Prop :=
  s = [] \/ exists e sg d, s = e ++ sg ++ d /\ (e = bs "e" \/ e = bs "E") /\ opt_sign sg /\ digits1 d.

Definition number_text (s : bytes) : Prop :=
  exists sg ip fp ep, s = sg ++ ip ++ fp ++ ep /\
    opt_sign sg /\ digits1 ip /\ opt_frac fp /\ opt_exp ep.

(** The integer a plain decimal numeral stands for. *)
Fixpoint digits_val (acc : Z) (s : bytes) : option Z :=
  match s with
  | [] => Some acc
  | b :: s' =>
      if is_digit b then digits_val (10 * acc + (byte_val b - 48))%Z s' else None
  end.

Definition numeral_val (s : bytes) : option Z :=
  match s with
  | [] => None
  | b :: s' =>
      if Ascii.eqb b "-"%char then
        match s' with [] => None | _ => option_map Z.opp (digits_val 0 s') end
      else digits_val 0 s
  end.

(** ** Integers delivered exactly

The text form of a big integer, with the NUMBER tag around it seen by the
    implementors that override [tagged_begin]/[tagged_end]. *)
Definition number_events (O : ev -> bool) (fs : list bytes) : list ev :=
  (if O (ETaggedBegin (Some NUMBER) None None) then [ETaggedBegin (Some NUMBER) None None] else []) ++
  ETextBegin None :: map ETextFragC fs ++ [ETextEnd] ++
  (if O (ETaggedEnd (Some NUMBER) None None) then [ETaggedEnd (Some NUMBER) None None] else []).

(** The implementor gets one integer of the same value, or, when it does not fit an
    [i64], the NUMBER text of the same value. *)
Definition exact_int (O : ev -> bool) (z : Z) (es : list ev) : Prop :=
  (exists t, es = [EInt t z] /\ fits t z = true) \/
  (fits I64 z = false /\
   exists fs, es = number_events O fs /\
              numeral_val (List.concat fs) = Some z /\ number_text (List.concat fs)).

(** The implementor overrides no integer method but the required [i64]. *)
Definition no_int (O : ev -> bool) : Prop := forall t z, O (EInt t z) = true -> t = I64.
