(** * Base: bytes, results, tags, labels, indexes, decimal numerals

    Data shared by every part of the model. *)

From Coq Require Export Ascii String Bool ZArith NArith Lia List.
From Coq Require Export Floats.SpecFloat.
From Coq Require Decimal.
Export ListNotations.
Open Scope list_scope.

(** A Rust byte is a Coq [ascii] (exactly 8 bits); [str], [String], [[u8]] and
    [Vec<u8>] are lists of bytes.  UTF-8 validity of [str] is a separate
    predicate (Utf8.v), not built into the type. *)
Notation byte := ascii (only parsing).
Definition bytes := list ascii.

(** Literals in examples and constants. *)
Definition bs (s : string) : bytes := list_ascii_of_string s.

Definition byte_eqb (a b : byte) : bool := Ascii.eqb a b.

Fixpoint bytes_eqb (a b : bytes) : bool :=
  match a, b with
  | [], [] => true
  | x :: a', y :: b' => Ascii.eqb x y && bytes_eqb a' b'
  | _, _ => false
  end.

Lemma bytes_eqb_eq a b : bytes_eqb a b = true <-> a = b.
Proof.
  revert b; induction a as [|x a IH]; destruct b as [|y b]; simpl; split;
    try congruence; intros H.
  - apply andb_true_iff in H as [H1 H2].
    apply Ascii.eqb_eq in H1. apply IH in H2. congruence.
  - inversion H; subst. rewrite Ascii.eqb_refl. simpl. apply IH; reflexivity.
Qed.

Lemma bytes_eqb_refl a : bytes_eqb a a = true.
Proof. apply bytes_eqb_eq; reflexivity. Qed.

Lemma bytes_eqb_neq a b : bytes_eqb a b = false <-> a <> b.
Proof.
  split.
  - intros H E; subst; rewrite bytes_eqb_refl in H; discriminate.
  - intros H; destruct (bytes_eqb a b) eqn:E; [|reflexivity].
    apply bytes_eqb_eq in E; contradiction.
Qed.

(** ** Outcomes

    [src/result.rs:1-47]: [sval::Result] is [Result<(), Error>] with an opaque
    error.  A method taking [&mut self] becomes a function returning the new
    state; on [Err] the state is kept, because the caller can still observe it
    (for example the bytes already written).  [Panic] is an explicit outcome. *)
Inductive res (A : Type) : Type :=
| Ok (a : A)
| Err (a : A)
| Panic.
Arguments Ok {A} a.
Arguments Err {A} a.
Arguments Panic {A}.

(** [a?; b] *)
Definition bind {A} (r : res A) (f : A -> res A) : res A :=
  match r with
  | Ok a => f a
  | Err a => Err a
  | Panic => Panic
  end.
Notation "r >>= f" := (bind r f) (at level 50, left associativity).

Definition is_ok {A} (r : res A) : bool := match r with Ok _ => true | _ => false end.

(** ** Tags

    [src/data.rs:208-302].  A tag is identified by its static string.  The
    cached hash [id] is modelled in DataModel.v, where the derived [PartialEq]
    (which compares hash and string) is proved to be string equality; the rest
    of the model therefore uses the string itself. *)
Definition tag := bytes.
Definition tag_eqb (a b : tag) : bool := bytes_eqb a b.
Definition otag_is (o : option tag) (t : tag) : bool :=
  match o with Some x => tag_eqb x t | None => false end.

(** [src/data/tags.rs:14-97] *)
Definition RUST_OPTION_SOME : tag := bs "RUST_OPTION_SOME".
Definition RUST_OPTION_NONE : tag := bs "RUST_OPTION_NONE".
Definition RUST_UNIT : tag := bs "RUST_UNIT".
Definition NUMBER : tag := bs "NUMBER".
Definition CONSTANT_SIZE : tag := bs "CONSTANT_SIZE".
Definition VALUE_IDENT : tag := bs "VALUE_IDENT".
Definition VALUE_OFFSET : tag := bs "VALUE_OFFSET".

(** ** Labels

    [src/data.rs:29-42]: which backing field is set decides the kind: a static
    string, an owned box, or neither (a computed borrow). *)
Inductive lkind := LStatic | LComputed | LOwned.

Record label := MkLabel { l_text : bytes; l_kind : lkind; l_tag : option tag }.

(** [Label::new], [Label::new_computed], [Label::new_owned], [with_tag]:
    [src/data.rs:81-90, 96-105, 605-615, 135-138]. *)
Definition label_new (s : bytes) : label := MkLabel s LStatic None.
Definition label_new_computed (s : bytes) : label := MkLabel s LComputed None.
Definition label_new_owned (s : bytes) : label := MkLabel s LOwned None.
Definition label_with_tag (l : label) (t : tag) : label :=
  MkLabel (l_text l) (l_kind l) (Some t).

(** [Label::as_static_str]: [src/data.rs:124-126]. *)
Definition as_static_str (l : label) : option bytes :=
  match l_kind l with LStatic => Some (l_text l) | _ => None end.

(** [Label::clone] with the [alloc] feature: [src/data.rs:569-584]. *)
Definition label_clone (l : label) : label :=
  match l_kind l with
  | LOwned => label_new_owned (l_text l)
  | _ => MkLabel (l_text l) (l_kind l) (l_tag l)
  end.

(** [Label::to_owned]: [src/data.rs:592-598]; [try_to_owned] with [alloc] is
    [Ok(self.to_owned())]: [src/data.rs:158-162]. *)
Definition label_to_owned (l : label) : label :=
  match as_static_str l with
  | Some s => label_new s
  | None => label_new_owned (l_text l)
  end.

(** ** Indexes: [src/data.rs:314], an [i128] and an optional tag hint. *)
Record index := MkIndex { i_val : Z; i_tag : option tag }.

(** [Index::new], [Index::new_i32], ...: [src/data.rs:363-405]. *)
Definition index_new (z : Z) : index := MkIndex z None.
(** [Index::with_tag]: [src/data.rs:486-489]. *)
Definition index_with_tag (i : index) (t : tag) : index := MkIndex (i_val i) (Some t).

(** ** Integer types *)
Inductive ity := U8 | U16 | U32 | U64 | U128 | I8 | I16 | I32 | I64 | I128.

Definition ity_min (t : ity) : Z :=
  match t with
  | U8 | U16 | U32 | U64 | U128 => 0
  | I8 => -2^7 | I16 => -2^15 | I32 => -2^31 | I64 => -2^63 | I128 => -2^127
  end%Z.
Definition ity_max (t : ity) : Z :=
  match t with
  | U8 => 2^8 - 1 | U16 => 2^16 - 1 | U32 => 2^32 - 1 | U64 => 2^64 - 1 | U128 => 2^128 - 1
  | I8 => 2^7 - 1 | I16 => 2^15 - 1 | I32 => 2^31 - 1 | I64 => 2^63 - 1 | I128 => 2^127 - 1
  end%Z.

(** Rust's [TryFrom] range check between integer types. *)
Definition fits (t : ity) (z : Z) : bool := (ity_min t <=? z)%Z && (z <=? ity_max t)%Z.

(** ** Floats

    An [f32]/[f64] is Coq's [spec_float] (sign, mantissa, exponent, or zero,
    infinity, NaN).  NaN payloads are not modelled. *)
Definition float := spec_float.

(** [value as f64] for an [f32] ([src/stream.rs:1277]): exact widening, the
    mantissa renormalised to 53 bits. *)
Definition f32_to_f64 (f : float) : float :=
  match f with
  | S754_finite s m e => binary_normalize 53 1024 (cond_Zopp s (Zpos m)) e s
  | _ => f
  end.

Definition is_nan (f : float) : bool := match f with S754_nan => true | _ => false end.
Definition is_infinite (f : float) : bool := match f with S754_infinity _ => true | _ => false end.

(** ** Decimal numerals: what [core::fmt::Display] and [itoa] print for integers *)
Fixpoint bytes_of_uint (d : Decimal.uint) : bytes :=
  match d with
  | Decimal.Nil => []
  | Decimal.D0 d => "0"%char :: bytes_of_uint d
  | Decimal.D1 d => "1"%char :: bytes_of_uint d
  | Decimal.D2 d => "2"%char :: bytes_of_uint d
  | Decimal.D3 d => "3"%char :: bytes_of_uint d
  | Decimal.D4 d => "4"%char :: bytes_of_uint d
  | Decimal.D5 d => "5"%char :: bytes_of_uint d
  | Decimal.D6 d => "6"%char :: bytes_of_uint d
  | Decimal.D7 d => "7"%char :: bytes_of_uint d
  | Decimal.D8 d => "8"%char :: bytes_of_uint d
  | Decimal.D9 d => "9"%char :: bytes_of_uint d
  end.

Definition dec_N (n : N) : bytes := bytes_of_uint (N.to_uint n).
Definition dec (z : Z) : bytes :=
  if (z <? 0)%Z then "-"%char :: dec_N (Z.abs_N z) else dec_N (Z.abs_N z).

(** The pieces in which [core::fmt] writes a decimal integer: [pad_integral]
    writes the sign with [write_char] and the digits with [write_str]. *)
Definition dec_frags (z : Z) : list bytes :=
  if (z <? 0)%Z then [["-"%char]; dec_N (Z.abs_N z)] else [dec_N (Z.abs_N z)].

Lemma concat_dec_frags z : concat (dec_frags z) = dec z.
Proof. unfold dec_frags, dec. destruct (z <? 0)%Z; simpl; rewrite ?app_nil_r; reflexivity. Qed.

Definition blen (b : bytes) : N := N.of_nat (List.length b).

Definition byte_val (b : byte) : Z := Z.of_N (N_of_ascii b).

Lemma byte_val_range b : (0 <= byte_val b <= 255)%Z.
Proof.
  unfold byte_val. pose proof (N_ascii_bounded b) as H. lia.
Qed.
