(** * DataModel: comparing and converting labels, indexes and tags

    [src/data.rs:29-598].  Labels and indexes themselves are in Base.v. *)

From Verif Require Import Base.

(** [PartialEq for Label], [src/data.rs:174-179]: [self.as_str() == other.as_str()]. *)
Definition label_eqb (a b : label) : bool := bytes_eqb (l_text a) (l_text b).

(** [Hash for Label], [src/data.rs:183-187]: feeds [as_str()] to the hasher.
    [str::hash] writes the bytes and then [0xff]; what is fed is all a hasher sees. *)
Definition label_hash_input (l : label) : bytes := l_text l ++ [ascii_of_N 255].
(** The same for a [str], the [Borrow<str>] of a label ([src/data.rs:189-194]). *)
Definition label_borrow (l : label) : bytes := l_text l.
Definition str_hash_input (s : bytes) : bytes := s ++ [ascii_of_N 255].

(** [PartialEq], [PartialOrd], [Ord], [Hash] for [Index]: [src/data.rs:512-541]. *)
Definition index_eqb (a b : index) : bool := Z.eqb (i_val a) (i_val b).
Definition index_cmp (a b : index) : comparison := Z.compare (i_val a) (i_val b).
Definition index_partial_cmp (a b : index) : option comparison := Some (Z.compare (i_val a) (i_val b)).
Definition index_hash_input (i : index) : Z := i_val i.

(** [value as T] between integer types: the value modulo [2^n], in the range of [T]. *)
Definition width (t : ity) : Z :=
  match t with U8 | I8 => 8 | U16 | I16 => 16 | U32 | I32 => 32 | U64 | I64 => 64 | U128 | I128 => 128 end%Z.
Definition cast (t : ity) (z : Z) : Z :=
  let m := (2 ^ width t)%Z in
  ((z - ity_min t) mod m + ity_min t)%Z.

(** [usize]/[isize] are taken to be 64 bits wide. *)
Definition usize := U64.
Definition isize := I64.

(** [Index::new], [new_u32], [new_u64], [new_i32], [new_i64], [new_isize]:
    [src/data.rs:363-405], and the [From] impls [316-356]: [index as i128]. *)
Definition index_from (t : ity) (z : Z) : index := MkIndex (cast I128 z) None.

(** [Index::to_usize] .. [to_i64]: [src/data.rs:411-477]. *)
Definition index_to (t : ity) (i : index) : option Z :=
  if (cast I128 (ity_min t) <=? i_val i)%Z && (i_val i <=? cast I128 (ity_max t))%Z
  then Some (cast t (i_val i)) else None.

(** ** [Label] copies: [clone], [to_owned] and [try_to_owned] are in Base.v.
    [try_to_owned] without the [alloc] feature, [src/data.rs:163-168]. *)
Definition label_try_to_owned_noalloc (l : label) : option label :=
  match as_static_str l with Some s => Some (label_new s) | None => None end.
Definition label_try_to_owned (l : label) : option label := Some (label_to_owned l).

(** ** Tags: [src/data.rs:208-302] *)
Definition u64_max1 : N := 2 ^ 64.
Definition K : N := 5871781006564002453. (* 0x517cc1b727220a95, src/data.rs:233 *)
Definition rotate_left (x n : N) : N :=
  N.lor ((N.shiftl x n) mod u64_max1)%N (N.shiftr x (64 - n)).
Definition wrapping_mul (a b : N) : N := ((a * b) mod u64_max1)%N.

(** [uN::from_ne_bytes]: the machine's byte order is a parameter. *)
Fixpoint from_le_bytes (bsx : list byte) : N :=
  match bsx with [] => 0 | b :: r => (N_of_ascii b + 256 * from_le_bytes r)%N end.
Definition from_ne_bytes (big_endian : bool) (b : list byte) : N :=
  from_le_bytes (if big_endian then rev b else b).

Definition mix (hash i : N) : N := wrapping_mul (N.lxor (rotate_left hash 5) i) K.

(** [bytes[b + 0], ..., bytes[b + n - 1]]; [None] is an out-of-bounds panic. *)
Fixpoint take_at (bytes : list byte) (b n : nat) : option (list byte) :=
  match n with
  | 0 => Some []
  | S n' => match nth_error bytes b, take_at bytes (S b) n' with
            | Some x, Some r => Some (x :: r)
            | _, _ => None
            end
  end.

(** The [while b + 8 <= bytes.len()] loop, [src/data.rs:238-255], with fuel;
    [None] is a panic, or fuel running out (excluded in DataProofs.v). *)
Fixpoint hash8 (be : bool) (fuel : nat) (bytes : list byte) (hash : N) (b : nat) : option (N * nat) :=
  match fuel with
  | 0 => None
  | S fuel' =>
      if Nat.leb (b + 8) (List.length bytes) then
        match take_at bytes b 8 with
        | Some i => hash8 be fuel' bytes (mix hash (from_ne_bytes be i)) (b + 8)
        | None => None
        end
      else Some (hash, b)
  end.

(** [if b + n <= bytes.len() { ... b += n }], [src/data.rs:257-283]. *)
Definition hash_tail (be : bool) (bytes : list byte) (n : nat) (st : option (N * nat)) : option (N * nat) :=
  match st with
  | None => None
  | Some (hash, b) =>
      if Nat.leb (b + n) (List.length bytes) then
        match take_at bytes b n with
        | Some i => Some (mix hash (from_ne_bytes be i), b + n)
        | None => None
        end
      else Some (hash, b)
  end.

(** [compute_id], [src/data.rs:223-285]. *)
Definition compute_id (be : bool) (bytes : list byte) : option N :=
  match hash_tail be bytes 1 (hash_tail be bytes 2 (hash_tail be bytes 4
          (hash8 be (S (List.length bytes)) bytes 0 0))) with
  | Some (hash, _) => Some hash
  | None => None
  end.

(** The [Tag] struct with its cached id, [src/data.rs:209-212]; [Tag::new]
    (287-291), [Tag::cloned] (296-301), derived [Clone] and [PartialEq] (208). *)
Record rtag := MkTag { t_id : N; t_data : bytes }.
Definition tag_new (be : bool) (data : bytes) : option rtag :=
  option_map (fun id => MkTag id data) (compute_id be data).
Definition tag_cloned (t : rtag) : rtag := MkTag (t_id t) (t_data t).
Definition rtag_eqb (a b : rtag) : bool := N.eqb (t_id a) (t_id b) && bytes_eqb (t_data a) (t_data b).
