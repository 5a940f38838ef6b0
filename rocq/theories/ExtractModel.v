(** * ExtractModel: the conversions of [trait Value]

    [src/value.rs:262-912] (module [default_value]).  Each conversion streams the
    value into a small stream that overrides a few methods; the rest of the
    methods are the defaults of [trait Stream] (LowerModel.v). *)

From Verif Require Import Base Event LowerModel.

(** [value.stream(&mut extract).ok()?; extract.0] *)
Definition finish {A} (r : res (option A)) : option A :=
  match r with Ok x => x | _ => None end.

(** [to_bool], [src/value.rs:389-442]: [bool] (395-398) stores, every other
    required method fails (400-437). *)
Definition bool_step (s : option bool) (e : ev) : res (option bool) :=
  match e with
  | EBool b => Ok (Some b)
  | _ => Err s
  end.
Definition to_bool (v : list call) : option bool :=
  finish (run_impl overrides_nothing bool_step None v).

(** [to_f32], [src/value.rs:447-504]: overrides [f32] (451-454). *)
Definition f32_overrides (e : ev) : bool := match e with EF32 _ => true | _ => false end.
Definition f32_step (s : option float) (e : ev) : res (option float) :=
  match e with
  | EF32 f => Ok (Some f)
  | _ => Err s
  end.
Definition to_f32 (v : list call) : option float :=
  finish (run_impl f32_overrides f32_step None v).

(** [to_f64], [src/value.rs:509-562]. *)
Definition f64_step (s : option float) (e : ev) : res (option float) :=
  match e with
  | EF64 f => Ok (Some f)
  | _ => Err s
  end.
Definition to_f64 (v : list call) : option float :=
  finish (run_impl overrides_nothing f64_step None v).

(** [to_i128], [src/value.rs:595-652]: overrides [i128] (599-602). *)
Definition i128_overrides (e : ev) : bool := match e with EInt I128 _ => true | _ => false end.
Definition i128_step (s : option Z) (e : ev) : res (option Z) :=
  match e with
  | EInt I128 z => Ok (Some z)
  | _ => Err s
  end.
Definition to_i128 (v : list call) : option Z :=
  finish (run_impl i128_overrides i128_step None v).

(** [to_u128], [src/value.rs:685-742]: overrides [u128] (689-692). *)
Definition u128_overrides (e : ev) : bool := match e with EInt U128 _ => true | _ => false end.
Definition u128_step (s : option Z) (e : ev) : res (option Z) :=
  match e with
  | EInt U128 z => Ok (Some z)
  | _ => Err s
  end.
Definition to_u128 (v : list call) : option Z :=
  finish (run_impl u128_overrides u128_step None v).

(** [to_i8] .. [to_i64], [to_u8] .. [to_u64]: [src/value.rs:567-590, 657-680].
    [try_into] is the range check. *)
Definition try_into (t : ity) (o : option Z) : option Z :=
  match o with
  | Some z => if fits t z then Some z else None
  | None => None
  end.
Definition to_int (t : ity) (v : list call) : option Z :=
  match t with
  | I8 | I16 | I32 | I64 => try_into t (to_i128 v)
  | I128 => to_i128 v
  | U8 | U16 | U32 | U64 => try_into t (to_u128 v)
  | U128 => to_u128 v
  end.

(** The [Value] impls of the integer types override their own conversion only:
    [src/data/number.rs:17-52]. *)
Definition prim_to_int (target src : ity) (z : Z) : option Z :=
  match target, src with
  | U8, U8 | U16, U16 | U32, U32 | U64, U64 | U128, U128
  | I8, I8 | I16, I16 | I32, I32 | I64, I64 | I128, I128 => Some z
  | _, _ => to_int target [CE (EInt src z)]
  end.

(** [to_text], [src/value.rs:747-821]: state [extracted] and [seen_fragment]. *)
Definition text_overrides (e : ev) : bool := match e with ETextFrag _ => true | _ => false end.
Definition text_step (s : option bytes * bool) (e : ev) : res (option bytes * bool) :=
  match e with
  | ETextBegin _ => Ok s
  | ETextFrag f => if negb (snd s) then Ok (Some f, true) else Ok (None, snd s)
  | ETextFragC _ => Err (None, true)
  | ETextEnd => Ok s
  | _ => Err s
  end.
Definition to_text (v : list call) : option bytes :=
  match run_impl text_overrides text_step (None, false) v with
  | Ok s => fst s
  | _ => None
  end.

(** [to_binary], [src/value.rs:826-912]. *)
Definition bin_overrides (e : ev) : bool :=
  match e with EBinBegin _ | EBinFrag _ | EBinFragC _ | EBinEnd => true | _ => false end.
Definition bin_step (s : option bytes * bool) (e : ev) : res (option bytes * bool) :=
  match e with
  | EBinBegin _ => Ok s
  | EBinFrag f => if negb (snd s) then Ok (Some f, true) else Ok (None, snd s)
  | EBinFragC _ => Err (None, true)
  | EBinEnd => Ok s
  | _ => Err s
  end.
Definition to_binary (v : list call) : option bytes :=
  match run_impl bin_overrides bin_step (None, false) v with
  | Ok s => fst s
  | _ => None
  end.

(** [tag], [src/value.rs:269-384]: state [value] and [set]; the result is read
    whether streaming succeeded or not (381-383). *)
Definition tag_overrides (e : ev) : bool :=
  match e with
  | ETag _ _ _ | ETaggedBegin _ _ _ | EEnumBegin _ _ _
  | ERecordBegin _ _ _ _ | ETupleBegin _ _ _ _ => true
  | _ => false
  end.
Definition tag_set (s : option tag * bool) (t : option tag) : res (option tag * bool) :=
  if snd s then Err s else Ok (t, true).
Definition tag_step (s : option tag * bool) (e : ev) : res (option tag * bool) :=
  match e with
  | ETag t _ _ | ETaggedBegin t _ _ | EEnumBegin t _ _
  | ERecordBegin t _ _ _ | ETupleBegin t _ _ _ => tag_set s t
  | EInt I64 _ | EF64 _ => tag_set s (Some NUMBER)
  | _ => Err s
  end.
Definition value_tag (v : list call) : option tag :=
  match run_impl tag_overrides tag_step (None, false) v with
  | Ok s | Err s => fst s
  | Panic => None
  end.
