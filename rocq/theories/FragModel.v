(** * FragModel: [TextBuf] and [BinaryBuf]

    [buffer/src/fragments.rs].  Text and bytes are both byte lists here, so
    [FragmentBuf<str>] and [FragmentBuf<[u8]>] are one model. *)

From Verif Require Import Base Event LowerModel.

(** [Cow<'sval, T>], the field of [FragmentBuf] with [alloc], 554-559. *)
Record cow := MkCow { c_owned : bool; c_data : bytes }.

(** [FragmentBuf::new], 621-626. *)
Definition frag_new (s : bytes) : cow := MkCow false s.
(** [push_computed], 640-654, with [extend], 531-535, 543-547: [to_mut] makes it owned. *)
Definition frag_push_computed (c : cow) (s : bytes) : cow := MkCow true (c_data c ++ s).
(** [push], 628-637; [can_replace], 537-539, 549-551. *)
Definition frag_push (c : cow) (s : bytes) : cow :=
  match c_data c with
  | [] => frag_new s
  | _ => frag_push_computed c s
  end.
(** [as_borrowed_inner], 656-668; [as_inner], 670-681. *)
Definition frag_borrowed (c : cow) : option bytes := if c_owned c then None else Some (c_data c).
Definition frag_inner (c : cow) : bytes := c_data c.
(** [into_owned_in_place], 520-527, 684-690. *)
Definition frag_into_owned (c : cow) : cow := MkCow true (c_data c).

(** Without [alloc] the field is a plain borrow (555-556): [push] replaces an
    empty one, everything else is an error that leaves the buffer as it was. *)
Definition frag_push_computed_noalloc (c : bytes) (s : bytes) : res bytes := Err c.
Definition frag_push_noalloc (c : bytes) (s : bytes) : res bytes :=
  match c with
  | [] => Ok s
  | _ => frag_push_computed_noalloc c s
  end.

(** The operations of [TextBuf]/[BinaryBuf]: [push_fragment] (72-75, 320-323),
    [push_fragment_computed] (83-86, 331-334), [push_display] (93-121: one computed
    push per piece the formatter writes, [ok] when the [Display] impl itself
    succeeds), [clear] (64-67, 312-315). *)
Inductive fop :=
| FPush (s : bytes)
| FPushComputed (s : bytes)
| FPushDisplay (pieces : list bytes) (ok : bool)
| FClear
| FIntoOwned.
Definition text_buf_new : cow := frag_new [].
Definition fop_step (c : cow) (o : fop) : res cow :=
  match o with
  | FPush s => Ok (frag_push c s)
  | FPushComputed s => Ok (frag_push_computed c s)
  | FPushDisplay ps ok =>
      let c' := fold_left frag_push_computed ps c in if ok then Ok c' else Err c'
  | FClear => Ok text_buf_new
  | FIntoOwned => Ok (frag_into_owned c)
  end.
(** A history goes on after a failed call. *)
Definition fop_next (c : cow) (o : fop) : cow :=
  match fop_step c o with Ok c' | Err c' => c' | Panic => c end.
Definition fop_run (os : list fop) : cow := fold_left fop_next os text_buf_new.

(** [ValueRef for TextBuf], 254-267; [sval::Value for TextBuf], 248-252. *)
Definition text_buf_ref (c : cow) : list call :=
  match frag_borrowed c with
  | Some v => [CV (str_calls v)]
  | None => [CE (ETextBegin (Some (blen (frag_inner c)))); CE (ETextFragC (frag_inner c)); CE ETextEnd]
  end.
Definition text_buf_value (c : cow) : list call := str_calls (frag_inner c).

(** [BinarySlice::stream], [src/data/binary.rs:43-48]; [ValueRef for BinaryBuf],
    473-480; [sval::Value for BinaryBuf], 467-471. *)
Definition bin_calls (s : bytes) : list call :=
  [CE (EBinBegin (Some (blen s))); CE (EBinFrag s); CE EBinEnd].
Definition bin_buf_ref (c : cow) : list call :=
  match frag_borrowed c with
  | Some v => [CV (bin_calls v)]
  | None => [CVC (bin_calls (frag_inner c))]
  end.
Definition bin_buf_value (c : cow) : list call := bin_calls (frag_inner c).

(** ** [TextCollector], 149-222, and [BinaryCollector], 361-442

    The buffer and whether [err] is set. *)
Definition col := (cow * bool)%type.
Definition col_fail (c : col) : res col := Err (fst c, true).

(** [TextCollector] overrides [text_fragment] besides the required methods. *)
Definition text_col_over (e : ev) : bool := match e with ETextFrag _ => true | _ => false end.
Definition text_col_step (c : col) (e : ev) : res col :=
  match e with
  | ETextBegin _ => Ok c
  | ETextFrag s => Ok (frag_push (fst c) s, snd c)
  | ETextFragC s => Ok (frag_push_computed (fst c) s, snd c)
  | ETextEnd => Ok c
  | _ => col_fail c
  end.

(** [BinaryCollector]. *)
Definition bin_col_over (e : ev) : bool :=
  match e with
  | EBinBegin _ | EBinFrag _ | EBinFragC _ | EBinEnd | EInt U8 _ | EMapBegin _ => true
  | _ => false
  end.
Definition byte_of_Z (z : Z) : byte := ascii_of_N (Z.to_N z).
Definition bin_col_step (c : col) (e : ev) : res col :=
  match e with
  | EBinBegin _ => Ok c
  | EBinFrag s => Ok (frag_push (fst c) s, snd c)
  | EBinFragC s => Ok (frag_push_computed (fst c) s, snd c)
  | EBinEnd => Ok c
  | EInt U8 z => Ok (frag_push_computed (fst c) [byte_of_Z z], snd c)
  | ESeqBegin _ | ESeqValBegin | ESeqValEnd | ESeqEnd => Ok c
  | _ => col_fail c
  end.

(** [collect], 37-50 and 294-307: [.map_err(|_| collector.err.unwrap())] panics
    when the value failed without the collector having failed. *)
Inductive outcome (A : Type) := OOk (a : A) | OErr | OPanic.
Arguments OOk {A} a.
Arguments OErr {A}.
Arguments OPanic {A}.
Definition collect_end (r : res col) : outcome cow :=
  match r with
  | Ok c => OOk (fst c)
  | Err (_, true) => OErr
  | Err (_, false) => OPanic
  | Panic => OPanic
  end.
Definition text_collect (v : list call) : outcome cow :=
  collect_end (run_impl text_col_over text_col_step (text_buf_new, false) v).
Definition bin_collect (v : list call) : outcome cow :=
  collect_end (run_impl bin_col_over bin_col_step (text_buf_new, false) v).
