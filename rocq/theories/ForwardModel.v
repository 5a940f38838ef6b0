(** * ForwardModel: wrapper streams that forward every call

    [impl_stream_forward] for [&mut S] and [Box<S>] ([src/stream.rs:456-781]),
    [Computed<S>] ([src/stream.rs:786-1120]) and the object-safe wrapper
    [dyn sval_dynamic::Stream] ([dynamic/src/stream.rs:200-741]).  Each table
    says which method of the wrapped stream a method of the wrapper calls, with
    which arguments. *)

From Verif Require Import Base Event.

(** [src/stream.rs:466-774], used for [&mut S] (776-778) and [Box<S>] (780). *)
Definition fwd_ref (e : ev) : ev :=
  match e with
  | ENull => ENull
  | EBool a => EBool a
  | ETextBegin a => ETextBegin a
  | ETextFrag a => ETextFrag a
  | ETextFragC a => ETextFragC a
  | ETextEnd => ETextEnd
  | EBinBegin a => EBinBegin a
  | EBinFrag a => EBinFrag a
  | EBinFragC a => EBinFragC a
  | EBinEnd => EBinEnd
  | EInt a b => EInt a b
  | EF32 a => EF32 a
  | EF64 a => EF64 a
  | EMapBegin a => EMapBegin a
  | EMapKeyBegin => EMapKeyBegin
  | EMapKeyEnd => EMapKeyEnd
  | EMapValBegin => EMapValBegin
  | EMapValEnd => EMapValEnd
  | EMapEnd => EMapEnd
  | ESeqBegin a => ESeqBegin a
  | ESeqValBegin => ESeqValBegin
  | ESeqValEnd => ESeqValEnd
  | ESeqEnd => ESeqEnd
  | EEnumBegin a b c => EEnumBegin a b c
  | EEnumEnd a b c => EEnumEnd a b c
  | ETaggedBegin a b c => ETaggedBegin a b c
  | ETaggedEnd a b c => ETaggedEnd a b c
  | ETag a b c => ETag a b c
  | ETagHint a => ETagHint a
  | ERecordBegin a b c d => ERecordBegin a b c d
  | ERecordValBegin a b => ERecordValBegin a b
  | ERecordValEnd a b => ERecordValEnd a b
  | ERecordEnd a b c => ERecordEnd a b c
  | ETupleBegin a b c d => ETupleBegin a b c d
  | ETupleValBegin a b => ETupleValBegin a b
  | ETupleValEnd a b => ETupleValEnd a b
  | ETupleEnd a b c => ETupleEnd a b c
  | ERecTupBegin a b c d => ERecTupBegin a b c d
  | ERecTupValBegin a b c => ERecTupValBegin a b c
  | ERecTupValEnd a b c => ERecTupValEnd a b c
  | ERecTupEnd a b c => ERecTupEnd a b c
  end.

(** [src/stream.rs:808-1119]; the two borrowed fragment methods call the
    computed ones (809-816). *)
Definition fwd_computed (e : ev) : ev :=
  match e with
  | ENull => ENull
  | EBool a => EBool a
  | ETextBegin a => ETextBegin a
  | ETextFrag a => ETextFragC a
  | ETextFragC a => ETextFragC a
  | ETextEnd => ETextEnd
  | EBinBegin a => EBinBegin a
  | EBinFrag a => EBinFragC a
  | EBinFragC a => EBinFragC a
  | EBinEnd => EBinEnd
  | EInt a b => EInt a b
  | EF32 a => EF32 a
  | EF64 a => EF64 a
  | EMapBegin a => EMapBegin a
  | EMapKeyBegin => EMapKeyBegin
  | EMapKeyEnd => EMapKeyEnd
  | EMapValBegin => EMapValBegin
  | EMapValEnd => EMapValEnd
  | EMapEnd => EMapEnd
  | ESeqBegin a => ESeqBegin a
  | ESeqValBegin => ESeqValBegin
  | ESeqValEnd => ESeqValEnd
  | ESeqEnd => ESeqEnd
  | EEnumBegin a b c => EEnumBegin a b c
  | EEnumEnd a b c => EEnumEnd a b c
  | ETaggedBegin a b c => ETaggedBegin a b c
  | ETaggedEnd a b c => ETaggedEnd a b c
  | ETag a b c => ETag a b c
  | ETagHint a => ETagHint a
  | ERecordBegin a b c d => ERecordBegin a b c d
  | ERecordValBegin a b => ERecordValBegin a b
  | ERecordValEnd a b => ERecordValEnd a b
  | ERecordEnd a b c => ERecordEnd a b c
  | ETupleBegin a b c d => ETupleBegin a b c d
  | ETupleValBegin a b => ETupleValBegin a b
  | ETupleValEnd a b => ETupleValEnd a b
  | ETupleEnd a b c => ETupleEnd a b c
  | ERecTupBegin a b c d => ERecTupBegin a b c d
  | ERecTupValBegin a b c => ERecTupValBegin a b c
  | ERecTupValEnd a b c => ERecTupValEnd a b c
  | ERecTupEnd a b c => ERecTupEnd a b c
  end.

(** [dynamic/src/stream.rs:505-737] then the dispatch methods
    [dynamic/src/stream.rs:214-502]. *)
Definition fwd_dyn (e : ev) : ev :=
  match e with
  | ENull => ENull
  | EBool a => EBool a
  | ETextBegin a => ETextBegin a
  | ETextFrag a => ETextFrag a
  | ETextFragC a => ETextFragC a
  | ETextEnd => ETextEnd
  | EBinBegin a => EBinBegin a
  | EBinFrag a => EBinFrag a
  | EBinFragC a => EBinFragC a
  | EBinEnd => EBinEnd
  | EInt a b => EInt a b
  | EF32 a => EF32 a
  | EF64 a => EF64 a
  | EMapBegin a => EMapBegin a
  | EMapKeyBegin => EMapKeyBegin
  | EMapKeyEnd => EMapKeyEnd
  | EMapValBegin => EMapValBegin
  | EMapValEnd => EMapValEnd
  | EMapEnd => EMapEnd
  | ESeqBegin a => ESeqBegin a
  | ESeqValBegin => ESeqValBegin
  | ESeqValEnd => ESeqValEnd
  | ESeqEnd => ESeqEnd
  | EEnumBegin a b c => EEnumBegin a b c
  | EEnumEnd a b c => EEnumEnd a b c
  | ETaggedBegin a b c => ETaggedBegin a b c
  | ETaggedEnd a b c => ETaggedEnd a b c
  | ETag a b c => ETag a b c
  | ETagHint a => ETagHint a
  | ERecordBegin a b c d => ERecordBegin a b c d
  | ERecordValBegin a b => ERecordValBegin a b
  | ERecordValEnd a b => ERecordValEnd a b
  | ERecordEnd a b c => ERecordEnd a b c
  | ETupleBegin a b c d => ETupleBegin a b c d
  | ETupleValBegin a b => ETupleValBegin a b
  | ETupleValEnd a b => ETupleValEnd a b
  | ETupleEnd a b c => ETupleEnd a b c
  | ERecTupBegin a b c d => ERecTupBegin a b c d
  | ERecTupValBegin a b c => ERecTupValBegin a b c
  | ERecTupValEnd a b c => ERecTupValEnd a b c
  | ERecTupEnd a b c => ERecTupEnd a b c
  end.

(** A stream seen through a stack of wrappers. *)
Inductive obj :=
| OBase
| OMut (o : obj)       (* &mut S *)
| OBox (o : obj)       (* Box<S> *)
| OComputed (o : obj)  (* Computed<S> *)
| ODyn (o : obj).      (* dyn sval_dynamic::Stream over S *)

Section Forward.
  Context {S : Type} (step : S -> ev -> res S).

  (** Calling a method other than [value]/[value_computed]. *)
  Fixpoint do_ev (o : obj) (e : ev) (s : S) : res S :=
    match o with
    | OBase => step s e
    | OMut o' | OBox o' => do_ev o' (fwd_ref e) s
    | OComputed o' => do_ev o' (fwd_computed e) s
    | ODyn o' => do_ev o' (fwd_dyn e) s
    end.

  (** A value seen through [n] layers of [dyn sval_dynamic::Value] streams
      itself into [dyn] over [&mut S]: [dynamic/src/value.rs:117-119, 44-46]. *)
  Fixpoint dyn_layers (n : nat) (o : obj) : obj :=
    match n with 0 => o | Datatypes.S n' => dyn_layers n' (ODyn (OMut o)) end.

  (** Making one call through a stack of wrappers.
      - [value]: the base stream does not override it, so it is
        [default_stream::value]; [&mut S] and [Box<S>] forward it
        ([src/stream.rs:459-462]); [Computed] ([799-801]) and [dyn] (which does
        not override it) run the value on themselves.
      - [value_computed]: the base uses [default_stream::value_computed];
        [&mut S], [Box<S>] (464-467) and [Computed] (804-806) forward it; [dyn]
        erases the value and forwards ([dynamic/src/stream.rs:505-507, 214-216]). *)
  Fixpoint do_call (c : call) : obj -> S -> res S :=
    let fix go (cs : list call) (o : obj) (s : S) : res S :=
        match cs with
        | [] => Ok s
        | c :: cs' => do_call c o s >>= fun s' => go cs' o s'
        end in
    match c with
    | CE e => fun o s => do_ev o e s
    | CV v =>
        fix dv (o : obj) (s : S) : res S :=
          match o with
          | OBase => go v OBase s
          | OMut o' | OBox o' => dv o' s
          | OComputed o' => go v (OComputed o') s
          | ODyn o' => go v (ODyn o') s
          end
    | CVC v =>
        fun o =>
          (fix dvc (o : obj) (layers : nat) (s : S) : res S :=
             match o with
             | OBase => go v (dyn_layers layers (OComputed OBase)) s
             | OMut o' | OBox o' | OComputed o' => dvc o' layers s
             | ODyn o' => dvc o' (Datatypes.S layers) s
             end) o 0
    | CFail => fun _ s => Err s
    end.

  (** [v.stream(o)] *)
  Fixpoint do_calls (cs : list call) (o : obj) (s : S) : res S :=
    match cs with
    | [] => Ok s
    | c :: cs' => do_call c o s >>= fun s' => do_calls cs' o s'
    end.
End Forward.

(** Is there a [Computed] in the stack? *)
Fixpoint has_computed (o : obj) : bool :=
  match o with
  | OBase => false
  | OMut o' | OBox o' | ODyn o' => has_computed o'
  | OComputed _ => true
  end.
