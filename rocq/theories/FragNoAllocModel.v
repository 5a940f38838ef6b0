(** * FragNoAllocModel: [TextBuf] and [BinaryBuf] without the [alloc] feature

    [buffer/src/fragments.rs] again, where the field of [FragmentBuf] is a plain
    borrow (555-556): it is the bytes it points at.  [dbg] is a debug build, in
    which needing to allocate panics instead of failing
    ([buffer/src/error.rs:59-81]). *)

From Verif Require Import Base Event LowerModel FragModel.

Section NoAlloc.
  Variable dbg : bool.

  (** [Error::no_alloc], [buffer/src/error.rs:59-81]. *)
  Definition nf_refuse {A} (a : A) : res A := if dbg then Panic else Err a.
  (** [FragmentBuf::push_computed], 640-654, and [push], 628-637. *)
  Definition nf_computed (c s : bytes) : res bytes :=
    match frag_push_computed_noalloc c s with Ok c' => Ok c' | _ => nf_refuse c end.
  Definition nf_push (c s : bytes) : res bytes :=
    match frag_push_noalloc c s with Ok c' => Ok c' | _ => nf_refuse c end.
  (** [push_display], 93-121: one computed push per piece, given up at the first
      failure.  Simplified: the [Display] impl passes failures of the writer on. *)
  Fixpoint nf_display (c : bytes) (ps : list bytes) (ok : bool) : res bytes :=
    match ps with
    | [] => if ok then Ok c else Err c
    | p :: ps' => nf_computed c p >>= fun c' => nf_display c' ps' ok
    end.

  (** The operations, as in FragModel.v; [into_owned_in_place] only exists with
      [alloc], 139-147, and [FIntoOwned] stands for nothing here. *)
  Definition nf_step (c : bytes) (o : fop) : res bytes :=
    match o with
    | FPush s => nf_push c s
    | FPushComputed s => nf_computed c s
    | FPushDisplay ps ok => nf_display c ps ok
    | FClear => Ok []
    | FIntoOwned => Ok c
    end.
  (** A history goes on after a failed call, but not after a panic. *)
  Fixpoint nf_run (c : bytes) (os : list fop) : option bytes :=
    match os with
    | [] => Some c
    | o :: os' => match nf_step c o with Ok c' | Err c' => nf_run c' os' | Panic => None end
    end.

  (** [try_catch], 155-160, 367-375. *)
  Definition nf_catch (e : bool) (r : res bytes) : res (bytes * bool) :=
    match r with Ok c => Ok (c, e) | Err c => Err (c, true) | Panic => Panic end.
  (** [TextCollector], 168-217. *)
  Definition nf_text_step (c : bytes * bool) (e : ev) : res (bytes * bool) :=
    match e with
    | ETextBegin _ => Ok c
    | ETextFrag s => nf_catch (snd c) (nf_push (fst c) s)
    | ETextFragC s => nf_catch (snd c) (nf_computed (fst c) s)
    | ETextEnd => Ok c
    | _ => Err (fst c, true)
    end.
  (** [BinaryCollector], 383-451. *)
  Definition nf_bin_step (c : bytes * bool) (e : ev) : res (bytes * bool) :=
    match e with
    | EBinBegin _ => Ok c
    | EBinFrag s => nf_catch (snd c) (nf_push (fst c) s)
    | EBinFragC s => nf_catch (snd c) (nf_computed (fst c) s)
    | EBinEnd => Ok c
    | EInt U8 z => nf_catch (snd c) (nf_computed (fst c) [byte_of_Z z])
    | ESeqBegin _ | ESeqValBegin | ESeqValEnd | ESeqEnd => Ok c
    | _ => Err (fst c, true)
    end.
  (** [collect], 37-50 and 294-307. *)
  Definition nf_collect_end (r : res (bytes * bool)) : outcome bytes :=
    match r with
    | Ok c => OOk (fst c)
    | Err (_, true) => OErr
    | Err (_, false) => OPanic
    | Panic => OPanic
    end.
  Definition nf_text_collect (v : list call) : outcome bytes :=
    nf_collect_end (run_impl text_col_over nf_text_step ([], false) v).
  Definition nf_bin_collect (v : list call) : outcome bytes :=
    nf_collect_end (run_impl bin_col_over nf_bin_step ([], false) v).
End NoAlloc.
