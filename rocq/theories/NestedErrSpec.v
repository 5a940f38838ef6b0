(** * NestedErrSpec: which error a nested stream gives

    Nothing here mentions [FlatStream]. *)

From Verif Require Import Base Event Tree FragModel BufferSpec NestedModel NestedSpec NestedErrModel.

(** A nested stream that is given closures can only call them. *)
Definition only_calls_closures (S : xstream) : Prop := forall e t l i k k',
  (forall e', k e' = k' e') -> x_enum_nested S e t l i k = x_enum_nested S e t l i k'.

(** ** The calls on one level, with their errors

    As [NestedSpec.answer]: the outcome of the calls that mirror the value, in
    order, the first error ending them.  If the variant of an enum is [hidden],
    any error met after the enum began becomes "failed to stream value". *)
Fixpoint fold_x {St A} (f : St -> A -> got St) (s : St) (l : list A) : got St :=
  match l with
  | [] => GOk s
  | x :: l' => s' <= f s x ;; fold_x f s' l'
  end.
Definition hide {A} (hidden : bool) (o : got A) : got A :=
  match o with GErr _ => if hidden then GErr (NInvalid (bs "failed to stream value")) else o | o => o end.

Section Answers.
Variable S : xstream.

Fixpoint xvariant_answer (r : rview) (g : x_enum S -> got (x_ok S)) : Prop :=
  match r with
  | RTag t l i => exists l', okept l' = l /\ forall e, g e = x_enum_tag S e t l' i
  | RTagged t l i v => exists l' a, okept l' = l /\ child a v /\ forall e, g e = x_enum_tagged S e t l' i a
  | REnum t l i v => exists l' g', okept l' = l /\ xvariant_answer v g' /\ forall e, g e = x_enum_nested S e t l' i g'
  | RTuple t l i n fs =>
      exists l' args, okept l' = l /\
        Forall2 (fun x f => match x, f with (xt, xi, a), (ft, fi, v) => xt = ft /\ xi = fi /\ child a v end) args fs /\
        forall e, g e = s <= x_enum_tuple_begin S e t l' i n ;;
                        s' <= fold_x (fun s x => match x with (xt, xi, a) => x_vtuple_value S s xt xi a end) s args ;;
                        x_vtuple_end S s'
  | RRecord t l i n fs =>
      exists l' args, okept l' = l /\
        Forall2 (fun x f => match x, f with (xt, xl, a), (ft, fl, v) => xt = ft /\ kept_label xl = fl /\ child a v end) args fs /\
        forall e, g e = s <= x_enum_record_begin S e t l' i n ;;
                        s' <= fold_x (fun s x => match x with (xt, xl, a) => x_vrecord_value S s xt xl a end) s args ;;
                        x_vrecord_end S s'
  | _ => False
  end.

Definition xanswer (hidden : bool) (r : rview) (o : got (x_ok S)) : Prop :=
  match r with
  | RNull => o = x_null S
  | RBool b => o = x_bool S b
  | RInt t z => o = x_int S t z
  | RF32 f => o = x_f32 S f
  | RF64 f => o = x_f64 S f
  | RText s => exists b, o = x_text S b s
  | RBin s => exists b, o = x_bin S b s
  | RTag t l i => exists l', okept l' = l /\ o = x_tag S t l' i
  | RTagged t l i v => exists l' a, okept l' = l /\ child a v /\ o = x_tagged S t l' i a
  | REnum t l i v =>
      exists l' g, okept l' = l /\ xvariant_answer v g /\ o = e <= x_enum_begin S t l' i ;; hide hidden (g e)
  | RSeq n vs =>
      exists args, Forall2 child args vs /\
        o = s <= x_seq_begin S n ;; s' <= fold_x (x_seq_value S) s args ;; x_seq_end S s'
  | RMap n es =>
      exists args, Forall2 (fun x e => match x, e with (a, b), (k, v) => child a k /\ child b v end) args es /\
        o = s <= x_map_begin S n ;;
            s' <= fold_x (fun s x => match x with (a, b) => s1 <= x_map_key S s a ;; x_map_value S s1 b end) s args ;;
            x_map_end S s'
  | RTuple t l i n fs =>
      exists l' args, okept l' = l /\
        Forall2 (fun x f => match x, f with (xt, xi, a), (ft, fi, v) => xt = ft /\ xi = fi /\ child a v end) args fs /\
        o = s <= x_tuple_begin S t l' i n ;;
            s' <= fold_x (fun s x => match x with (xt, xi, a) => x_tuple_value S s xt xi a end) s args ;;
            x_tuple_end S s'
  | RRecord t l i n fs =>
      exists l' args, okept l' = l /\
        Forall2 (fun x f => match x, f with (xt, xl, a), (ft, fl, v) => xt = ft /\ kept_label xl = fl /\ child a v end) args fs /\
        o = s <= x_record_begin S t l' i n ;;
            s' <= fold_x (fun s x => match x with (xt, xl, a) => x_record_value S s xt xl a end) s args ;;
            x_record_end S s'
  end.
End Answers.

(** ** When the error of a variant is hidden

    When the value hands over what is in the outermost enum, or in an enum in it,
    through [value] or [value_computed]; to a computed value's recipient [value] is
    nothing but the calls themselves. *)
Fixpoint by_value (comp : bool) (a : atree) : bool :=
  match a with
  | AHint _ v | AEnum _ _ _ v => by_value comp v
  | AVal true v => if comp then by_value true v else true
  | AVal false _ => true
  | _ => false
  end.
Fixpoint hidden_in (comp : bool) (a : atree) : bool :=
  match a with
  | AHint _ v => hidden_in comp v
  | AVal borrowed v => hidden_in (if borrowed then comp else true) v
  | AEnum _ _ _ v => by_value comp v
  | _ => false
  end.

(** What is said of a variant that an enum cannot have. *)
Fixpoint refusal (comp : bool) (a : atree) : bytes :=
  match a with
  | AHint _ v | AEnum _ _ _ v => refusal comp v
  | AVal true v => if comp then refusal true v else bs "failed to stream value"
  | AVal false _ => bs "failed to stream value"
  | ASeq _ _ _ => bs "sequences cannot be used as enum variants"
  | AMap _ _ => bs "maps cannot be used as enum variants"
  | _ => bs "cannot stream an enum; the stream is in an invalid state"
  end.
Fixpoint refused_as (comp : bool) (a : atree) : bytes :=
  match a with
  | AHint _ v => refused_as comp v
  | AVal borrowed v => refused_as (if borrowed then comp else true) v
  | AEnum _ _ _ v => refusal comp v
  | _ => []
  end.

(** ** A stream all of whose errors satisfy [P] *)
Definition errs {A} (P : nerr -> Prop) (o : got A) : Prop := forall e, o = GErr e -> P e.
Record fails_with (P : nerr -> Prop) (S : xstream) : Prop := {
  fw_null : errs P (x_null S);
  fw_bool : forall b, errs P (x_bool S b);
  fw_int : forall t z, errs P (x_int S t z);
  fw_f32 : forall f, errs P (x_f32 S f);
  fw_f64 : forall f, errs P (x_f64 S f);
  fw_text : forall b s, errs P (x_text S b s);
  fw_bin : forall b s, errs P (x_bin S b s);
  fw_tag : forall t l i, errs P (x_tag S t l i);
  fw_tagged : forall t l i a, errs P (x_tagged S t l i a);
  fw_seq_begin : forall n, errs P (x_seq_begin S n);
  fw_map_begin : forall n, errs P (x_map_begin S n);
  fw_tuple_begin : forall t l i n, errs P (x_tuple_begin S t l i n);
  fw_record_begin : forall t l i n, errs P (x_record_begin S t l i n);
  fw_enum_begin : forall t l i, errs P (x_enum_begin S t l i);
  fw_seq_value : forall s a, errs P (x_seq_value S s a);
  fw_seq_end : forall s, errs P (x_seq_end S s);
  fw_map_key : forall s a, errs P (x_map_key S s a);
  fw_map_value : forall s a, errs P (x_map_value S s a);
  fw_map_end : forall s, errs P (x_map_end S s);
  fw_tuple_value : forall s t i a, errs P (x_tuple_value S s t i a);
  fw_tuple_end : forall s, errs P (x_tuple_end S s);
  fw_record_value : forall s t l a, errs P (x_record_value S s t l a);
  fw_record_end : forall s, errs P (x_record_end S s);
  fw_enum_tag : forall e t l i, errs P (x_enum_tag S e t l i);
  fw_enum_tagged : forall e t l i a, errs P (x_enum_tagged S e t l i a);
  fw_enum_tuple_begin : forall e t l i n, errs P (x_enum_tuple_begin S e t l i n);
  fw_enum_record_begin : forall e t l i n, errs P (x_enum_record_begin S e t l i n);
  fw_enum_nested : forall e t l i k, (forall e', errs P (k e')) -> errs P (x_enum_nested S e t l i k);
  fw_vtuple_value : forall s t i a, errs P (x_vtuple_value S s t i a);
  fw_vtuple_end : forall s, errs P (x_vtuple_end S s);
  fw_vrecord_value : forall s t l a, errs P (x_vrecord_value S s t l a);
  fw_vrecord_end : forall s, errs P (x_vrecord_end S s)
}.

(** ** Calls out of order

    What is said of calls that no value should make, at their first; whatever follows
    is not heard. *)
Definition obliging (S : xstream) : Prop :=
  (exists x, x_null S = GOk x) /\
  (forall n, exists s, x_map_begin S n = GOk s) /\
  (forall t l i n, exists s, x_tuple_begin S t l i n = GOk s) /\
  (forall t l i n, exists s, x_record_begin S t l i n = GOk s) /\
  (forall t l i, exists s, x_enum_begin S t l i = GOk s) /\
  (forall e t l i n, exists s, x_enum_tuple_begin S e t l i n = GOk s) /\
  (forall e t l i n, exists s, x_enum_record_begin S e t l i n = GOk s).
Definition out_of_order (t : option tag) (l : option label) (i : option index) (n : option N) (f : label) (j : index) (b : bytes)
  : list (list ev * bytes) :=
  [ (* Ends and fields of what did not begin. *)
    ([ESeqEnd], bs "cannot end a sequence; invalid stream state");
    ([EMapEnd], bs "cannot end a map; invalid stream state");
    ([EMapBegin n; ESeqEnd], bs "cannot end a sequence; invalid stream state");
    ([EMapKeyBegin], bs "cannot stream a map; invalid stream state");
    ([EMapValBegin], bs "cannot stream a map; invalid stream state");
    ([EEnumEnd t l i], bs "cannot end an enum; invalid stream state");
    ([ETaggedEnd t l i], bs "incomplete stream");
    ([ERecordEnd t l i], bs "cannot end a record; invalid stream state");
    ([ERecTupEnd t l i], bs "cannot end a record; invalid stream state");
    ([ETupleEnd t l i], bs "cannot end a tuple; invalid stream state");
    ([ERecordValBegin t f], bs "cannot stream a record; invalid stream state");
    ([ERecTupValBegin t f j], bs "cannot stream a record; invalid stream state");
    ([ETupleValBegin t j], bs "cannot stream a tuple; invalid stream state");
    (* Values in tuples and records, but in no field. *)
    ([ETupleBegin t l i n; ENull], bs "cannot stream a tuple; the field index is missing");
    ([ERecordBegin t l i n; ENull], bs "cannot stream a record; the field label is missing");
    ([EEnumBegin t l i; ETupleBegin t l i n; ENull], bs "cannot stream a tuple variant; the field index is missing");
    ([EEnumBegin t l i; ERecordBegin t l i n; ENull], bs "cannot stream a record variant; the field label is missing");
    (* A second value. *)
    ([ENull; ENull], bs "cannot stream a value; the stream is already completed");
    (* Text and bytes. *)
    ([ETextFrag b], bs "cannot buffer text; no active text buffer");
    ([ETextFragC b], bs "cannot buffer text; no active text buffer");
    ([EBinBegin n; ETextFrag b], bs "cannot buffer text; no active text buffer");
    ([ETextEnd], bs "cannot end buffering text; no active text buffer");
    ([EBinFrag b], bs "cannot buffer binary; no active binary buffer");
    ([EBinFragC b], bs "cannot buffer binary; no active binary buffer");
    ([ETextBegin n; EBinFrag b], bs "cannot buffer binary; no active binary buffer");
    ([EBinEnd], bs "cannot end buffering binary; no active binary buffer");
    ([ETextBegin n; ETextBegin n], bs "cannot begin buffering; a buffer is already active");
    ([ETextBegin n; EBinBegin n], bs "cannot begin buffering; a buffer is already active");
    ([ETextBegin n; ESeqBegin n], bs "cannot begin buffering; the stream is in an invalid state");
    ([ETextBegin n; ESeqEnd], bs "cannot end buffering value; the stream is in an invalid state") ].
