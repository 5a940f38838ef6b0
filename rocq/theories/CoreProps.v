(** * CoreProps: the default methods and the forwarding wrappers (C01-C05) *)

From Verif Require Import Base Event Tree LowerModel LowerSpec FlatProofs LowerProofs WidenProofs DecProofs
  ForwardModel ForwardProofs.

(** ** C01 *)

(** Any value streaming the tree [t], given to any stream (described by [step],
    which may fail at any call) that implements only the required methods: the
    stream goes through exactly the calls of the simplified value. *)
Theorem C01_required_only_receives_simplified_value :
  forall v t, streams v t -> ranged t = true ->
  forall S (step : S -> ev -> res S) (s : S),
    run_impl overrides_nothing step s v = run step s (emit_core (simplify t)).
Proof.
  intros v t H R S step s. unfold run_impl. rewrite H, lower_all_meaning by exact R.
  destruct (run step s (emit_core (simplify t))); reflexivity.
Qed.

(** A recording stream receives a non-trivial value. *)
Definition record_step (log : list ev) (e : ev) : res (list ev) := Ok (log ++ [e]).

Definition sample_tree : tree :=
  TRecord (Some NUMBER) (Some (label_new (bs "R"))) None (Some 2%N)
    [ (None, label_new (bs "a"), TMap None [(TInt U8 1, TBin None [(true, bs "x"); (false, bs "y")])]);
      (None, label_new_computed (bs "b"),
        TEnum None (Some (label_new (bs "E"))) None (TTag None (Some (label_new (bs "V"))) (Some (index_new 0)))) ].

Definition sample_value : list call :=
  [CE (ERecordBegin (Some NUMBER) (Some (label_new (bs "R"))) None (Some 2%N));
   CE (ERecordValBegin None (label_new (bs "a")));
   CV [CE (EMapBegin None); CE EMapKeyBegin; CV [CE (EInt U8 1)]; CE EMapKeyEnd; CE EMapValBegin;
       CV [CE (EBinBegin None); CE (EBinFrag (bs "x")); CE (EBinFragC (bs "y")); CE EBinEnd];
       CE EMapValEnd; CE EMapEnd];
   CE (ERecordValEnd None (label_new (bs "a")));
   CE (ERecordValBegin None (label_new_computed (bs "b")));
   CVC [CE (EEnumBegin None (Some (label_new (bs "E"))) None);
        CE (ETag None (Some (label_new (bs "V"))) (Some (index_new 0)));
        CE (EEnumEnd None (Some (label_new (bs "E"))) None)];
   CE (ERecordValEnd None (label_new_computed (bs "b")));
   CE (ERecordEnd (Some NUMBER) (Some (label_new (bs "R"))) None)].

Example C01_hypotheses_met : streams sample_value sample_tree /\ ranged sample_tree = true.
Proof. split; vm_compute; reflexivity. Qed.

Example C01_sample_received :
  run_impl overrides_nothing record_step [] sample_value =
  Ok [ESeqBegin (Some 2%N);
      ESeqValBegin; ESeqBegin (Some 2%N);
        ESeqValBegin; ETextBegin (Some 1%N); ETextFragC (bs "a"); ETextEnd; ESeqValEnd;
        ESeqValBegin;
          ESeqBegin None; ESeqValBegin; ESeqBegin (Some 2%N);
            ESeqValBegin; EInt I64 1; ESeqValEnd;
            ESeqValBegin; ESeqBegin None;
              ESeqValBegin; EInt I64 120; ESeqValEnd; ESeqValBegin; EInt I64 121; ESeqValEnd;
            ESeqEnd; ESeqValEnd;
          ESeqEnd; ESeqValEnd; ESeqEnd;
        ESeqValEnd;
      ESeqEnd; ESeqValEnd;
      ESeqValBegin; ESeqBegin (Some 2%N);
        ESeqValBegin; ETextBegin (Some 1%N); ETextFragC (bs "b"); ETextEnd; ESeqValEnd;
        ESeqValBegin; ETextBegin (Some 1%N); ETextFragC (bs "V"); ETextEnd; ESeqValEnd;
      ESeqEnd; ESeqValEnd;
      ESeqEnd].
Proof. vm_compute. reflexivity. Qed.

(** ** C02 *)

(** Only calls to overridden or required methods reach the implementor: the
    default methods never call each other forever. *)
Theorem C02_defaults_terminate :
  forall O es, Forall (fun e => O e = true \/ required e = true) (lower_all O es).
Proof. exact lower_all_done. Qed.

(** Completing the calls an implementor overriding [O] received with the
    remaining defaults (those of an implementor overriding only [O']) gives what
    the smaller implementor would have received. *)
Theorem C02_override_then_complete :
  forall O O' es, (forall e, O' e = true -> O e = true) ->
    lower_all O' (lower_all O es) = lower_all O' es.
Proof. intros O O' es H. apply lower_all_twice, H. Qed.

(** An implementor whose overriding methods do what the defaults would have done
    behaves, on every value, like one that overrides nothing. *)
Theorem C02_override_as_default_is_transparent :
  forall S (O : ev -> bool) (step : S -> ev -> res S),
    (forall s e, O e = true -> step s e = run step s (lower_all overrides_nothing [e])) ->
    forall v s, run_impl O step s v = run_impl overrides_nothing step s v.
Proof.
  intros S O step H v s. unfold run_impl. destruct (flat v false) as [es ok].
  rewrite (override_as_default O step H). reflexivity.
Qed.

(** Whatever is overridden, the required calls finally made for a value
    streaming the tree [t] are those of its simplification. *)
Theorem C02_meaning_independent_of_overrides :
  forall O t, ranged t = true ->
    lower_all overrides_nothing (lower_all O (emit t)) = emit_core (simplify t).
Proof.
  intros O t R. rewrite lower_all_twice by (unfold overrides_nothing; discriminate).
  apply lower_all_meaning, R.
Qed.

(** An implementor overriding records, tuples and maps but not the rest. *)
Definition overrides_some (e : ev) : bool :=
  match e with
  | ERecordBegin _ _ _ _ | ERecordValBegin _ _ | ERecordValEnd _ _ | ERecordEnd _ _ _
  | EMapBegin _ | EMapKeyBegin | EMapKeyEnd | EMapValBegin | EMapValEnd | EMapEnd => true
  | _ => false
  end.
Example C02_overrides_some_received :
  lower_all overrides_some (emit (TRecTup None None None None [(None, label_new (bs "a"), index_new 0, TInt U8 7)])) =
  [ERecordBegin None None None None; ERecordValBegin None (label_new (bs "a")); EInt I64 7;
   ERecordValEnd None (label_new (bs "a")); ERecordEnd None None None].
Proof. vm_compute. reflexivity. Qed.

(** ** C03 *)

(** Whatever is overridden, an integer in range of its type arrives as one
    integer of the same value in range of its type, or else (when it does not
    fit an [i64]) as NUMBER text that is the decimal numeral of the value. *)
Theorem C03_integer_arrives_exactly :
  forall O t z, fits t z = true -> exact_int O z (lower_all O [EInt t z]).
Proof. exact widen_exact. Qed.

Theorem C03_integer_arrives_as_i64_when_it_fits :
  forall O t z, fits t z = true -> no_int O -> fits I64 z = true ->
    lower_all O [EInt t z] = [EInt I64 z].
Proof. exact widen_i64. Qed.

Example C03_big :
  lower_all overrides_nothing [EInt I128 (-170141183460469231731687303715884105728)%Z] =
  [ETextBegin None; ETextFragC (bs "-"); ETextFragC (bs "170141183460469231731687303715884105728"); ETextEnd].
Proof. vm_compute. reflexivity. Qed.
Example C03_edge :
  lower_all overrides_nothing [EInt U64 9223372036854775807%Z] = [EInt I64 9223372036854775807] /\
  lower_all overrides_nothing [EInt U64 9223372036854775808%Z] =
  [ETextBegin None; ETextFragC (bs "9223372036854775808"); ETextEnd] /\ no_int overrides_nothing.
Proof. split; [|split]; vm_compute; try reflexivity. discriminate. Qed.

(** ** C04 *)

(** A borrowed fragment. *)
Definition borrowed (e : ev) : bool := match e with ETextFrag _ | EBinFrag _ => true | _ => false end.
(** The same call with its borrow weakened. *)
Definition weakened (e : ev) : ev :=
  match e with ETextFrag s => ETextFragC s | EBinFrag s => EBinFragC s | e => e end.

(** Streaming [v] through any stack of wrappers containing [Computed] makes the
    underlying stream go through the calls of [v] with every borrow weakened
    (and fail where [v] fails). *)
Theorem C04_computed_only_weakens_borrows :
  forall S (step : S -> ev -> res S) (s : S) v o, has_computed o = true ->
    do_calls step v o s =
    run step s (map weakened (fst (flat v false))) >>=
      (fun s' => if snd (flat v false) then Ok s' else Err s').
Proof.
  intros S step s v o H. rewrite do_calls_spec, H, flat_computed. unfold run_flat.
  destruct (flat v false); reflexivity.
Qed.

Theorem C04_value_computed_only_weakens_borrows :
  forall S (step : S -> ev -> res S) (s : S) v o,
    do_calls step [CVC v] o s =
    run step s (map weakened (fst (flat v false))) >>=
      (fun s' => if snd (flat v false) then Ok s' else Err s').
Proof.
  intros S step s v o. rewrite do_calls_spec. unfold run_flat.
  assert (E : flat [CVC v] (has_computed o) = flat v true).
  { rewrite flat_cons, flat1_CVC. destruct (flat v true) as [es []]; [|reflexivity].
    cbn [flat]. rewrite app_nil_r. reflexivity. }
  rewrite E, flat_computed. destruct (flat v false); reflexivity.
Qed.

Theorem C04_no_borrow_escapes :
  forall v, existsb borrowed (map weakened (fst (flat v false))) = false.
Proof.
  intros v. generalize (fst (flat v false)) as l.
  induction l as [|e l IH]; [reflexivity|]. cbn [map existsb]. rewrite IH. destruct e; reflexivity.
Qed.

Example C04_sample :
  do_calls record_step [CVC sample_value] (ODyn (OMut OBase)) [] =
  Ok (map weakened (emit sample_tree)) /\ existsb borrowed (emit sample_tree) = true.
Proof. split; vm_compute; reflexivity. Qed.

(** ** C05 *)

(** Through any stack of [&mut], [Box] and dynamic wrappers, any value gives any
    stream the same calls and the same result as streaming to it directly. *)
Theorem C05_forwarding_is_transparent :
  forall S (step : S -> ev -> res S) (s : S) v o, has_computed o = false ->
    do_calls step v o s = stream_value step s v.
Proof. intros. rewrite do_calls_transparent by assumption. apply do_calls_stream_value. Qed.

(** A stream that refuses its fifth call, behind four wrappers. *)
Example C05_sample :
  let step log e := if Nat.eqb (List.length log) 4 then Err log else Ok (log ++ [e]) in
  do_calls step sample_value (OBox (ODyn (OMut (ODyn OBase)))) [] = Err (firstn 4 (emit sample_tree)).
Proof. vm_compute. reflexivity. Qed.

Print Assumptions C01_required_only_receives_simplified_value.
Print Assumptions C02_defaults_terminate.
Print Assumptions C02_override_then_complete.
Print Assumptions C02_override_as_default_is_transparent.
Print Assumptions C02_meaning_independent_of_overrides.
Print Assumptions C03_integer_arrives_exactly.
Print Assumptions C03_integer_arrives_as_i64_when_it_fits.
Print Assumptions C04_computed_only_weakens_borrows.
Print Assumptions C04_value_computed_only_weakens_borrows.
Print Assumptions C04_no_borrow_escapes.
Print Assumptions C05_forwarding_is_transparent.
