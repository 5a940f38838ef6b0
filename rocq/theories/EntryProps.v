(** * EntryProps: exactly what a map entry is written as (C27) *)

From Verif Require Import Base Event Tree LowerModel MethProofs LowerSpec JsonModel JsonGrammar JsonSpec JsonMethProofs JsonProofs JsonProps JsonLocalProofs JsonLocalProps
  JsonTextSpec JsonTextProofs WrittenSpec.

(** The name that a value standing inside an enum writes first. *)
Fixpoint name_before (v : tree) : bytes :=
  match v with
  | THint _ v => name_before v
  | TTagged _ l i _ | TEnum _ l i _ | TRecord _ l i _ _ | TTuple _ l i _ _ | TRecTup _ l i _ _ => opening true l i
  | _ => []
  end.
(** It cannot write it where the text is kept without quotes. *)
Fixpoint nameless (v : tree) : bool :=
  match v with
  | THint _ v => nameless v
  | v => named_unquoted v
  end.

Lemma no_name v : takes_name v = false -> name_before v = [].
Proof.
  induction v using tree_ind'; cbn [takes_name name_before]; intros T; try reflexivity; auto;
    unfold opening; unfold is_named in T; (destruct (name_of l i); [discriminate T|reflexivity]).
Qed.

Section Proofs.
  Variable r32 r64 : float -> bytes.
  Notation step := (json_step bytes string_write r32 r64).
  Notation jm := (meth json_over step).
  Notation J := (run jm).

  Lemma name_open_opening l i : name_open l i = opening true l i.
  Proof. unfold name_open, opening. destruct (name_of l i); [rewrite json_string_esc|]; reflexivity. Qed.

  Lemma opens v cde out : takes_name v = true -> nameless v = false ->
    exists cde', J (st true cde out) (emit v) = J (st false cde' (out ++ name_before v)) (emit v).
  Proof.
    induction v using tree_ind'; cbn [takes_name nameless name_before named_unquoted emit]; intros T N; try discriminate T.
    - destruct (IHv T N) as (c & E). exists c. rewrite !run_cons.
      assert (X : forall f, jm f (ETagHint t) = Ok f) by reflexivity. rewrite !X. cbn [bind]. exact E.
    - exists cde. rewrite !run_cons, !jm_over by reflexivity. cbn [json_step]. unfold j_tagged_begin, is_raw in *. rewrite T, andb_true_r in N.
      rewrite <- name_open_opening. destruct (otag_is t JSON_TEXT); cbn [orb negb] in N; [|rewrite andb_true_r in N; apply orb_false_iff in N as (N & ->); apply orb_false_iff in N as (-> & ->)].
      + destruct (itb_true l i cde (Some HNative) out) as (c & E). unfold st, set_th. cbn [f_it f_cde f_tq f_err f_out]. rewrite E, itb_skip by (left; reflexivity). reflexivity.
      + destruct (itb_true l i cde None out) as (c & E). unfold st. rewrite E, itb_skip by (left; reflexivity). reflexivity.
    - exists cde. rewrite !run_cons, !jm_over by reflexivity. cbn [json_step]. unfold j_enum_begin.
      rewrite (itb_skip _ _ (st false _ _)) by (left; reflexivity). destruct (itb_true l i cde None out) as (c & E). unfold st at 1. rewrite E, name_open_opening. reflexivity.
    - exists cde. rewrite !run_cons, !jm_over by reflexivity. cbn [json_step]. unfold j_record_begin.
      rewrite (itb_skip _ _ (st false _ _)) by (left; reflexivity). destruct (itb_true l i cde None out) as (c & E). unfold st at 1. rewrite E, name_open_opening. reflexivity.
    - exists cde. rewrite !run_cons, !jm_over by reflexivity. cbn [json_step]. unfold j_tuple_begin.
      rewrite (itb_skip _ _ (st false _ _)) by (left; reflexivity). destruct (itb_true l i cde None out) as (c & E). unfold st at 1. rewrite E, name_open_opening. reflexivity.
    - exists cde. rewrite !run_cons, !jm_rectup_begin. unfold j_record_begin.
      rewrite (itb_skip _ _ (st false _ _)) by (left; reflexivity). destruct (itb_true l i cde None out) as (c & E). unfold st at 1. rewrite E, name_open_opening. reflexivity.
  Qed.

  Lemma cannot_open v cde out : nameless v = true -> exists g, J (st true cde out) (emit v) = Err g /\ f_err g = Some EInvalidKey.
  Proof.
    induction v using tree_ind'; cbn [nameless named_unquoted emit]; intros N; try discriminate N.
    - destruct (IHv N) as (g & E). exists g. rewrite run_cons.
      assert (X : forall f, jm f (ETagHint t) = Ok f) by reflexivity. rewrite X. exact E.
    - rewrite run_cons, jm_over by reflexivity. cbn [json_step]. unfold j_tagged_begin, is_raw in *.
      apply andb_prop in N as (N & Nm). apply andb_prop in N as (N & A). apply negb_true_iff in A. rewrite A in *. cbn [orb] in N.
      assert (F : forall f, f_it f = true -> f_tq f = false -> exists g, internally_tagged_begin bytes string_write l i f = Err g /\ f_err g = Some EInvalidKey).
      { clear - Nm. intros f I Q. unfold internally_tagged_begin. rewrite I. unfold is_named in Nm. rewrite index_i64_named in Nm.
        unfold tagged_map_begin_label, tagged_map_begin_index, j_map_begin, invalid_key. cbn [f_tq set_it]. rewrite Q.
        destruct l; [eexists; split; reflexivity|]. destruct (index_i64 i); [eexists; split; reflexivity|discriminate]. }
      destruct (otag_is t JSON_VALUE); [|destruct (otag_is t NUMBER); [|destruct (otag_is t JSON_NUMBER); [|discriminate N]]];
        cbn [st f_th set_tq set_th f_it f_cde f_tq f_err f_out];
        (edestruct F as (g & E & E2); [| |rewrite E; exists g; split; [reflexivity|exact E2]]; reflexivity).
  Qed.
End Proofs.

(** What is written for every entry with a key that can be one.  After a key that
    is a named enum or tagged value, the value is written as if it stood inside an
    enum, but nothing closes the brace.  A number or a piece of JSON with a name of
    its own cannot be written there. *)
Theorem C27_entry_exactly :
  forall r32 r64, json_printer r32 -> json_printer r64 ->
  forall k v s, key_text r32 r64 false k = Some s ->
  entry_alone r32 r64 (k, v)
    (if key_leaks k && nameless v then SErr EInvalidKey
     else after (quoted (esc s) ++ bs ":" ++ (if key_leaks k then name_before v else [])) (alone r32 r64 v)).
Proof.
  intros r32 r64 P32 P64 k v s K. apply entry_alone_is. rewrite (entry_split r32 r64 P32 P64 k v s K), run_app.
  destruct (key_leaks k && nameless v) eqn:C.
  { apply andb_prop in C as (-> & C). destruct (cannot_open r32 r64 v false (quoted (esc s) ++ bs ":") C) as (g & -> & E). cbn [bind sres]. unfold err_of. rewrite E. reflexivity. }
  assert (X : yields r32 r64 (st (key_leaks k) false (quoted (esc s) ++ bs ":")) (emit v)
      (quoted (esc s) ++ bs ":" ++ (if key_leaks k then name_before v else [])) (alone r32 r64 v)).
  { destruct (key_leaks k) eqn:L; cbn [andb] in C.
    - destruct (takes_name v) eqn:T.
      + destruct (opens r32 r64 v false (quoted (esc s) ++ bs ":") T C) as (c & E). rewrite <- app_assoc in E. unfold yields. rewrite E. apply (local r32 r64).
      + rewrite (no_name v T), app_nil_r. apply local_it. exact T.
    - rewrite app_nil_r. apply local. }
  unfold yields in X. destruct (alone r32 r64 v).
  - destruct X as (it & ->). cbn [bind after]. rewrite run_one, jm_over by reflexivity. rewrite <- !app_assoc. reflexivity.
  - destruct X as (g & -> & <-). reflexivity.
  - rewrite X. reflexivity.
Qed.
(** So the value is written as on its own exactly if the key leaves no name behind
    or the value has no name. *)
Theorem C27_values_do_not_depend_on_keys_exactly :
  forall r32 r64, json_printer r32 -> json_printer r64 ->
  forall k v s x, key_text r32 r64 false k = Some s -> alone r32 r64 v = SOk x ->
  (entry_alone r32 r64 (k, v) (after (quoted (esc s) ++ bs ":") (alone r32 r64 v)) <-> key_leaks k && takes_name v = false).
Proof.
  intros r32 r64 P32 P64 k v s x K A. split; [|apply C27_values_do_not_depend_on_keys_partial; assumption].
  intros E. pose proof (C27_entry_exactly r32 r64 P32 P64 k v s K) as X.
  apply entry_alone_is in E, X. rewrite <- E in X. clear E. rewrite A in X. cbn [after] in X.
  destruct (key_leaks k && nameless v); [discriminate X|]. destruct (key_leaks k); [|reflexivity].
  apply (f_equal (fun r => match r with SOk y => length y | _ => 0%nat end)) in X. cbv beta iota in X. rewrite !app_length in X. cbn [andb].
  assert (Z : length (name_before v) = 0%nat) by lia. clear - Z.
  induction v using tree_ind'; cbn [takes_name name_before] in *; try reflexivity; auto;
    unfold opening in Z; unfold is_named; (destruct (name_of l i); [discriminate Z|reflexivity]).
Qed.
(** A tagged value that is not a number or a piece of JSON is written as what is
    inside. *)
Theorem C27_tagged :
  forall r32 r64 v t l i x, streams v (TTagged t l i x) -> is_raw t = false ->
  json_to_string r32 r64 v = alone r32 r64 x.
Proof.
  intros r32 r64 v t l i x H N. rewrite (to_string_alone _ _ _ _ H), (alone_run r32 r64 (TTagged t l i x)). cbn [emit].
  unfold is_raw in N. apply orb_false_iff in N as (N & N4). apply orb_false_iff in N as (N & N3). apply orb_false_iff in N as (N1 & N2).
  rewrite run_cons, jm_over by reflexivity. cbn [json_step]. unfold j_tagged_begin. rewrite N1, N2, N3, N4, itb_skip by (left; reflexivity). cbn [bind].
  change (set_cde bytes true (set_it bytes false (st false true []))) with (st false true []). rewrite run_app.
  pose proof (local r32 r64 x true []) as L. unfold yields in L. destruct (alone r32 r64 x).
  - destruct L as (it & ->). cbn [bind app]. rewrite run_one, jm_over by reflexivity. cbn [json_step]. unfold j_tagged_end. rewrite N1, N2, N3, N4. reflexivity.
  - destruct L as (g & -> & <-). reflexivity.
  - rewrite L. reflexivity.
Qed.
Example C27_entry_cases :
  let k := TEnum None (lab "E") None (TTag None (lab "A") None) in
  key_leaks k = true /\ key_text exact_print exact_print false k = Some (bs "A") /\
  alone exact_print exact_print (TMap None [(k, TTuple None (lab "S") None None [(None, index_new 0, TInt U8 1)])]) = SOk (bs "{""A"":{""S"":[1]}") /\
  alone exact_print exact_print (TMap None [(k, TTagged (Some NUMBER) (lab "Big") None (txt "5"))]) = SErr EInvalidKey /\
  alone exact_print exact_print (TMap None [(k, TTagged (Some NUMBER) None None (txt "5"))]) = SOk (bs "{""A"":5}").
Proof. vm_compute. repeat split. Qed.

Print Assumptions C27_entry_exactly.
Print Assumptions C27_tagged.
Print Assumptions C27_values_do_not_depend_on_keys_exactly.
