(** * NestedErrProps: the error of a nested stream (C79) *)

From Verif Require Import Base Event Tree LowerModel LowerSpec FlatProofs FragModel BufferSpec BufferModel BufErrModel
  NestedModel NestedSpec NestedProofs NestedWhole NestedProps NestedErrModel NestedErrSpec NestedErrProofs.

(** ** Values that mirror: the first error of the user's own stream

    For every value that streams something well-formed, through whatever calls of
    [value] and [value_computed], and every nested stream: the outcome is exactly that of
    the calls that mirror the value, the error of the first that fails included, but for
    errors met while the variant of an enum is handed over through [value] or
    [value_computed]: these say "failed to stream value". *)
Theorem C79_error_exactly :
  forall S a comp, only_calls_closures S -> handled1 (mirror (tree_of a)) = true ->
  xanswer S (hidden_in comp a) (mirror (tree_of a)) (nested_got S comp (acalls a)).
Proof. intros S a comp C H. apply nested_answers; assumption. Qed.

(** ** Enums that are refused: what is said, once the enum began *)
Theorem C79_refused_exactly :
  forall S a comp t l i r, only_calls_closures S ->
  mirror (tree_of a) = REnum t l i r -> handled1 (REnum t l i r) = false ->
  exists l', okept l' = l /\
    nested_got S comp (acalls a) =
      e <= x_enum_begin S t l' i ;;
      if too_deep (REnum t l i r) then GPanic else GErr (NInvalid (refused_as comp a)).
Proof.
  intros S a comp t l i r C E H. destruct (too_deep (REnum t l i r)) eqn:D.
  - apply (nested_panics S a comp t l i r E D).
  - apply (nested_refuses S a comp t l i r E H D).
Qed.

(** ** Errors of one kind *)
Section Kinds.
  Variable P : nerr -> Prop.
  Lemma errs_bind {A B} (o : got A) (k : A -> got B) : errs P o -> (forall a, errs P (k a)) -> errs P (gbind o k).
  Proof. intros H K e E. destruct o as [a|e'|]; cbn in E; [apply (K a e E)|apply H; congruence|discriminate E]. Qed.
  Lemma errs_fold {St A} (f : St -> A -> got St) l : (forall s x, errs P (f s x)) -> forall s, errs P (fold_x f s l).
  Proof. intros H. induction l as [|x l IH]; intros s; [intros e E; discriminate E|]. apply errs_bind; [apply H|exact IH]. Qed.
  Variable S : xstream.
  Hypothesis F : fails_with P S.
  Lemma variant_errs r : forall g, xvariant_answer S r g -> forall e, errs P (g e).
  Proof.
    induction r; cbn [xvariant_answer]; intros g Hg e; try contradiction.
    - destruct Hg as (l' & _ & Hg). rewrite Hg. apply (fw_enum_tag _ _ F).
    - destruct Hg as (l' & a & _ & _ & Hg). rewrite Hg. apply (fw_enum_tagged _ _ F).
    - destruct Hg as (l' & g' & _ & V & Hg). rewrite Hg. apply (fw_enum_nested _ _ F). apply IHr, V.
    - destruct Hg as (l' & args & _ & _ & Hg). rewrite Hg. apply errs_bind; [apply (fw_enum_record_begin _ _ F)|]. intros s.
      apply errs_bind; [apply errs_fold; intros s' [[xt xl] a]; apply (fw_vrecord_value _ _ F)|]. apply (fw_vrecord_end _ _ F).
    - destruct Hg as (l' & args & _ & _ & Hg). rewrite Hg. apply errs_bind; [apply (fw_enum_tuple_begin _ _ F)|]. intros s.
      apply errs_bind; [apply errs_fold; intros s' [[xt xl] a]; apply (fw_vtuple_value _ _ F)|]. apply (fw_vtuple_end _ _ F).
  Qed.
  Lemma answer_errs h r o : xanswer S h r o -> forall e, o = GErr e -> P e \/ h = true /\ e = NInvalid (bs "failed to stream value").
  Proof.
    assert (L : forall o : got (x_ok S), errs P o -> forall e, o = GErr e -> P e \/ h = true /\ e = NInvalid (bs "failed to stream value")) by (intros o' H e E; left; apply H, E).
    destruct r; cbn [xanswer]; intros Ho.
    - subst. apply L, (fw_null _ _ F).
    - subst. apply L, (fw_bool _ _ F).
    - subst. apply L, (fw_int _ _ F).
    - subst. apply L, (fw_f32 _ _ F).
    - subst. apply L, (fw_f64 _ _ F).
    - destruct Ho as (b & ->). apply L, (fw_text _ _ F).
    - destruct Ho as (b & ->). apply L, (fw_bin _ _ F).
    - destruct Ho as (l' & _ & ->). apply L, (fw_tag _ _ F).
    - destruct Ho as (l' & a & _ & _ & ->). apply L, (fw_tagged _ _ F).
    - destruct Ho as (l' & g & _ & V & ->). intros e E. pose proof (fw_enum_begin _ _ F t l' i) as B.
      destruct (x_enum_begin S t l' i) as [s|e'|]; cbn [gbind] in E; [|left; apply B; congruence|discriminate E].
      pose proof (variant_errs _ _ V s) as G. destruct (g s) as [x|e'|]; cbn [hide] in E; try discriminate E.
      destruct h; [right; split; congruence|left; apply G; congruence].
    - destruct Ho as (args & _ & ->). apply L. apply errs_bind; [apply (fw_seq_begin _ _ F)|]. intros s.
      apply errs_bind; [apply errs_fold, (fw_seq_value _ _ F)|apply (fw_seq_end _ _ F)].
    - destruct Ho as (args & _ & ->). apply L. apply errs_bind; [apply (fw_map_begin _ _ F)|]. intros s.
      apply errs_bind; [|apply (fw_map_end _ _ F)]. apply errs_fold. intros s' [a b].
      apply errs_bind; [apply (fw_map_key _ _ F)|]. intros; apply (fw_map_value _ _ F).
    - destruct Ho as (l' & args & _ & _ & ->). apply L. apply errs_bind; [apply (fw_record_begin _ _ F)|]. intros s.
      apply errs_bind; [|apply (fw_record_end _ _ F)]. apply errs_fold. intros s' [[xt xl] a]. apply (fw_record_value _ _ F).
    - destruct Ho as (l' & args & _ & _ & ->). apply L. apply errs_bind; [apply (fw_tuple_begin _ _ F)|]. intros s.
      apply errs_bind; [|apply (fw_tuple_end _ _ F)]. apply errs_fold. intros s' [[xt xl] a]. apply (fw_tuple_value _ _ F).
  Qed.
End Kinds.

(** The full claim: for a value that mirrors, any error is one of the user's stream. *)
Definition C79_users_error : Prop :=
  forall P S v t comp e, only_calls_closures S -> fails_with P S -> whole v -> streams v t -> handled1 (mirror t) = true ->
  nested_got S comp v = GErr e -> P e.
(** Missing: variants of enums handed over through [value] or [value_computed]. *)
Theorem C79_users_error_partial :
  forall P S a comp e, only_calls_closures S -> fails_with P S -> handled1 (mirror (tree_of a)) = true ->
  hidden_in comp a = false ->
  nested_got S comp (acalls a) = GErr e -> P e.
Proof.
  intros P S a comp e C F H Hh E. pose proof (C79_error_exactly S a comp C H) as A. rewrite Hh in A.
  destruct (answer_errs P S F _ _ _ A e E) as [X|(X & _)]; [exact X|discriminate X].
Qed.
Lemma direct_shown a : forall comp, Forall (fun c => exists e, c = CE e) (acalls a) -> hidden_in comp a = false /\ by_value comp a = false.
Proof.
  induction a using atree_ind'; intros comp D; cbn [hidden_in by_value]; auto.
  - exfalso. destruct b; cbn [acalls] in D; inversion D as [|x y (e & E) _]; discriminate E.
  - cbn [acalls] in D. apply IHa. inversion D; assumption.
  - cbn [acalls] in D. inversion D as [|x y _ D']. subst. apply Forall_app in D'. destruct (IHa comp (proj1 D')) as (_ & X). auto.
Qed.
(** Values that call the stream directly are not among the missing ones. *)
Theorem C79_direct_values :
  forall P S t comp e, only_calls_closures S -> fails_with P S -> handled1 (mirror t) = true ->
  nested_got S comp (map CE (emit t)) = GErr e -> P e.
Proof.
  intros P S t comp e C F H E. destruct (whole_atree (map CE (emit t)) t (whole_events _) (streams_events _)) as (a & Ea & _ & Ta).
  rewrite <- Ta, stree_mirror in H. rewrite Ea in E. apply (C79_users_error_partial P S a comp e C F H); [|exact E].
  apply direct_shown. rewrite <- Ea. apply Forall_forall. intros c I. apply in_map_iff in I. destruct I as (x & <- & _). exists x. reflexivity.
Qed.
(** Whatever is streamed, if it is well-formed, any other error has one of four texts. *)
Theorem C79_errors_of_the_crate :
  forall P S v t comp e, only_calls_closures S -> fails_with P S -> whole v -> streams v t ->
  nested_got S comp v = GErr e -> ~ P e ->
  nerr_source e = None /\
  In (nerr_text e)
    [bs "the value is invalid: failed to stream value";
     bs "the value is invalid: sequences cannot be used as enum variants";
     bs "the value is invalid: maps cannot be used as enum variants";
     bs "the value is invalid: cannot stream an enum; the stream is in an invalid state"].
Proof.
  intros P S v t comp e C F W St E NP. destruct (whole_atree v t W St) as (a & -> & _ & Ta).
  assert (R : forall a comp, In (refusal comp a)
    [bs "failed to stream value"; bs "sequences cannot be used as enum variants"; bs "maps cannot be used as enum variants";
     bs "cannot stream an enum; the stream is in an invalid state"]).
  { clear. induction a using atree_ind'; intros comp; cbn [refusal]; try (cbn [In]; auto 10; fail); try apply IHa. destruct b; [destruct comp; [apply IHa|]|]; cbn [In]; auto. }
  assert (RA : forall a comp t l i r, mirror (tree_of a) = REnum t l i r -> In (refused_as comp a)
    [bs "failed to stream value"; bs "sequences cannot be used as enum variants"; bs "maps cannot be used as enum variants";
     bs "cannot stream an enum; the stream is in an invalid state"]).
  { clear - R. induction a using atree_ind'; intros comp t' l' i' r E; try discriminate E; cbn [refused_as].
    - eapply IHa, E.
    - eapply IHa, E.
    - apply R. }
  assert (T : forall x, In x [bs "failed to stream value"; bs "sequences cannot be used as enum variants"; bs "maps cannot be used as enum variants";
     bs "cannot stream an enum; the stream is in an invalid state"] -> nerr_source (NInvalid x) = None /\ In (nerr_text (NInvalid x))
    [bs "the value is invalid: failed to stream value"; bs "the value is invalid: sequences cannot be used as enum variants";
     bs "the value is invalid: maps cannot be used as enum variants"; bs "the value is invalid: cannot stream an enum; the stream is in an invalid state"]).
  { intros x I. split; [reflexivity|]. cbn [In] in I. destruct I as [<-|[<-|[<-|[<-|[]]]]]; cbn [In nerr_text]; auto 10. }
  destruct (handled1 (mirror (tree_of a))) eqn:H.
  - destruct (answer_errs P S F _ _ _ (C79_error_exactly S a comp C H) e E) as [X|(_ & ->)]; [contradiction|]. apply T. left; reflexivity.
  - destruct (mirror (tree_of a)) eqn:M; try discriminate H.
    destruct (C79_refused_exactly S a comp _ _ _ _ C M H) as (l' & _ & O). rewrite E in O.
    pose proof (fw_enum_begin _ _ F t0 l' i) as B. destruct (x_enum_begin S t0 l' i) as [s|e'|]; cbn [gbind] in O; [| |discriminate O].
    + destruct (too_deep _); [discriminate O|]. injection O as ->. apply T. eapply RA, M.
    + injection O as ->. exfalso. apply NP, B. reflexivity.
Qed.
(** Whether the value itself fails, once it has made its calls, changes nothing: only what
    it streamed counts.  A value that streams nothing, or stops too early, is reported as incomplete. *)
Theorem C79_own_failure_ignored : forall S comp v, nested_got S comp (v ++ [CFail]) = nested_got S comp v.
Proof.
  intros S comp v. unfold nested_got. rewrite xfs_calls_app. destruct (xfs_calls false v comp xfs_new); reflexivity.
Qed.
Theorem C79_nothing_streamed : forall S comp, nested_got S comp [] = GErr (NInvalid (bs "incomplete stream")).
Proof. reflexivity. Qed.
Theorem C79_unfinished_sequence : forall S n s vs, x_seq_begin S n = GOk s ->
  (forall s a, exists s', x_seq_value S s a = GOk s') ->
  nested_got S false (CE (ESeqBegin n) :: map CV vs) = GErr (NInvalid (bs "incomplete stream")).
Proof.
  intros S n s vs B V. unfold nested_got. rewrite xfs_calls_cons.
  replace (xfs_call false (CE (ESeqBegin n)) false xfs_new) with (Ok (MkXF (S := S) None (XSeq s))) by (cbv -[x_seq_begin]; rewrite B; reflexivity).
  cbn [bind]. clear B. revert s. induction vs as [|v vs IH]; intros s; [reflexivity|]. cbn [map]. rewrite xfs_calls_cons, xfs_call_CV.
  unfold xfs_value, xbuffer_or_with. cbn [x_buf x_state xstate_value]. destruct (V s (negb false, v)) as (s' & ->). apply IH.
Qed.
(** All errors are told apart by their text and source, and only failing buffers have a source. *)
Theorem C79_messages :
  (forall e k, nerr_source e = Some k <-> e = NBuffer k) /\
  (forall e k, nerr_source e = Some k -> nerr_text e = bs "failed to buffer a value") /\
  (forall e, nerr_source e = None -> exists reason, e = NInvalid reason /\ nerr_text e = bs "the value is invalid: " ++ reason) /\
  (forall e e', nerr_text e = nerr_text e' -> nerr_source e = nerr_source e' -> e = e').
Proof.
  split; [intros [k|r] k'; split; intros H; try discriminate H; injection H as ->; reflexivity|].
  split; [intros [k|r] k' H; [reflexivity|discriminate H]|].
  split; [intros [k|r] H; [discriminate H|exists r; split; reflexivity]|].
  intros [k|r] [k'|r'] T So; try discriminate T; try discriminate So.
  - injection So as ->. reflexivity.
  - cbn in T. f_equal. change (bs "the value is invalid: " ++ r = bs "the value is invalid: " ++ r') in T. exact (app_inv_head _ _ _ T).
Qed.

(** ** Calls out of order *)
Theorem C79_out_of_order :
  forall S comp t l i n f j b es text rest, obliging S -> In (es, text) (out_of_order t l i n f j b) ->
  nested_got S comp (map CE es ++ rest) = GErr (NInvalid text).
Proof.
  intros S comp t l i n f j b es text rest (N & M & T & R & E & ET & ER) I. unfold nested_got. rewrite xfs_calls_app.
  assert (X : exists f', xfs_calls (S := S) false (map CE es) comp xfs_new = Err f' /\ xfinish f' = GErr (NInvalid text)).
  2:{ destruct X as (f' & -> & X). exact X. }
  assert (C : forall a z (p : ev), xfs_calls (S := S) false (map CE (p :: a)) comp z = (xfs_step z (if comp then computed p else p) >>= xfs_calls false (map CE a) comp)) by reflexivity.
  destruct N as (x & N).
  repeat (destruct I as [I|I]; [injection I as <- <-|]); try contradiction I; rewrite ?C;
    destruct comp; cbn [computed];
    unfold xfs_step, xfs_own, xbuffer_or_with, xbuffer_or_begin, xbuffer_or_end, xbuffer_or_value, xstate_value, xfs_new; cbn [x_buf x_state];
    try (eexists; split; reflexivity).
  all: try (destruct (M n) as (s & Es); rewrite Es; eexists; split; reflexivity).
  all: try (destruct (T t (cloned l) i n) as (s & Es); rewrite Es; eexists; split; reflexivity).
  all: try (destruct (R t (cloned l) i n) as (s & Es); rewrite Es; eexists; split; reflexivity).
  all: try (rewrite N; eexists; split; reflexivity).
  1-2: destruct (E t (cloned l) i) as (s & Es); rewrite Es; cbn [gbind xlift xcatch bind]; rewrite C; cbn [computed];
    unfold xfs_step, xfs_own, xbuffer_or_begin; cbn [x_buf x_state]; unfold xe_tuple_begin; cbn [xe_queue xe_new xe_stream];
    destruct (ET s t (cloned l) i n) as (s' & ->); eexists; split; reflexivity.
  1-2: destruct (E t (cloned l) i) as (s & Es); rewrite Es; cbn [gbind xlift xcatch bind]; rewrite C; cbn [computed];
    unfold xfs_step, xfs_own, xbuffer_or_begin; cbn [x_buf x_state]; unfold xe_record_begin; cbn [xe_queue xe_new xe_stream];
    destruct (ER s t (cloned l) i n) as (s' & ->); eexists; split; reflexivity.
Qed.

(** ** A concrete case: a stream that refuses texts, but takes fields *)
Definition my_error : nerr := NInvalid (bs "not today").
Definition no_text : xstream :=
  {| x_ok := list arg; x_seq := list arg; x_map := list arg; x_tuple := list arg; x_record := list arg;
     x_enum := list arg; x_vtuple := list arg; x_vrecord := list arg;
     x_null := GOk []; x_bool _ := GOk []; x_int _ _ := GOk []; x_f32 _ := GOk []; x_f64 _ := GOk [];
     x_text _ _ := GErr my_error; x_bin _ _ := GOk []; x_tag _ _ _ := GOk [];
     x_tagged _ _ _ a := GOk [a];
     x_seq_begin _ := GOk []; x_map_begin _ := GOk []; x_tuple_begin _ _ _ _ := GOk []; x_record_begin _ _ _ _ := GOk [];
     x_enum_begin _ _ _ := GOk [];
     x_seq_value s a := GOk (a :: s); x_seq_end s := if Nat.eqb (length s) 2 then GErr my_error else GOk s;
     x_map_key s a := GOk (a :: s); x_map_value s _ := GOk s; x_map_end s := GOk s;
     x_tuple_value s _ _ a := GOk (a :: s); x_tuple_end s := GOk s;
     x_record_value s _ _ a := GOk (a :: s); x_record_end s := GOk s;
     x_enum_tag s _ _ _ := GErr my_error; x_enum_tagged s _ _ _ a := GOk (a :: s);
     x_enum_tuple_begin s _ _ _ _ := GOk s; x_enum_record_begin s _ _ _ _ := GOk s;
     x_enum_nested e _ _ _ k := k e; x_enum_empty s := GOk s;
     x_vtuple_value s _ _ a := GOk (a :: s); x_vtuple_end s := GOk s;
     x_vrecord_value s _ _ a := GOk (a :: s); x_vrecord_end s := GOk s |}.
Lemma no_text_closures : only_calls_closures no_text.
Proof. intros e t l i k k' H. apply H. Qed.
Lemma no_text_fails : fails_with (fun e => e = my_error) no_text.
Proof.
  constructor; intros; try (intros er Er; cbn in Er; congruence).
  - intros er Er. cbn in Er. destruct (Nat.eqb (length s) 2); congruence.
  - intros er Er. cbn in Er. exact (H e er Er).
Qed.

Theorem C79_users_error_refuted : ~ C79_users_error.
Proof.
  intros H. set (a := AEnum None None None (AVal true (ATag None None None))).
  assert (X : NInvalid (bs "failed to stream value") = my_error); [|discriminate X].
  apply (H (fun e => e = my_error) no_text (acalls a) (tree_of a) false (NInvalid (bs "failed to stream value")) no_text_closures no_text_fails);
    [|reflexivity|reflexivity|reflexivity].
  unfold whole, a. cbn [acalls app]. constructor; [constructor|]. constructor; [|repeat constructor].
  apply (whole_value _ (TTag None None None)); [repeat constructor|reflexivity].
Qed.
Example C79_out_of_order_applies : obliging no_text /\
  nested_got no_text false [CE (ETextBegin None); CE (EBinFrag (bs "x")); CE ENull] =
    GErr (NInvalid (bs "cannot buffer binary; no active binary buffer")).
Proof.
  split; [repeat split; intros; eexists; reflexivity|].
  apply (C79_out_of_order no_text false None None None None (label_new (bs "")) (index_new 0%Z) (bs "x") [ETextBegin None; EBinFrag (bs "x")] _ [CE ENull]).
  - repeat split; intros; eexists; reflexivity.
  - cbn [In out_of_order]. auto 40.
Qed.
Example C79_applies :
  let a := ASeq false None [ANull; AVal true (AText None [(true, bs "x")])] in
  handled1 (mirror (tree_of a)) = true /\ hidden_in false a = false /\ nested_got no_text false (acalls a) = GErr my_error.
Proof. repeat split. Qed.
Example C79_direct_enum_applies :
  let a := AEnum None None None (ATag None None None) in
  hidden_in false a = false /\ nested_got no_text false (acalls a) = GErr my_error.
Proof. repeat split. Qed.
Example C79_refused_applies :
  let a := AEnum None None None (AEnum None None None (ASeq false None [ANull])) in
  handled1 (mirror (tree_of a)) = false /\
  nested_got no_text false (acalls a) = GErr (NInvalid (bs "sequences cannot be used as enum variants")).
Proof. repeat split. Qed.
Example C79_unfinished_applies :
  nested_got no_text false (CE (ESeqBegin None) :: map CV [[CE ENull]; [CFail]]) = GErr (NInvalid (bs "incomplete stream")).
Proof. apply (C79_unfinished_sequence no_text None []); [reflexivity|]. intros s a. eexists. reflexivity. Qed.

Print Assumptions C79_error_exactly.
Print Assumptions C79_refused_exactly.
Print Assumptions C79_users_error_partial.
Print Assumptions C79_direct_values.
Print Assumptions C79_users_error_refuted.
Print Assumptions C79_errors_of_the_crate.
Print Assumptions C79_own_failure_ignored.
Print Assumptions C79_nothing_streamed.
Print Assumptions C79_unfinished_sequence.
Print Assumptions C79_messages.
Print Assumptions C79_out_of_order.
