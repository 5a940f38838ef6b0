(** * TokenProps: C44, recorded tokens replay to themselves *)

From Verif Require Import Base DataModel Event Tree TokenModel TokenSpec.
From Verif Require Import FragModel BufferModel BufferSpec BufferProps.

(** ** What a token buffer records *)

(** The token of one call. *)
Lemma records e : exists t, (forall ts, tokens_step ts e = Ok (ts ++ [t])) /\
  token_call t = CE (with_labels kept_label e).
Proof.
  assert (L : forall l, label_to_owned l = kept_label l).
  { intros [x [] g]; reflexivity. }
  assert (LO : forall l, own l = option_map kept_label l).
  { intros [l|]; cbn; [rewrite L|]; reflexivity. }
  destruct e; eexists; (split; [intros ts; reflexivity|]); cbn [token_call with_labels]; rewrite ?L, ?LO; reflexivity.
Qed.
Lemma call_inj t u : token_call t = token_call u -> t = u.
Proof. destruct t, u; cbn; congruence. Qed.
Lemma call_is_event t : exists e, token_call t = CE e.
Proof. destruct t; eexists; reflexivity. Qed.

Lemma run_records es : forall ts, exists ts',
  run tokens_step ts es = Ok (ts ++ ts') /\ as_value ts' = map CE (map (with_labels kept_label) es).
Proof.
  induction es as [|e es IH]; intros ts.
  - exists []. rewrite app_nil_r. split; reflexivity.
  - destruct (records e) as (t & S & C). destruct (IH (ts ++ [t])) as (ts' & R & V).
    exists (t :: ts'). cbn [run]. rewrite S. cbn [bind]. rewrite R, <- app_assoc. split; [reflexivity|].
    cbn. rewrite C. unfold as_value in V. rewrite V. reflexivity.
Qed.
Lemma flat_events es : flat (map CE es) false = (es, true).
Proof. induction es as [|e es IH]; [reflexivity|]. cbn. rewrite IH. reflexivity. Qed.
Lemma as_value_inj a b : as_value a = as_value b -> a = b.
Proof.
  revert b. induction a as [|t a IH]; intros [|u b] H; try discriminate; [reflexivity|].
  cbn in H. injection H as H1 H2. apply call_inj in H1. apply IH in H2. congruence.
Qed.
Lemma kept_twice e : with_labels kept_label (with_labels kept_label e) = with_labels kept_label e.
Proof.
  assert (L : forall l, kept_label (kept_label l) = kept_label l) by (intros [x [] g]; reflexivity).
  assert (LO : forall l, option_map kept_label (option_map kept_label l) = option_map kept_label l).
  { intros [l|]; cbn; rewrite ?L; reflexivity. }
  destruct e; cbn [with_labels]; rewrite ?L, ?LO; reflexivity.
Qed.

(** Every value, well-formed or not, failing or not: the buffer ends with the
    tokens of the calls the value made, and streaming those tokens makes the same
    calls in the same order, each label as an owned copy of itself. *)
Theorem C44_recorded_calls :
  forall v es ok, flat v false = (es, ok) -> exists ts,
    stream_value tokens_step [] v = (if ok then Ok ts else Err ts) /\
    flat (as_value ts) false = (map (with_labels kept_label) es, true).
Proof.
  intros v es ok H. destruct (run_records es []) as (ts & R & V). exists ts.
  unfold stream_value. rewrite H, R. cbn [app bind]. split; [reflexivity|].
  rewrite V. apply flat_events.
Qed.

(** Replaying is the identity. *)
Theorem C44_replay_is_identity :
  forall v ts, stream_value tokens_step [] v = Ok ts ->
  stream_value tokens_step [] (as_value ts) = Ok ts.
Proof.
  intros v ts H. destruct (flat v false) as [es ok] eqn:F.
  destruct (run_records es []) as (us & R & V). unfold stream_value in H. rewrite F, R in H. cbn [app bind] in H.
  destruct ok; [|discriminate]. injection H as <-.
  unfold stream_value. rewrite V, flat_events.
  destruct (run_records (map (with_labels kept_label) es) []) as (ws & R' & V').
  rewrite R'. cbn [app bind]. f_equal. apply as_value_inj. rewrite V, V'. f_equal.
  rewrite map_map. apply map_ext. intros e. apply kept_twice.
Qed.

(** ** Comparing tokens *)

Lemma oeqb_spec {A} (eq : A -> A -> bool) (same : A -> A -> Prop)
  (E : forall a b, eq a b = true <-> same a b) a b : oeqb eq a b = true <-> same_opt same a b.
Proof. destruct a, b; cbn; rewrite ?E; intuition congruence. Qed.
Lemma same_opt_eq {A} (a b : option A) : same_opt (@eq A) a b <-> a = b.
Proof. destruct a, b; cbn; split; intros H; try congruence; try tauto; try discriminate. Qed.
Lemma oeqb_eq {A} (eq : A -> A -> bool) (E : forall a b, eq a b = true <-> a = b) a b :
  oeqb eq a b = true <-> a = b.
Proof. rewrite (oeqb_spec eq Logic.eq E). apply same_opt_eq. Qed.
Lemma float_eqb_spec a b : float_eqb a b = true <-> same_float a b.
Proof.
  unfold float_eqb, SFeqb, same_float.
  destruct a as [s|s| |s m e], b as [s'|s'| |s' m' e'].
  16: cbn [SFcompare].
  1-15: (try destruct s; try destruct s'; cbn; split; intros H; first [reflexivity|discriminate H|destruct H|exact Logic.I|idtac]).
  - split.
    + intros H. destruct s, s'; try discriminate;
        destruct (Z.compare_spec e e') as [X|X|X]; try discriminate;
        destruct (Pos.compare_cont Eq m m') eqn:P; try discriminate;
        apply Pos.compare_eq in P; subst; reflexivity.
    + intros H. injection H as <- <- <-. rewrite Z.compare_refl.
      change (Pos.compare_cont Eq m m) with (Pos.compare m m). rewrite Pos.compare_refl. destruct s; reflexivity.
Qed.
Lemma ity_eqb_spec a b : ity_eqb a b = true <-> a = b.
Proof. destruct a, b; cbn; split; congruence. Qed.
Lemma label_eqb_spec a b : label_eqb a b = true <-> same_label a b.
Proof. apply bytes_eqb_eq. Qed.
Lemma index_eqb_spec a b : index_eqb a b = true <-> same_index a b.
Proof. apply Z.eqb_eq. Qed.
Lemma tag_eqb_spec a b : tag_eqb a b = true <-> a = b.
Proof. apply bytes_eqb_eq. Qed.

Lemma token_eqb_spec t u x y : token_call t = CE x -> token_call u = CE y ->
  (token_eqb t u = true <-> same_call x y).
Proof.
  intros H1 H2.
  destruct t; cbn in H1; injection H1 as <-; destruct u; cbn in H2; injection H2 as <-;
    cbn [token_eqb same_call]; try (split; [discriminate|tauto]); try (split; tauto);
    rewrite ?andb_true_iff, ?Bool.eqb_true_iff, ?(oeqb_eq N.eqb N.eqb_eq), ?bytes_eqb_eq, ?ity_eqb_spec, ?Z.eqb_eq,
      ?float_eqb_spec, ?(oeqb_eq tag_eqb tag_eqb_spec), ?(oeqb_spec label_eqb same_label label_eqb_spec),
      ?(oeqb_spec index_eqb same_index index_eqb_spec), ?tag_eqb_spec, ?label_eqb_spec, ?index_eqb_spec; tauto.
Qed.
Lemma tokens_eqb_spec ts : forall us xs ys, as_value ts = map CE xs -> as_value us = map CE ys ->
  (tokens_eqb ts us = true <-> Forall2 same_call xs ys).
Proof.
  induction ts as [|t ts IH]; intros [|u us] [|x xs] [|y ys] H1 H2; try discriminate; cbn [tokens_eqb].
  - split; [constructor|reflexivity].
  - split; [discriminate|intros F; inversion F].
  - split; [discriminate|intros F; inversion F].
  - cbn in H1, H2. injection H1 as H1 H1'. injection H2 as H2 H2'.
    rewrite andb_true_iff, (token_eqb_spec t u x y H1 H2), (IH us xs ys H1' H2'). split.
    + intros [A B]. constructor; assumption.
    + intros F. inversion F; subst. auto.
Qed.
Lemma as_value_events ts : exists xs, as_value ts = map CE xs.
Proof.
  induction ts as [|t ts [xs E]]; [exists []; reflexivity|].
  destruct (call_is_event t) as [x C]. exists (x :: xs). cbn. rewrite C. unfold as_value in E. rewrite E. reflexivity.
Qed.

(** ** C44 as stated, with the tokens' own [==] *)

Definition C44_replay_equal : Prop :=
  forall v ts, stream_value tokens_step [] v = Ok ts -> exists us,
    stream_value tokens_step [] (as_value ts) = Ok us /\ tokens_eqb ts us = true.

(** A NaN is not equal to itself, so neither is its token. *)
Theorem C44_replay_equal_refuted : ~ C44_replay_equal.
Proof.
  intros H. destruct (H [CE (EF64 S754_nan)] [TkF64 S754_nan] eq_refl) as (us & R & E).
  vm_compute in R. injection R as <-. vm_compute in E. discriminate.
Qed.

Lemma same_call_refl e : same_call (with_labels kept_label e) (with_labels kept_label e) <-> nan_call e = false.
Proof.
  assert (F : forall f, same_float f f <-> is_nan f = false).
  { intros []; cbn; split; try tauto; try reflexivity; try discriminate. }
  assert (L : forall l, same_label l l) by reflexivity.
  assert (LO : forall l : option label, same_opt same_label l l) by (intros [l|]; cbn; auto).
  assert (I : forall i, same_index i i) by reflexivity.
  assert (IO : forall i : option index, same_opt same_index i i) by (intros [i|]; cbn; auto).
  destruct e; cbn [with_labels same_call nan_call]; rewrite ?F; try tauto; intuition auto.
Qed.
(** The tokens compare equal exactly when no NaN was streamed. *)
Theorem C44_replay_equal_partial :
  forall v es ts, flat v false = (es, true) -> stream_value tokens_step [] v = Ok ts -> exists us,
    stream_value tokens_step [] (as_value ts) = Ok us /\
    (tokens_eqb ts us = true <-> Forall (fun e => nan_call e = false) es).
Proof.
  intros v es ts F H. exists ts. split; [eapply C44_replay_is_identity; exact H|].
  destruct (run_records es []) as (us & R & V). unfold stream_value in H. rewrite F, R in H. cbn [app bind] in H.
  injection H as <-. rewrite (tokens_eqb_spec us us _ _ V V). clear. induction es as [|e es IH]; cbn.
  - split; constructor.
  - split; intros X; inversion X; subst; constructor; try (apply same_call_refl; assumption); apply IH; assumption.
Qed.

(** ** The assertions *)

(** [assert_tokens] returns exactly when the value ends without failing and the
    expected tokens stand for the calls it made, in order. *)
Theorem C44_assert_tokens_exact :
  forall v expected, assert_tokens v expected = true <->
  exists es xs, flat v false = (es, true) /\ flat (as_value expected) false = (xs, true) /\ Forall2 same_call xs es.
Proof.
  intros v ex. destruct (flat v false) as [es ok] eqn:F.
  destruct (run_records es []) as (us & R & V). destruct (as_value_events ex) as [xs X].
  assert (K : forall a b, Forall2 same_call a (map (with_labels kept_label) b) <-> Forall2 same_call a b).
  { assert (K1 : forall a b, same_call a (with_labels kept_label b) <-> same_call a b).
    { assert (L : forall l, l_text (kept_label l) = l_text l) by reflexivity.
      assert (LO : forall a b, same_opt same_label a (option_map kept_label b) <-> same_opt same_label a b).
      { intros [a|] [b|]; cbn; tauto. }
      intros a b. destruct b; destruct a; cbn [with_labels same_call]; try tauto; try rewrite LO; try tauto. }
    induction a as [|x a IH]; intros [|y b]; cbn; split; intros H; inversion H; subst; constructor;
      try (apply K1; assumption); try (apply IH; assumption). }
  unfold assert_tokens, stream_value. rewrite F, R. cbn [app bind]. destruct ok.
  - rewrite (tokens_eqb_spec ex us _ _ X V), K. split.
    + intros H. exists es, xs. rewrite X, flat_events. auto.
    + intros (es' & xs' & E & E' & H). injection E as <-. rewrite X, flat_events in E'. injection E' as <-. exact H.
  - split; [discriminate|]. intros (es' & xs' & E & _). discriminate.
Qed.
(** [assert_valid] and [assert_invalid] tell exactly whether the value fails. *)
Theorem C44_assert_valid_exact :
  forall v, (assert_valid v = true <-> snd (flat v false) = true) /\
            (assert_invalid v = true <-> snd (flat v false) = false).
Proof.
  intros v. destruct (flat v false) as [es ok] eqn:F. destruct (run_records es []) as (us & R & V).
  unfold assert_valid, assert_invalid, stream_value. rewrite F, R. cbn [app bind snd].
  destruct ok; split; split; congruence.
Qed.

(** ** Tokens and [ValueBuf] *)

(** Buffering the replayed tokens gives the very buffer that buffering the value
    gives (or fails, or panics, when that does). *)
Theorem C44_buffers_agree :
  forall v ts, stream_value tokens_step [] v = Ok ts -> vbuf_collect (as_value ts) = vbuf_collect v.
Proof.
  intros v ts H. destruct (flat v false) as [es ok] eqn:F.
  destruct (run_records es []) as (us & R & V). unfold stream_value in H. rewrite F, R in H. cbn [app bind] in H.
  destruct ok; [|discriminate]. injection H as <-. unfold vbuf_collect, stream_value. rewrite V, flat_events, F.
  replace (run vbuf_step vbuf_new (map (with_labels kept_label) es)) with (run vbuf_step vbuf_new es); [reflexivity|].
  assert (L : forall l, label_to_owned (kept_label l) = label_to_owned l) by (intros [x [] g]; reflexivity).
  assert (LO : forall l, BufferModel.own (option_map kept_label l) = BufferModel.own l).
  { intros [l|]; cbn; rewrite ?L; reflexivity. }
  clear -L LO. generalize vbuf_new. induction es as [|e es IH]; intros b; [reflexivity|]. cbn [map run].
  replace (vbuf_step b (with_labels kept_label e)) with (vbuf_step b e).
  - destruct (vbuf_step b e); cbn; auto.
  - destruct e; cbn [with_labels vbuf_step]; rewrite ?L, ?LO; reflexivity.
Qed.

(** The value with its labels replaced and its fragments as they are. *)
Fixpoint relabelled (f : label -> label) (t : tree) : tree :=
  match t with
  | TTag t l i => TTag t (option_map f l) i
  | THint t v => THint t (relabelled f v)
  | TTagged t l i v => TTagged t (option_map f l) i (relabelled f v)
  | TEnum t l i v => TEnum t (option_map f l) i (relabelled f v)
  | TSeq n vs => TSeq n (map (relabelled f) vs)
  | TMap n es => TMap n (map (fun kv => match kv with (k, v) => (relabelled f k, relabelled f v) end) es)
  | TRecord t l i n fs =>
      TRecord t (option_map f l) i n
        (map (fun fd => match fd with (ft, fl, v) => (ft, f fl, relabelled f v) end) fs)
  | TTuple t l i n fs =>
      TTuple t (option_map f l) i n
        (map (fun fd => match fd with (ft, fi, v) => (ft, fi, relabelled f v) end) fs)
  | TRecTup t l i n fs =>
      TRecTup t (option_map f l) i n
        (map (fun fd => match fd with (ft, fl, fi, v) => (ft, f fl, fi, relabelled f v) end) fs)
  | t => t
  end.
Lemma map_flat_map {A B C} (f : B -> C) (g : A -> list B) l : map f (flat_map g l) = flat_map (fun x => map f (g x)) l.
Proof. induction l; cbn; rewrite ?map_app, ?IHl; reflexivity. Qed.
Lemma flat_map_map {A B C} (f : A -> B) (g : B -> list C) l : flat_map g (map f l) = flat_map (fun x => g (f x)) l.
Proof. induction l; cbn; rewrite ?IHl; reflexivity. Qed.
Lemma flat_map_ext_in {A B} (f g : A -> list B) l : (forall x, In x l -> f x = g x) -> flat_map f l = flat_map g l.
Proof. induction l; cbn; intros H; [reflexivity|]. rewrite H, IHl; auto. Qed.
Lemma emit_relabelled f t : emit (relabelled f t) = map (with_labels f) (emit t).
Proof.
  induction t using tree_ind'; cbn [relabelled emit map]; rewrite ?map_app; cbn [map with_labels]; rewrite ?IHt; try reflexivity.
  - f_equal. f_equal. rewrite map_map. apply map_ext. intros [[] s]; reflexivity.
  - f_equal. f_equal. rewrite map_map. apply map_ext. intros [[] s]; reflexivity.
  - f_equal. f_equal. rewrite map_flat_map, flat_map_map. apply flat_map_ext_in. intros x I.
    rewrite Forall_forall in H. rewrite (H x I). cbn. rewrite map_app. reflexivity.
  - f_equal. f_equal. rewrite map_flat_map, flat_map_map. apply flat_map_ext_in. intros [k x] I.
    rewrite Forall_forall in H. destruct (H _ I) as [A B]. cbn in A, B. rewrite A, B. cbn.
    rewrite !map_app. cbn. rewrite map_app. reflexivity.
  - f_equal. f_equal. rewrite map_flat_map, flat_map_map. apply flat_map_ext_in. intros [[ft fl] x] I.
    rewrite Forall_forall in H. pose proof (H _ I) as A. cbn in A. rewrite A. cbn. rewrite map_app. reflexivity.
  - f_equal. f_equal. rewrite map_flat_map, flat_map_map. apply flat_map_ext_in. intros [[ft fi] x] I.
    rewrite Forall_forall in H. pose proof (H _ I) as A. cbn in A. rewrite A. cbn. rewrite map_app. reflexivity.
  - f_equal. f_equal. rewrite map_flat_map, flat_map_map. apply flat_map_ext_in. intros [[[ft fl] fi] x] I.
    rewrite Forall_forall in H. pose proof (H _ I) as A. cbn in A. rewrite A. cbn. rewrite map_app. reflexivity.
Qed.
(** So the two replays of a well-formed value differ only in that [ValueBuf] joins
    the fragments of each text and each binary. *)
Theorem C44_replays_agree :
  forall v t, streams v t -> exists ts b cs,
    stream_value tokens_step [] v = Ok ts /\ streams (as_value ts) (relabelled kept_label t) /\
    vbuf_collect v = OOk b /\ vbuf_stream b = Some cs /\ streams cs (rebuilt kept_label t).
Proof.
  intros v t H. destruct (C15_round_trip_partial v t H) as (b & cs & C & S & F).
  destruct (C44_recorded_calls v _ _ H) as (ts & R & V). exists ts, b, cs.
  repeat split; auto. unfold streams. rewrite V, emit_relabelled. reflexivity.
Qed.

(** ** Non-vacuity *)

Example C44_sample : exists ts,
  stream_value tokens_step [] (map CE (emit buffered_sample)) = Ok ts /\ List.length ts = 25 /\
  streams (map CE (emit buffered_sample)) buffered_sample /\
  assert_tokens (map CE (emit buffered_sample)) ts = true /\
  assert_tokens (map CE (emit buffered_sample)) (removelast ts) = false /\
  assert_tokens [CE (EInt I32 1)] [TkInt I64 1] = false /\
  assert_tokens [CE (EF64 (S754_zero true))] [TkF64 (S754_zero false)] = true.
Proof. eexists. repeat split; vm_compute; reflexivity. Qed.
Example C44_sample_failing :
  stream_value tokens_step [] [CE (ESeqBegin None); CFail] = Err [TkSeqBegin None] /\
  assert_invalid [CE (ESeqBegin None); CFail] = true /\ assert_valid [CE ENull] = true.
Proof. repeat split; vm_compute; reflexivity. Qed.

Print Assumptions C44_recorded_calls.
Print Assumptions C44_replay_is_identity.
Print Assumptions C44_replay_equal_refuted.
Print Assumptions C44_replay_equal_partial.
Print Assumptions C44_assert_tokens_exact.
Print Assumptions C44_assert_valid_exact.
Print Assumptions C44_buffers_agree.
Print Assumptions C44_replays_agree.
