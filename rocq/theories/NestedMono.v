(** * NestedMono: nested streams that do the same, or fail sooner

    If every method of one nested stream gives what the same method of another
    gives, or an error, then so does streaming a value into it. *)

From Verif Require Import Base Event FlatProofs LowerModel DataModel FragModel BufferModel NestedModel.

Section Mono.
  (** Whether a panic counts as an error. *)
  Variable dbg : bool.
  Definition never {A} (a : A) : Prop := False.
  (** [bad]: results that stand for an error, found out later. *)
  Definition under {A B} (bad : A -> Prop) (R : A -> B -> Prop) (o1 : outcome A) (o2 : outcome B) : Prop :=
    o1 = OErr \/ (dbg = true /\ o1 = OPanic) \/
    match o1, o2 with OOk a, OOk b => R a b | OOk a, OPanic => bad a | OErr, OErr | OPanic, OPanic => True | _, _ => False end.
  Notation below := (under never).

  Variables S1 S2 : nstream.
  Record stream_below := {
    r_ok : n_ok S1 -> n_ok S2 -> Prop;
    bad : n_ok S1 -> Prop;
    r_seq : n_seq S1 -> n_seq S2 -> Prop;
    r_map : n_map S1 -> n_map S2 -> Prop;
    r_tuple : n_tuple S1 -> n_tuple S2 -> Prop;
    r_record : n_record S1 -> n_record S2 -> Prop;
    r_enum : n_enum S1 -> n_enum S2 -> Prop;
    r_vtuple : n_vtuple S1 -> n_vtuple S2 -> Prop;
    r_vrecord : n_vrecord S1 -> n_vrecord S2 -> Prop;
    b_null : under bad r_ok (n_null S1) (n_null S2);
    b_bool : forall b, under bad r_ok (n_bool S1 b) (n_bool S2 b);
    b_int : forall t z, under bad r_ok (n_int S1 t z) (n_int S2 t z);
    b_f32 : forall f, under bad r_ok (n_f32 S1 f) (n_f32 S2 f);
    b_f64 : forall f, under bad r_ok (n_f64 S1 f) (n_f64 S2 f);
    b_text : forall b s, under bad r_ok (n_text S1 b s) (n_text S2 b s);
    b_bin : forall b s, under bad r_ok (n_bin S1 b s) (n_bin S2 b s);
    b_tag : forall t l i, under bad r_ok (n_tag S1 t l i) (n_tag S2 t l i);
    b_tagged : forall t l i a, under bad r_ok (n_tagged S1 t l i a) (n_tagged S2 t l i a);
    b_seq_begin : forall n, below r_seq (n_seq_begin S1 n) (n_seq_begin S2 n);
    b_map_begin : forall n, below r_map (n_map_begin S1 n) (n_map_begin S2 n);
    b_tuple_begin : forall t l i n, below r_tuple (n_tuple_begin S1 t l i n) (n_tuple_begin S2 t l i n);
    b_record_begin : forall t l i n, below r_record (n_record_begin S1 t l i n) (n_record_begin S2 t l i n);
    b_enum_begin : forall t l i, below r_enum (n_enum_begin S1 t l i) (n_enum_begin S2 t l i);
    b_seq_value : forall s s' a, r_seq s s' -> below r_seq (seq_value S1 s a) (seq_value S2 s' a);
    b_seq_end : forall s s', r_seq s s' -> under bad r_ok (seq_end S1 s) (seq_end S2 s');
    b_map_key : forall s s' a, r_map s s' -> below r_map (map_key S1 s a) (map_key S2 s' a);
    b_map_value : forall s s' a, r_map s s' -> below r_map (map_value S1 s a) (map_value S2 s' a);
    b_map_end : forall s s', r_map s s' -> under bad r_ok (map_end S1 s) (map_end S2 s');
    b_tuple_value : forall s s' t i a, r_tuple s s' -> below r_tuple (tuple_value S1 s t i a) (tuple_value S2 s' t i a);
    b_tuple_end : forall s s', r_tuple s s' -> under bad r_ok (tuple_end S1 s) (tuple_end S2 s');
    b_record_value : forall s s' t l a, r_record s s' -> below r_record (record_value S1 s t l a) (record_value S2 s' t l a);
    b_record_end : forall s s', r_record s s' -> under bad r_ok (record_end S1 s) (record_end S2 s');
    b_enum_tag : forall e e' t l i, r_enum e e' -> under bad r_ok (enum_tag S1 e t l i) (enum_tag S2 e' t l i);
    b_enum_tagged : forall e e' t l i a, r_enum e e' -> under bad r_ok (enum_tagged S1 e t l i a) (enum_tagged S2 e' t l i a);
    b_enum_tuple_begin : forall e e' t l i n, r_enum e e' -> below r_vtuple (enum_tuple_begin S1 e t l i n) (enum_tuple_begin S2 e' t l i n);
    b_enum_record_begin : forall e e' t l i n, r_enum e e' -> below r_vrecord (enum_record_begin S1 e t l i n) (enum_record_begin S2 e' t l i n);
    b_enum_nested : forall e e' t l i k k', r_enum e e' -> (forall e e', r_enum e e' -> under bad r_ok (k e) (k' e')) ->
      under bad r_ok (enum_nested S1 e t l i k) (enum_nested S2 e' t l i k');
    b_vtuple_value : forall s s' t i a, r_vtuple s s' -> below r_vtuple (vtuple_value S1 s t i a) (vtuple_value S2 s' t i a);
    b_vtuple_end : forall s s', r_vtuple s s' -> under bad r_ok (vtuple_end S1 s) (vtuple_end S2 s');
    b_vrecord_value : forall s s' t l a, r_vrecord s s' -> below r_vrecord (vrecord_value S1 s t l a) (vrecord_value S2 s' t l a);
    b_vrecord_end : forall s s', r_vrecord s s' -> under bad r_ok (vrecord_end S1 s) (vrecord_end S2 s')
  }.

  Variable R : stream_below.

  Lemma below_err {A B} b (Q : A -> B -> Prop) o : under b Q OErr o.
  Proof. left. reflexivity. Qed.
  Lemma below_ok {A B} c (Q : A -> B -> Prop) a b : Q a b -> under c Q (OOk a) (OOk b).
  Proof. intros H. right. right. exact H. Qed.
  Lemma below_panic {A B} b (Q : A -> B -> Prop) : under b Q OPanic OPanic.
  Proof. right. right. exact I. Qed.
  Lemma under_bind {A B C D} p q (Q : A -> B -> Prop) (T : C -> D -> Prop) o1 o2 k1 k2 :
    under p Q o1 o2 -> (forall a b, Q a b -> under q T (k1 a) (k2 b)) -> (forall a, p a -> exists c, k1 a = OOk c /\ q c) ->
    under q T (x <- o1 ;; k1 x) (x <- o2 ;; k2 x).
  Proof.
    intros [->|[(D0 & ->)|H]] K P; [left; reflexivity|right; left; split; [exact D0|reflexivity]|].
    destruct o1, o2; try contradiction; cbn [obind]; [apply K, H| |apply below_err|apply below_panic].
    destruct (P _ H) as (c & -> & X). right. right. exact X.
  Qed.
  Lemma below_bind {A B C D} q (Q : A -> B -> Prop) (T : C -> D -> Prop) o1 o2 k1 k2 :
    below Q o1 o2 -> (forall a b, Q a b -> under q T (k1 a) (k2 b)) -> under q T (x <- o1 ;; k1 x) (x <- o2 ;; k2 x).
  Proof. intros H K. eapply under_bind; [exact H|exact K|]. intros a []. Qed.

  (** ** States *)
  Definition r_fe (e1 : @fenum S1) (e2 : @fenum S2) : Prop := r_enum R (fe_stream e1) (fe_stream e2) /\ fe_queue e1 = fe_queue e2.
  Inductive r_state : state S1 -> state S2 -> Prop :=
  | rs_any : r_state SAny SAny
  | rs_seq s s' : r_seq R s s' -> r_state (SSeq s) (SSeq s')
  | rs_map s s' k : r_map R s s' -> r_state (SMap s k) (SMap s' k)
  | rs_tagged t l i : r_state (STagged t l i) (STagged t l i)
  | rs_tuple s s' f : r_tuple R s s' -> r_state (STuple s f) (STuple s' f)
  | rs_record s s' f : r_record R s s' -> r_state (SRecord s f) (SRecord s' f)
  | rs_enum e e' : r_fe e e' -> r_state (SEnum e) (SEnum e')
  | rs_vtagged e e' t l i : r_fe e e' -> r_state (SVTagged e t l i) (SVTagged e' t l i)
  | rs_vtuple s s' f : r_vtuple R s s' -> r_state (SVTuple s f) (SVTuple s' f)
  | rs_vrecord s s' f : r_vrecord R s s' -> r_state (SVRecord s f) (SVRecord s' f)
  | rs_failed : r_state (SDone None) (SDone None)
  | rs_done x x' : r_ok R x x' -> r_state (SDone (Some x)) (SDone (Some x')).
  Definition r_fs (f1 : fstream S1) (f2 : fstream S2) : Prop := f_buf f1 = f_buf f2 /\ r_state (f_state f1) (f_state f2).
  Definition dead (f : fstream S1) : Prop := match f_state f with SDone None => True | SDone (Some a) => bad R a | _ => False end.
  (** Results: the first may have failed, whatever became of the second. *)
  Definition r_res (r1 : res (fstream S1)) (r2 : res (fstream S2)) : Prop :=
    (exists f, r1 = Err f /\ f_state f = SDone None) \/ (dbg = true /\ r1 = Panic) \/
    match r1, r2 with Ok f, Ok f' | Err f, Err f' => r_fs f f' | Panic, Panic => True | Ok f, Panic | Err f, Panic => dead f | _, _ => False end.
  (** The same before [try_catch]. *)
  Definition r_raw (r1 : res (fstream S1)) (r2 : res (fstream S2)) : Prop :=
    (exists f, r1 = Err f) \/ (dbg = true /\ r1 = Panic) \/
    match r1, r2 with Ok f, Ok f' => r_fs f f' | Err f, Err f' => f_buf f = f_buf f' | Panic, Panic => True | Ok f, Panic => dead f | _, _ => False end.
  Definition r_sv (x : state S1 * option (n_ok S1)) (y : state S2 * option (n_ok S2)) : Prop :=
    r_state (fst x) (fst y) /\ match snd x, snd y with Some a, Some b => r_ok R a b | None, None => True | _, _ => False end.
  Definition bad_sv (x : state S1 * option (n_ok S1)) : Prop := match snd x with Some a => bad R a | None => False end.

  Lemma recurse_below q k k' : (forall e e', r_enum R e e' -> under (bad R) (r_ok R) (k e) (k' e')) ->
    forall e e', r_enum R e e' -> under (bad R) (r_ok R) (recurse q e k) (recurse q e' k').
  Proof.
    intros K. induction q as [|[[t l] i] q IH]; intros e e' E; cbn [recurse]; [apply K, E|]. apply b_enum_nested; [exact E|]. exact IH.
  Qed.
  Lemma fe_tag_below e e' t l i : r_fe e e' -> under (bad R) (r_ok R) (fe_tag e t l i) (fe_tag e' t l i).
  Proof. intros (E & Q). unfold fe_tag. rewrite Q. apply recurse_below; [|exact E]. intros; apply b_enum_tag; assumption. Qed.
  Lemma fe_tagged_below e e' t l i a : r_fe e e' -> under (bad R) (r_ok R) (fe_tagged e t l i a) (fe_tagged e' t l i a).
  Proof. intros (E & Q). unfold fe_tagged. rewrite Q. apply recurse_below; [|exact E]. intros; apply b_enum_tagged; assumption. Qed.
  Lemma fe_end_below e e' : r_fe e e' -> under (bad R) (r_ok R) (fe_end e) (fe_end e').
  Proof. intros (E & Q). unfold fe_end. rewrite Q. apply recurse_below; [|exact E]. intros; apply below_panic. Qed.
  Lemma fe_tuple_below e e' t l i n : r_fe e e' -> below (r_vtuple R) (fe_tuple_begin e t l i n) (fe_tuple_begin e' t l i n).
  Proof. intros (E & Q). unfold fe_tuple_begin. rewrite Q. destruct (fe_queue e'); [apply b_enum_tuple_begin, E|apply below_panic]. Qed.
  Lemma fe_record_below e e' t l i n : r_fe e e' -> below (r_vrecord R) (fe_record_begin e t l i n) (fe_record_begin e' t l i n).
  Proof. intros (E & Q). unfold fe_record_begin. rewrite Q. destruct (fe_queue e'); [apply b_enum_record_begin, E|apply below_panic]. Qed.
  Lemma finish_below f f' : r_fs f f' -> under (bad R) (r_ok R) (finish f) (finish f').
  Proof. intros (_ & H). unfold finish. destruct H; try apply below_err. apply below_ok. assumption. Qed.

  Lemma state_value_below st st' any any' v : r_state st st' -> under (bad R) (r_ok R) any any' ->
    under bad_sv r_sv (state_value st any v) (state_value st' any' v).
  Proof.
    assert (D : forall (x : outcome (n_ok S1)) x' s s', under (bad R) (r_ok R) x x' -> r_state s s' ->
      under bad_sv r_sv (y <- x ;; OOk (s, Some y)) (y <- x' ;; OOk (s', Some y))).
    { intros x x' s s' X Y. eapply under_bind; [exact X| |]; [intros a b AB; apply below_ok; split; assumption|]. intros a A. eexists. split; [reflexivity|exact A]. }
    intros H A. destruct H; cbn [state_value].
    - apply D; [exact A|constructor].
    - eapply below_bind; [apply (b_seq_value R); eassumption|]. intros a b AB. apply below_ok. split; [constructor; exact AB|exact I].
    - destruct k; (eapply below_bind; [first [apply (b_map_key R); eassumption|apply (b_map_value R); eassumption]|]; intros a b AB; apply below_ok; split; [constructor; exact AB|exact I]).
    - apply D; [apply b_tagged|constructor].
    - destruct f as [[t i]|]; [|apply below_err]. eapply below_bind; [apply (b_tuple_value R); eassumption|]. intros a b AB. apply below_ok. split; [constructor; exact AB|exact I].
    - destruct f as [[t l]|]; [|apply below_err]. eapply below_bind; [apply (b_record_value R); eassumption|]. intros a b AB. apply below_ok. split; [constructor; exact AB|exact I].
    - apply below_err.
    - apply D; [apply fe_tagged_below; assumption|constructor; assumption].
    - destruct f as [[t i]|]; [|apply below_err]. eapply below_bind; [apply (b_vtuple_value R); eassumption|]. intros a b AB. apply below_ok. split; [constructor; exact AB|exact I].
    - destruct f as [[t l]|]; [|apply below_err]. eapply below_bind; [apply (b_vrecord_value R); eassumption|]. intros a b AB. apply below_ok. split; [constructor; exact AB|exact I].
    - apply below_err.
    - apply below_err.
  Qed.

  Lemma raw_err f f' : f_buf f = f_buf f' -> r_raw (Err f) (Err f').
  Proof. intros H. right. right. exact H. Qed.
  Lemma raw_panic : r_raw Panic Panic.
  Proof. right. right. exact I. Qed.
  Lemma catch_raw r1 r2 : r_raw r1 r2 -> r_res (try_catch r1) (try_catch r2).
  Proof.
    intros [(f & ->)|[(D & ->)|H]]; [left; eexists; split; reflexivity|right; left; split; [exact D|reflexivity]|].
    right. right. destruct r1, r2; try contradiction; cbn [try_catch]; try exact H. split; [exact H|]. constructor.
  Qed.
  Lemma settle_raw f f' o o' : f_buf f = f_buf f' -> under bad_sv r_sv o o' -> r_raw (settle f o) (settle f' o').
  Proof.
    intros B [->|[(D & ->)|H]]; [left; eexists; reflexivity|right; left; split; [exact D|reflexivity]|].
    destruct o as [[st x]| |], o' as [[st' x']| |]; try contradiction; cbn [settle]; [| |apply raw_err, B|apply raw_panic]; [|right; right; destruct x; [exact H|destruct H]].
    destruct H as (H & X). cbn [fst snd] in *. right. right. destruct x, x'; try contradiction; (split; [exact B|]); [constructor; exact X|exact H].
  Qed.
  Lemma lift_raw f f' o o' : f_buf f = f_buf f' -> below r_state o o' -> r_raw (lift f o) (lift f' o').
  Proof.
    intros B [->|[(D & ->)|H]]; [left; eexists; reflexivity|right; left; split; [exact D|reflexivity]|].
    destruct o, o'; try contradiction; cbn [lift]; [right; right; split; assumption|apply raw_err, B|apply raw_panic].
  Qed.
  Lemma with_buf_raw f f' r k k' : r_fs f f' -> (forall b, r_raw (k b) (k' b)) -> r_raw (with_buf f r k) (with_buf f' r k').
  Proof. intros F K. destruct r; cbn [with_buf]; [apply K|apply raw_err; reflexivity|apply raw_panic]. Qed.
  Lemma put_fs f f' b : r_fs f f' -> r_raw (Ok (put f b)) (Ok (put f' b)).
  Proof. intros (_ & H). right. right. split; [reflexivity|exact H]. Qed.
  Lemma bow f f' buf k k' : r_fs f f' -> r_raw (k f) (k' f') -> r_res (buffer_or_with f buf k) (buffer_or_with f' buf k').
  Proof.
    intros F K. apply catch_raw. pose proof F as (B & _). rewrite <- B. destruct (f_buf f) as [[| |b]|]; try exact K.
    apply with_buf_raw; [exact F|]. intros b'. apply put_fs, F.
  Qed.
  Lemma bob f f' buf any any' en en' : r_fs f f' -> below r_state any any' -> (forall e e', r_fe e e' -> below r_state (en e) (en' e')) ->
    r_res (buffer_or_begin f buf any en) (buffer_or_begin f' buf any' en').
  Proof.
    intros F A E. apply catch_raw. pose proof F as (B & H). rewrite <- B. destruct (f_buf f) as [[| |b]|] eqn:FB; try (apply raw_err; congruence).
    - apply with_buf_raw; [exact F|]. intros b'. apply put_fs, F.
    - assert (N : r_raw (match buf vbuf_new with Ok b' => Ok (put f b') | Err _ => Err f | Panic => Panic end)
                        (match buf vbuf_new with Ok b' => Ok (put f' b') | Err _ => Err f' | Panic => Panic end)).
      { destruct (buf vbuf_new); [apply put_fs, F|apply raw_err; congruence|apply raw_panic]. }
      destruct f as [b0 st], f' as [b0' st']. cbn [f_state f_buf] in *. destruct H; try exact N; (apply lift_raw; [cbn [f_buf]; congruence|auto]).
  Qed.
  Lemma boe f f' buf t t' : r_fs f f' -> under (bad R) (r_ok R) t t' -> r_res (buffer_or_end f buf t) (buffer_or_end f' buf t').
  Proof.
    intros F T. apply catch_raw. pose proof F as (B & H). rewrite <- B. destruct (f_buf f) as [[| |b]|] eqn:FB; try (apply raw_err; congruence).
    - apply with_buf_raw; [exact F|]. intros b'. destruct (is_complete b'); [|apply put_fs, F].
      destruct (vbuf_stream b') as [cs|]; [|apply raw_panic]. cbv zeta. apply settle_raw; [reflexivity|]. apply state_value_below; [exact H|apply below_err].
    - apply settle_raw; [congruence|]. eapply under_bind; [exact T| |]; [intros a b AB; apply below_ok; split; assumption|]. intros a A. eexists. split; [reflexivity|exact A].
  Qed.
  Lemma bov f f' buf any any' v : r_fs f f' -> under (bad R) (r_ok R) any any' -> r_res (buffer_or_value f buf any v) (buffer_or_value f' buf any' v).
  Proof. intros F A. apply bow; [exact F|]. destruct F as (B & H). apply settle_raw; [exact B|]. apply state_value_below; assumption. Qed.

  Lemma own_below f f' e : r_fs f f' -> r_res (fs_own f e) (fs_own f' e).
  Proof.
    intros F. pose proof F as (B & H).
    assert (OK : r_res (Ok f) (Ok f')) by (right; right; exact F).
    assert (OKr : r_raw (Ok f) (Ok f')) by (right; right; exact F).
    assert (ER : r_raw (Err f) (Err f')) by (apply raw_err, B).
    assert (TX : forall c (k : cow -> buffered), r_raw (Ok (MkFS (Some (k c)) (f_state f))) (Ok (MkFS (Some (k c)) (f_state f')))) by (intros; right; right; split; [reflexivity|exact H]).
    destruct e; cbn [fs_own]; try exact OK;
      try (apply bov; [exact F|]; first [apply b_null|apply b_bool|apply b_int|apply b_f32|apply b_f64]; fail);
      try (apply bow; [exact F|exact OKr]; fail).
    all: try (apply bow; [exact F|]; unfold put_buffer; rewrite <- B; destruct (f_buf f); [exact ER|apply TX]; fail).
    all: try (apply bow; [exact F|]; unfold with_text, with_binary; rewrite <- B; destruct (f_buf f) as [[?|?|?]|]; try exact ER; apply TX; fail).
    all: try (apply bow; [exact F|]; rewrite <- B; destruct (f_buf f) as [[?|?|?]|]; try exact ER; apply settle_raw; [reflexivity|]; apply state_value_below; [exact H|first [apply b_text|apply b_bin]]; fail).
    all: try (apply bow; [exact F|]; rewrite <- B; destruct (f_buf f) as [[?|?|?]|] eqn:FB; try exact ER; destruct H; try exact ER;
              right; right; (split; [reflexivity|constructor; assumption]); fail).
    all: try (apply boe; [exact F|]; destruct H; try apply below_err;
              first [apply b_map_end|apply b_seq_end|apply b_tuple_end|apply b_record_end|apply b_vtuple_end|apply b_vrecord_end]; assumption).
    all: try (apply boe; [exact F|]; apply finish_below, F).
    all: try (apply bob; [exact F|eapply below_bind; [apply (b_map_begin R)|]|]; [intros a b AB; apply below_ok; constructor; exact AB|intros; apply below_err]; fail).
    all: try (apply bob; [exact F|eapply below_bind; [apply (b_seq_begin R)|]|]; [intros a b AB; apply below_ok; constructor; exact AB|intros; apply below_err]; fail).
    all: try (apply bob; [exact F|eapply below_bind; [apply (b_tuple_begin R)|]|]; [intros a b AB; apply below_ok; constructor; exact AB|
      intros; eapply below_bind; [apply fe_tuple_below; eassumption|]; intros a b AB; apply below_ok; constructor; exact AB]; fail).
    all: try (apply bob; [exact F|eapply below_bind; [apply (b_record_begin R)|]|]; [intros a b AB; apply below_ok; constructor; exact AB|
      intros; eapply below_bind; [apply fe_record_below; eassumption|]; intros a b AB; apply below_ok; constructor; exact AB]; fail).
    - apply bob; [exact F|eapply below_bind; [apply (b_enum_begin R)|]|].
      + intros a b AB. apply below_ok. constructor. split; [exact AB|reflexivity].
      + intros e e' (E & Q). apply below_ok. constructor. split; [exact E|]. cbn [fe_push fe_queue]. rewrite Q. reflexivity.
    - apply boe; [exact F|]. pose proof (finish_below _ _ F) as FI. destruct H; try apply below_err; try exact FI. apply fe_end_below. assumption.
    - apply bob; [exact F|apply below_ok; constructor|]. intros e e' E. apply below_ok. constructor. exact E.
    - apply bow; [exact F|]. pose proof H as H'. destruct H; (apply settle_raw; [exact B|]); first [apply state_value_below; [exact H'|apply b_tag]|
        eapply under_bind; [apply fe_tag_below; eassumption| |]; [intros a b AB; apply below_ok; split; [constructor; assumption|exact AB]|intros a A; eexists; split; [reflexivity|exact A]]].
  Qed.
  Lemma step_below f f' e : r_fs f f' -> r_res (fs_step f e) (fs_step f' e).
  Proof. intros F. destruct e; cbn [fs_step]; try (apply own_below, F). right. right. exact F. Qed.

  (** ** Streams that have failed for good *)
  Definition stays (r : res (fstream S1)) : Prop := match r with Ok f | Err f => dead f | Panic => True end.
  Lemma dead_catch r : (forall f, r = Ok f -> dead f) -> stays (try_catch r).
  Proof. intros H. destruct r; cbn; [apply H; reflexivity|exact I|exact I]. Qed.
  Lemma dead_bow f buf k : dead f -> (forall f', k f = Ok f' -> dead f') -> stays (buffer_or_with f buf k).
  Proof.
    intros D K. apply dead_catch. destruct (f_buf f) as [[| |b]|]; try exact K. destruct (buf b); cbn; intros f' E; inversion E. exact D.
  Qed.
  Lemma dead_value f any v f' : dead f -> settle f (state_value (f_state f) any v) = Ok f' -> False.
  Proof. unfold dead. destruct (f_state f) as [| | | | | | | | | |[a|]] eqn:E; intros D H; try contradiction; discriminate H. Qed.
  Lemma dead_bob f buf any en : dead f -> stays (buffer_or_begin f buf any en).
  Proof.
    intros D. apply dead_catch. intros f' E. destruct (f_buf f) as [[| |b]|]; try discriminate.
    - destruct (buf b); inversion E. exact D.
    - pose proof D as D0. unfold dead in D0. destruct (f_state f); try contradiction. destruct (buf vbuf_new); inversion E. exact D.
  Qed.
  Lemma dead_boe f buf t : dead f -> (forall a, t = OOk a -> bad R a) -> stays (buffer_or_end f buf t).
  Proof.
    intros D T. apply dead_catch. intros f' E. destruct (f_buf f) as [[| |b]|]; try discriminate.
    - destruct (buf b) as [b'| |]; try discriminate. cbn [with_buf] in E. destruct (is_complete b'); [|inversion E; exact D].
      destruct (vbuf_stream b') as [cs|]; [|discriminate]. cbv zeta in E. apply dead_value in E; [destruct E|exact D].
    - destruct t; cbn in E; inversion E. exact (T _ eq_refl).
  Qed.
  Lemma dead_finish f a : dead f -> finish f = OOk a -> bad R a.
  Proof. unfold dead, finish. destruct (f_state f) as [| | | | | | | | | |[a'|]]; try contradiction; intros D E; inversion E; subst; exact D. Qed.
  Lemma dead_own f e : dead f -> stays (fs_own f e).
  Proof.
    intros D. pose proof D as D0. unfold dead in D0.
    destruct e; cbn [fs_own]; try exact D; try (apply dead_bob; exact D);
      try (apply dead_bow; [exact D|]; intros f' E; first [inversion E; subst; exact D|apply dead_value in E; [destruct E|exact D]]; fail);
      try (apply dead_boe; [exact D|]; intros a E; first [exact (dead_finish _ _ D E)|destruct (f_state f); try contradiction; discriminate]; fail).
    all: try (apply dead_bow; [exact D|]; intros f' E; unfold put_buffer, with_text, with_binary in E; destruct (f_buf f) as [[?|?|?]|]; try discriminate E;
      first [inversion E; subst; exact D|apply dead_value in E; [destruct E|exact D]]; fail).
    all: try (apply dead_bow; [exact D|]; intros f' E; destruct (f_buf f); destruct (f_state f); try contradiction; discriminate).
    apply dead_boe; [exact D|]. intros a. pose proof (dead_finish f a D) as X. destruct (f_state f); try contradiction. exact X.
  Qed.
  Lemma dead_step f e : dead f -> stays (fs_step f e).
  Proof. intros D. destruct e; cbn [fs_step]; try (apply dead_own, D). exact D. Qed.
  Lemma dead_bind r k : stays r -> (forall f, dead f -> stays (k f)) -> stays (r >>= k).
  Proof. intros D K. destruct r; cbn; [apply K, D|exact D|exact I]. Qed.
  Lemma dead_call c : forall comp f, dead f -> stays (fs_call c comp f).
  Proof.
    assert (L : forall cs, Forall (fun c => forall comp f, dead f -> stays (fs_call c comp f)) cs -> forall comp f, dead f -> 
      stays ((fix go cs comp f := match cs with [] => Ok f | c :: cs' => fs_call c comp f >>= go cs' comp end) cs comp f)).
    { induction 1 as [|c' cs Hc _ IH]; intros comp f D; [exact D|]. apply dead_bind; [apply Hc, D|intros; apply IH; assumption]. }
    induction c as [e|cs H|cs H|] using call_ind'; intros comp f D; cbn [fs_call].
    - apply dead_step, D.
    - destruct comp; [apply L; assumption|]. apply dead_bow; [exact D|]. intros f' E.
      match type of E with context [settle f (state_value _ ?any ?v)] => pose proof (dead_value f any v f' D) as X end.
      unfold dead in D. destruct (f_state f); contradiction.
    - apply dead_bow; [exact D|]. intros f' E.
      match type of E with context [settle f (state_value _ ?any ?v)] => pose proof (dead_value f any v f' D) as X end.
      unfold dead in D. destruct (f_state f); contradiction.
    - exact D.
  Qed.
  Lemma dead_calls cs : forall comp f, dead f -> stays (fs_calls cs comp f).
  Proof. induction cs as [|c cs IH]; intros comp f D; [exact D|]. cbn [fs_calls]. apply dead_bind; [apply dead_call, D|intros; apply IH; assumption]. Qed.

  (** ** Whole values *)
  Lemma res_raw r r' : r_res r r' -> r_raw r r'.
  Proof.
    intros [(f & -> & _)|[(D & ->)|H]]; [left; eexists; reflexivity|right; left; split; [exact D|reflexivity]|].
    destruct r, r'; try contradiction; try (left; eexists; reflexivity); right; right; exact H.
  Qed.
  Lemma res_bind r r' k k' : r_res r r' -> (forall f f', r_fs f f' -> r_res (k f) (k' f')) -> (forall f, dead f -> stays (k f)) ->
    r_res (r >>= k) (r' >>= k').
  Proof.
    intros [(f & -> & D)|[(D & ->)|H]] K L; [left; exists f; split; [reflexivity|exact D]|right; left; split; [exact D|reflexivity]|].
    destruct r as [f|f|], r' as [f'|f'|]; try contradiction; cbn [bind]; [apply K, H|specialize (L f H)|right; right; exact H|right; right; exact H|right; right; exact I].
    right. right. destruct (k f); exact L.
  Qed.
  Lemma done_below r r' : r_res r r' ->
    under (bad R) (r_ok R) (match r with Ok f | Err f => finish f | Panic => OPanic end) (match r' with Ok f | Err f => finish f | Panic => OPanic end).
  Proof.
    assert (DD : forall f, dead f -> under (bad R) (r_ok R) (finish f) OPanic).
    { intros f D. pose proof (dead_finish f) as X. destruct (finish f) eqn:E; [right; right; exact (X _ D eq_refl)|apply below_err|].
      unfold finish in E. destruct (f_state f) as [| | | | | | | | | |[?|]]; discriminate E. }
    intros [(f & -> & D)|[(D & ->)|H]].
    - unfold finish. rewrite D. apply below_err.
    - right. left. split; [exact D|reflexivity].
    - destruct r, r'; try contradiction; try (apply finish_below, H); try (apply DD, H). apply below_panic.
  Qed.
  Lemma call_below c : forall comp f f', r_fs f f' -> r_res (fs_call c comp f) (fs_call c comp f').
  Proof.
    assert (L : forall cs, Forall (fun c => forall comp f f', r_fs f f' -> r_res (fs_call c comp f) (fs_call c comp f')) cs -> forall comp f f', r_fs f f' ->
      r_res ((fix go cs comp f := match cs with [] => Ok f | c :: cs' => fs_call c comp f >>= go cs' comp end) cs comp f)
            ((fix go cs comp f := match cs with [] => Ok f | c :: cs' => fs_call c comp f >>= go cs' comp end) cs comp f')).
    { induction 1 as [|c' cs Hc _ IH]; intros comp f f' F; [right; right; exact F|]. apply res_bind; [apply Hc, F|intros; apply IH; assumption|].
      intros f0 D. exact (dead_calls cs comp f0 D). }
    assert (V : forall cs (c : bool), Forall (fun c => forall comp f f', r_fs f f' -> r_res (fs_call c comp f) (fs_call c comp f')) cs -> forall f f', r_fs f f' -> 
      r_res (fs_call (if c then CVC cs else CV cs) false f) (fs_call (if c then CVC cs else CV cs) false f')).
    { intros cs b H f f' F.
      assert (N : r_fs (@fs_new S1) (@fs_new S2)) by (split; [reflexivity|constructor]).
      pose proof (done_below _ _ (L cs H b _ _ N)) as A. pose proof (L cs H b _ _ F) as G.
      destruct b; cbn [fs_call]; (apply bow; [exact F|]; pose proof F as (B & HH); pose proof HH as HH'; destruct HH;
        first [apply settle_raw; [exact B|]; apply state_value_below; [exact HH'|exact A]|apply res_raw, G]). }
    induction c as [e|cs H|cs H|] using call_ind'; intros comp f f' F.
    - apply step_below, F.
    - destruct comp; [exact (L cs H true f f' F)|exact (V cs false H f f' F)].
    - exact (V cs true H f f' F).
    - right. right. exact F.
  Qed.
  Lemma calls_below cs : forall comp f f', r_fs f f' -> r_res (fs_calls cs comp f) (fs_calls cs comp f').
  Proof.
    induction cs as [|c cs IH]; intros comp f f' F; [right; right; exact F|]. cbn [fs_calls].
    apply res_bind; [apply call_below, F|intros; apply IH; assumption|intros; apply dead_calls; assumption].
  Qed.
  Lemma nested_below comp v : under (bad R) (r_ok R) (nested_value (S := S1) comp v) (nested_value (S := S2) comp v).
  Proof. apply done_below, calls_below. split; [reflexivity|constructor]. Qed.
End Mono.
