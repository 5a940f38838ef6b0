(** * AdaptiveBufProps: buffers and collectors fed by values that look at results (C62) *)

From Verif Require Import Base Event Tree LowerModel LowerSpec LowerProofs MethProofs FlatProofs ForwardModel ForwardProofs
  ExtractModel FragModel DataModel JsonModel BufferModel BufferSpec FragProofs BufferHistProofs BufferProps AdaptiveModel AdaptiveProps.

(** ** Specification *)

(** A history of calls, each made whatever became of the one before. *)
Definition next_state {S} (step : S -> ev -> res S) (s : S) (e : ev) : S :=
  match step s e with Ok s' | Err s' => s' | Panic => s end.
Definition history {S} (step : S -> ev -> res S) (s : S) (es : list ev) : S := fold_left (next_state step) es s.

(** What a call adds to a text, and to bytes. *)
Definition text_added (e : ev) : bytes := match e with ETextFrag s | ETextFragC s => s | _ => [] end.
Definition bytes_added (e : ev) : bytes :=
  match e with EBinFrag s | EBinFragC s => s | EInt U8 z => [byte_of_Z z] | _ => [] end.
(** The calls that stream a text, and those that stream bytes. *)
Definition texty (e : ev) : bool := match e with ETextBegin _ | ETextFrag _ | ETextFragC _ | ETextEnd => true | _ => false end.
Definition binary (e : ev) : bool :=
  match e with
  | EBinBegin _ | EBinFrag _ | EBinFragC _ | EBinEnd | EInt U8 _ | ESeqBegin _ | ESeqValBegin | ESeqValEnd | ESeqEnd => true
  | _ => false
  end.

(** ** Proofs *)
Lemma run_logged_history {S} (step : S -> ev -> res S) s0 es : forall x x', fst x = history step s0 (snd x) ->
  run (logged step) x es = Ok x' \/ run (logged step) x es = Err x' -> fst x' = history step s0 (snd x').
Proof.
  intros x x' H. refine (run_inv (logged step) (fun x => fst x = history step s0 (snd x)) _ es x x' H).
  clear. intros [s l] e s' E R. unfold logged in R. cbn [fst snd] in *.
  assert (Q : s' = (next_state step s e, l ++ [e])).
  { unfold next_state. destruct (step s e) as [s1|s1|]; destruct R as [R|R]; try discriminate R; injection R as <-; reflexivity. }
  subst s'. cbn [fst snd]. unfold history in *. rewrite fold_left_app, <- E. reflexivity.
Qed.
Lemma made {S} O (step : S -> ev -> res S) p s s' :
  run_prog O step s p = Ok s' \/ run_prog O step s p = Err s' -> s' = history step s (methods_run O step s p).
Proof.
  intros R. unfold run_prog, methods_run, run_prog in *. rewrite do_prog_bare in R. rewrite do_prog_bare.
  pose proof (meth_logged O step p (has_computed OBase) s []) as L.
  assert (G : forall l, (bare (meth O (logged step)) p (has_computed OBase) (s, []) = Ok (s', l) \/
                         bare (meth O (logged step)) p (has_computed OBase) (s, []) = Err (s', l)) -> s' = history step s l).
  { intros l R'. refine (bare_inv (meth O (logged step)) (fun x => fst x = history step s (snd x)) _ p _ (s, []) (s', l) eq_refl R').
    intros x e x' Hx M. unfold meth in M. exact (run_logged_history step s _ x x' Hx M). }
  destruct R as [R|R]; rewrite R in L; destruct L as (l & L); rewrite L; cbn [snd]; apply G; auto.
Qed.

(** ** C62 *)

(** Whatever a value does about failures, it leaves the stream in the state the calls
    it made lead to, one after another. *)
Theorem C62_effect_is_that_of_the_calls : forall S (O : ev -> bool) (step : S -> ev -> res S) p s s',
  run_prog O step s p = Ok s' \/ run_prog O step s p = Err s' -> s' = history step s (methods_run O step s p).
Proof. intros S O step p s s'. apply made. Qed.

Lemma text_hist es : forall c, frag_inner (fst (history text_col_step c es)) = frag_inner (fst c) ++ flat_map text_added es /\
  snd (history text_col_step c es) = snd c || negb (forallb texty es).
Proof.
  induction es as [|e es IH]; intros c; unfold history; cbn [fold_left flat_map forallb].
  - rewrite app_nil_r, orb_false_r. auto.
  - destruct (IH (next_state text_col_step c e)) as [I1 I2]. unfold history in I1, I2. rewrite I1, I2.
    unfold next_state, frag_inner. destruct e; cbn [text_col_step col_fail fst snd texty text_added andb negb app frag_push_computed c_data];
      rewrite ?orb_true_r; auto.
    + rewrite frag_push_data, <- app_assoc. auto.
    + rewrite <- app_assoc. auto.
Qed.
Lemma bin_hist es : forall c, frag_inner (fst (history bin_col_step c es)) = frag_inner (fst c) ++ flat_map bytes_added es /\
  snd (history bin_col_step c es) = snd c || negb (forallb binary es).
Proof.
  induction es as [|e es IH]; intros c; unfold history; cbn [fold_left flat_map forallb].
  - rewrite app_nil_r, orb_false_r. auto.
  - destruct (IH (next_state bin_col_step c e)) as [I1 I2]. unfold history in I1, I2. rewrite I1, I2.
    unfold next_state, frag_inner. destruct e as [| | | | | | | | | |ty z| | | | | | | | | | | | | | | | | | | | | | | | | | | | | |]; try destruct ty;
      cbn [bin_col_step col_fail fst snd binary bytes_added andb negb app frag_push_computed c_data];
      rewrite ?orb_true_r; auto; rewrite ?frag_push_data, <- ?app_assoc; auto.
Qed.

Lemma bare_nopanic {S} (step : S -> ev -> res S) : (forall s e, step s e <> Panic) -> forall p comp s, bare step p comp s <> Panic.
Proof.
  intros H. induction p as [ok|e k IH|v IHv k IH|v IHv k IH]; intros comp s; cbn [bare].
  - destruct ok; discriminate.
  - specialize (H s (weaken comp e)). destruct (step s (weaken comp e)); cbn [answer]; [apply IH..|congruence].
  - specialize (IHv comp s). destruct (bare step v comp s); cbn [answer]; [apply IH..|congruence].
  - specialize (IHv true s). destruct (bare step v true s); cbn [answer]; [apply IH..|congruence].
Qed.
Lemma collect_any over step (ok : ev -> bool) (add : ev -> bytes) :
  (forall es c, run step c es <> Panic) ->
  (forall es c, frag_inner (fst (history step c es)) = frag_inner (fst c) ++ flat_map add es /\
     snd (history step c es) = snd c || negb (forallb ok es)) ->
  forall p, let log := methods_run over step (text_buf_new, false) p in
  match collect_end (run_prog over step (text_buf_new, false) p) with
  | OOk c => frag_inner c = flat_map add log
  | OErr => forallb ok log = false
  | OPanic => forallb ok log = true
  end /\
  ((exists c, collect_end (run_prog over step (text_buf_new, false) p) = OOk c) <->
   (exists s, run_prog over step (text_buf_new, false) p = Ok s)).
Proof.
  intros NP H p log. pose proof (made over step p (text_buf_new, false)) as M. fold log in M.
  destruct (H log (text_buf_new, false)) as [H1 H2].
  destruct (run_prog over step (text_buf_new, false) p) as [s|s|] eqn:R.
  - specialize (M s (or_introl eq_refl)). subst s. cbn [collect_end]. split; [exact H1|]. split; eauto.
  - specialize (M s (or_intror eq_refl)). subst s. destruct (history step _ log) as [c b]. cbn [fst snd orb] in H2. subst b.
    cbn [collect_end]. destruct (forallb ok log); cbn [negb]; (split; [reflexivity|]); split; intros (x & E); discriminate E.
  - exfalso. revert R. unfold run_prog. rewrite do_prog_bare. apply bare_nopanic. intros s e. unfold meth. apply NP.
Qed.

(** Collecting the text of any value.  The record is of the collector's methods that
    were run.  If the value returns [Ok], the text is every fragment in order; if it
    fails, the collector reports it when it refused a call and panics otherwise. *)
Theorem C62_collect_text : forall p,
  let log := methods_run text_col_over text_col_step (text_buf_new, false) p in
  match adaptive_text_collect p with
  | OOk c => frag_inner c = flat_map text_added log
  | OErr => forallb texty log = false
  | OPanic => forallb texty log = true
  end /\
  ((exists c, adaptive_text_collect p = OOk c) <->
   (exists s, run_prog text_col_over text_col_step (text_buf_new, false) p = Ok s)).
Proof. apply collect_any; [intros es c; apply text_col_nopanic|intros es c; apply text_hist]. Qed.
Theorem C62_collect_binary : forall p,
  let log := methods_run bin_col_over bin_col_step (text_buf_new, false) p in
  match adaptive_binary_collect p with
  | OOk c => frag_inner c = flat_map bytes_added log
  | OErr => forallb binary log = false
  | OPanic => forallb binary log = true
  end /\
  ((exists c, adaptive_binary_collect p = OOk c) <->
   (exists s, run_prog bin_col_over bin_col_step (text_buf_new, false) p = Ok s)).
Proof. apply collect_any; [intros es c; apply bin_col_nopanic|intros es c; apply bin_hist]. Qed.

(** A buffer that accepts the calls of a value holds them; if the value then fails,
    so does collecting it. *)
Theorem C62_collect_buffer : forall p es ok b,
  calm_calls p false = (es, ok) -> vbuf_collect (map CE es) = OOk b ->
  adaptive_vbuf_collect p = if ok then OOk b else OErr.
Proof.
  intros p es ok b H E. unfold vbuf_collect, stream_value in E. rewrite flat_CE_false in E. cbn [bind] in E.
  unfold adaptive_vbuf_collect. rewrite do_prog_bare. cbn [has_computed].
  destruct (run vbuf_step vbuf_new es) as [b'| |] eqn:R; [|discriminate E..]. cbn [bind] in E. injection E as ->.
  rewrite (bare_calm vbuf_step p false vbuf_new b) by (rewrite H; exact R). rewrite H. destruct ok; reflexivity.
Qed.
(** Whatever calls a value makes and whatever it does about failures, the buffer
    collected from it is the history of those calls, and replays properly nested. *)
Theorem C62_any_buffer_replays : forall p b, adaptive_vbuf_collect p = OOk b ->
  b = history vbuf_step vbuf_new (calls_made vbuf_step vbuf_new p) /\
  exists cs fs, vbuf_stream b = Some cs /\ flat cs false = (fs, true) /\ nested fs.
Proof.
  intros p b H. assert (E : b = history vbuf_step vbuf_new (calls_made vbuf_step vbuf_new p)).
  { unfold adaptive_vbuf_collect in H. unfold calls_made. rewrite do_prog_bare in H. rewrite do_prog_bare.
    pose proof (logged_same vbuf_step p (has_computed OBase) vbuf_new []) as L.
    destruct (bare vbuf_step p _ vbuf_new) as [b'|b'|] eqn:R; [|discriminate H..]. injection H as ->.
    destruct L as (l & L). rewrite L. cbn [snd].
    refine (bare_inv (logged vbuf_step) (fun x => fst x = history vbuf_step vbuf_new (snd x)) _ p _ (vbuf_new, []) (b, l) eq_refl (or_introl L)).
    intros x e x' Hx M. apply (run_logged_history vbuf_step vbuf_new [e] x x' Hx). cbn [run].
    destruct (logged vbuf_step x e); cbn [bind]; exact M. }
  split; [exact E|]. rewrite E. exact (C19_replay_always_nested (calls_made vbuf_step vbuf_new p)).
Qed.

(** A value that tries [true], then falls back to a text, and one that gives up. *)
Definition gives_up : prog := PCall (EBool true) (fun b => if b then PEnd true else PEnd false).
Definition plain_failure : prog := PCall (ETextBegin None) (fun _ => PEnd false).
Definition two_bytes : prog := PCall (EInt I8 5) (fun b => if b then PEnd true else PCall (EInt U8 65) (fun _ => PCall (EBinFrag (bs "b")) PEnd)).
Example C62_collect_sample :
  adaptive_text_collect fallback = OOk (MkCow false (bs "true")) /\
  methods_run text_col_over text_col_step (text_buf_new, false) fallback = [EBool true; ETextBegin (Some 4%N); ETextFrag (bs "true"); ETextEnd] /\
  adaptive_text_collect gives_up = OErr /\ adaptive_text_collect plain_failure = OPanic /\
  adaptive_binary_collect two_bytes = OOk (MkCow true (bs "Ab")) /\
  adaptive_binary_collect gives_up = OErr /\ adaptive_binary_collect (PEnd false) = OPanic /\
  (exists b, vbuf_collect (map CE [ETextBegin None]) = OOk b) /\ calm_calls plain_failure false = ([ETextBegin None], false) /\
  (exists b, adaptive_vbuf_collect (PCall EMapEnd (fun _ => PCall (ESeqBegin None) (fun _ => PCall ENull PEnd))) = OOk b).
Proof. repeat split; try (vm_compute; reflexivity); eexists; vm_compute; reflexivity. Qed.

Print Assumptions C62_effect_is_that_of_the_calls.
Print Assumptions C62_collect_text.
Print Assumptions C62_collect_binary.
Print Assumptions C62_collect_buffer.
Print Assumptions C62_any_buffer_replays.
