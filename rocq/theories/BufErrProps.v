(** * BufErrProps: the error of a failed collect says what was met (C78) *)

From Verif Require Import Base Event Tree LowerModel LowerSpec FlatProofs LowerProofs MethProofs ForwardModel ForwardProofs
  FragModel FragSpec DataModel BufferModel BufferSpec BufferProofs BufferHistProofs BufferProps AdaptiveModel AdaptiveProps AdaptiveBufProps
  BufErrModel BufErrSpec BufErrProofs.

(** ** The error is all that is added *)

Section Sim.
  Context {S T : Type} (f : S -> T) (step : S -> ev -> res S) (step' : T -> ev -> res T).
  Definition mapr (r : res S) : res T := match r with Ok s => Ok (f s) | Err s => Err (f s) | Panic => Panic end.
  Hypothesis same : forall s e, mapr (step s e) = step' (f s) e.
  Lemma run_sim es : forall s, mapr (run step s es) = run step' (f s) es.
  Proof.
    induction es as [|e es IH]; intros s; [reflexivity|]. cbn [run]. rewrite <- same.
    destruct (step s e); cbn [bind mapr]; [apply IH|reflexivity..].
  Qed.
  Lemma bare_sim p : forall comp s, mapr (bare step p comp s) = bare step' p comp (f s).
  Proof.
    induction p as [ok|e k IH|v IHv k IH|v IHv k IH]; intros comp s; cbn [bare].
    - destruct ok; reflexivity.
    - rewrite <- same. destruct (step s (weaken comp e)); cbn [mapr answer]; [apply IH..|reflexivity].
    - rewrite <- IHv. destruct (bare step v comp s); cbn [mapr answer]; [apply IH..|reflexivity].
    - rewrite <- IHv. destruct (bare step v true s); cbn [mapr answer]; [apply IH..|reflexivity].
  Qed.
End Sim.
Lemma prog_sim {S T} (f : S -> T) O step step' p s : (forall s e, mapr f (step s e) = step' (f s) e) ->
  mapr f (run_prog O step s p) = run_prog O step' (f s) p.
Proof.
  intros H. unfold run_prog. rewrite !do_prog_bare. apply bare_sim. intros s' e. unfold meth. apply run_sim. exact H.
Qed.

Definition is_some {A} (o : option A) : bool := match o with Some _ => true | None => false end.
Definition flag_err (c : ecol) : col := (fst c, is_some (snd c)).
Definition only {A} (r : collected A) : outcome A := match r with COk a => OOk a | CErr _ => OErr | CPanic => OPanic end.

(** A step that agrees on the methods that are run. *)
Lemma run_sim_on {S T} (f : S -> T) (step : S -> ev -> res S) (step' : T -> ev -> res T) (P : ev -> Prop) :
  (forall s e, P e -> mapr f (step s e) = step' (f s) e) ->
  forall es s, Forall P es -> mapr f (run step s es) = run step' (f s) es.
Proof.
  intros H. induction es as [|e es IH]; intros s F; [reflexivity|]. inversion F; subst. cbn [run]. rewrite <- H by assumption.
  destruct (step s e); cbn [bind mapr]; [apply IH; assumption|reflexivity..].
Qed.
Lemma bare_meth_sim {S T} (f : S -> T) O (step : S -> ev -> res S) (step' : T -> ev -> res T) :
  (forall s e, O e = true \/ required e = true -> mapr f (step s e) = step' (f s) e) ->
  forall p s, mapr f (run_prog O step s p) = run_prog O step' (f s) p.
Proof.
  intros H p s. unfold run_prog. rewrite !do_prog_bare. apply bare_sim. intros s' e. unfold meth.
  apply (run_sim_on f step step' (fun e => O e = true \/ required e = true)); [exact H|].
  pose proof (lower_all_done O [e]) as D. unfold lower_all in D. cbn [flat_map] in D. rewrite app_nil_r in D. exact D.
Qed.
Lemma int_required t z : required (EInt t z) = true -> t = I64.
Proof.
  unfold required. destruct t; cbn [default_calls]; try discriminate; try reflexivity;
  destruct (fits I64 z); discriminate.
Qed.
Lemma text_step_sim s e : text_col_over e = true \/ required e = true ->
  mapr flag_err (text_ecol_step s e) = text_col_step (flag_err s) e.
Proof.
  intros R. destruct e; try reflexivity; try (destruct R as [R|R]; discriminate R).
  destruct R as [R|R]; [discriminate R|]. apply int_required in R. subst t. reflexivity.
Qed.
Lemma bin_step_sim s e : bin_col_over e = true \/ required e = true ->
  mapr flag_err (bin_ecol_step s e) = bin_col_step (flag_err s) e.
Proof.
  intros R. destruct e; try reflexivity; try (destruct R as [R|R]; discriminate R).
  destruct R as [R|R]; [destruct t; try discriminate R; reflexivity|]. apply int_required in R. subst t. reflexivity.
Qed.
Lemma ecollect_only r : only (ecollect_end r) = collect_end (mapr flag_err r).
Proof. destruct r as [[c [k|]]|[c [k|]]|]; reflexivity. Qed.

(** C78: whether collecting succeeds, fails or panics, and with what content, is as in C14, C15 and
    C62; only the error is added. *)
Theorem C78_same_outcome : forall p,
  only (text_ecollect p) = adaptive_text_collect p /\
  only (bin_ecollect p) = adaptive_binary_collect p /\
  only (ebuf_collect p) = adaptive_vbuf_collect p.
Proof.
  intros p. unfold text_ecollect, bin_ecollect, adaptive_text_collect, adaptive_binary_collect. rewrite !ecollect_only.
  rewrite (bare_meth_sim flag_err _ _ _ text_step_sim), (bare_meth_sim flag_err _ _ _ bin_step_sim).
  split; [reflexivity|]. split; [reflexivity|]. unfold ebuf_collect, adaptive_vbuf_collect. rewrite !do_prog_bare.
  change vbuf_new with (fst ebuf_new). rewrite <- (@bare_sim ebuf vbuf fst ebuf_step vbuf_step ebuf_step_erase).
  generalize (bare ebuf_step p (has_computed OBase) ebuf_new). intros []; reflexivity.
Qed.

(** ** Values *)

Lemma streams_run {S} O (step : S -> ev -> res S) s v t : streams v t ->
  run_prog O step s (prog_of v) = run step s (lower_all O (emit t)).
Proof.
  intros H. unfold run_prog. rewrite C62_call_lists_pass_failures_on, do_calls_stream_value. unfold stream_value.
  rewrite H, run_meth. destruct (run (meth O step) s (emit t)); reflexivity.
Qed.

(** C78: collecting the text of a value that is no text says what it is. *)
Theorem C78_text_error : forall v t, streams v t -> ranged t = true ->
  match simplify t with
  | KText _ fs => exists c, text_ecollect (prog_of v) = COk c /\ frag_inner c = List.concat fs
  | k => exists e, text_ecollect (prog_of v) = CErr e /\ error_text e = unexpected (word k) "text"
  end.
Proof.
  intros v t H R. unfold text_ecollect. rewrite (streams_run _ _ _ _ _ H). pose proof (etext_collect_tree t R) as E.
  destruct (simplify t); destruct E as (c & E); try (rewrite E; cbn [ecollect_end]; eexists; split; reflexivity).
  destruct E as [E D]. rewrite E. cbn [ecollect_end]. eexists. split; [reflexivity|exact D].
Qed.
(** Collecting the bytes of a value says what was met first that is no part of any bytes. *)
Theorem C78_bytes_error : forall v t, streams v t -> ranged t = true ->
  match bytes_or t with
  | inl s => exists c, bin_ecollect (prog_of v) = COk c /\ frag_inner c = s
  | inr w => exists e, bin_ecollect (prog_of v) = CErr e /\ error_text e = unexpected w "binary"
  end.
Proof.
  intros v t H R. unfold bin_ecollect. rewrite (streams_run _ _ _ _ _ H), run_meth.
  pose proof (ebin_collect_tree t text_buf_new R) as E. unfold ebin_ok in E.
  destruct (bytes_or t) as [s|w].
  - destruct E as (c & E & D). rewrite E. cbn [ecollect_end]. eexists. split; [reflexivity|exact D].
  - destruct E as (c & E). rewrite E. cbn [ecollect_end]. eexists. split; reflexivity.
Qed.

(** ** Whatever a value does *)

Lemma ecol_hist (step : ecol -> ev -> res ecol) (ref : ev -> option string) (what : string) :
  (forall c e, match step c e with
               | Ok c' => snd c' = snd c /\ ref e = None
               | Err c' => match ref e with Some w => snd c' = Some (Unsupported (bs w) (bs what)) | None => snd c' = snd c end
               | Panic => False end) ->
  forall es c, snd (history step c es) =
    match last_some (map ref es) with Some w => Some (Unsupported (bs w) (bs what)) | None => snd c end.
Proof.
  intros H. induction es as [|e es IH]; intros c; [reflexivity|]. unfold history in *. cbn [fold_left map last_some].
  rewrite IH. destruct (last_some (map ref es)); [reflexivity|]. unfold next_state. specialize (H c e).
  destruct (step c e) as [c'|c'|]; [|destruct (ref e); exact H|contradiction]. destruct H as [H ->]. exact H.
Qed.
Lemma text_ref c e :
  match text_ecol_step c e with
  | Ok c' => snd c' = snd c /\ refused_text e = None
  | Err c' => match refused_text e with Some w => snd c' = Some (Unsupported (bs w) (bs "text")) | None => snd c' = snd c end
  | Panic => False
  end.
Proof. destruct e; cbn; try (split; reflexivity); try reflexivity. destruct t; reflexivity. Qed.
Lemma bin_ref c e :
  match bin_ecol_step c e with
  | Ok c' => snd c' = snd c /\ refused_bytes e = None
  | Err c' => match refused_bytes e with Some w => snd c' = Some (Unsupported (bs w) (bs "binary")) | None => snd c' = snd c end
  | Panic => False
  end.
Proof. destruct e; cbn; try (split; reflexivity); try reflexivity. destruct t; try reflexivity. split; reflexivity. Qed.

(** C78: a value may go on after a call that failed; the error is that of the last method that was refused.
    The record is of the collector's methods that were run. *)
Theorem C78_any_text_error : forall p k, text_ecollect p = CErr k ->
  exists w, last_some (map refused_text (methods_run text_col_over text_ecol_step (text_buf_new, None) p)) = Some w /\
    error_text k = unexpected w "text".
Proof.
  intros p k H. unfold text_ecollect in H. destruct (run_prog _ _ _ p) as [c|[c [k'|]]|] eqn:R; try discriminate H.
  injection H as ->. pose proof (made text_col_over text_ecol_step p _ _ (or_intror R)) as M.
  apply (f_equal snd) in M. rewrite (ecol_hist _ _ _ text_ref) in M. cbn [snd] in M.
  destruct (last_some _) as [w|]; [|discriminate M]. injection M as ->. exists w. split; reflexivity.
Qed.
Theorem C78_any_bytes_error : forall p k, bin_ecollect p = CErr k ->
  exists w, last_some (map refused_bytes (methods_run bin_col_over bin_ecol_step (text_buf_new, None) p)) = Some w /\
    error_text k = unexpected w "binary".
Proof.
  intros p k H. unfold bin_ecollect in H. destruct (run_prog _ _ _ p) as [c|[c [k'|]]|] eqn:R; try discriminate H.
  injection H as ->. pose proof (made bin_col_over bin_ecol_step p _ _ (or_intror R)) as M.
  apply (f_equal snd) in M. rewrite (ecol_hist _ _ _ bin_ref) in M. cbn [snd] in M.
  destruct (last_some _) as [w|]; [|discriminate M]. injection M as ->. exists w. split; reflexivity.
Qed.

(** ** The value buffer *)

Lemma tracks_new : tracks [] vbuf_new.
Proof. split; [apply good_new|]. split; reflexivity. Qed.
Lemma tracks_next before b k e : tracks before b ->
  tracks (before ++ [e]) (fst (ebuf_next (b, k) e)) /\
  option_map error_text (snd (ebuf_next (b, k) e)) =
    match refused before e with Some m => Some m | None => option_map error_text k end.
Proof.
  intros T. pose proof (tracks_step before b k e T) as X. unfold ebuf_next. destruct (ebuf_step (b, k) e) as [b'|b'|].
  - destruct X as (X & -> & ->). split; [exact X|reflexivity].
  - destruct X as (X & m & -> & ->). split; [exact X|reflexivity].
  - destruct X as (-> & N & F). split; [|reflexivity]. destruct T as (G & L & P). unfold tracks. cbn [fst].
    rewrite open_after_snoc, last_thing_snoc. destruct e; try discriminate F; auto.
Qed.
Lemma tracks_all es : forall before b k, tracks before b ->
  option_map error_text (snd (fold_left ebuf_next es (b, k))) =
    match told before es with Some m => Some m | None => option_map error_text k end.
Proof.
  induction es as [|e es IH]; intros before b k T; [reflexivity|]. cbn [fold_left told].
  destruct (tracks_next before b k e T) as [T' M]. destruct (ebuf_next (b, k) e) as [b' k']. cbn [fst snd] in *.
  rewrite (IH _ _ _ T'). destruct (told (before ++ [e]) es); [reflexivity|exact M].
Qed.

(** C78: after any calls on a buffer, [into_err] is the error of the last one that was refused: a
    fragment whose kind is not that of the last thing begun, or an end with nothing open. *)
Theorem C78_buffer_error : forall es, option_map error_text (into_err es) = told [] es.
Proof.
  intros es. unfold into_err. change ebuf_new with (vbuf_new, @None kind). rewrite (tracks_all es [] vbuf_new None tracks_new). destruct (told [] es); reflexivity.
Qed.
(** A buffer that is cleared has none. *)
Theorem C78_cleared : forall es es',
  snd (fold_left ebuf_next es' (ebuf_clear (fold_left ebuf_next es ebuf_new))) = into_err es'.
Proof. intros es es'. reflexivity. Qed.

Lemma ebuf_made p b : do_prog ebuf_step p OBase ebuf_new = Err b ->
  snd b = into_err (calls_made vbuf_step vbuf_new p).
Proof.
  unfold calls_made. rewrite !do_prog_bare. intros R.
  pose proof (logged_same ebuf_step p (has_computed OBase) ebuf_new []) as L. rewrite R in L. destruct L as (l & L).
  assert (X : b = fold_left ebuf_next l ebuf_new).
  { refine (bare_inv (logged ebuf_step) (fun x => fst x = fold_left ebuf_next (snd x) ebuf_new) _ p _ (ebuf_new, []) (b, l) eq_refl (or_intror L)).
    intros x e x' Hx M. unfold logged in M. destruct (ebuf_step (fst x) e) as [b1|b1|] eqn:E.
    - destruct M as [M|M]; [|discriminate M]. injection M as <-. cbn [fst snd]. rewrite fold_left_app, <- Hx. cbn [fold_left].
      unfold ebuf_next. rewrite E. reflexivity.
    - destruct M as [M|M]; [discriminate M|]. injection M as <-. cbn [fst snd]. rewrite fold_left_app, <- Hx. cbn [fold_left].
      unfold ebuf_next. rewrite E. reflexivity.
    - destruct M; discriminate. }
  pose proof (bare_sim (fun x : ebuf * list ev => (fst (fst x), snd x)) (logged ebuf_step) (logged vbuf_step)) as B.
  specialize (B ltac:(intros [[v k] l'] e; unfold logged; cbn [fst snd]; pose proof (ebuf_step_erase (v, k) e) as Er; cbn [fst] in Er; rewrite <- Er; destruct (ebuf_step (v, k) e); reflexivity)).
  specialize (B p (has_computed OBase) (ebuf_new, [])). rewrite L in B. cbn [mapr fst snd] in B.
  change (fst ebuf_new) with vbuf_new in B. rewrite <- B. cbn [snd]. rewrite X. reflexivity.
Qed.
(** Whatever a value does, the error of collecting it is that, or says that the value failed by itself. *)
Theorem C78_collect_error : forall p k, ebuf_collect p = CErr k ->
  error_text k = match told [] (calls_made vbuf_step vbuf_new p) with
                 | Some m => m
                 | None => bs "the value is invalid: the value itself failed to stream"
                 end.
Proof.
  intros p k H. unfold ebuf_collect in H. destruct (do_prog ebuf_step p OBase ebuf_new) as [b|b|] eqn:R; try discriminate H.
  cbn [ebuf_end] in H. injection H as <-. pose proof (ebuf_made p b R) as M. rewrite <- C78_buffer_error, <- M.
  destruct (snd b); reflexivity.
Qed.

(** ** When collecting panics (C62) *)

(** Once something is buffered nothing panics. *)
Lemma no_panic p : forall comp es b, tracks es b -> last_thing es <> None ->
  match bare vbuf_step p comp b with
  | Ok b' | Err b' => exists es', tracks es' b' /\ last_thing es' <> None
  | Panic => False
  end.
Proof.
  induction p as [ok|e k IH|v IHv k IH|v IHv k IH]; intros comp es b T N; cbn [bare].
  - destruct ok; eauto.
  - pose proof (tracks_step es b None (weaken comp e) T) as X. pose proof (ebuf_step_erase (b, None) (weaken comp e)) as Er.
    cbn [fst] in Er. rewrite <- Er.
    assert (L : last_thing (es ++ [weaken comp e]) <> None) by (rewrite last_thing_snoc; destruct (thing_of _); [discriminate|exact N]).
    destruct (ebuf_step (b, None) (weaken comp e)) as [b'|b'|]; cbn [erase answer].
    + apply (IH true comp _ _ (proj1 X) L).
    + apply (IH false comp _ _ (proj1 X) L).
    + destruct X as (_ & X & _). contradiction.
  - specialize (IHv comp es b T N). destruct (bare vbuf_step v comp b) as [b'|b'|]; cbn [answer]; [| |exact IHv];
      destruct IHv as (es' & T' & N'); eapply IH; eassumption.
  - specialize (IHv true es b T N). destruct (bare vbuf_step v true b) as [b'|b'|]; cbn [answer]; [| |exact IHv];
      destruct IHv as (es' & T' & N'); eapply IH; eassumption.
Qed.
Lemma first_panic p : forall comp es b, tracks es b -> last_thing es = None -> open_after es = 0 ->
  match first_call p with
  | inl e => if is_fragment e then bare vbuf_step p comp b = Panic
             else match bare vbuf_step p comp b with
                  | Ok b' | Err b' => exists es', tracks es' b' /\ last_thing es' <> None
                  | Panic => False
                  end
  | inr ok => exists es' b', bare vbuf_step p comp b = (if ok then Ok b' else Err b') /\
                tracks es' b' /\ last_thing es' = None /\ open_after es' = 0
  end.
Proof.
  assert (V : forall v k, (forall comp es b, tracks es b -> last_thing es = None -> open_after es = 0 ->
      match first_call v with
      | inl e => if is_fragment e then bare vbuf_step v comp b = Panic
                 else match bare vbuf_step v comp b with
                      | Ok b' | Err b' => exists es', tracks es' b' /\ last_thing es' <> None
                      | Panic => False
                      end
      | inr ok => exists es' b', bare vbuf_step v comp b = (if ok then Ok b' else Err b') /\
                    tracks es' b' /\ last_thing es' = None /\ open_after es' = 0
      end) -> (forall ok comp es b, tracks es b -> last_thing es = None -> open_after es = 0 ->
      match first_call (k ok) with
      | inl e => if is_fragment e then bare vbuf_step (k ok) comp b = Panic
                 else match bare vbuf_step (k ok) comp b with
                      | Ok b' | Err b' => exists es', tracks es' b' /\ last_thing es' <> None
                      | Panic => False
                      end
      | inr ok' => exists es' b', bare vbuf_step (k ok) comp b = (if ok' then Ok b' else Err b') /\
                    tracks es' b' /\ last_thing es' = None /\ open_after es' = 0
      end) -> forall comp c' es b, tracks es b -> last_thing es = None -> open_after es = 0 ->
      match (match first_call v with inl e => inl e | inr ok => first_call (k ok) end) with
      | inl e => if is_fragment e then answer (bare vbuf_step v c' b) (fun b0 => bare vbuf_step (k b0) comp) = Panic
                 else match answer (bare vbuf_step v c' b) (fun b0 => bare vbuf_step (k b0) comp) with
                      | Ok b' | Err b' => exists es', tracks es' b' /\ last_thing es' <> None
                      | Panic => False
                      end
      | inr ok => exists es' b', answer (bare vbuf_step v c' b) (fun b0 => bare vbuf_step (k b0) comp) = (if ok then Ok b' else Err b') /\
                    tracks es' b' /\ last_thing es' = None /\ open_after es' = 0
      end).
  { intros v k IHv IH comp c' es b T N O. specialize (IHv c' es b T N O). destruct (first_call v) as [e|ok].
    - destruct (is_fragment e); [rewrite IHv; reflexivity|].
      destruct (bare vbuf_step v c' b) as [b'|b'|]; cbn [answer]; [| |contradiction];
        destruct IHv as (es' & T' & N'); eapply no_panic; eassumption.
    - destruct IHv as (es' & b' & -> & T' & N' & O'). specialize (IH ok comp es' b' T' N' O').
      destruct ok; cbn [answer]; exact IH. }
  induction p as [ok|e k IH|v IHv k IH|v IHv k IH]; intros comp es b T N O; cbn [bare first_call].
  - exists es, b. destruct ok; auto.
  - pose proof (tracks_step es b None (weaken comp e) T) as X. pose proof (ebuf_step_erase (b, None) (weaken comp e)) as Er.
    cbn [fst] in Er. rewrite <- Er. clear Er.
    destruct (thing_of e) as [th|] eqn:TE.
    + assert (L : last_thing (es ++ [weaken comp e]) <> None).
      { rewrite last_thing_snoc. destruct comp, e; cbn in *; discriminate. }
      assert (FC : match e with ETextEnd | EBinEnd => first_call (k true) | e => if ends e then first_call (k false) else inl e end = inl e)
        by (destruct e; try discriminate TE; reflexivity).
      assert (NF : is_fragment e = false) by (destruct e; try discriminate TE; reflexivity).
      rewrite FC, NF. destruct (ebuf_step (b, None) (weaken comp e)) as [b'|b'|]; cbn [erase answer].
      * eapply no_panic; [apply X|exact L].
      * eapply no_panic; [apply X|exact L].
      * destruct X as (_ & _ & X). destruct comp, e; cbn in X, NF; discriminate.
    + assert (L : last_thing (es ++ [weaken comp e]) = None).
      { rewrite last_thing_snoc. destruct comp, e; cbn in *; try discriminate; exact N. }
      assert (O' : open_after (es ++ [weaken comp e]) = 0).
      { rewrite open_after_snoc, O. destruct comp, e; cbn in *; try discriminate; reflexivity. }
      destruct (is_fragment e) eqn:FR.
      * assert (FC : match e with ETextEnd | EBinEnd => first_call (k true) | e => if ends e then first_call (k false) else inl e end = inl e)
          by (destruct e; try discriminate FR; reflexivity).
        rewrite FC, FR. assert (P : ebuf_step (b, None) (weaken comp e) = Panic); [|rewrite P; reflexivity].
        destruct T as (_ & _ & T). rewrite N in T. destruct (last_part (parts b)) as [q|] eqn:LP; [discriminate T|].
        destruct e; try discriminate FR; destruct comp; cbn [weaken computed ebuf_step]; unfold push_efrag; cbn [fst]; rewrite LP; reflexivity.
      * destruct (ebuf_step (b, None) (weaken comp e)) as [b'|b'|] eqn:Es; cbn [erase answer].
        -- assert (FC : match e with ETextEnd | EBinEnd => first_call (k true) | e => if ends e then first_call (k false) else inl e end = first_call (k true)).
           { destruct X as (_ & _ & X). unfold refused in X. rewrite O in X.
             destruct e; try discriminate FR; try discriminate TE; try reflexivity; destruct comp; cbn in X; discriminate X. }
           rewrite FC. apply (IH true comp _ _ (proj1 X) L O').
        -- assert (FC : match e with ETextEnd | EBinEnd => first_call (k true) | e => if ends e then first_call (k false) else inl e end = first_call (k false)).
           { destruct e; try discriminate FR; try discriminate TE; try reflexivity; destruct comp; cbn in Es; discriminate Es. }
           rewrite FC. apply (IH false comp _ _ (proj1 X) L O').
        -- destruct X as (_ & _ & X). destruct comp, e; cbn in X, FR; discriminate.
  - apply (V v k IHv IH comp comp es b T N O).
  - apply (V v k IHv IH comp true es b T N O).
Qed.
(** Buffering a value panics exactly when the first call it makes that is not an end is a fragment. *)
Theorem C62_buffer_panics_exactly : forall p,
  adaptive_vbuf_collect p = OPanic <-> exists e, first_call p = inl e /\ is_fragment e = true.
Proof.
  intros p. unfold adaptive_vbuf_collect. rewrite do_prog_bare.
  pose proof (first_panic p (has_computed OBase) [] vbuf_new tracks_new eq_refl eq_refl) as X.
  destruct (first_call p) as [e|ok].
  - destruct (is_fragment e) eqn:F.
    + rewrite X. split; [intros _; eauto|reflexivity].
    + destruct (bare vbuf_step p _ vbuf_new); [| |contradiction]; (split; [discriminate|]); intros (e' & [= <-] & F'); congruence.
  - destruct X as (es' & b' & -> & _). split; [destruct ok; discriminate|]. intros (e & E & _). discriminate E.
Qed.

(** ** Samples *)
Example C78_sample_text :
  map (fun v => match text_ecollect (prog_of v) with CErr k => error_text k | _ => [] end)
    [[CE (EBool true)]; [CE (EInt U8 1)]; [CE (EMapBegin None); CE EMapEnd]; [CE (EBinBegin None); CE EBinEnd]] =
    [bs "unexpected boolean, expected text"; bs "unexpected integer, expected text";
     bs "unexpected sequence, expected text"; bs "unexpected sequence, expected text"].
Proof. vm_compute. reflexivity. Qed.
Example C78_sample_bytes :
  map (fun v => match bin_ecollect (prog_of v) with CErr k => error_text k | _ => [] end)
    [[CE (ESeqBegin None); CE ESeqValBegin; CE (EInt U8 1); CE ESeqValEnd; CE ESeqValBegin; CE (EInt I8 1); CE ESeqValEnd; CE ESeqEnd];
     [CE (EInt U64 9223372036854775808)]; [CE (EMapBegin None); CE EMapEnd]] =
    [bs "unexpected integer, expected binary"; bs "unexpected text, expected binary"; bs "unexpected map, expected binary"].
Proof. vm_compute. reflexivity. Qed.
Example C78_sample_buffer :
  map (option_map error_text)
    [into_err [ENull; ETextFrag (bs "a"); ESeqEnd]; into_err [ETextBegin None; EBinFrag (bs "a")]; into_err [ESeqBegin None; ETextFragC (bs "a"); ESeqEnd];
     into_err [ESeqBegin None; EMapEnd]] =
    [Some (bs "the value is invalid: unbalanced calls to `begin` and `end`"); Some (bs "expected a fragment while buffering binary");
     Some (bs "expected a fragment while buffering text"); None] /\
  (exists k, ebuf_collect (prog_of [CE ENull; CFail]) = CErr k /\ error_text k = bs "the value is invalid: the value itself failed to stream").
Proof. split; [vm_compute; reflexivity|]. eexists. split; vm_compute; reflexivity. Qed.
Example C62_buffer_panics_sample :
  adaptive_vbuf_collect (PCall EMapEnd (fun _ => PCall ETextEnd (fun _ => PCall (ETextFrag (bs "a")) PEnd))) = OPanic /\
  first_call (PCall EMapEnd (fun _ => PCall ETextEnd (fun _ => PCall (ETextFrag (bs "a")) PEnd))) = inl (ETextFrag (bs "a")).
Proof. split; reflexivity. Qed.

Print Assumptions C78_same_outcome.
Print Assumptions C78_text_error.
Print Assumptions C78_bytes_error.
Print Assumptions C78_any_text_error.
Print Assumptions C78_any_bytes_error.
Print Assumptions C78_buffer_error.
Print Assumptions C78_cleared.
Print Assumptions C78_collect_error.
Print Assumptions C62_buffer_panics_exactly.
