(** * NestedErrProofs

    A stream with errors is run as a stream without: its first error, or panic, is
    kept in its objects and in its result. *)

From Verif Require Import Base Event Tree LowerModel FlatProofs DataModel FragModel FragProofs BufferModel BufferSpec
  BufferProofs ForwardModel AdaptiveModel BufErrModel BufErrSpec BufErrProofs NestedModel NestedSpec NestedProofs NestedErrModel NestedErrSpec.

(** ** The stream that keeps its first error *)
Definition end_ := option nerr.
Definition keep {A} (g : got A) : outcome (end_ + A) :=
  match g with GOk a => OOk (inr a) | GErr e => OOk (inl (Some e)) | GPanic => OOk (inl None) end.
Definition unkeep {A} (o : outcome (end_ + A)) : got A :=
  match o with
  | OOk (inr a) => GOk a
  | OOk (inl (Some e)) => GErr e
  | OOk (inl None) => GPanic
  | OErr => GErr value_failed
  | OPanic => GPanic
  end.
Lemma unkeep_keep {A} (g : got A) : unkeep (keep g) = g.
Proof. destruct g; reflexivity. Qed.
Definition after {A B} (s : end_ + A) (k : A -> got B) : outcome (end_ + B) :=
  match s with inl b => OOk (inl b) | inr s => keep (k s) end.

Definition keeping (S : xstream) : nstream :=
  {| n_ok := end_ + x_ok S;
     n_seq := end_ + x_seq S; n_map := end_ + x_map S; n_tuple := end_ + x_tuple S; n_record := end_ + x_record S;
     n_enum := end_ + x_enum S; n_vtuple := end_ + x_vtuple S; n_vrecord := end_ + x_vrecord S;
     n_null := keep (x_null S);
     n_bool b := keep (x_bool S b);
     n_int t z := keep (x_int S t z);
     n_f32 f := keep (x_f32 S f);
     n_f64 f := keep (x_f64 S f);
     n_text b s := keep (x_text S b s);
     n_bin b s := keep (x_bin S b s);
     n_tag t l i := keep (x_tag S t l i);
     n_tagged t l i a := keep (x_tagged S t l i a);
     n_seq_begin n := keep (x_seq_begin S n);
     n_map_begin n := keep (x_map_begin S n);
     n_tuple_begin t l i n := keep (x_tuple_begin S t l i n);
     n_record_begin t l i n := keep (x_record_begin S t l i n);
     n_enum_begin t l i := keep (x_enum_begin S t l i);
     seq_value s a := after s (fun s => x_seq_value S s a);
     seq_end s := after s (x_seq_end S);
     map_key s a := after s (fun s => x_map_key S s a);
     map_value s a := after s (fun s => x_map_value S s a);
     map_end s := after s (x_map_end S);
     tuple_value s t i a := after s (fun s => x_tuple_value S s t i a);
     tuple_end s := after s (x_tuple_end S);
     record_value s t l a := after s (fun s => x_record_value S s t l a);
     record_end s := after s (x_record_end S);
     enum_tag e t l i := after e (fun e => x_enum_tag S e t l i);
     enum_tagged e t l i a := after e (fun e => x_enum_tagged S e t l i a);
     enum_tuple_begin e t l i n := after e (fun e => x_enum_tuple_begin S e t l i n);
     enum_record_begin e t l i n := after e (fun e => x_enum_record_begin S e t l i n);
     enum_nested e t l i k := after e (fun e => x_enum_nested S e t l i (fun e' => unkeep (k (inr e'))));
     enum_empty e := after e (x_enum_empty S);
     vtuple_value s t i a := after s (fun s => x_vtuple_value S s t i a);
     vtuple_end s := after s (x_vtuple_end S);
     vrecord_value s t l a := after s (fun s => x_vrecord_value S s t l a);
     vrecord_end s := after s (x_vrecord_end S) |}.

Section Keeping.
Variable S : xstream.
Hypothesis EXT : only_calls_closures S.
Notation K := (keeping S).

(** *** Corresponding states *)
Definition up_enum (e : xfenum S) : @fenum K := MkFE (S := K) (inr (xe_stream e)) (xe_queue e).
Definition up_state (st : xstate S) : state K :=
  match st with
  | XAny => SAny
  | XSeq s => SSeq (S := K) (inr s)
  | XMap s k => SMap (S := K) (inr s) k
  | XTagged t l i => STagged t l i
  | XTuple s f => STuple (S := K) (inr s) f
  | XRecord s f => SRecord (S := K) (inr s) f
  | XEnum e => SEnum (up_enum e)
  | XVTagged e t l i => SVTagged (up_enum e) t l i
  | XVTuple s f => SVTuple (S := K) (inr s) f
  | XVRecord s f => SVRecord (S := K) (inr s) f
  | XDone (inl x) => SDone (S := K) (Some (inr x))
  | XDone (inr _) => SDone None
  end.
Definition up_buf (b : xbuffered) : buffered :=
  match b with XText c => BText c | XBin c => BBin c | XValue b => BValue (fst b) end.
Definition up (f : xfs S) : fstream K := MkFS (option_map up_buf (x_buf f)) (up_state (x_state f)).

(** *** After the end *)
Definition over_state (b : end_) (st : state K) : Prop :=
  match st with
  | SSeq (inl x) | SMap (inl x) _ | STuple (inl x) _ | SRecord (inl x) _
  | SVTuple (inl x) _ | SVRecord (inl x) _ | SDone (Some (inl x)) => x = b
  | SEnum e | SVTagged e _ _ _ => fe_stream e = inl b
  | _ => False
  end.
Definition over (b : end_) (f : fstream K) : Prop := over_state b (f_state f).
Definition stays (b : end_) (r : res (fstream K)) : Prop :=
  match r with Ok f => over b f | Err f => f_state f = SDone None \/ over b f | Panic => True end.
Definition rstays (b : end_) (r : res (fstream K)) : Prop :=
  match r with Ok f => over b f | Err f => True | Panic => True end.
Lemma stays_catch b r : rstays b r -> stays b (try_catch r).
Proof. destruct r; cbn; auto. Qed.

Lemma recurse_over q (e : n_enum K) (k : n_enum K -> outcome (n_ok K)) b : e = inl b ->
  (k e = OOk (inl b) \/ k e = OPanic) -> recurse q e k = OOk (inl b) \/ recurse q e k = OPanic.
Proof. intros ->. destruct q as [|[[t l] i] q]; cbn [recurse]; [exact (fun H => H)|]. intros _. left. reflexivity. Qed.

Lemma state_value_over b st any v : over_state b st ->
  match state_value st any v with
  | OOk (st', None) => over_state b st'
  | OOk (_, Some x) => x = inl b
  | _ => True
  end.
Proof.
  intros O. destruct st as [|[x|s]|[x|s] [|]|t l i|[x|s] [[ft fi]|]|[x|s] [[ft fl]|]|e|e t l i|[x|s] [[ft fi]|]|[x|s] [[ft fl]|]|[[x|x]|]];
    cbn in O |- *; try contradiction; try exact O; try exact I.
  unfold fe_tagged. destruct (recurse_over (fe_queue e) (fe_stream e) (fun e0 => enum_tagged K e0 t l i v) b O) as [E|E];
    [left; rewrite O; reflexivity|rewrite E; reflexivity|rewrite E; exact I].
Qed.
Lemma settle_over b f o :
  match o with OOk (st', None) => over_state b st' | OOk (_, Some x) => x = inl b | _ => True end -> rstays b (settle f o).
Proof. destruct o as [[st' [x|]]| |]; cbn; try (intros; exact I); unfold over; cbn; auto. intros ->. reflexivity. Qed.
Lemma with_buf_over b f r k : over b f -> (forall x, rstays b (k x)) -> rstays b (with_buf f r k).
Proof. intros O H. destruct r; cbn; auto. Qed.
Lemma put_over b f x : over b f -> over b (put f x).
Proof. exact (fun H => H). Qed.
Lemma bow_over b f buf k : over b f -> rstays b (k f) -> stays b (buffer_or_with f buf k).
Proof.
  intros O H. apply stays_catch. destruct (f_buf f) as [[c|c|x]|]; try exact H. apply with_buf_over; [exact O|]. intros y. exact O.
Qed.
Lemma bob_over b f buf any (enum : @fenum K -> outcome (state K)) : over b f ->
  (forall e : @fenum K, fe_stream e = inl b -> match enum e with OOk st => over_state b st | _ => True end) ->
  stays b (buffer_or_begin f buf any enum).
Proof.
  intros O H. apply stays_catch. destruct (f_buf f) as [[c|c|x]|].
  - exact I.
  - exact I.
  - apply with_buf_over; [exact O|]. intros y. exact O.
  - unfold over in O. destruct (f_state f) as [|s|s k|t l i|s g|s g|e|e t l i|s g|s g|r] eqn:Es; try contradiction;
      try (destruct (buf vbuf_new); cbn; try exact I; unfold over; cbn; rewrite Es; exact O).
    specialize (H e O). destruct (enum e); cbn; try exact I. exact H.
Qed.
Lemma boe_over b f buf t : over b f ->
  match t with OOk x => x = inl b | _ => True end -> stays b (buffer_or_end f buf t).
Proof.
  intros O H. apply stays_catch. destruct (f_buf f) as [[c|c|x]|]; try exact I.
  - apply with_buf_over; [exact O|]. intros y. destruct (is_complete y); [|exact O].
    destruct (vbuf_stream y); [|exact I]. apply settle_over. cbn [f_state]. apply state_value_over, O.
  - apply settle_over. destruct t; cbn; auto.
Qed.
Ltac ends_over := match goal with N : forall st, f_state ?f = st -> _ |- _ =>
  let Es := fresh in let Q := fresh in
  destruct (f_state f) as [|[x|s]|[x|s] ?|? ? ?|[x|s] ?|[x|s] ?|?|? ? ? ?|[x|s] ?|[x|s] ?|?] eqn:Es; try exact I;
  pose proof (N _ eq_refl) as Q; cbn in Q; try contradiction; rewrite Q; reflexivity end.
Lemma own_over b f e : over b f -> stays b (fs_own f e).
Proof.
  intros O.
  assert (V : forall buf any v, stays b (buffer_or_value f buf any v)).
  { intros. apply bow_over; [exact O|]. apply settle_over, state_value_over, O. }
  assert (Sh : forall g : fstream K -> res (fstream K), rstays b (g f) -> forall buf, stays b (buffer_or_with f buf g)).
  { intros g G buf. apply bow_over; assumption. }
  assert (N : forall st, f_state f = st -> over_state b st) by (intros st <-; exact O).
  destruct e; cbn [fs_own]; try (apply V); try exact O; try (apply Sh; exact O).
  - apply Sh. unfold put_buffer. destruct (f_buf f); [exact I|exact O].
  - apply Sh. unfold with_text. destruct (f_buf f) as [[]|]; try exact I. exact O.
  - apply Sh. unfold with_text. destruct (f_buf f) as [[]|]; try exact I. exact O.
  - apply Sh. destruct (f_buf f) as [[]|]; try exact I. apply settle_over. cbn [f_state]. apply state_value_over, O.
  - apply Sh. unfold put_buffer. destruct (f_buf f); [exact I|exact O].
  - apply Sh. unfold with_binary. destruct (f_buf f) as [[]|]; try exact I. exact O.
  - apply Sh. unfold with_binary. destruct (f_buf f) as [[]|]; try exact I. exact O.
  - apply Sh. destruct (f_buf f) as [[]|]; try exact I. apply settle_over. cbn [f_state]. apply state_value_over, O.
  - apply bob_over; [exact O|]. intros e _. exact I.
  - apply Sh. destruct (f_buf f); try exact I. destruct (f_state f) eqn:Es; try exact I. exact (N _ eq_refl).
  - apply Sh. destruct (f_buf f); try exact I. destruct (f_state f) eqn:Es; try exact I. exact (N _ eq_refl).
  - apply boe_over; [exact O|]. ends_over.
  - apply bob_over; [exact O|]. intros e _. exact I.
  - apply boe_over; [exact O|]. ends_over.
  - apply bob_over; [exact O|]. intros e E. exact E.
  - apply boe_over; [exact O|]. destruct (f_state f) as [| | | | | |e| | | |r] eqn:Es; try exact I.
    + pose proof (N _ eq_refl) as Q. cbn in Q. unfold fe_end.
      destruct (recurse_over (fe_queue e) (fe_stream e) (fun _ => OPanic) b Q) as [E|E]; [right; reflexivity|rewrite E; reflexivity|rewrite E; exact I].
    + unfold finish. rewrite Es. pose proof (N _ eq_refl) as Q. destruct r as [[x|x]|]; cbn in Q; try contradiction. rewrite Q. reflexivity.
  - apply bob_over; [exact O|]. intros e E. exact E.
  - apply boe_over; [exact O|]. unfold finish. destruct (f_state f) as [| | | | | | | | | |r] eqn:Es; try exact I.
    pose proof (N _ eq_refl) as Q. destruct r as [[x|x]|]; cbn in Q; try contradiction. rewrite Q. reflexivity.
  - apply Sh. destruct (f_state f) as [| | | | | |e| | | |r] eqn:Es; try (apply settle_over, state_value_over, N; reflexivity).
    apply settle_over. pose proof (N _ eq_refl) as Q. cbn in Q. unfold fe_tag.
    destruct (recurse_over (fe_queue e) (fe_stream e) (fun e0 => enum_tag K e0 t (cloned l) i) b Q) as [E|E];
      [left; rewrite Q; reflexivity|rewrite E; reflexivity|rewrite E; exact I].
  - apply bob_over; [exact O|]. intros e E. unfold fe_record_begin. destruct (fe_queue e); [|exact I]. rewrite E. reflexivity.
  - apply Sh. destruct (f_buf f); try exact I. destruct (f_state f) eqn:Es; try exact I; exact (N _ eq_refl).
  - apply boe_over; [exact O|]. ends_over.
  - apply bob_over; [exact O|]. intros e E. unfold fe_tuple_begin. destruct (fe_queue e); [|exact I]. rewrite E. reflexivity.
  - apply Sh. destruct (f_buf f); try exact I. destruct (f_state f) eqn:Es; try exact I; exact (N _ eq_refl).
  - apply boe_over; [exact O|]. ends_over.
Qed.
Lemma step_over b f e : over b f -> stays b (fs_step f e).
Proof. intros D. destruct e; cbn [fs_step]; try (apply own_over, D). exact D. Qed.
Lemma bind_over b r k : stays b r -> (forall f, over b f -> stays b (k f)) -> stays b (r >>= k).
Proof. intros D H. destruct r; cbn; [apply H, D|exact D|exact I]. Qed.
Lemma calls_over b : forall cs comp f, over b f -> stays b (fs_calls cs comp f).
Proof.
  assert (L : forall cs, Forall (fun c => forall comp f, over b f -> stays b (fs_call c comp f)) cs -> forall comp f, over b f ->
    stays b (fs_calls cs comp f)).
  { induction 1 as [|c' cs Hc _ IH]; intros comp f D; [exact D|]. apply bind_over; [apply Hc, D|intros; apply IH; assumption]. }
  intros cs. apply L. apply Forall_forall. intros c _. clear cs.
  assert (V : forall cs cc f, Forall (fun c => forall comp f, over b f -> stays b (fs_call c comp f)) cs -> over b f -> stays b (fs_value cc cs f)).
  { intros cs cc f H D. apply bow_over; [exact D|]. unfold over in D. destruct (f_state f) eqn:Es;
      try (rewrite <- Es in D |- *; apply settle_over, state_value_over, D).
    pose proof (L cs H cc f) as X. rewrite <- Es in D. specialize (X D). destruct (fs_calls cs cc f); [exact X|exact I|exact I]. }
  induction c as [e|cs H|cs H|] using call_ind'; intros comp f D.
  - apply step_over, D.
  - destruct comp; [rewrite fs_call_CV_computed; apply L; assumption|rewrite fs_call_CV; apply V; assumption].
  - rewrite fs_call_CVC. apply V; assumption.
  - right. exact D.
Qed.

(** *** Until the end *)
Definition sim (r : res (xfs S)) (r' : res (fstream K)) : Prop :=
  match r with
  | Ok f => r' = Ok (up f)
  | Err f => (exists e, x_state f = XDone (inr e) /\ stays (Some e) r') \/ r' = Err (up f)
  | Panic => stays None r'
  end.
Definition rsim (r : xres (S := S)) (r' : res (fstream K)) : Prop :=
  match r with
  | ROk f => r' = Ok (up f)
  | RErr f e => rstays (Some e) r'
  | RPanic => rstays None r'
  end.
Lemma sim_catch r r' : rsim r r' -> sim (xcatch r) (try_catch r').
Proof.
  destruct r as [f|f e|]; cbn [rsim xcatch sim].
  - intros ->. reflexivity.
  - intros H. left. exists e. split; [reflexivity|apply stays_catch, H].
  - apply stays_catch.
Qed.

(** Outcomes of the user's methods. *)
Definition osim {A B} (lift : A -> B) (bad : end_ -> B -> Prop) (g : got A) (o : outcome B) : Prop :=
  match g with
  | GOk a => o = OOk (lift a)
  | GErr e => match o with OOk b => bad (Some e) b | _ => True end
  | GPanic => match o with OOk b => bad None b | _ => True end
  end.
Definition isinl {A} (b : end_) (x : end_ + A) : Prop := x = inl b.
Lemma osim_keep {A} (g : got A) : osim inr isinl g (keep g).
Proof. destruct g; reflexivity. Qed.
Lemma osim_bind {A A' B B'} (l : A -> A') bad (m : B -> B') bad' g o k k' : osim l bad g o ->
  (forall a, osim m bad' (k a) (k' (l a))) ->
  (forall b a', bad b a' -> match k' a' with OOk x => bad' b x | _ => True end) ->
  osim m bad' (a <= g ;; k a) (a <- o ;; k' a).
Proof.
  intros H F G. destruct g as [a|e|]; cbn [osim gbind] in *.
  - subst o. apply F.
  - destruct o; cbn; auto. apply G, H.
  - destruct o; cbn; auto. apply G, H.
Qed.
Definition up_pair (p : xstate S * option (x_ok S)) : state K * option (n_ok K) :=
  (up_state (fst p), match snd p with Some x => Some (inr x) | None => None end).
Definition bad_pair (b : end_) (p : state K * option (n_ok K)) : Prop :=
  match snd p with None => over_state b (fst p) | Some x => x = inl b end.
Lemma settle_sim f g o : osim up_pair bad_pair g o -> rsim (xsettle f g) (settle (up f) o).
Proof.
  destruct g as [[st [x|]]|e|]; cbn [osim xsettle rsim].
  - intros ->. reflexivity.
  - intros ->. reflexivity.
  - intros H. apply settle_over. destruct o as [[st' [x|]]| |]; auto.
  - intros H. apply settle_over. destruct o as [[st' [x|]]| |]; auto.
Qed.

Lemma osim_unkeep {A} (g : got A) o : g = unkeep o -> osim inr isinl g o.
Proof. intros ->. destruct o as [[[e|]|a]| |]; reflexivity || exact I. Qed.
Lemma recurse_sim q : forall (e : x_enum S) (k : x_enum S -> got (x_ok S)) (k' : n_enum K -> outcome (n_ok K)),
  (forall e, k e = unkeep (k' (inr e))) -> xrecurse q e k = unkeep (recurse (S := K) q (inr e) k').
Proof.
  induction q as [|[[t l] i] q IH]; intros e k k' H; cbn [recurse xrecurse]; [apply H|].
  cbn [enum_nested keeping after]. rewrite unkeep_keep. apply EXT. intros e'. apply IH, H.
Qed.
Lemma keep_un {A} (g : got A) : g = unkeep (keep g).
Proof. symmetry. apply unkeep_keep. Qed.

Lemma state_value_sim st any any' v : osim inr isinl any any' ->
  osim up_pair bad_pair (xstate_value st any v) (state_value (up_state st) any' v).
Proof.
  intros A.
  assert (Kp : forall X (g : got X) (f : X -> xstate S * option (x_ok S)) (f' : end_ + X -> state K * option (n_ok K)),
    (forall a, f' (inr a) = up_pair (f a)) -> (forall b, bad_pair b (f' (inl b))) ->
    osim up_pair bad_pair (x <= g ;; GOk (f x)) (x <- keep g ;; OOk (f' x))).
  { intros X g f f' H1 H2. apply (osim_bind inr isinl); [apply osim_keep| |].
    - intros a. cbn. rewrite H1. reflexivity.
    - intros b a' ->. cbn. apply H2. }
  destruct st as [|s|s [|]|t l i|s [[ft fi]|]|s [[ft fl]|]|e|e t l i|s [[ft fi]|]|s [[ft fl]|]|[x|e]]; cbn [xstate_value up_state state_value];
    try exact I; try (apply (Kp _ _ _ _); [intros a; reflexivity|intros b; reflexivity]).
  - apply (osim_bind inr isinl); [exact A|reflexivity|]. intros b a' ->. reflexivity.
  - apply (osim_bind inr isinl); [|reflexivity|intros b a' ->; reflexivity].
    apply osim_unkeep, recurse_sim. intros e0. apply keep_un.
Qed.

(** *** Buffers *)
Lemma ebuf_run es : forall b, erase (run ebuf_step b es) = run vbuf_step (fst b) es.
Proof.
  induction es as [|e es IH]; intros b; [reflexivity|]. cbn [run]. rewrite <- ebuf_step_erase.
  destruct (ebuf_step b e); cbn [bind erase]; [apply IH|reflexivity..].
Qed.
Definition bsim (buf : ebuf -> res ebuf) (buf' : vbuf -> res vbuf) : Prop := forall b, erase (buf b) = buf' (fst b).
Lemma bsim_step e : bsim (fun b => ebuf_step b e) (fun b => vbuf_step b e).
Proof. intros b. apply ebuf_step_erase. Qed.
Lemma bsim_value c v : bsim (xbuf_value c v) (buf_value c v).
Proof.
  intros b. unfold xbuf_value, buf_value, stream_value. destruct (flat _ false) as [es ok]. rewrite <- ebuf_run.
  destruct (run ebuf_step b es); cbn; [destruct ok|..]; reflexivity.
Qed.
Lemma with_buf_sim f r r' k k' : erase r = r' -> (forall b, rsim (k b) (k' (fst b))) -> rsim (xwith_buf f r k) (with_buf (up f) r' k').
Proof. intros <- H. destruct r; cbn; [apply H|exact I..]. Qed.
Lemma bow_sim f buf buf' k k' : bsim buf buf' -> rsim (k f) (k' (up f)) -> sim (xbuffer_or_with f buf k) (buffer_or_with (up f) buf' k').
Proof.
  intros B H. apply sim_catch. unfold up at 1. cbn [f_buf]. destruct (x_buf f) as [[c|c|b]|]; cbn [option_map up_buf]; try exact H.
  apply with_buf_sim; [apply B|]. intros b'. reflexivity.
Qed.
Lemma bov_sim f buf buf' any any' v : bsim buf buf' -> osim inr isinl any any' ->
  sim (xbuffer_or_value f buf any v) (buffer_or_value (up f) buf' any' v).
Proof. intros B A. apply bow_sim; [exact B|]. apply settle_sim, state_value_sim, A. Qed.
Lemma lift_sim f g o : osim up_state over_state g o -> rsim (xlift f g) (lift (up f) o).
Proof.
  destruct g as [st|e|]; cbn [osim xlift rsim]; [intros ->; reflexivity|..]; intros H; destruct o; cbn; try exact I; exact H.
Qed.
Lemma bob_sim f buf buf' any any' enum enum' : bsim buf buf' -> osim up_state over_state any any' ->
  (forall e, osim up_state over_state (enum e) (enum' (up_enum e))) ->
  sim (xbuffer_or_begin f buf any enum) (buffer_or_begin (up f) buf' any' enum').
Proof.
  intros B A E. apply sim_catch. change (f_buf (up f)) with (option_map up_buf (x_buf f)). change (f_state (up f)) with (up_state (x_state f)). destruct (x_buf f) as [[c|c|b]|] eqn:Eb; cbn [option_map up_buf].
  - exact I.
  - exact I.
  - apply with_buf_sim; [apply B|]. intros b'. reflexivity.
  - assert (N : rsim match buf ebuf_new with Ok b' => ROk (xput f b') | Err b' => RErr f (buf_err b') | Panic => RPanic end
                     match buf' vbuf_new with Ok b' => Ok (put (up f) b') | Err _ => Err (up f) | Panic => Panic end).
    { specialize (B ebuf_new). change (fst ebuf_new) with vbuf_new in B. rewrite <- B. destruct (buf ebuf_new); cbn; [reflexivity|exact I..]. }
    destruct (x_state f) as [|s|s k|t l i|s g|s g|e|e t l i|s g|s g|[x|e]]; cbn [up_state]; try exact N; apply lift_sim; [exact A|apply E].
Qed.
Lemma boe_sim f buf buf' t t' : bsim buf buf' -> osim inr isinl t t' ->
  sim (xbuffer_or_end f buf t) (buffer_or_end (up f) buf' t').
Proof.
  intros B T. apply sim_catch. unfold up at 1. cbn [f_buf]. destruct (x_buf f) as [[c|c|b]|] eqn:Eb; cbn [option_map up_buf]; try exact I.
  - apply with_buf_sim; [apply B|]. intros b'. destruct (is_complete (fst b')); [|reflexivity]. destruct (vbuf_stream (fst b')); [|exact I].
    cbv zeta. change (MkFS None (f_state (up f))) with (up (MkXF None (x_state f))). apply settle_sim. cbn [x_state up f_state].
    apply state_value_sim. exact I.
  - apply settle_sim. apply (osim_bind inr isinl); [exact T|reflexivity|]. intros b a' ->. reflexivity.
Qed.

Lemma finish_sim f : osim inr isinl (xfinish f) (finish (up f)).
Proof. unfold xfinish, finish, up. cbn [f_state]. destruct (x_state f) as [| | | | | | | | | |[?|?]]; cbn; try exact I. reflexivity. Qed.

Lemma own_sim f e : sim (xfs_own f e) (fs_own (up f) e).
Proof.
  assert (V : forall any any' v, osim inr isinl any any' ->
    sim (xbuffer_or_value f (fun b => ebuf_step b e) any v) (buffer_or_value (up f) (fun b => vbuf_step b e) any' v)).
  { intros. apply bov_sim; [apply bsim_step|assumption]. }
  assert (Kp : forall X (g : got X) (h : X -> xstate S) (h' : end_ + X -> state K),
    (forall a, h' (inr a) = up_state (h a)) -> (forall b, over_state b (h' (inl b))) ->
    osim up_state over_state (x <= g ;; GOk (h x)) (x <- keep g ;; OOk (h' x))).
  { intros X g h h' H1 H2. apply (osim_bind inr isinl); [apply osim_keep| |].
    - intros a. cbn. rewrite H1. reflexivity.
    - intros b a' ->. cbn. apply H2. }
  destruct e; cbn [xfs_own fs_own]; try reflexivity; try (apply V, osim_keep);
    try (apply bow_sim; [apply bsim_step|reflexivity]).
  Local Ltac xb := unfold up; cbn [f_buf f_state x_buf x_state].
  - apply bow_sim; [apply bsim_step|]. unfold xput_buffer, put_buffer. xb. destruct (x_buf f); [exact I|reflexivity].
  - apply bow_sim; [apply bsim_step|]. unfold xwith_text, with_text. xb. destruct (x_buf f) as [[]|]; try exact I. reflexivity.
  - apply bow_sim; [apply bsim_step|]. unfold xwith_text, with_text. xb. destruct (x_buf f) as [[]|]; try exact I. reflexivity.
  - apply bow_sim; [apply bsim_step|]. change (f_buf (up f)) with (option_map up_buf (x_buf f)).
    destruct (x_buf f) as [[]|]; try exact I. cbn [option_map up_buf]. cbv zeta.
    change (MkFS None (f_state (up f))) with (up (MkXF None (x_state f))). apply settle_sim. apply state_value_sim, osim_keep.
  - apply bow_sim; [apply bsim_step|]. unfold xput_buffer, put_buffer. xb. destruct (x_buf f); [exact I|reflexivity].
  - apply bow_sim; [apply bsim_step|]. unfold xwith_binary, with_binary. xb. destruct (x_buf f) as [[]|]; try exact I. reflexivity.
  - apply bow_sim; [apply bsim_step|]. unfold xwith_binary, with_binary. xb. destruct (x_buf f) as [[]|]; try exact I. reflexivity.
  - apply bow_sim; [apply bsim_step|]. change (f_buf (up f)) with (option_map up_buf (x_buf f)).
    destruct (x_buf f) as [[]|]; try exact I. cbn [option_map up_buf]. cbv zeta.
    change (MkFS None (f_state (up f))) with (up (MkXF None (x_state f))). apply settle_sim. apply state_value_sim, osim_keep.
  - apply bob_sim; [apply bsim_step|apply Kp; reflexivity|]. intros e. exact I.
  - apply bow_sim; [apply bsim_step|]. xb. destruct (x_buf f), (x_state f) as [| | | | | | | | | |[?|?]]; try exact I. reflexivity.
  - apply bow_sim; [apply bsim_step|]. xb. destruct (x_buf f), (x_state f) as [| | | | | | | | | |[?|?]]; try exact I. reflexivity.
  - apply boe_sim; [apply bsim_step|]. xb. destruct (x_state f) as [| | | | | | | | | |[?|?]]; try exact I. apply osim_keep.
  - apply bob_sim; [apply bsim_step|apply Kp; reflexivity|]. intros e. exact I.
  - apply boe_sim; [apply bsim_step|]. xb. destruct (x_state f) as [| | | | | | | | | |[?|?]]; try exact I. apply osim_keep.
  - apply bob_sim; [apply bsim_step|apply Kp; reflexivity|]. intros e. reflexivity.
  - apply boe_sim; [apply bsim_step|]. pose proof (finish_sim f) as F. change (f_state (up f)) with (up_state (x_state f)).
    destruct (x_state f) as [| | | | | |e| | | |[?|?]]; cbn [up_state]; try exact I; try exact F.
    apply osim_unkeep, (recurse_sim (xe_queue e) (xe_stream e)). reflexivity.
  - apply bob_sim; [apply bsim_step|reflexivity|]. intros e. reflexivity.
  - apply boe_sim; [apply bsim_step|]. apply finish_sim.
  - apply bow_sim; [apply bsim_step|]. change (f_state (up f)) with (up_state (x_state f)).
    pose proof (state_value_sim (x_state f) _ _ (false, [CE (ETag t l i)]) (osim_keep (x_tag S t (cloned l) i))) as SV.
    destruct (x_state f) as [| | | | | |e| | | |r]; cbn [up_state]; try (apply settle_sim; exact SV).
    + apply settle_sim. apply (osim_bind inr isinl); [|reflexivity|intros b a' ->; reflexivity].
      apply osim_unkeep, (recurse_sim (xe_queue e) (xe_stream e)). intros e0. apply keep_un.
    + destruct r; apply settle_sim; exact I.
  - apply bob_sim; [apply bsim_step|apply Kp; reflexivity|]. intros e. unfold xe_record_begin, fe_record_begin. cbn [up_enum fe_queue fe_stream].
    destruct (xe_queue e); [apply Kp; reflexivity|exact I].
  - apply bow_sim; [apply bsim_step|]. xb. destruct (x_buf f), (x_state f) as [| | | | | | | | | |[?|?]]; try exact I; reflexivity.
  - apply boe_sim; [apply bsim_step|]. xb. destruct (x_state f) as [| | | | | | | | | |[?|?]]; try exact I; apply osim_keep.
  - apply bob_sim; [apply bsim_step|apply Kp; reflexivity|]. intros e. unfold xe_tuple_begin, fe_tuple_begin. cbn [up_enum fe_queue fe_stream].
    destruct (xe_queue e); [apply Kp; reflexivity|exact I].
  - apply bow_sim; [apply bsim_step|]. xb. destruct (x_buf f), (x_state f) as [| | | | | | | | | |[?|?]]; try exact I; reflexivity.
  - apply boe_sim; [apply bsim_step|]. xb. destruct (x_state f) as [| | | | | | | | | |[?|?]]; try exact I; apply osim_keep.
Qed.
Lemma step_sim f e : sim (xfs_step f e) (fs_step (up f) e).
Proof. destruct e; cbn [xfs_step fs_step]; try apply own_sim. reflexivity. Qed.
Lemma bind_sim r r' k k' : sim r r' -> (forall f, sim (k f) (k' (up f))) -> (forall b f, over b f -> stays b (k' f)) ->
  sim (r >>= k) (r' >>= k').
Proof.
  intros H G O. destruct r as [f|f|]; cbn [sim bind] in *.
  - rewrite H. apply G.
  - destruct H as [(e & E & H)| ->]; [left; exists e; split; [exact E|]|right; reflexivity].
    apply bind_over; [exact H|intros; apply O; assumption].
  - apply bind_over; [exact H|intros; apply O; assumption].
Qed.
Lemma settled_sim r r' : sim r r' -> osim inr isinl (xsettled r) (settled r').
Proof.
  assert (X : forall b r0, stays b r0 -> match settled r0 with OOk x => isinl b x | _ => True end).
  { intros b [f|f|] H; cbn in *; [| |exact I]; unfold finish.
    - unfold over in H. destruct (f_state f) as [| | | | | | | | | |[[x|x]|]]; try exact I; cbn in H; [rewrite H; reflexivity|contradiction].
    - destruct H as [->|H]; [exact I|]. unfold over in H. destruct (f_state f) as [| | | | | | | | | |[[x|x]|]]; try exact I; cbn in H; [rewrite H; reflexivity|contradiction]. }
  destruct r as [f|f|]; cbn [sim xsettled].
  - intros ->. apply finish_sim.
  - intros [(e & E & H)| ->]; [|apply finish_sim]. unfold xfinish. rewrite E. apply (X (Some e)), H.
  - apply (X None).
Qed.

Definition xfs_value (relay computed : bool) (cs : list call) (f : xfs S) : res (xfs S) :=
  xbuffer_or_with f (xbuf_value computed cs) (fun f =>
    match x_state f with
    | XEnum _ =>
        match xfs_calls relay cs computed f with
        | Ok f' => ROk f'
        | Err f' => RErr f' (if relay then kept_err f' else value_failed)
        | Panic => RPanic
        end
    | st => xsettle f (xstate_value st (xsettled (xfs_calls relay cs computed xfs_new)) (negb computed, cs))
    end).
Lemma xfs_call_CV relay cs (f : xfs S) : xfs_call relay (CV cs) false f = xfs_value relay false cs f.
Proof. reflexivity. Qed.
Lemma xfs_call_CVC relay cs comp (f : xfs S) : xfs_call relay (CVC cs) comp f = xfs_value relay true cs f.
Proof. reflexivity. Qed.
Lemma xfs_call_CV_computed relay cs (f : xfs S) : xfs_call relay (CV cs) true f = xfs_calls relay cs true f.
Proof. reflexivity. Qed.
Lemma xfs_calls_cons relay c cs comp (f : xfs S) : xfs_calls relay (c :: cs) comp f = xfs_call relay c comp f >>= xfs_calls relay cs comp.
Proof. reflexivity. Qed.
Lemma xfs_calls_app relay a b comp (f : xfs S) : xfs_calls relay (a ++ b) comp f = xfs_calls relay a comp f >>= xfs_calls relay b comp.
Proof.
  revert f. induction a as [|c a IH]; intros f; [reflexivity|]. cbn [app xfs_calls].
  destruct (xfs_call relay c comp f); cbn [bind]; auto.
Qed.
Lemma xfs_calls_one relay c comp (f : xfs S) : xfs_calls relay [c] comp f = xfs_call relay c comp f.
Proof. cbn [xfs_calls]. destruct (xfs_call relay c comp f); reflexivity. Qed.

(** With the error of an enum's variant passed on, the two streams agree. *)
Lemma calls_sim : forall cs comp f, sim (xfs_calls true cs comp f) (fs_calls cs comp (up f)).
Proof.
  assert (L : forall cs, Forall (fun c => forall comp f, sim (xfs_call true c comp f) (fs_call c comp (up f))) cs -> forall comp f,
    sim (xfs_calls true cs comp f) (fs_calls cs comp (up f))).
  { induction 1 as [|c' cs Hc _ IH]; intros comp f; [reflexivity|]. rewrite xfs_calls_cons, fs_calls_cons.
    apply bind_sim; [apply Hc|intros; apply IH|intros; apply calls_over; assumption]. }
  intros cs. apply L. apply Forall_forall. intros c _. clear cs.
  assert (V : forall cs cc f, Forall (fun c => forall comp f, sim (xfs_call true c comp f) (fs_call c comp (up f))) cs ->
    sim (xfs_value true cc cs f) (fs_value cc cs (up f))).
  { intros cs cc f H. apply bow_sim; [apply bsim_value|]. change (f_state (up f)) with (up_state (x_state f)).
    pose proof (state_value_sim (x_state f) _ _ (negb cc, cs) (settled_sim _ _ (L cs H cc xfs_new))) as SV.
    pose proof (L cs H cc f) as G.
    destruct (x_state f) as [| | | | | |e| | | |r] eqn:Es; cbn [up_state]; try (apply settle_sim; exact SV).
    - destruct (xfs_calls true cs cc f) as [f'|f'|]; cbn [sim rsim] in *; [exact G| |].
      + destruct G as [(e0 & E & G)| ->]; [|exact I]. unfold kept_err. rewrite E. destruct (fs_calls cs cc (up f)); [exact G|exact I|exact I].
      + destruct (fs_calls cs cc (up f)); [exact G|exact I|exact I].
    - destruct r; apply settle_sim; exact I. }
  induction c as [e|cs H|cs H|] using call_ind'; intros comp f.
  - apply step_sim.
  - destruct comp; [rewrite fs_call_CV_computed, xfs_call_CV_computed; apply L; assumption|rewrite fs_call_CV, xfs_call_CV; apply V; assumption].
  - rewrite fs_call_CVC, xfs_call_CVC. apply V; assumption.
  - right. reflexivity.
Qed.

(** *** Answers *)
Definition kept {A B} (k : A -> got B) (k' : end_ + A -> outcome (end_ + B)) : Prop :=
  (forall a, k' (inr a) = keep (k a)) /\ (forall b, k' (inl b) = OOk (inl b)).
Lemma kept_bind {A B} (g : got A) (k : A -> got B) k' : kept k k' -> obind (keep g) k' = keep (gbind g k).
Proof. intros (H1 & H2). destruct g; cbn; [apply H1|apply H2..]. Qed.
Lemma kept_after {A B} (k : A -> got B) : kept k (fun s => after s k).
Proof. split; reflexivity. Qed.
Lemma kept_seq {A B C} (k : A -> got B) (j : B -> got C) k' j' : kept k k' -> kept j j' ->
  kept (fun a => b <= k a ;; j b) (fun a => b <- k' a ;; j' b).
Proof. intros (H1 & H2) J. split; intros; rewrite ?H1, ?H2; [apply kept_bind, J|]. apply J. Qed.
Lemma kept_fold {A X} (f : A -> X -> got A) f' l : (forall x, kept (fun s => f s x) (fun s => f' s x)) ->
  kept (fun s => fold_x f s l) (fun s => fold_o f' s l).
Proof.
  intros H. induction l as [|x l IH]; [split; reflexivity|]. cbn [fold_x fold_o].
  apply (kept_seq (fun s => f s x) (fun s => fold_x f s l) (fun s => f' s x)); [apply H|exact IH].
Qed.

Lemma variant_kept r : forall g', variant_answer K r g' -> exists g, xvariant_answer S r g /\ kept g g'.
Proof.
  induction r; cbn [variant_answer xvariant_answer]; intros g' Hg; try contradiction.
  - destruct Hg as (l' & El & ->). eexists. split; [exists l'; split; [exact El|]; intros e; reflexivity|]. apply kept_after.
  - destruct Hg as (l' & a & El & C & ->). eexists. split; [exists l', a; split; [exact El|]; split; [exact C|]; intros e; reflexivity|]. apply kept_after.
  - destruct Hg as (l' & g1 & El & V & ->). destruct (IHr g1 V) as (g & X & Kg). 
    exists (fun e => x_enum_nested S e t l' i g). split; [exists l', g; split; [exact El|]; split; [exact X|]; intros e; reflexivity|].
    split; [|reflexivity]. intros e. cbn [enum_nested keeping after]. f_equal. apply EXT. intros e'. rewrite (proj1 Kg). apply unkeep_keep.
  - destruct Hg as (l' & args & El & F & ->). eexists. split; [exists l', args; split; [exact El|]; split; [exact F|]; intros e; reflexivity|].
    apply (kept_seq _ _ (fun e => enum_record_begin K e t l' i n)); [apply kept_after|].
    apply (kept_seq _ _ (fun s => fold_o (fun s x => match x with (xt, xl, a) => vrecord_value K s xt xl a end) s args)); [|apply kept_after].
    apply (kept_fold (fun s x => match x with (xt, xl, a) => x_vrecord_value S s xt xl a end)). intros [[xt xl] a]. apply kept_after.
  - destruct Hg as (l' & args & El & F & ->). eexists. split; [exists l', args; split; [exact El|]; split; [exact F|]; intros e; reflexivity|].
    apply (kept_seq _ _ (fun e => enum_tuple_begin K e t l' i n)); [apply kept_after|].
    apply (kept_seq _ _ (fun s => fold_o (fun s x => match x with (xt, xl, a) => vtuple_value K s xt xl a end) s args)); [|apply kept_after].
    apply (kept_fold (fun s x => match x with (xt, xl, a) => x_vtuple_value S s xt xl a end)). intros [[xt xl] a]. apply kept_after.
Qed.
Lemma answer_kept r o' : answer K r o' -> exists o, xanswer S false r o /\ o' = keep o.
Proof.
  destruct r; cbn [answer xanswer]; intros Ho.
  - subst. eexists. split; reflexivity.
  - subst. eexists. split; reflexivity.
  - subst. eexists. split; reflexivity.
  - subst. eexists. split; reflexivity.
  - subst. eexists. split; reflexivity.
  - destruct Ho as (x & ->). eexists. split; [exists x; reflexivity|reflexivity].
  - destruct Ho as (x & ->). eexists. split; [exists x; reflexivity|reflexivity].
  - destruct Ho as (l' & E & ->). eexists. split; [exists l'; split; [exact E|reflexivity]|reflexivity].
  - destruct Ho as (l' & a & E & C & ->). eexists. split; [exists l', a; split; [exact E|]; split; [exact C|reflexivity]|reflexivity].
  - destruct Ho as (l' & g' & E & V & ->). destruct (variant_kept _ _ V) as (g & X & Kg).
    eexists. split; [exists l', g; split; [exact E|]; split; [exact X|reflexivity]|]. cbn [n_enum_begin keeping].
    apply kept_bind. destruct Kg as (K1 & K2). split; [|exact K2]. intros a. rewrite K1. destruct (g a); reflexivity.
  - destruct Ho as (args & F & ->). eexists. split; [exists args; split; [exact F|reflexivity]|]. cbn [n_seq_begin keeping].
    apply kept_bind. apply (kept_seq _ _ (fun s => fold_o (seq_value K) s args)); [|apply kept_after]. apply kept_fold. intros x. apply kept_after.
  - destruct Ho as (args & F & ->). eexists. split; [exists args; split; [exact F|reflexivity]|]. cbn [n_map_begin keeping].
    apply kept_bind. apply (kept_seq _ _ (fun s => fold_o (fun s x => match x with (a, b) => s1 <- map_key K s a ;; map_value K s1 b end) s args)); [|apply kept_after].
    apply (kept_fold (fun s x => match x with (a, b) => s1 <= x_map_key S s a ;; x_map_value S s1 b end)). intros [a b].
    apply (kept_seq _ _ (fun s => map_key K s a) (fun s => map_value K s b)); apply kept_after.
  - destruct Ho as (l' & args & E & F & ->). eexists. split; [exists l', args; split; [exact E|]; split; [exact F|reflexivity]|]. cbn [n_record_begin keeping].
    apply kept_bind. apply (kept_seq _ _ (fun s => fold_o (fun s x => match x with (xt, xl, a) => record_value K s xt xl a end) s args)); [|apply kept_after].
    apply (kept_fold (fun s x => match x with (xt, xl, a) => x_record_value S s xt xl a end)). intros [[xt xl] a]. apply kept_after.
  - destruct Ho as (l' & args & E & F & ->). eexists. split; [exists l', args; split; [exact E|]; split; [exact F|reflexivity]|]. cbn [n_tuple_begin keeping].
    apply kept_bind. apply (kept_seq _ _ (fun s => fold_o (fun s x => match x with (xt, xl, a) => tuple_value K s xt xl a end) s args)); [|apply kept_after].
    apply (kept_fold (fun s x => match x with (xt, xl, a) => x_tuple_value S s xt xl a end)). intros [[xt xl] a]. apply kept_after.
Qed.

(** What a stream whose enums pass errors on answers. *)
Lemma relayed_answers a comp : handled1 (mirror (tree_of a)) = true ->
  xanswer S false (mirror (tree_of a)) (xsettled (xfs_calls (S := S) true (acalls a) comp xfs_new)).
Proof.
  intros H. destruct (any_answers (S := K) a comp H) as (o' & A & E). apply ends_settled in E.
  destruct (answer_kept _ _ A) as (o & X & ->).
  pose proof (settled_sim _ _ (calls_sim (acalls a) comp xfs_new)) as Q. change (up xfs_new) with (@fs_new K) in Q. rewrite E in Q.
  destruct o as [x|e|]; cbn [keep] in Q; destruct (xsettled _) as [x'|e'|]; cbn [osim] in Q; unfold isinl in Q;
    try discriminate Q; try exact X; injection Q as Q; subst; exact X.
Qed.

(** ** With and without the errors of variants passed on *)
Definition placed (f : xfs S) : Prop := match x_state f with XAny | XEnum _ => False | _ => True end.
Definition stays_placed (r : res (xfs S)) : Prop := match r with Ok f => placed f | _ => True end.
Definition rplaced (r : xres (S := S)) : Prop := match r with ROk f => placed f | _ => True end.
Lemma catch_placed r : rplaced r -> stays_placed (xcatch r).
Proof. destruct r; cbn; auto. Qed.
Lemma settle_placed f st any v : placed (MkXF None st) -> rplaced (xsettle f (xstate_value st any v)).
Proof.
  assert (M : forall A (g : got A) (h : A -> xstate S), (forall a, placed (MkXF None (h a))) ->
    rplaced (xsettle f (s <= g ;; GOk (h s, None)))) by (intros A [a|e|] h H; cbn; [apply H|exact I..]).
  assert (D : forall (g : got (x_ok S)) s0, rplaced (xsettle f (s <= g ;; GOk (s0, Some s)))) by (intros [a|e|] s0; cbn; exact I).
  destruct st as [|s|s [|]|t l i|s [[ft fi]|]|s [[ft fl]|]|e|e t l i|s [[ft fi]|]|s [[ft fl]|]|r]; cbn [placed x_state xstate_value];
    intros P; try contradiction; try exact I; try (apply M; intros; exact I); apply D.
Qed.
Lemma with_buf_placed f r (k : _ -> xres (S := S)) : (forall b, rplaced (k b)) -> rplaced (xwith_buf f r k).
Proof. destruct r; cbn; auto. Qed.
Lemma bow_placed f buf k : placed f -> rplaced (k f) -> stays_placed (xbuffer_or_with f buf k).
Proof.
  intros P H. apply catch_placed. destruct (x_buf f) as [[]|]; try exact H. apply with_buf_placed; intros b'. exact P.
Qed.
Lemma bov_placed f buf any v : placed f -> stays_placed (xbuffer_or_value f buf any v).
Proof. intros P. apply bow_placed; [exact P|]. apply settle_placed, P. Qed.
Lemma bob_placed f buf any enum : placed f -> stays_placed (xbuffer_or_begin f buf any enum).
Proof.
  intros P. apply catch_placed. destruct (x_buf f) as [[]|]; try exact I.
  - apply with_buf_placed; intros b'. exact P.
  - unfold placed in P. destruct (x_state f) eqn:Es; try contradiction; (destruct (buf ebuf_new); cbn; try exact I; unfold placed; cbn; rewrite Es; exact I).
Qed.
Lemma boe_placed f buf t : placed f -> stays_placed (xbuffer_or_end f buf t).
Proof.
  intros P. apply catch_placed. destruct (x_buf f) as [[]|]; try exact I.
  - apply with_buf_placed; intros b'. destruct (is_complete (fst b')); [|exact P]. destruct (vbuf_stream (fst b')); [|exact I].
    apply settle_placed, P.
  - destruct t; cbn; exact I.
Qed.
Lemma own_placed f e : placed f -> stays_placed (xfs_own f e).
Proof.
  intros P. destruct e; cbn [xfs_own]; try (apply bov_placed, P); try (apply bob_placed, P); try (apply boe_placed, P); try exact P;
    apply bow_placed; try exact P.
  - unfold xput_buffer. destruct (x_buf f); [exact I|exact P].
  - unfold xwith_text. destruct (x_buf f) as [[]|]; try exact I. exact P.
  - unfold xwith_text. destruct (x_buf f) as [[]|]; try exact I. exact P.
  - destruct (x_buf f) as [[]|]; try exact I. apply settle_placed, P.
  - unfold xput_buffer. destruct (x_buf f); [exact I|exact P].
  - unfold xwith_binary. destruct (x_buf f) as [[]|]; try exact I. exact P.
  - unfold xwith_binary. destruct (x_buf f) as [[]|]; try exact I. exact P.
  - destruct (x_buf f) as [[]|]; try exact I. apply settle_placed, P.
  - destruct (x_buf f), (x_state f); exact I.
  - destruct (x_buf f), (x_state f); exact I.
  - unfold placed in P. destruct (x_state f) eqn:Es; try contradiction; apply settle_placed; exact I.
  - destruct (x_buf f), (x_state f); exact I.
  - destruct (x_buf f), (x_state f); exact I.
Qed.
Lemma step_placed f e : placed f -> stays_placed (xfs_step f e).
Proof. intros P. destruct e; cbn [xfs_step]; try (apply own_placed, P). exact P. Qed.

Lemma placed_same : forall cs comp f, placed f ->
  xfs_calls false cs comp f = xfs_calls true cs comp f /\ stays_placed (xfs_calls true cs comp f).
Proof.
  set (Q := fun c => forall comp f, placed f -> xfs_call false c comp f = xfs_call true c comp f /\ stays_placed (xfs_call true c comp f)).
  assert (L : forall cs, Forall Q cs -> forall comp f, placed f ->
    xfs_calls false cs comp f = xfs_calls true cs comp f /\ stays_placed (xfs_calls true cs comp f)).
  { induction 1 as [|c' cs Hc _ IH]; intros comp f P; [split; [reflexivity|exact P]|]. rewrite !xfs_calls_cons.
    destruct (Hc comp f P) as (E & P1). rewrite E. destruct (xfs_call true c' comp f) as [f1|f1|]; cbn [bind]; [apply IH, P1|split; [reflexivity|exact I]..]. }
  intros cs. apply L. apply Forall_forall. intros c _. clear cs.
  assert (V : forall cs cc f, placed f -> xfs_value false cc cs f = xfs_value true cc cs f /\ stays_placed (xfs_value true cc cs f)).
  { intros cs cc f P. split.
    - unfold xfs_value, xbuffer_or_with. destruct (x_buf f) as [[]|]; try reflexivity; unfold placed in P; destruct (x_state f); try contradiction; reflexivity.
    - apply bow_placed; [exact P|]. unfold placed in P. destruct (x_state f) eqn:Es; try contradiction; apply settle_placed; exact I. }
  unfold Q. induction c as [e|cs H|cs H|] using call_ind'; intros comp f P.
  - split; [reflexivity|apply step_placed, P].
  - destruct comp; [rewrite !xfs_call_CV_computed; apply L; assumption|rewrite !xfs_call_CV; apply V; assumption].
  - rewrite !xfs_call_CVC. apply V; assumption.
  - split; [reflexivity|exact I].
Qed.
(** A first call that leaves the place where it could matter. *)
Lemma first_same e cs (comp : bool) (f : xfs S) : stays_placed (xfs_step f (if comp then computed e else e)) ->
  xfs_calls false (CE e :: cs) comp f = xfs_calls true (CE e :: cs) comp f.
Proof.
  intros P. rewrite !xfs_calls_cons. change (xfs_call false (CE e) comp f) with (xfs_step f (if comp then computed e else e)).
  change (xfs_call true (CE e) comp f) with (xfs_step f (if comp then computed e else e)).
  destruct (xfs_step f (if comp then computed e else e)) as [f1|f1|]; cbn [bind]; try reflexivity. apply placed_same, P.
Qed.
Lemma events_same es : forall comp (f : xfs S), xfs_calls false (map CE es) comp f = xfs_calls true (map CE es) comp f.
Proof.
  induction es as [|e es IH]; intros comp f; [reflexivity|]. cbn [map]. rewrite !xfs_calls_cons.
  change (xfs_call false (CE e) comp f) with (xfs_step f (if comp then computed e else e)).
  change (xfs_call true (CE e) comp f) with (xfs_step f (if comp then computed e else e)).
  destruct (xfs_step f (if comp then computed e else e)) as [f1|f1|]; cbn [bind]; try reflexivity. apply IH.
Qed.
Lemma text_same n fs comp (f : xfs S) : xfs_calls false (acalls (AText n fs)) comp f = xfs_calls true (acalls (AText n fs)) comp f.
Proof.
  replace (acalls (AText n fs)) with (map CE (ETextBegin n :: map text_frag fs ++ [ETextEnd])); [apply events_same|].
  cbn [map acalls]. rewrite map_app, map_map. reflexivity.
Qed.
Lemma bin_same n fs comp (f : xfs S) : xfs_calls false (acalls (ABin n fs)) comp f = xfs_calls true (acalls (ABin n fs)) comp f.
Proof.
  replace (acalls (ABin n fs)) with (map CE (EBinBegin n :: map bin_frag fs ++ [EBinEnd])); [apply events_same|].
  cbn [map acalls]. rewrite map_app, map_map. reflexivity.
Qed.

(** *** Inside an enum *)
Definition at_enum (e : x_enum S) (q : list pending) : xfs S := MkXF None (XEnum (MkXE e q)).
Definition xdone (f : xfs S) : Prop := exists x, f = MkXF None (XDone (inl x)).
Lemma deep_done a comp e q f : q <> [] -> xfs_calls true (acalls a) comp (at_enum e q) = Ok f -> xdone f.
Proof.
  intros Nq R. pose proof (calls_sim (acalls a) comp (at_enum e q)) as H. rewrite R in H. cbn [sim] in H.
  change (up (at_enum e q)) with (in_enum (S := K) (inr e) q) in H.
  assert (X : forall v, ends_in_variant v = inner_variant v || ends_in_fields v) by (induction v; try reflexivity; assumption).
  destruct (ends_in_variant (mirror (tree_of a))) eqn:Ev.
  - rewrite X in Ev. apply Bool.orb_true_iff in Ev. destruct Ev as [Ev|Ev].
    + destruct (enum_chain (S := K) a comp Ev) as (q' & k & _ & En). specialize (En (inr e) q). rewrite H in En.
      destruct (recurse (S := K) (q ++ q') (inr e) k) as [y| |]; cbn [ends] in En; [|destruct En as (b & En); discriminate En|discriminate En].
      injection En as En1 En2. unfold xdone. destruct f as [b st]; cbn [x_buf x_state] in *.
      destruct b; [discriminate En1|]. destruct st as [| | | | | | | | | |[x|er]]; try discriminate En2. exists x. reflexivity.
    + rewrite (enum_deep (S := K) a comp (inr e) q Nq Ev) in H. discriminate H.
  - pose proof (enum_refuses (S := K) a comp (inr e) q Ev) as En. rewrite H in En. destruct En as (b & En). discriminate En.
Qed.

Lemma value_enum relay cs cc e q : xfs_value relay cc cs (at_enum e q) =
  xcatch match xfs_calls relay cs cc (at_enum e q) with
         | Ok f' => ROk f'
         | Err f' => RErr f' (if relay then kept_err f' else value_failed)
         | Panic => RPanic
         end.
Proof. reflexivity. Qed.
(** The one without against the one with. *)
Definition as_hidden (hidden : bool) (r : res (xfs S)) : res (xfs S) -> Prop := fun r' =>
  match r' with
  | Err f' => if hidden then exists b, r = Err (MkXF b (XDone (inr value_failed))) else r = r'
  | _ => r = r'
  end.
Lemma as_hidden_same h r : h = false -> as_hidden h r r.
Proof. intros ->. destruct r; reflexivity. Qed.
Lemma enum_hidden a : forall comp e q, as_hidden (by_value comp a) (xfs_calls false (acalls a) comp (at_enum e q)) (xfs_calls true (acalls a) comp (at_enum e q)).
Proof.
  assert (SM : forall (r r' : res (xfs S)), r = r' -> as_hidden false r r') by (intros r r' ->; apply as_hidden_same; reflexivity).
  assert (FV : forall cs cc e q h, as_hidden h (xfs_calls false cs cc (at_enum e q)) (xfs_calls true cs cc (at_enum e q)) ->
    as_hidden true (xfs_value false cc cs (at_enum e q)) (xfs_value true cc cs (at_enum e q))).
  { intros cs cc e q h H. rewrite !value_enum.
    destruct (xfs_calls true cs cc _) as [f1|f1|]; cbn [as_hidden] in H; [rewrite H; reflexivity| |rewrite H; reflexivity].
    destruct h; [destruct H as (b & ->)|rewrite H]; cbn; eexists; reflexivity. }
  induction a using atree_ind'; intros comp e q; cbn [by_value]; try (apply SM);
    try (apply (first_same _ []); destruct comp; exact I); try (apply text_same); try (apply bin_same).
  - destruct b; [destruct comp|]; cbn [acalls]; rewrite !xfs_calls_one.
    + rewrite !xfs_call_CV_computed. apply IHa.
    + rewrite !xfs_call_CV. eapply FV, IHa.
    + rewrite !xfs_call_CVC. eapply FV, IHa.
  - apply (first_same _ []). destruct comp; cbn [computed xfs_step xfs_own]; unfold xbuffer_or_with; cbn [x_buf at_enum x_state]; destruct (xe_tag _ _ _ _); exact I.
  - cbn [acalls]. rewrite !xfs_calls_cons. destruct comp; apply IHa.
  - apply first_same. destruct comp; exact I.
  - cbn [acalls]. rewrite !xfs_calls_cons.
    assert (B : forall r, xfs_call r (CE (EEnumBegin t l i)) comp (at_enum e q) = Ok (at_enum e (q ++ [(t, option_map label_to_owned (cloned l), i)])))
      by (intros r; destruct comp; reflexivity).
    rewrite !B. cbn [bind]. rewrite !xfs_calls_app.
    specialize (IHa comp e (q ++ [(t, option_map label_to_owned (cloned l), i)])).
    pose proof (deep_done a comp e (q ++ [(t, option_map label_to_owned (cloned l), i)])) as D.
    destruct (xfs_calls true (acalls a) comp _) as [f1|f1|]; cbn [as_hidden] in IHa; cbn [bind].
    + rewrite IHa. cbn [bind]. destruct (D f1) as (x & ->); [destruct q; discriminate|reflexivity|]. destruct comp; reflexivity.
    + destruct (by_value comp a); [destruct IHa as (b & ->); exists b; reflexivity|rewrite IHa; reflexivity].
    + rewrite IHa. reflexivity.
  - apply first_same. destruct comp; exact I.
  - apply first_same. destruct comp; exact I.
  - apply first_same. assert (X : stays_placed (xfs_step (at_enum e q) (ERecordBegin t l i n)));
      [destruct q; [cbv -[x_enum_record_begin cloned]; destruct (x_enum_record_begin S e t (cloned l) i n); exact I|exact I]|destruct comp; exact X].
  - apply first_same. assert (X : stays_placed (xfs_step (at_enum e q) (ETupleBegin t l i n)));
      [destruct q; [cbv -[x_enum_tuple_begin cloned]; destruct (x_enum_tuple_begin S e t (cloned l) i n); exact I|exact I]|destruct comp; exact X].
  - apply first_same. assert (X : stays_placed (xfs_step (at_enum e q) (ERecTupBegin t l i n)));
      [destruct q; [cbv -[x_enum_tuple_begin x_enum_record_begin cloned]; destruct (x_enum_record_begin S e t (cloned l) i n); exact I|exact I]|destruct comp; exact X].
Qed.

(** *** At the top *)
Lemma settled_catch_some f (o : got (x_ok S)) s : xsettled (xcatch (xsettle f (x <= o ;; GOk (s, Some x)))) = o.
Proof. destruct o; reflexivity. Qed.
Lemma xany_val relay comp b v :
  xsettled (xfs_calls relay (acalls (AVal b v)) comp (xfs_new (S := S))) = xsettled (xfs_calls relay (acalls v) (val_comp b comp) xfs_new).
Proof.
  destruct b; [destruct comp|]; cbn [acalls val_comp]; rewrite xfs_calls_one.
  - rewrite xfs_call_CV_computed. reflexivity.
  - rewrite xfs_call_CV. apply settled_catch_some.
  - rewrite xfs_call_CVC. apply settled_catch_some.
Qed.
Lemma relayed_enum v comp : outer_variant (mirror (tree_of v)) = true ->
  exists g, xvariant_answer S (mirror (tree_of v)) g /\
    forall e, match xfs_calls true (acalls v) comp (at_enum e []) with
              | Ok f => exists x, f = MkXF None (XDone (inl x)) /\ g e = GOk x
              | Err f => exists x, x_state f = XDone (inr x) /\ g e = GErr x
              | Panic => g e = GPanic
              end.
Proof.
  intros Hv. destruct (enum_outer (S := K) v comp Hv) as (g' & V & E). destruct (variant_kept _ _ V) as (g & X & Kg).
  exists g. split; [exact X|]. intros e. specialize (E (inr e)). destruct Kg as (Kg & _). rewrite Kg in E.
  pose proof (calls_sim (acalls v) comp (at_enum e [])) as H. pose proof (settled_sim _ _ H) as Q.
  change (up (at_enum e [])) with (in_enum (S := K) (inr e) []) in *. pose proof (ends_settled _ _ E) as Es. unfold K in *. rewrite Es in Q.
  destruct (xfs_calls true (acalls v) comp (at_enum e [])) as [f|f|]; cbn [sim] in H.
  - rewrite H in E. destruct (g e) as [y|er|]; cbn in E; injection E as E1 E2; destruct f as [[b|] st]; try discriminate E1;
      destruct st as [| | | | | | | | | |[x|er']]; try discriminate E2; cbn in E2; injection E2 as E2; subst; exists y; split; reflexivity.
  - destruct H as [(er & Es' & H)|H].
    + exists er. split; [exact Es'|]. cbn [xsettled] in Q. unfold xfinish in Q. rewrite Es' in Q. destruct (g e) as [y|er'|]; cbn in Q; unfold isinl in Q;
        try discriminate Q; injection Q as Q; subst; reflexivity.
    + rewrite H in E. destruct (g e); cbn in E; discriminate E.
  - cbn in Q. destruct (g e) as [y|er'|]; cbn in Q; unfold isinl in Q; try discriminate Q. reflexivity.
Qed.

Lemma enum_begins relay comp t l i :
  match x_enum_begin S t (cloned l) i with
  | GOk e => xfs_call relay (CE (EEnumBegin t l i)) comp (xfs_new (S := S)) = Ok (at_enum e [])
  | GErr x => exists b, xfs_call relay (CE (EEnumBegin t l i)) comp (xfs_new (S := S)) = Err (MkXF b (XDone (inr x)))
  | GPanic => xfs_call relay (CE (EEnumBegin t l i)) comp (xfs_new (S := S)) = Panic
  end.
Proof.
  assert (E : xfs_call relay (CE (EEnumBegin t l i)) comp (xfs_new (S := S)) = xfs_step (xfs_new (S := S)) (EEnumBegin t l i)) by (destruct comp; reflexivity).
  rewrite E. cbv -[x_enum_begin cloned]. destruct (x_enum_begin S t (cloned l) i); [reflexivity|eexists; reflexivity|reflexivity].
Qed.
Theorem nested_answers a : forall comp, handled1 (mirror (tree_of a)) = true ->
  xanswer S (hidden_in comp a) (mirror (tree_of a)) (nested_got S comp (acalls a)).
Proof.
  assert (OT : forall comp b, handled1 (mirror (tree_of b)) = true ->
    xfs_calls false (acalls b) comp (xfs_new (S := S)) = xfs_calls true (acalls b) comp (xfs_new (S := S)) ->
    xanswer S false (mirror (tree_of b)) (nested_got S comp (acalls b)))
    by (intros comp b Hb E; unfold nested_got; rewrite E; apply relayed_answers, Hb).
  assert (VP : forall buf any v, stays_placed (xbuffer_or_value xfs_new buf any v)) by (intros buf [x|x|] v; exact I).
  assert (BP : forall A (o : got A) (h : A -> xstate S) buf enum, (forall x, placed (MkXF None (h x))) ->
    stays_placed (xbuffer_or_begin xfs_new buf (s <= o ;; GOk (h s)) enum)) by (intros A [x|x|] h buf enum P; [apply P|exact I|exact I]).
  assert (FS : forall comp e cs, stays_placed (xfs_step (xfs_new (S := S)) e) -> stays_placed (xfs_step (xfs_new (S := S)) (computed e)) ->
    xfs_calls false (CE e :: cs) comp xfs_new = xfs_calls true (CE e :: cs) comp (xfs_new (S := S)))
    by (intros comp e cs P P'; apply first_same; destruct comp; assumption).
  induction a using atree_ind'; intros comp Hh; cbn [hidden_in];
    try (apply OT; [exact Hh|]; first [apply text_same|apply bin_same|apply FS; first [apply VP|apply BP; intros; exact I]]).
  - unfold nested_got. rewrite xany_val. apply IHa, Hh.
  - replace (nested_got S comp (acalls (AHint t a))) with (nested_got S comp (acalls a)) by (destruct comp; reflexivity). apply (IHa comp), Hh.
  - apply OT; [exact Hh|]. apply FS; exact I.
  - destruct (relayed_enum a comp) as (g & V & G); [exact Hh|].
    exists (cloned l), g. split; [apply okept_clone|]. split; [exact V|].
    unfold nested_got. cbn [acalls]. rewrite xfs_calls_cons. pose proof (enum_begins false comp t l i) as B.
    destruct (x_enum_begin S t (cloned l) i) as [e|x|]; [|destruct B as (b & ->); reflexivity|rewrite B; reflexivity].
    rewrite B. cbn [bind gbind]. rewrite xfs_calls_app. specialize (G e). pose proof (enum_hidden a comp e []) as D.
    destruct (xfs_calls true (acalls a) comp (at_enum e [])) as [f|f|]; cbn [as_hidden] in D.
    + rewrite D. destruct G as (x & -> & ->). destruct comp; reflexivity.
    + destruct G as (x & Ex & ->). destruct (by_value comp a); [destruct D as (b & ->); reflexivity|].
      rewrite D. cbn [bind xsettled hide]. unfold xfinish. rewrite Ex. reflexivity.
    + rewrite D, G. reflexivity.
Qed.

(** ** What is not handled *)
Definition fails_as (x : nerr) (r : res (xfs S)) : Prop := exists b, r = Err (MkXF b (XDone (inr x))).
Lemma xtext_in_enum n fs comp e q : fails_as (NInvalid (bs "cannot stream an enum; the stream is in an invalid state")) (xfs_calls false (acalls (AText n fs)) comp (at_enum e q)).
Proof.
  assert (F : forall c : cow, exists c', xfs_calls false (map (fun f => CE (text_frag f)) fs) comp (MkXF (Some (XText c)) (XEnum (MkXE e q))) =
    Ok (MkXF (S := S) (Some (XText c')) (XEnum (MkXE e q)))).
  { induction fs as [|[b x] fs IH]; intros c; [exists c; reflexivity|]. cbn [map]. rewrite xfs_calls_cons. destruct comp, b; cbn -[map xfs_calls]; apply IH. }
  cbn [acalls]. rewrite xfs_calls_cons. destruct (F text_buf_new) as (c & Fc).
  replace (xfs_call false (CE (ETextBegin n)) comp (at_enum e q)) with (Ok (MkXF (S := S) (Some (XText text_buf_new)) (XEnum (MkXE e q)))) by (destruct comp; reflexivity).
  cbn [bind]. rewrite xfs_calls_app, Fc. destruct comp; eexists; reflexivity.
Qed.
Lemma xbin_in_enum n fs comp e q : fails_as (NInvalid (bs "cannot stream an enum; the stream is in an invalid state")) (xfs_calls false (acalls (ABin n fs)) comp (at_enum e q)).
Proof.
  assert (F : forall c : cow, exists c', xfs_calls false (map (fun f => CE (bin_frag f)) fs) comp (MkXF (Some (XBin c)) (XEnum (MkXE e q))) =
    Ok (MkXF (S := S) (Some (XBin c')) (XEnum (MkXE e q)))).
  { induction fs as [|[b x] fs IH]; intros c; [exists c; reflexivity|]. cbn [map]. rewrite xfs_calls_cons. destruct comp, b; cbn -[map xfs_calls]; apply IH. }
  cbn [acalls]. rewrite xfs_calls_cons. destruct (F text_buf_new) as (c & Fc).
  replace (xfs_call false (CE (EBinBegin n)) comp (at_enum e q)) with (Ok (MkXF (S := S) (Some (XBin text_buf_new)) (XEnum (MkXE e q)))) by (destruct comp; reflexivity).
  cbn [bind]. rewrite xfs_calls_app, Fc. destruct comp; eexists; reflexivity.
Qed.
Lemma xenum_refuses a : forall comp e q, ends_in_variant (mirror (tree_of a)) = false ->
  fails_as (NInvalid (refusal comp a)) (xfs_calls false (acalls a) comp (at_enum e q)).
Proof.
  induction a using atree_ind'; intros comp e q Hv; try discriminate Hv; try (destruct comp; eexists; reflexivity).
  - destruct b; [destruct comp|]; cbn [acalls refusal]; rewrite xfs_calls_one.
    + rewrite xfs_call_CV_computed. apply IHa, Hv.
    + rewrite xfs_call_CV, value_enum. destruct (IHa false e q Hv) as (b & ->). eexists; reflexivity.
    + rewrite xfs_call_CVC, value_enum. destruct (IHa true e q Hv) as (b & ->). eexists; reflexivity.
  - apply xtext_in_enum.
  - apply xbin_in_enum.
  - destruct comp; apply IHa, Hv.
  - cbn [acalls refusal]. rewrite xfs_calls_cons.
    replace (xfs_call false (CE (EEnumBegin t l i)) comp (at_enum e q)) with (Ok (at_enum e (q ++ [(t, option_map label_to_owned (cloned l), i)])))
      by (destruct comp; reflexivity).
    cbn [bind]. rewrite xfs_calls_app. destruct (IHa comp e (q ++ [(t, option_map label_to_owned (cloned l), i)]) Hv) as (b & ->). eexists; reflexivity.
Qed.
Lemma xenum_deep a : forall comp e q, q <> [] -> ends_in_fields (mirror (tree_of a)) = true ->
  xfs_calls false (acalls a) comp (at_enum e q) = Panic.
Proof.
  induction a using atree_ind'; intros comp e q Nq Hv; try discriminate Hv; try (destruct q as [|x q]; [congruence|]; destruct comp; reflexivity).
  - destruct b; [destruct comp|]; cbn [acalls]; rewrite xfs_calls_one.
    + rewrite xfs_call_CV_computed. apply IHa; assumption.
    + rewrite xfs_call_CV, value_enum, (IHa false e q Nq Hv). reflexivity.
    + rewrite xfs_call_CVC, value_enum, (IHa true e q Nq Hv). reflexivity.
  - destruct comp; apply IHa; assumption.
  - cbn [acalls]. rewrite xfs_calls_cons.
    replace (xfs_call false (CE (EEnumBegin t l i)) comp (at_enum e q)) with (Ok (at_enum e (q ++ [(t, option_map label_to_owned (cloned l), i)])))
      by (destruct comp; reflexivity).
    cbn [bind]. rewrite xfs_calls_app, IHa; [reflexivity|destruct q; discriminate|exact Hv].
Qed.
Lemma nested_got_hint comp t a : nested_got S comp (acalls (AHint t a)) = nested_got S comp (acalls a).
Proof. destruct comp; reflexivity. Qed.
Lemma nested_refuses a : forall comp t l i r, mirror (tree_of a) = REnum t l i r -> handled1 (REnum t l i r) = false -> too_deep (REnum t l i r) = false ->
  exists l', okept l' = l /\ nested_got S comp (acalls a) = e <= x_enum_begin S t l' i ;; GErr (NInvalid (refused_as comp a)).
Proof.
  induction a using atree_ind'; intros comp t' l' i' r E Hh Hd; try discriminate E.
  - unfold nested_got. rewrite xany_val. eapply IHa; eassumption.
  - rewrite nested_got_hint. eapply IHa; eassumption.
  - cbn [tree_of mirror] in E. injection E as <- <- <- <-. exists (cloned l). split; [apply okept_clone|].
    assert (Hv : ends_in_variant (mirror (tree_of a)) = false).
    { assert (X : forall v, ends_in_variant v = inner_variant v || ends_in_fields v) by (induction v; try reflexivity; assumption).
      destruct (mirror (tree_of a)); try reflexivity; try discriminate Hh. cbn in Hh, Hd |- *. rewrite X, Hh, Hd. reflexivity. }
    unfold nested_got. cbn [acalls refused_as]. rewrite xfs_calls_cons. pose proof (enum_begins false comp t l i) as B.
    destruct (x_enum_begin S t (cloned l) i) as [e|x|]; [|destruct B as (b & ->); reflexivity|rewrite B; reflexivity].
    rewrite B. cbn [bind gbind]. rewrite xfs_calls_app. destruct (xenum_refuses a comp e [] Hv) as (b & ->). reflexivity.
Qed.
Lemma nested_panics a : forall comp t l i r, mirror (tree_of a) = REnum t l i r -> too_deep (REnum t l i r) = true ->
  exists l', okept l' = l /\ nested_got S comp (acalls a) = e <= x_enum_begin S t l' i ;; GPanic.
Proof.
  induction a using atree_ind'; intros comp t' l' i' r E Hd; try discriminate E.
  - unfold nested_got. rewrite xany_val. eapply IHa; eassumption.
  - rewrite nested_got_hint. eapply IHa; eassumption.
  - cbn [tree_of mirror] in E. injection E as <- <- <- <-. exists (cloned l). split; [apply okept_clone|].
    unfold nested_got. cbn [acalls]. rewrite xfs_calls_cons. pose proof (enum_begins false comp t l i) as B.
    destruct (x_enum_begin S t (cloned l) i) as [e|x|]; [|destruct B as (b & ->); reflexivity|rewrite B; reflexivity].
    rewrite B. cbn [bind gbind]. rewrite xfs_calls_app. clear B IHa.
    assert (P : xfs_calls false (acalls a) comp (at_enum e []) = Panic); [|rewrite P; reflexivity].
    revert comp Hd. induction a using atree_ind'; intros comp Hd; try discriminate Hd.
    + destruct b; [destruct comp|]; cbn [acalls]; rewrite xfs_calls_one.
      * rewrite xfs_call_CV_computed. apply IHa, Hd.
      * rewrite xfs_call_CV, value_enum, (IHa false Hd). reflexivity.
      * rewrite xfs_call_CVC, value_enum, (IHa true Hd). reflexivity.
    + destruct comp; apply IHa, Hd.
    + cbn [acalls]. rewrite xfs_calls_cons.
      match goal with |- (?X >>= _) = _ => replace X with (Ok (at_enum e [(t0, option_map label_to_owned (cloned l0), i0)])) by (destruct comp; reflexivity) end.
      cbn [bind]. rewrite xfs_calls_app, xenum_deep; [reflexivity|discriminate|exact Hd].
Qed.
End Keeping.
