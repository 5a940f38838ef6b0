(** * AdaptiveProps: values that look at the result of each call (C62) *)

From Verif Require Import Base Event Tree LowerModel LowerSpec LowerProofs MethProofs FlatProofs ForwardModel ForwardProofs
  ExtractModel ExtractSpec ExtractProofs FragModel DataModel JsonModel JsonGrammar JsonSpec JsonProofs JsonProps JsonWriterProps
  BufferModel BufferSpec BufferProps CoreProps JsonParse AdaptiveModel.

(** ** Specification *)

(** What a value does as long as the stream accepts its calls: the calls it makes
    and whether it returns [Ok(())]. *)
Fixpoint calm_calls (p : prog) (comp : bool) : list ev * bool :=
  match p with
  | PEnd ok => ([], ok)
  | PCall e k => ((if comp then computed e else e) :: fst (calm_calls (k true) comp), snd (calm_calls (k true) comp))
  | PValue v k =>
      let next := calm_calls (k (snd (calm_calls v comp))) comp in (fst (calm_calls v comp) ++ fst next, snd next)
  | PComputed v k =>
      let next := calm_calls (k (snd (calm_calls v true))) comp in (fst (calm_calls v true) ++ fst next, snd next)
  end.
(** A value that makes the calls of [t], if nothing fails. *)
Definition calmly (p : prog) (t : tree) : Prop := calm_calls p false = (emit t, true).

(** A value that passes on every failure, as with [?]. *)
Definition passing (rest : prog) (b : bool) : prog := if b then rest else PEnd false.
Fixpoint prog_of1 (c : call) (rest : prog) : prog :=
  let fix go (cs : list call) : prog := match cs with [] => PEnd true | c :: cs' => prog_of1 c (go cs') end in
  match c with
  | CE e => PCall e (passing rest)
  | CV cs => PValue (go cs) (passing rest)
  | CVC cs => PComputed (go cs) (passing rest)
  | CFail => PEnd false
  end.
Fixpoint prog_of (cs : list call) : prog := match cs with [] => PEnd true | c :: cs' => prog_of1 c (prog_of cs') end.

(** Keeping a record of every call made, accepted or not. *)
Definition logged {S} (step : S -> ev -> res S) (s : S * list ev) (e : ev) : res (S * list ev) :=
  match step (fst s) e with
  | Ok s' => Ok (s', snd s ++ [e])
  | Err s' => Err (s', snd s ++ [e])
  | Panic => Panic
  end.

(** The calls a value makes when streamed into [s]. *)
Definition calls_made {S} (step : S -> ev -> res S) (s : S) (p : prog) : list ev :=
  match do_prog (logged step) p OBase (s, []) with Ok x | Err x => snd x | Panic => [] end.

(** ** Proofs *)

Section P.
  Context {S : Type}.
  Variable step : S -> ev -> res S.
  Definition weaken (b : bool) (e : ev) : ev := if b then computed e else e.
  (** Without wrappers. *)
  Fixpoint bare (p : prog) (comp : bool) (s : S) : res S :=
    match p with
    | PEnd ok => if ok then Ok s else Err s
    | PCall e k => answer (step s (weaken comp e)) (fun b => bare (k b) comp)
    | PValue v k => answer (bare v comp s) (fun b => bare (k b) comp)
    | PComputed v k => answer (bare v true s) (fun b => bare (k b) comp)
    end.
  Lemma answer_ext (r : res S) k k' : (forall b s, k b s = k' b s) -> answer r k = answer r k'.
  Proof. intros H. destruct r; cbn [answer]; auto. Qed.
  Lemma do_prog_bare p : forall o s, do_prog step p o s = bare p (has_computed o) s.
  Proof.
    induction p as [ok|e k IH|v IHv k IH|v IHv k IH]; intros o s; cbn [do_prog bare]; [reflexivity|..].
    - rewrite do_ev_spec. apply answer_ext. intros b s'. apply IH.
    - replace (_ o s) with (bare v (has_computed o) s); [apply answer_ext; intros b s'; apply IH|].
      symmetry. induction o; [exact (IHv OBase s)|exact IHo|exact IHo|exact (IHv (OComputed o) s)|exact (IHv (ODyn o) s)].
    - replace (_ o 0 s) with (bare v true s); [apply answer_ext; intros b s'; apply IH|].
      symmetry. generalize 0. induction o; intros n; try apply IHo.
      rewrite IHv, has_computed_layers. reflexivity.
  Qed.

  Lemma bare_calm p : forall comp s s', run step s (fst (calm_calls p comp)) = Ok s' ->
    bare p comp s = if snd (calm_calls p comp) then Ok s' else Err s'.
  Proof.
    induction p as [ok|e k IH|v IHv k IH|v IHv k IH]; intros comp s s' R; cbn [calm_calls bare fst snd] in *.
    - injection R as <-. reflexivity.
    - rewrite run_cons in R. unfold weaken. destruct (step s _) as [s1| |]; [|discriminate..]. cbn [bind answer] in *. apply IH, R.
    - rewrite run_app in R. destruct (run step s (fst (calm_calls v comp))) as [s1| |] eqn:E; [|discriminate..].
      rewrite (IHv _ _ _ E). cbn [bind] in R. destruct (snd (calm_calls v comp)); cbn [answer]; apply IH, R.
    - rewrite run_app in R. destruct (run step s (fst (calm_calls v true))) as [s1| |] eqn:E; [|discriminate..].
      rewrite (IHv _ _ _ E). cbn [bind] in R. destruct (snd (calm_calls v true)); cbn [answer]; apply IH, R.
  Qed.

  (** Properties kept by every call, accepted or refused. *)
  Lemma bare_inv (I : S -> Prop) : (forall s e s', I s -> step s e = Ok s' \/ step s e = Err s' -> I s') ->
    forall p comp s s', I s -> bare p comp s = Ok s' \/ bare p comp s = Err s' -> I s'.
  Proof.
    intros H. induction p as [ok|e k IH|v IHv k IH|v IHv k IH]; intros comp s s' Hs R; cbn [bare] in R.
    - destruct ok; destruct R as [R|R]; inversion R; subst; exact Hs.
    - destruct (step s (weaken comp e)) as [s1|s1|] eqn:E; cbn [answer] in R; [..|destruct R; discriminate];
        (eapply IH; [|exact R]; eapply H; [exact Hs|rewrite E; auto]).
    - destruct (bare v comp s) as [s1|s1|] eqn:E; cbn [answer] in R; [..|destruct R; discriminate];
        (eapply IH; [|exact R]; eapply IHv; [exact Hs|rewrite E; auto]).
    - destruct (bare v true s) as [s1|s1|] eqn:E; cbn [answer] in R; [..|destruct R; discriminate];
        (eapply IH; [|exact R]; eapply IHv; [exact Hs|rewrite E; auto]).
  Qed.

  Lemma bare_dead p : forall comp s, (forall e, step s e = Err s) -> bare p comp s = Ok s \/ bare p comp s = Err s.
  Proof.
    induction p as [ok|e k IH|v IHv k IH|v IHv k IH]; intros comp s D; cbn [bare].
    - destruct ok; auto.
    - rewrite D. cbn [answer]. apply IH, D.
    - destruct (IHv comp s D) as [E|E]; rewrite E; cbn [answer]; apply IH, D.
    - destruct (IHv true s D) as [E|E]; rewrite E; cbn [answer]; apply IH, D.
  Qed.
  Lemma bare_sticky : (forall s e s', step s e = Err s' -> forall e', step s' e' = Err s') ->
    forall p comp s, match run step s (fst (calm_calls p comp)) with
    | Ok _ => True
    | Err s' => (bare p comp s = Ok s' \/ bare p comp s = Err s') /\ forall e, step s' e = Err s'
    | Panic => bare p comp s = Panic
    end.
  Proof.
    intros H. induction p as [ok|e k IH|v IHv k IH|v IHv k IH]; intros comp s; cbn [calm_calls bare fst snd].
    - exact I.
    - rewrite run_cons. fold (weaken comp e). destruct (step s (weaken comp e)) as [s1|s1|] eqn:E; cbn [bind answer]; [apply IH| |reflexivity].
      split; [apply bare_dead|]; exact (H _ _ _ E).
    - rewrite run_app. specialize (IHv comp s). destruct (run step s (fst (calm_calls v comp))) as [s1|s1|] eqn:E; cbn [bind].
      + rewrite (bare_calm _ _ _ _ E). destruct (snd (calm_calls v comp)); cbn [answer]; apply IH.
      + destruct IHv as [[R|R] D]; rewrite R; cbn [answer]; (split; [apply bare_dead|]; exact D).
      + rewrite IHv. reflexivity.
    - rewrite run_app. specialize (IHv true s). destruct (run step s (fst (calm_calls v true))) as [s1|s1|] eqn:E; cbn [bind].
      + rewrite (bare_calm _ _ _ _ E). destruct (snd (calm_calls v true)); cbn [answer]; apply IH.
      + destruct IHv as [[R|R] D]; rewrite R; cbn [answer]; (split; [apply bare_dead|]; exact D).
      + rewrite IHv. reflexivity.
  Qed.
End P.

(** ** C62 *)

(** Values as call lists are those that pass on every failure. *)
Theorem C62_call_lists_pass_failures_on : forall S (step : S -> ev -> res S) v o s,
  do_prog step (prog_of v) o s = do_calls step v o s.
Proof.
  intros S step.
  assert (P1 : forall c rest o s, (do_prog step (prog_of1 c rest) o s) = do_call step c o s >>= do_prog step rest o).
  { assert (L : forall cs, Forall (fun c => forall rest o s, do_prog step (prog_of1 c rest) o s = do_call step c o s >>= do_prog step rest o) cs ->
      forall o s, do_prog step ((fix go (cs : list call) : prog := match cs with [] => PEnd true | c :: cs' => prog_of1 c (go cs') end) cs) o s = do_calls step cs o s).
    { induction cs as [|c cs IH]; intros F o s; [reflexivity|]. inversion F as [|? ? F1 F2]; subst. rewrite F1. cbn [do_calls].
      destruct (do_call step c o s); cbn [bind]; [apply IH, F2|reflexivity..]. }
    induction c as [e|cs H|cs H|] using call_ind'; intros rest o s.
    - cbn [prog_of1 do_prog do_call]. destruct (do_ev step o e s); reflexivity.
    - rewrite do_prog_bare. cbn [prog_of1 bare]. rewrite <- do_prog_bare, (L cs H), do_calls_spec, do_call_spec, flat1_CV.
      unfold run_flat. destruct (run step s _); cbn [bind answer]; [|reflexivity..].
      destruct (snd _); cbn [answer bind passing]; [rewrite do_prog_bare|]; reflexivity.
    - rewrite do_prog_bare. cbn [prog_of1 bare].
      match goal with |- context [bare step ?x true s] => rewrite <- (do_prog_bare step x (OComputed OBase) s : _ = bare step x true s) end.
      rewrite (L cs H), do_calls_spec, do_call_spec, flat1_CVC.
      unfold run_flat. cbn [has_computed]. destruct (run step s _); cbn [bind answer]; [|reflexivity..].
      destruct (snd _); cbn [answer bind passing]; [rewrite do_prog_bare|]; reflexivity.
    - reflexivity. }
  induction v as [|c v IH]; intros o s; [reflexivity|]. cbn [prog_of do_calls]. rewrite P1.
  destruct (do_call step c o s); cbn [bind]; [apply IH|reflexivity..].
Qed.

(** Wrappers cannot be told from the stream they wrap; [Computed] only weakens borrows. *)
Theorem C62_forwarding_is_transparent : forall S (step : S -> ev -> res S) p o s, has_computed o = false ->
  do_prog step p o s = do_prog step p OBase s.
Proof. intros S step p o s H. rewrite !do_prog_bare, H. reflexivity. Qed.
Theorem C62_computed_only_weakens_borrows : forall S (step : S -> ev -> res S) p o s, has_computed o = true ->
  do_prog step p o s = do_prog (fun s e => step s (weakened e)) p OBase s.
Proof.
  intros S step p o s H. rewrite !do_prog_bare, H. cbn [has_computed].
  revert s. cut (forall b s, bare step p true s = bare (fun s e => step s (weakened e)) p b s); [intros G s; apply G|].
  induction p as [ok|e k IH|v IHv k IH|v IHv k IH]; intros b s; cbn [bare].
  - reflexivity.
  - unfold weaken. cbv beta. replace (weakened (if b then computed e else e)) with (computed e) by (destruct b; destruct e; reflexivity).
    apply answer_ext. intros; apply IH.
  - rewrite (IHv b). apply answer_ext. intros; apply IH.
  - rewrite (IHv true). apply answer_ext. intros; apply IH.
Qed.

(** On a stream that accepts the calls it makes, an adaptive value is the list of
    those calls: whatever was shown for call lists holds for it. *)
Theorem C62_accepted_calls : forall S (O : ev -> bool) (step : S -> ev -> res S) p s s',
  run_impl O step s (map CE (fst (calm_calls p false))) = Ok s' ->
  run_prog O step s p = if snd (calm_calls p false) then Ok s' else Err s'.
Proof.
  intros S O step p s s' H. rewrite run_impl_meth, flat_CE_false in H. cbn [fst snd] in H.
  unfold run_prog. rewrite do_prog_bare. apply bare_calm. destruct (run _ _ _); [exact H|discriminate..].
Qed.
(** On a stream that goes on refusing after a failure it has no effect after the
    first failure, whatever it tries, though it may return [Ok(())]. *)
Theorem C62_no_effect_after_a_failure : forall S (step : S -> ev -> res S),
  (forall s e s', step s e = Err s' -> forall e', step s' e' = Err s') ->
  forall p s s', run step s (fst (calm_calls p false)) = Err s' ->
  do_prog step p OBase s = Ok s' \/ do_prog step p OBase s = Err s'.
Proof.
  intros S step H p s s' R. rewrite do_prog_bare. cbn [has_computed]. pose proof (bare_sticky step H p false s) as B. rewrite R in B. apply B.
Qed.

(** Consequences: JSON and buffers. *)
Theorem C62_json : forall r32 r64, json_printer r32 -> json_printer r64 ->
  forall p t j, calmly p t -> image r32 r64 false t j -> safe t ->
  exists s, adaptive_to_string r32 r64 p = SOk s /\ json_text s j.
Proof.
  intros r32 r64 P32 P64 p t j H Im Sa.
  destruct (C20_json_denotes_value_partial r32 r64 P32 P64 (map CE (emit t)) t j (flat_CE_false _) Im Sa) as (s & E & T).
  exists s. split; [|exact T]. unfold json_to_string, json_to_fmt in E. unfold adaptive_to_string, adaptive_to_fmt.
  destruct (run_impl json_over _ _ _) as [f|f|] eqn:R in E; [|destruct (f_err f) in E; discriminate|discriminate].
  unfold calmly in H. pose proof (C62_accepted_calls _ json_over (json_step bytes string_write r32 r64) p (fm_new bytes []) f) as A.
  rewrite H in A. rewrite (A R). exact E.
Qed.
Theorem C62_buffer : forall p t, calmly p t -> adaptive_vbuf_collect p = vbuf_collect (map CE (emit t)).
Proof.
  intros p t H. destruct (C15_round_trip_partial (map CE (emit t)) t (flat_CE_false _)) as (b & cs & E & _).
  rewrite E. unfold vbuf_collect, stream_value in E. rewrite flat_CE_false in E.
  unfold adaptive_vbuf_collect. rewrite do_prog_bare. cbn [has_computed].
  destruct (run vbuf_step vbuf_new (emit t)) as [b'| |] eqn:R; [|discriminate..]. cbn [bind] in E. injection E as ->.
  unfold calmly in H. rewrite (bare_calm vbuf_step p false vbuf_new b) by (rewrite H; exact R). rewrite H. reflexivity.
Qed.

(** Conversions return only what was streamed. *)
Lemma ext_err_int {A} O (step : option A -> ev -> res (option A)) s t z :
  (forall s z, meth O step s (EInt I64 z) = Err s) ->
  (forall s f, run (meth O step) s [ETaggedBegin (Some NUMBER) None None; ETextBegin None; ETextFragC f] = Err s) ->
  (t = U128 \/ t = I128) -> O (EInt t z) = false ->
  meth O step s (EInt t z) = Err s.
Proof.
  intros H64 HT Ht HO. destruct (fits I64 z) eqn:F.
  - rewrite meth_int_small by assumption. apply H64.
  - rewrite meth_int_big by assumption.
    unfold dec_frags. destruct (z <? 0)%Z; cbn [map app];
    match goal with |- context [run _ _ (?a :: ?b :: ETextFragC ?f :: ?d)] =>
      change (a :: b :: ETextFragC f :: d) with ([a; b; ETextFragC f] ++ d); rewrite run_app, (HT s f) end;
    reflexivity.
Qed.
Lemma ext_err_tag {A} O (step : option A -> ev -> res (option A)) s t l i :
  O (ETag t l i) = false ->
  (forall s, run (meth O step) s [ETaggedBegin t l i; ENull] = Err s) ->
  (forall s n, run (meth O step) s [ETaggedBegin t l i; ETextBegin n] = Err s) ->
  meth O step s (ETag t l i) = Err s.
Proof.
  intros HO HN HT. rewrite meth_tag by exact HO.
  assert (G : forall a b r, (forall s, run (meth O step) s [a; b] = Err s) -> run (meth O step) s (a :: b :: r) = Err s).
  { intros a b r H. change (a :: b :: r) with ([a; b] ++ r). rewrite run_app, H. reflexivity. }
  destruct (otag_is t RUST_OPTION_NONE); [apply G, HN|].
  destruct l as [l|]; [|apply G, HN].
  destruct (as_static_str l); apply G; intros; apply HT.
Qed.
Definition ext_err {A} O (step : option A -> ev -> res (option A)) (sel : ev -> option A) : Prop :=
  forall s e, sel e = None -> silent e = false -> meth O step s e = Err s.
Ltac err_case e :=
  let H1 := fresh in let H2 := fresh in
  intros s e H1 H2; destruct e as [| | | | | | |b|b| |ty z| | | | | | | | | | | | | | | | |t l i|t|t l i n|t l| | |t l i n| | | |t l i n|t l i| |];
  try discriminate H1; try discriminate H2; try (ec; reflexivity);
  [ destruct b as [|b r]; [discriminate H2|]; rewrite bin_frag_meth, bin_fragC_meth by reflexivity; reflexivity
  | destruct b as [|b r]; [discriminate H2|]; rewrite bin_fragC_meth by reflexivity; reflexivity
  | destruct ty; try discriminate H1; wid;
      first [reflexivity | apply ext_err_int; [intros; ec; reflexivity|intros; ec; reflexivity|solve [auto]|reflexivity]]
  | apply ext_err_tag; [reflexivity|intros; ec; reflexivity|intros; ec; reflexivity]
  | lbl l; ec; reflexivity
  | lbl l; ec; reflexivity ].
Lemma err_bool : ext_err overrides_nothing bool_step sel_bool. Proof. err_case e. Qed.
Lemma err_i128 : ext_err i128_overrides i128_step sel_signed. Proof. err_case e. Qed.
Lemma err_u128 : ext_err u128_overrides u128_step sel_unsigned. Proof. err_case e. Qed.

(** Whatever calls a value makes and whatever it does about failures, a boolean or
    integer it converts to is one it streamed. *)
Lemma ext_sound {A} O (step : option A -> ev -> res (option A)) sel : ext_ok O step sel -> ext_err O step sel ->
  forall p a log, do_prog (logged (meth O step)) p OBase (None, []) = Ok (Some a, log) -> exists e, In e log /\ sel e = Some a.
Proof.
  intros Ho He p a log R. rewrite do_prog_bare in R.
  refine (bare_inv (logged (meth O step)) (fun s => forall a, fst s = Some a -> exists e, In e (snd s) /\ sel e = Some a) _ p _ _ _ _ (or_introl R) a eq_refl).
  - clear - Ho He. intros [s l] e s' IH R a E. cbn [fst snd] in IH. unfold logged in R. cbn [fst snd] in R.
    assert (K : forall x, fst s' = x -> (x = s \/ exists a, sel e = Some a /\ x = Some a) /\ snd s' = l ++ [e]).
    { intros x <-. specialize (Ho s e). specialize (He s e). destruct (sel e) as [a'|].
      - rewrite Ho in R. destruct R as [[= <-]|R]; [|discriminate]. eauto.
      - destruct (silent e).
        + rewrite Ho in R. destruct R as [[= <-]|R]; [|discriminate]. auto.
        + rewrite He in R by reflexivity. destruct R as [R|[= <-]]; [discriminate|]. auto. }
    destruct (K _ eq_refl) as [[X|(a' & X & Y)] L]; rewrite L.
    + rewrite X in E. destruct (IH a E) as (e' & I & J). exists e'. split; [apply in_or_app; auto|exact J].
    + rewrite Y in E. injection E as ->. exists e. split; [apply in_or_app; right; left; reflexivity|exact X].
  - intros a' E. discriminate E.
Qed.
Lemma logged_same {S} (step : S -> ev -> res S) p : forall comp s l,
  match bare step p comp s with
  | Ok s' => exists l', bare (logged step) p comp (s, l) = Ok (s', l')
  | Err s' => exists l', bare (logged step) p comp (s, l) = Err (s', l')
  | Panic => True
  end.
Proof.
  induction p as [ok|e k IH|v IHv k IH|v IHv k IH]; intros comp s l; cbn [bare].
  - destruct ok; eauto.
  - unfold logged at 1 3. cbn [fst snd]. destruct (step s (weaken comp e)) as [s1|s1|]; cbn [answer]; [apply IH..|exact I].
  - specialize (IHv comp s l). destruct (bare step v comp s) as [s1|s1|]; cbn [answer]; [..|exact I];
      destruct IHv as (l1 & ->); cbn [answer]; apply IH.
  - specialize (IHv true s l). destruct (bare step v true s) as [s1|s1|]; cbn [answer]; [..|exact I];
      destruct IHv as (l1 & ->); cbn [answer]; apply IH.
Qed.
Lemma logged_finish {A} (step : option A -> ev -> res (option A)) p a : finish (do_prog step p OBase None) = Some a ->
  exists log, do_prog (logged step) p OBase (None, []) = Ok (Some a, log).
Proof.
  rewrite !do_prog_bare. pose proof (logged_same step p (has_computed OBase) None []) as L.
  destruct (bare step p _ None) as [s|s|]; [|discriminate..]. cbn [finish]. intros ->. exact L.
Qed.
Theorem C62_bool_is_streamed : forall p b, adaptive_bool p = Some b ->
  In (EBool b) (calls_made (meth overrides_nothing bool_step) None p).
Proof.
  intros p b H. destruct (logged_finish _ _ _ H) as (log & R). unfold calls_made. rewrite R.
  destruct (ext_sound _ _ _ ext_bool err_bool p b log R) as (e & I & E). destruct e; try discriminate E. injection E as ->. exact I.
Qed.
Theorem C62_int_is_streamed : forall t p z, adaptive_int t p = Some z ->
  exists ty, In (EInt ty z) (if unsigned t then calls_made (meth u128_overrides u128_step) None p
                             else calls_made (meth i128_overrides i128_step) None p) /\
             unsigned ty = unsigned t /\ (t = I128 \/ t = U128 \/ fits t z = true).
Proof.
  assert (HI : forall p z, adaptive_i128 p = Some z -> exists ty, In (EInt ty z) (calls_made (meth i128_overrides i128_step) None p) /\ unsigned ty = false).
  { intros p z H. destruct (logged_finish _ _ _ H) as (log & R). unfold calls_made. rewrite R.
    destruct (ext_sound _ _ _ ext_i128 err_i128 p z log R) as (e & I & E). destruct e; try discriminate E. exists t.
    destruct t; try discriminate E. injection E as ->. auto. }
  assert (HU : forall p z, adaptive_u128 p = Some z -> exists ty, In (EInt ty z) (calls_made (meth u128_overrides u128_step) None p) /\ unsigned ty = true).
  { intros p z H. destruct (logged_finish _ _ _ H) as (log & R). unfold calls_made. rewrite R.
    destruct (ext_sound _ _ _ ext_u128 err_u128 p z log R) as (e & I & E). destruct e; try discriminate E. exists t.
    cbn [sel_unsigned] in E. destruct (unsigned t) eqn:U; [|discriminate E]. injection E as ->. auto. }
  assert (TI : forall t o z, try_into t o = Some z -> o = Some z /\ fits t z = true).
  { intros t [y|] z; cbn [try_into]; [|discriminate]. destruct (fits t y) eqn:F; [|discriminate]. intros [= <-]. auto. }
  intros t p z H. destruct t; cbn [adaptive_int unsigned] in *;
    try (lazymatch type of H with try_into _ _ = _ => apply TI in H; destruct H as [H F] end);
    lazymatch type of H with adaptive_u128 _ = _ => apply HU in H | _ => apply HI in H end;
    destruct H as (ty & H1 & H2); exists ty; auto.
Qed.

(** A text (binary) it converts to is the only fragment it streamed, and borrowed.
    The record is of the methods of the extracting stream that were run. *)
Definition is_text_frag (e : ev) : bool := match e with ETextFrag _ | ETextFragC _ => true | _ => false end.
Definition is_bin_frag (e : ev) : bool := match e with EBinFrag _ | EBinFragC _ => true | _ => false end.
Definition methods_run {S} (O : ev -> bool) (step : S -> ev -> res S) (s : S) (p : prog) : list ev :=
  match run_prog O (logged step) (s, []) p with Ok x | Err x => snd x | Panic => [] end.

Lemma run_inv {S} (step : S -> ev -> res S) (I : S -> Prop) : (forall s e s', I s -> step s e = Ok s' \/ step s e = Err s' -> I s') ->
  forall es s s', I s -> run step s es = Ok s' \/ run step s es = Err s' -> I s'.
Proof.
  intros H. induction es as [|e es IH]; intros s s' Hs R; cbn [run] in R.
  - destruct R as [R|R]; [injection R as <-; exact Hs|discriminate].
  - destruct (step s e) as [s1|s1|] eqn:E; cbn [bind] in R.
    + eapply IH; [|exact R]. eapply H; [exact Hs|rewrite E; auto].
    + destruct R as [R|R]; [discriminate|]. injection R as <-. eapply H; [exact Hs|rewrite E; auto].
    + destruct R; discriminate.
Qed.
Lemma run_logged {S} (step : S -> ev -> res S) es : forall s l,
  match run step s es with
  | Ok s' => exists l', run (logged step) (s, l) es = Ok (s', l')
  | Err s' => exists l', run (logged step) (s, l) es = Err (s', l')
  | Panic => True
  end.
Proof.
  induction es as [|e es IH]; intros s l; cbn [run]; [eauto|]. unfold logged at 1 3. cbn [fst snd].
  destruct (step s e) as [s1|s1|]; cbn [bind]; [apply IH|eauto|exact I].
Qed.
Lemma meth_logged {S} O (step : S -> ev -> res S) p : forall comp s l,
  match bare (meth O step) p comp s with
  | Ok s' => exists l', bare (meth O (logged step)) p comp (s, l) = Ok (s', l')
  | Err s' => exists l', bare (meth O (logged step)) p comp (s, l) = Err (s', l')
  | Panic => True
  end.
Proof.
  induction p as [ok|e k IH|v IHv k IH|v IHv k IH]; intros comp s l; cbn [bare].
  - destruct ok; eauto.
  - unfold meth at 1 3 5. pose proof (run_logged step (lower O depth (weaken comp e)) s l) as R.
    destruct (run step s _) as [s1|s1|]; cbn [answer]; [..|exact I]; destruct R as (l1 & ->); cbn [answer]; apply IH.
  - specialize (IHv comp s l). destruct (bare (meth O step) v comp s) as [s1|s1|]; cbn [answer]; [..|exact I];
      destruct IHv as (l1 & ->); cbn [answer]; apply IH.
  - specialize (IHv true s l). destruct (bare (meth O step) v true s) as [s1|s1|]; cbn [answer]; [..|exact I];
      destruct IHv as (l1 & ->); cbn [answer]; apply IH.
Qed.
Lemma one_piece O step (fr : ev -> bool) (mk : bytes -> ev) :
  (forall s e s', step s e = Ok s' \/ step s e = Err s' ->
     if fr e then s' = (None, true) \/ (snd s = false /\ exists f, e = mk f /\ s' = (Some f, true)) else s' = s) ->
  forall p f, match run_prog O step (None, false) p with Ok s => fst s | _ => None end = Some f ->
  filter fr (methods_run O step (None, false) p) = [mk f].
Proof.
  intros H p f R. unfold methods_run, run_prog in *. rewrite do_prog_bare in R. rewrite do_prog_bare.
  pose proof (meth_logged O step p (has_computed OBase) (None, false) []) as L.
  destruct (bare (meth O step) p _ (None, false)) as [s|s|]; [|discriminate R..]. destruct L as (log & L). rewrite L. cbn [snd].
  pose (J := fun x : (option bytes * bool) * list ev =>
    (snd (fst x) = false -> filter fr (snd x) = [] /\ fst (fst x) = None) /\ forall f, fst (fst x) = Some f -> filter fr (snd x) = [mk f]).
  assert (G : J (s, log)).
  { refine (bare_inv (meth O (logged step)) J _ p _ _ _ _ (or_introl L)).
    - intros s0 e s' Hs R'. unfold meth in R'. refine (run_inv (logged step) J _ _ _ _ Hs R').
      clear - H. intros [s l] e s' [J1 J2] R. unfold logged in R. cbn [fst snd] in *.
      specialize (H s e (fst s')). destruct (step s e) as [s1|s1|]; [| |destruct R; discriminate];
        (assert (Q : s' = (s1, l ++ [e])) by (destruct R as [[= <-]|[= <-]]; reflexivity)); subst s'; cbn [fst snd] in *;
        (assert (H' := H ltac:(auto)); clear H R; unfold J; cbn [fst snd]; rewrite filter_app; cbn [filter]);
        (destruct (fr e);
          [destruct H' as [->|(S0 & g & -> & ->)]; cbn [fst snd];
             [split; [discriminate|discriminate]
             |split; [discriminate|]; intros h [= <-]; rewrite (proj1 (J1 S0)); reflexivity]
          |subst s1; rewrite app_nil_r; split; assumption]).
    - split; [split; reflexivity|discriminate]. }
  apply (proj2 G). exact R.
Qed.
Theorem C62_text_is_the_only_fragment : forall p f, adaptive_text p = Some f ->
  filter is_text_frag (methods_run text_overrides text_step (None, false) p) = [ETextFrag f].
Proof.
  apply (one_piece text_overrides text_step is_text_frag ETextFrag).
  intros [o b] e s' R. destruct e; cbn [text_step is_text_frag fst snd] in *; try (destruct R as [[= <-]|[= <-]]; reflexivity); try (destruct R; discriminate).
  - destruct b; cbn [negb] in R; destruct R as [[= <-]|R]; try discriminate R; [left; reflexivity|right; split; [reflexivity|eauto]].
  - destruct R as [R|[= <-]]; [discriminate|]. left. reflexivity.
Qed.
Theorem C62_binary_is_the_only_fragment : forall p f, adaptive_binary p = Some f ->
  filter is_bin_frag (methods_run bin_overrides bin_step (None, false) p) = [EBinFrag f].
Proof.
  apply (one_piece bin_overrides bin_step is_bin_frag EBinFrag).
  intros [o b] e s' R. destruct e; cbn [bin_step is_bin_frag fst snd] in *; try (destruct R as [[= <-]|[= <-]]; reflexivity); try (destruct R; discriminate).
  - destruct b; cbn [negb] in R; destruct R as [[= <-]|R]; try discriminate R; [left; reflexivity|right; split; [reflexivity|eauto]].
  - destruct R as [R|[= <-]]; [discriminate|]. left. reflexivity.
Qed.

(** [Ok] need not mean that everything arrived: a value that ignores a failure makes
    [stream_to_string] return broken JSON, and a failing writer go unreported. *)
Definition C62_ok_means_json : Prop := forall r32 r64, json_printer r32 -> json_printer r64 ->
  forall p t s, calmly p t -> adaptive_to_string r32 r64 p = SOk s -> exists j, json_text s j.
Definition bad_key : tree := TMap None [(TSeq None [], TNull)].
(** [vec![bad_key]] where the element's failure is ignored. *)
Definition careless : prog :=
  PCall (ESeqBegin (Some 1%N)) (fun _ => PCall ESeqValBegin (fun _ =>
    PValue (prog_of (map CE (emit bad_key))) (fun _ => PCall ESeqValEnd (fun _ => PCall ESeqEnd (fun _ => PEnd true))))).
Example careless_calm : calmly careless (TSeq (Some 1%N) [bad_key]).
Proof. reflexivity. Qed.
Example careless_json : adaptive_to_string exact_print exact_print careless = SOk (bs "[{""]").
Proof. vm_compute. reflexivity. Qed.
Theorem C62_ok_means_json_refuted : ~ C62_ok_means_json.
Proof.
  intros H. destruct (H exact_print exact_print exact_print_json exact_print_json _ _ _ careless_calm careless_json) as (j & T).
  revert T. apply not_json. vm_compute. reflexivity.
Qed.
(** Missing: values that ignore failures. *)
Theorem C62_ok_means_json_partial : forall r32 r64, json_printer r32 -> json_printer r64 ->
  forall v t j, streams v t -> image r32 r64 false t j -> safe t ->
  exists s, adaptive_to_string r32 r64 (prog_of v) = SOk s /\ json_text s j.
Proof.
  intros r32 r64 P32 P64 v t j H Im Sa. destruct (C20_json_denotes_value_partial r32 r64 P32 P64 v t j H Im Sa) as (s & E & T).
  exists s. split; [|exact T]. rewrite <- E. unfold adaptive_to_string, adaptive_to_fmt, json_to_string, json_to_fmt, run_prog.
  rewrite C62_call_lists_pass_failures_on, do_calls_stream_value, run_impl_meth. unfold stream_value. destruct (flat v false). reflexivity.
Qed.
Definition C62_writer_failure_reported : Prop := forall (W : Type) (wr : W -> bytes -> res W) r32 r64 w p o,
  adaptive_to_fmt (observed W) (observe wr) r32 r64 (MkOb w [] false false) p = JOk o -> ob_failed o = false.
Theorem C62_writer_failure_reported_refuted : ~ C62_writer_failure_reported.
Proof.
  intros H. specialize (H unit (fun _ _ => Err tt) (fun _ => []) (fun _ => []) tt (PCall ENull (fun _ => PEnd true)) (MkOb tt [] true false) eq_refl).
  discriminate H.
Qed.
(** Missing: values that ignore failures. *)
Theorem C62_writer_failure_reported_partial : forall (W : Type) (wr : W -> bytes -> res W) r32 r64 w v o,
  adaptive_to_fmt (observed W) (observe wr) r32 r64 (MkOb w [] false false) (prog_of v) = JOk o -> ob_failed o = false.
Proof.
  intros W wr r32 r64 w v o H.
  assert (E : adaptive_to_fmt (observed W) (observe wr) r32 r64 (MkOb w [] false false) (prog_of v) =
              json_to_fmt (observed W) (observe wr) r32 r64 (MkOb w [] false false) v).
  { unfold adaptive_to_fmt, json_to_fmt, run_prog. rewrite C62_call_lists_pass_failures_on, do_calls_stream_value, run_impl_meth.
    unfold stream_value. destruct (flat v false). reflexivity. }
  rewrite E in H. pose proof (C45_json_failure_is_prompt_and_reported W wr r32 r64 w v) as C. rewrite H in C. apply C.
Qed.

(** A value that falls back to a text when the stream takes no booleans. *)
Definition fallback : prog :=
  PCall (EBool true) (fun b => if b then PEnd true else PCall (ETextBegin (Some 4%N)) (fun _ => PCall (ETextFrag (bs "true")) (fun _ => PCall ETextEnd PEnd))).
Example C62_sample :
  adaptive_text fallback = Some (bs "true") /\ adaptive_bool fallback = Some true /\ adaptive_int I64 fallback = None /\
  methods_run text_overrides text_step (None, false) fallback = [EBool true; ETextBegin (Some 4%N); ETextFrag (bs "true"); ETextEnd] /\
  adaptive_to_string exact_print exact_print fallback = SOk (bs "true") /\
  do_prog (meth text_overrides text_step) fallback (OBox (ODyn (OMut OBase))) (None, false) = Ok (Some (bs "true"), true) /\
  do_prog (meth text_overrides text_step) fallback (OComputed OBase) (None, false) = Ok (None, true) /\
  calmly fallback (TBool true) /\ adaptive_int U8 (PCall (EInt U8 7) (fun _ => PCall ENull (fun _ => PEnd true))) = Some 7%Z.
Proof. repeat (split; [vm_compute; reflexivity|]). vm_compute. reflexivity. Qed.
(** A stream that goes on refusing: its third call and every one after. *)
Example C62_sticky_sample :
  let step (n : nat) (e : ev) := if Nat.leb 2 n then Err n else Ok (S n) in
  (forall s e s', step s e = Err s' -> forall e', step s' e' = Err s') /\
  run step 0 (fst (calm_calls careless false)) = Err 2 /\ do_prog step careless OBase 0 = Ok 2.
Proof.
  repeat split. intros s e s' H e'. cbv zeta beta in H. destruct (Nat.leb 2 s) eqn:L; [|discriminate]. injection H as <-. rewrite L. reflexivity.
Qed.

Print Assumptions C62_call_lists_pass_failures_on.
Print Assumptions C62_forwarding_is_transparent.
Print Assumptions C62_computed_only_weakens_borrows.
Print Assumptions C62_accepted_calls.
Print Assumptions C62_no_effect_after_a_failure.
Print Assumptions C62_json.
Print Assumptions C62_buffer.
Print Assumptions C62_bool_is_streamed.
Print Assumptions C62_int_is_streamed.
Print Assumptions C62_text_is_the_only_fragment.
Print Assumptions C62_binary_is_the_only_fragment.
Print Assumptions C62_ok_means_json_refuted.
Print Assumptions C62_ok_means_json_partial.
Print Assumptions C62_writer_failure_reported_refuted.
Print Assumptions C62_writer_failure_reported_partial.
