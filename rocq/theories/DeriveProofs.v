(** * DeriveProofs: the loop of [stream_record_tuple] and the code it generates *)

From Verif Require Import Base Event Tree FlatProofs LowerModel DataModel DataProofs
  FlattenModel FlattenSpec FlattenProofs FlattenProps DeriveModel DeriveSpec.

Lemma stream_streams {W} (out : W -> ev -> res W) w v t : streams v t ->
  stream_value out w v = run out w (emit t).
Proof.
  unfold streams, stream_value. intros ->. destruct (run out w (emit t)); reflexivity.
Qed.

(** The calls of one slot. *)
Definition slot_calls (kind : fkind) (s : slot) : list ev :=
  let (b, e) := field_calls kind (s_tag s) (s_label s) (s_index s) in
  b :: emit (s_value s) ++ [e].

(** ** Counting *)

Definition count {A} (p : A -> bool) (l : list A) : N := N.of_nat (length (filter p l)).
Lemma count_cons {A} (p : A -> bool) x l : count p (x :: l) = ((if p x then 1 else 0) + count p l)%N.
Proof. unfold count. cbn [filter]. destruct (p x); cbn [length]; lia. Qed.

Lemma labelled_some (unl : bool) f :
  labelled unl f = match (if unl then None else optional_label_or_ident (fd_label f) (fd_name f)) with
                   | Some _ => true | None => false end.
Proof. unfold labelled. destruct unl; [reflexivity|]. destruct (fd_label f), (fd_name f); reflexivity. Qed.

Definition last_kind (unl uni : bool) (k : fkind) (fs : list field_def) : fkind :=
  fold_left (fun k f => if streamed f then kind_of unl uni f else k) fs k.

Lemma loop_counts unl uni fs : forall lo n lo',
  field_loop unl uni lo n fs = Some lo' ->
  lo_count lo' = (lo_count lo + count streamed fs)%N /\
  lo_labeled lo' = (lo_labeled lo + count (fun f => streamed f && labelled unl f) fs)%N /\
  lo_const lo' = lo_const lo && negb (existsb flattening (filter streamed fs)) /\
  lo_target lo' = last_kind unl uni (lo_target lo) fs.
Proof.
  induction fs as [|f fs IH]; intros lo n lo' H.
  - inversion H; subst. unfold count; cbn. rewrite !N.add_0_r, andb_true_r. auto.
  - cbn [field_loop] in H. destruct (field_iter unl uni lo n f) as [lo1|] eqn:E; [|discriminate H].
    specialize (IH _ _ _ H) as (I1 & I2 & I3 & I4). rewrite !count_cons, I1, I2, I3, I4.
    unfold field_iter in E. unfold last_kind. cbn [fold_left filter].
    unfold streamed in *. destruct (flag (fd_skip f)) eqn:SK; cbn [negb andb].
    { inversion E; subst. repeat split; lia. }
    cbn [existsb]. rewrite labelled_some.
    unfold kind_of. rewrite labelled_some.
    destruct (unl && _); [discriminate E|]. destruct (uni && _); [discriminate E|].
    fold (last_kind unl uni).
    destruct uni; [|destruct (next_computed_index (lo_alloc lo) (fd_index f)) as [[i a]|]; [|discriminate E]];
      cbn [option_map] in E; inversion E; subst; clear E; cbn [lo_count lo_labeled lo_const lo_target];
      destruct (if unl then None else _); unfold flattening; rewrite <- ?andb_assoc, ?negb_orb;
      repeat split; lia.
Qed.

Lemma count_le {A} (p q : A -> bool) (l : list A) : (forall x, q x = true -> p x = true) ->
  (count q l <= count p l)%N.
Proof.
  intros H. induction l as [|x l IH]; [unfold count; cbn; lia|]. rewrite !count_cons.
  destruct (q x) eqn:Q; [rewrite (H _ Q); lia|]. destruct (p x); lia.
Qed.
Lemma count_zero {A} (p : A -> bool) l : count p l = 0%N -> forall x, In x l -> p x = false.
Proof.
  induction l as [|y l IH]; intros H x I; [contradiction|]. rewrite count_cons in H.
  destruct I as [<-|I]; [destruct (p y); [lia|reflexivity]|]. apply IH; [lia|exact I].
Qed.
Lemma count_full {A} (p q : A -> bool) l : count (fun x => p x && q x) l = count p l ->
  forall x, In x l -> p x = true -> q x = true.
Proof.
  induction l as [|y l IH]; intros H x I P; [contradiction|]. rewrite !count_cons in H.
  pose proof (count_le p (fun x => p x && q x) l (fun x E => proj1 (andb_prop _ _ E))) as LE.
  destruct I as [<-|I].
  - rewrite P in H. cbn [andb] in H. destruct (q y); [reflexivity|lia].
  - apply IH; auto. destruct (p y), (q y); cbn [andb] in H; lia.
Qed.

Lemma last_kind_uniform unl uni k K fs : (forall f, In f fs -> streamed f = true -> kind_of unl uni f = K) ->
  last_kind unl uni k fs = match filter streamed fs with [] => k | _ => K end.
Proof.
  unfold last_kind. revert k. induction fs as [|f fs IH]; intros k H; [reflexivity|]. cbn [fold_left filter].
  rewrite IH by (intros; apply H; [right|]; assumption).
  destruct (streamed f) eqn:S; [|reflexivity]. rewrite (H f (or_introl eq_refl) S).
  destruct (filter streamed fs); reflexivity.
Qed.

(** When the assertions of [stream_record_tuple.rs:193-200] hold, all fields are
    of the same kind. *)
Lemma uniform unl uni fs lo n lo' :
  field_loop unl uni lo n fs = Some lo' -> lo_count lo = 0%N -> lo_labeled lo = 0%N ->
  ((lo_labeled lo' =? 0) || (lo_labeled lo' =? lo_count lo'))%N = true ->
  forall f g, In f fs -> In g fs -> streamed f = true -> streamed g = true -> kind_of unl uni f = kind_of unl uni g.
Proof.
  intros H C0 L0 A f g IF IG SF SG. destruct (loop_counts _ _ _ _ _ _ H) as (C & L & _ & _).
  rewrite C0, N.add_0_l in C. rewrite L0, N.add_0_l in L. rewrite C, L in A.
  unfold kind_of. assert (labelled unl f = labelled unl g) as ->; [|reflexivity].
  apply orb_prop in A as [A|A]; apply N.eqb_eq in A.
  - pose proof (count_zero _ _ A f IF) as HF. pose proof (count_zero _ _ A g IG) as HG. cbn in HF, HG.
    rewrite SF in HF. rewrite SG in HG. cbn in HF, HG. congruence.
  - rewrite (count_full streamed (labelled unl) fs A f IF SF), (count_full streamed (labelled unl) fs A g IG SG).
    reflexivity.
Qed.

(** ** The code of the fields *)

Definition tracks (before : list (option index_value)) (a : alloc) : Prop :=
  al_next a = next_number before /\ al_explicit a = any_given before.

Lemma next_const_tracks before a v i a' : tracks before a -> next_const_index a v = Some (i, a') ->
  tracks (v :: before) a' /\
  i = match v with
      | Some v => const_index_of v
      | None => if any_given before then MExplicit (XLit (next_number before))
                else MImplicit (XLit (next_number before))
      end.
Proof.
  intros (TN & TE) H. unfold next_const_index in H. destruct v as [[k|x]|]; rewrite ?TN, ?TE in H.
  - destruct (fits isize _); [|discriminate H]. inversion H; subst. repeat split.
  - destruct (fits isize _); [|discriminate H]. inversion H; subst. repeat split.
  - destruct (fits isize _); [|discriminate H]. inversion H; subst. repeat split.
Qed.

Lemma next_computed_tracks before a v i a' : tracks before a -> next_computed_index a v = Some (i, a') ->
  tracks (v :: before) a' /\
  i = match v with
      | Some v => const_index_of v
      | None => if any_given before then MExplicit (XLit (next_number before)) else MImplicit XCounter
      end.
Proof.
  intros T H. unfold next_computed_index in H.
  destruct (next_const_index a v) as [[j b]|] eqn:E; [|discriminate H].
  destruct (next_const_tracks _ _ _ _ _ T E) as (T' & EJ). subst j.
  destruct v as [[k|x]|]; cbn in H; [| |destruct (any_given before)]; inversion H; subst; auto.
Qed.

Lemma eval_own before pos v :
  fits I64 (if any_given (v :: before) then pos else pos + 1) = true ->
  eval_index (match v with
      | Some v => const_index_of v
      | None => if any_given before then MExplicit (XLit (next_number before)) else MImplicit XCounter
      end) pos = Some (own_index before pos v, if any_given (v :: before) then pos else pos + 1)%Z.
Proof.
  intros F. unfold any_given in *. cbn [existsb] in *. destruct v as [[k|x]|]; cbn [absent negb orb] in *; try reflexivity.
  unfold own_index, any_given. destruct (existsb _ before) eqn:E; [reflexivity|].
  cbn [eval_index eval_expr]. change isize with I64. rewrite F. reflexivity.
Qed.

Section Exec.
  Context {W : Type} (out : W -> ev -> res W) (r64 : float -> bytes).

  Lemma field_value_run dt v t w : streams v t ->
    field_value out dt v w =
    run out w (emit (match dt with Some d => TTagged (Some d) None None t | None => t end)).
  Proof.
    intros H. destruct dt as [d|]; cbn [field_value].
    - cbn [emit]. rewrite run_cons. destruct (out w _) as [w1|w1|]; cbn [bind]; try reflexivity.
      rewrite (stream_streams out _ _ _ H), run_app. destruct (run out w1 (emit t)); cbn [bind run]; try reflexivity.
      destruct (out a _); reflexivity.
    - apply stream_streams. exact H.
  Qed.

  Lemma exec_own kind t l i dt n vs w c i' c' tr : streams (nth n vs []) tr ->
    eval_index i c = Some (i', c') ->
    exec_stmt out r64 (SField kind t l i dt n) vs w c =
    match run out w (slot_calls kind (MkSlot t l i' (match dt with Some d => TTagged (Some d) None None tr | None => tr end))) with
    | Ok w => FOk w c'
    | Err w => FErr w
    | Panic => FPanic
    end.
  Proof.
    intros H E. cbn [exec_stmt]. rewrite E. unfold slot_calls. cbn [s_tag s_label s_index s_value].
    destruct (field_calls kind t l i') as [b e]. rewrite run_cons.
    destruct (out w b) as [w1|w1|]; cbn [bind]; try reflexivity.
    rewrite (field_value_run _ _ _ _ H), run_app.
    destruct (run out w1 _) as [w2|w2|]; cbn [bind run]; try reflexivity.
    destruct (out w2 e); reflexivity.
  Qed.

  Lemma placed_fields kind offset next cs : kind <> FMap ->
    flat_map (field (label_kept r64) kind emit) (placed offset next cs) =
    flat_map (slot_calls kind)
      (map (fun ci => match ci with (c, i) =>
              MkSlot (c_tag c) (label_for (label_kept r64) (c_name c) i) i (c_value c) end) (placed offset next cs)).
  Proof.
    intros K. induction (placed offset next cs) as [|[c i] ps IH]; [reflexivity|].
    cbn [flat_map map]. rewrite IH. f_equal. unfold field, slot_calls, field_calls. cbn.
    destruct kind; try reflexivity. contradiction.
  Qed.

  Lemma exec_flatten kind n vs w c tr : kind <> FMap -> (kind = FSeq -> c = 0%Z) -> streams (nth n vs []) tr ->
    tagged_enum tr = false -> room c c (children false tr) = true ->
    (forall ch, In ch (children false tr) -> has_entry (c_value ch) = false) ->
    exec_stmt out r64 (SFlatten kind n) vs w c =
    match run out w (flat_map (slot_calls kind)
            (map (fun ci => match ci with (c, i) =>
              MkSlot (c_tag c) (label_for (label_kept r64) (c_name c) i) i (c_value c) end)
              (placed c c (children false tr)))) with
    | Ok w => FOk w (match kind with FSeq => c | _ => end_offset c c (children false tr) end)
    | Err w => FErr w
    | Panic => FPanic
    end.
  Proof.
    intros K S0 H T R N. rewrite <- placed_fields by exact K.
    assert (E : exec_stmt out r64 (SFlatten kind n) vs w c =
                match kind with FSeq => match flatten_to out r64 FSeq w (nth n vs []) 0 with FOk w _ => FOk w c | r => r end
                | _ => flatten_to out r64 kind w (nth n vs []) c end) by (destruct kind; reflexivity).
    rewrite E. clear E.
    destruct kind; try contradiction.
    - rewrite (S0 eq_refl) in *. rewrite (C32_flatten_hoists_partial _ out r64 FSeq w _ tr 0%Z H R T N).
      unfold flattened. destruct (run out w _); reflexivity.
    - rewrite (C32_flatten_hoists_partial _ out r64 _ w _ tr c H R T N). unfold flattened. destruct (run out w _); reflexivity.
    - rewrite (C32_flatten_hoists_partial _ out r64 _ w _ tr c H R T N). unfold flattened. destruct (run out w _); reflexivity.
    - rewrite (C32_flatten_hoists_partial _ out r64 _ w _ tr c H R T N). unfold flattened. destruct (run out w _); reflexivity.
  Qed.

  (** The loop's body streams the fields' slots. *)
  Lemma loop_exec unl uni K vs fs : forall ts lo n lo' before pos,
    field_loop unl uni lo n fs = Some lo' ->
    (forall f, In f fs -> streamed f = true -> kind_of unl uni f = K) ->
    length ts = length fs ->
    (forall j t, nth_error ts j = Some t -> streams (nth (n + j) vs []) t) ->
    (uni = false -> tracks before (lo_alloc lo)) ->
    (K = FSeq -> pos = 0%Z) ->
    forallb (slots_ok K) (contexts K before pos (streamed_fields fs ts)) = true ->
    exists body, lo_body lo' = lo_body lo ++ body /\
      forall w, exec out r64 body vs w pos =
        run out w (flat_map (slot_calls K)
                     (flat_map (slots_of (label_kept r64)) (contexts K before pos (streamed_fields fs ts)))).
  Proof.
    induction fs as [|f fs IH]; intros ts lo n lo' before pos H HK HL HS HT HP HO.
    - inversion H; subst. exists []. rewrite app_nil_r. split; [reflexivity|]. intros w. reflexivity.
    - destruct ts as [|t ts]; [discriminate HL|]. cbn [field_loop] in H.
      destruct (field_iter unl uni lo n f) as [lo1|] eqn:E; [|discriminate H].
      assert (HS' : forall j t, nth_error ts j = Some t -> streams (nth (S n + j) vs []) t).
      { intros j x X. specialize (HS (S j) x X). rewrite Nat.add_succ_r in HS. exact HS. }
      assert (HK' : forall f, In f fs -> streamed f = true -> kind_of unl uni f = K).
      { intros; apply HK; [right|]; assumption. }
      assert (HL' : length ts = length fs) by (cbn in HL; lia).
      unfold streamed_fields in *. cbn [combine filter fst] in *.
      unfold field_iter in E. unfold streamed in HO |- * at 1.
      specialize (HK f (or_introl eq_refl)). unfold streamed in HK at 1.
      destruct (flag (fd_skip f)) eqn:SK; cbn [negb] in *.
      { inversion E; subst. eapply IH; eauto. }
      specialize (HK eq_refl).
      destruct (unl && negb (absent (fd_label f))) eqn:UL; [discriminate E|].
      destruct (uni && negb (absent (fd_index f))) eqn:UI; [discriminate E|].
      cbn [contexts forallb] in HO. apply andb_prop in HO as (HO1 & HO).
      specialize (HS 0%nat t eq_refl). rewrite Nat.add_0_r in HS.
      (* the index and allocator of this field *)
      remember (if uni then Some (None, lo_alloc lo) else _) as IX eqn:EIX in E.
      destruct IX as [[ix al]|]; [|discriminate E].
      inversion E; subst lo1; clear E.
      assert (LB : (match (if unl then None else optional_label_or_ident (fd_label f) (fd_name f)) with
                    | Some _ => true | None => false end) = labelled unl f) by (symmetry; apply labelled_some).
      assert (IXK : (match ix with Some _ => false | None => true end) = uni).
      { destruct uni; [inversion EIX; reflexivity|]. destruct (next_computed_index _ _) as [[? ?]|]; inversion EIX; reflexivity. }
      assert (TR : uni = false -> tracks (fd_index f :: before) al /\
                   ix = Some (match fd_index f with
                      | Some v => const_index_of v
                      | None => if any_given before then MExplicit (XLit (next_number before)) else MImplicit XCounter
                      end)).
      { intros ->. destruct (next_computed_index _ _) as [[i a]|] eqn:NX; inversion EIX; subst.
        destruct (next_computed_tracks _ _ _ _ _ (HT eq_refl) NX) as (T & ->). auto. }
      set (kd := match (if unl then None else optional_label_or_ident (fd_label f) (fd_name f)) with
                 | Some _ => match ix with Some _ => FRecTup | None => FRecord end
                 | None => match ix with Some _ => FTuple | None => FSeq end end) in *.
      assert (KD : kd = K).
      { rewrite <- HK. unfold kd, kind_of. rewrite <- LB, <- IXK.
        destruct (if unl then _ else _), ix; reflexivity. }
      match type of H with field_loop _ _ ?l _ _ = _ => set (lo1 := l) in * end.
      destruct (IH ts lo1 (S n) lo' (fd_index f :: before) (advance K before pos f t) H HK' HL' HS') as (body & EB & EX).
      { intros U. exact (proj1 (TR U)). }
      { intros KS. specialize (HP KS). unfold advance. rewrite KS.
        destruct (flattening f); exact HP. }
      { exact HO. }
      unfold lo1 in EB. cbn [lo_body] in EB. rewrite <- app_assoc in EB.
      eexists. split; [exact EB|]. intros w. cbn [contexts flat_map]. rewrite flat_map_app, run_app.
      cbn [app exec].
      assert (NM : kd <> FMap).
      { unfold kd. destruct (if unl then _ else _), ix; discriminate. }
      fold kd. rewrite KD. unfold slots_of at 1. unfold slots_ok in HO1. unfold flattening in *.
      destruct (flag (fd_flatten f)) eqn:FL.
      + apply andb_prop in HO1 as (HO1 & HN). apply andb_prop in HO1 as (HTE & HR).
        apply negb_true_iff in HTE. rewrite forallb_forall in HN.
        rewrite (exec_flatten K n vs w pos t); try assumption.
        2: { congruence. }
        2: { intros ch I. specialize (HN _ I). apply negb_true_iff in HN. exact HN. }
        replace (advance K before pos f t) with (match K with FSeq => pos | _ => end_offset pos pos (children false t) end) in *
          by (unfold advance, flattening; rewrite FL; reflexivity).
        destruct (run out w _); cbn [bind]; try reflexivity. apply EX.
      + replace (advance K before pos f t) with (match K with FTuple | FRecTup => if any_given (fd_index f :: before) then pos else (pos + 1)%Z | _ => pos end) in *
          by (unfold advance, flattening; rewrite FL; reflexivity).
        cbn [flat_map]. rewrite app_nil_r.
        assert (EV : exists i', eval_index (match ix with Some i => i | None => no_index end) pos =
                       Some (i', match K with FTuple | FRecTup => if any_given (fd_index f :: before) then pos else (pos + 1)%Z | _ => pos end)
                     /\ (uni = false -> i' = own_index before pos (fd_index f))).
        { destruct uni.
          - destruct ix; [discriminate IXK|]. eexists. split; [|discriminate]. cbn.
            assert (KU : K = FRecord \/ K = FSeq).
            { rewrite <- HK. unfold kind_of. destruct (labelled unl f); auto. }
            destruct KU as [-> | ->]; reflexivity.
          - destruct (TR eq_refl) as (_ & ->).
            assert (KU : K = FRecTup \/ K = FTuple).
            { rewrite <- HK. unfold kind_of. destruct (labelled unl f); auto. }
            exists (own_index before pos (fd_index f)). split; [|reflexivity].
            destruct KU as [-> | ->]; apply eval_own; exact HO1. }
        destruct EV as (i' & EV & IU).
        rewrite (exec_own K _ _ _ _ n vs w pos i' _ t HS EV).
        assert (SC : forall v, slot_calls K (MkSlot (fd_tag f)
                  (match (if unl then None else optional_label_or_ident (fd_label f) (fd_name f)) with Some l => l | None => no_label end) i' v) =
                slot_calls K (MkSlot (s_tag (own_slot before pos f t)) (s_label (own_slot before pos f t)) (s_index (own_slot before pos f t)) v)).
        { intros v. unfold own_slot. cbn [s_tag s_label s_index].
          assert (EL : labelled unl f = true ->
             (match (if unl then None else optional_label_or_ident (fd_label f) (fd_name f)) with Some l => l | None => no_label end) =
             match fd_label f, fd_name f with
             | Some v, _ => given_label v
             | None, Some s => ident_label s
             | None, None => MkLabel [] LStatic None
             end).
          { unfold labelled. destruct unl; [discriminate|]. intros _. destruct (fd_label f) as [[]|], (fd_name f); reflexivity. }
          unfold slot_calls, field_calls. cbn [s_tag s_label s_index s_value].
          unfold kind_of in HK. destruct (labelled unl f), uni; subst K; try reflexivity;
            rewrite ?(EL eq_refl), ?(IU eq_refl); reflexivity. }
        rewrite SC. unfold own_slot at 4. cbn [s_tag s_label s_index].
        change (MkSlot (s_tag (own_slot before pos f t)) (s_label (own_slot before pos f t)) (s_index (own_slot before pos f t))
                 match fd_data_tag f with Some d => TTagged (Some d) None None t | None => t end) with (own_slot before pos f t).
        destruct (run out w _); cbn [bind]; try reflexivity. apply EX.
  Qed.
End Exec.
