(** * NoAllocProps: C58 *)

From Verif Require Import Base Event Tree LowerModel FlatProofs DataModel FragModel BufferModel BufferSpec BufferProofs
  BufferHistProofs BufferProps NoAllocModel NoAllocSpec.

(** ** What is accepted is what a buffer with an allocator holds *)
Section Accept.
  Variables (dbg sa : bool).
  Let step := nb_step dbg sa.

  Lemma nb_push_ok b p b' : nb_push dbg b p = Ok b' -> push_part b p = b'.
  Proof. unfold nb_push, no_alloc, vfail. destruct (Nat.eqb _ _), dbg; intros H; try discriminate; injection H as <-; reflexivity. Qed.
  Lemma nb_begin_ok b k b' : nb_begin dbg b k = Ok b' -> push_begin b k = b'.
  Proof.
    unfold nb_begin, no_alloc, vfail. cbv zeta. destruct (Nat.eqb _ _); [destruct dbg; discriminate|].
    cbn [parts]. destruct (Nat.eqb _ _); [destruct dbg; discriminate|]. intros H. injection H as <-. reflexivity.
  Qed.
  Lemma nb_label_ok l l' : nb_label sa l = Some l' -> l' = label_to_owned l.
  Proof.
    unfold nb_label, label_try_to_owned, label_try_to_owned_noalloc, label_to_owned.
    destruct sa; [congruence|]. destruct (as_static_str l); congruence.
  Qed.
  Lemma with_label_ok b l f b' : with_label dbg sa b l f = Ok b' -> f (label_to_owned l) = Ok b'.
  Proof.
    unfold with_label. destruct (nb_label sa l) as [l'|] eqn:E.
    - rewrite (nb_label_ok _ _ E). auto.
    - unfold no_alloc, vfail. destruct dbg; discriminate.
  Qed.
  Lemma with_opt_ok b l f b' : with_opt dbg sa b l f = Ok b' -> f (own l) = Ok b'.
  Proof. destruct l as [l|]; cbn [with_opt own option_map]; [apply (with_label_ok b l (fun l' => f (Some l')))|auto]. Qed.
  Lemma nb_frag_ok b x y s b' : nb_frag dbg b x y s = Ok b' -> push_frag b x y s = Ok b'.
  Proof.
    unfold nb_frag, push_frag. cbv zeta. destruct (last_part (parts b)) as [p|]; [|discriminate].
    destruct p as [k|c|c|n k]; try (unfold vfail; destruct x; discriminate).
    - destruct x; [|discriminate]. destruct y.
      + unfold frag_push_noalloc, frag_push. destruct (c_data c); [intros H; exact H|].
        unfold no_alloc, vfail. destruct dbg; discriminate.
      + unfold frag_push_computed_noalloc, no_alloc, vfail. destruct dbg; discriminate.
    - destruct x; [discriminate|]. destruct y.
      + unfold frag_push_noalloc, frag_push. destruct (c_data c); [intros H; exact H|].
        unfold no_alloc, vfail. destruct dbg; discriminate.
      + unfold frag_push_computed_noalloc, no_alloc, vfail. destruct dbg; discriminate.
  Qed.
  Lemma nb_step_ok b e b' : step b e = Ok b' -> vbuf_step b e = Ok b'.
  Proof.
    unfold step. destruct e; cbn [nb_step vbuf_step]; intros H;
      try (apply nb_push_ok in H; rewrite H; reflexivity);
      try (apply nb_begin_ok in H; rewrite H; reflexivity);
      try (apply nb_frag_ok in H; exact H);
      try exact H;
      try (apply with_label_ok in H; apply nb_begin_ok in H; rewrite H; reflexivity);
      try (apply with_opt_ok in H; apply nb_begin_ok in H; rewrite H; reflexivity).
    apply with_opt_ok in H. apply nb_push_ok in H. rewrite H. reflexivity.
  Qed.
  Lemma nb_run_ok es : forall b b', run step b es = Ok b' -> run vbuf_step b es = Ok b'.
  Proof.
    induction es as [|e es IH]; intros b b'; cbn [run]; [auto|].
    destruct (step b e) as [b1|b1|] eqn:E; cbn [bind]; try discriminate.
    rewrite (nb_step_ok _ _ _ E). cbn [bind]. apply IH.
  Qed.

  (** ** Failing *)
  Definition fails (r : res vbuf) : Prop := if dbg then r = Panic else exists b, r = Err b.
  Lemma fails_no_alloc b : fails (no_alloc dbg b).
  Proof. unfold fails, no_alloc, vfail. destruct dbg; eauto. Qed.
  Lemma fails_bind r f : fails r -> fails (r >>= f).
  Proof. unfold fails. destruct dbg; [intros ->; reflexivity|]. intros (b & ->). cbn. eauto. Qed.
  Lemma fails_push b p : List.length (parts b) = 1 -> fails (nb_push dbg b p).
  Proof. intros H. unfold nb_push. rewrite H. apply fails_no_alloc. Qed.
  Lemma fails_begin b k : List.length (parts b) = 1 -> fails (nb_begin dbg b k).
  Proof.
    intros H. unfold nb_begin. cbv zeta. destruct (Nat.eqb _ _); [apply fails_no_alloc|].
    cbn [parts]. rewrite H. apply fails_no_alloc.
  Qed.
  Lemma fails_with_label b l f : (forall l', fails (f l')) -> fails (with_label dbg sa b l f).
  Proof. intros H. unfold with_label. destruct (nb_label sa l); [apply H|apply fails_no_alloc]. Qed.
  Lemma fails_with_opt b l f : (forall l', fails (f l')) -> fails (with_opt dbg sa b l f).
  Proof. intros H. unfold with_opt. destruct l; [apply fails_with_label; auto|apply H]. Qed.
  Lemma fails_second t b : List.length (parts b) = 1 -> fails (run step b (emit t)).
  Proof.
    intros H. destruct t; cbn [emit]; rewrite run_cons; apply fails_bind; unfold step; cbn [nb_step];
      try (apply fails_push; exact H); try (apply fails_begin; exact H);
      apply fails_with_opt; intros; (apply fails_push || apply fails_begin); exact H.
  Qed.
  Lemma fails_app b es fs : fails (run step b es) -> fails (run step b (es ++ fs)).
  Proof. intros H. rewrite run_app. apply fails_bind, H. Qed.

  Lemma label_cases b l f : fixed_label sa l = true -> with_opt dbg sa b l f = f (own l).
  Proof.
    unfold with_opt, with_label, nb_label, fixed_label, label_try_to_owned, label_try_to_owned_noalloc, as_static_str.
    destruct l as [l|]; [|reflexivity]. cbn [own option_map]. unfold label_to_owned, as_static_str.
    destruct sa; cbn [orb]; [reflexivity|]. destruct (l_kind l); try discriminate. reflexivity.
  Qed.
  Lemma label_fails b l f : fixed_label sa l = false -> fails (with_opt dbg sa b l f).
  Proof.
    unfold with_opt, with_label, nb_label, fixed_label, label_try_to_owned_noalloc, as_static_str.
    destruct l as [l|]; [|destruct sa; discriminate].
    destruct sa; cbn [orb]; [discriminate|]. destruct (l_kind l); try discriminate; intros _; apply fails_no_alloc.
  Qed.

  (** The fragments of one text. *)
  Definition frag_part (text : bool) (c : cow) : part := if text then PText c else PBin c.
  Definition frag_of (text : bool) (f : bool * bytes) : ev := if text then text_frag f else bin_frag f.
  Lemma frags_full text fs s b : s <> [] -> fs <> [] ->
    parts b = [frag_part text (MkCow false s)] -> fails (run step b (map (frag_of text) fs)).
  Proof.
    intros S F P. destruct fs as [|[borrowed x] fs]; [congruence|]. cbn [map]. rewrite run_cons. apply fails_bind.
    unfold step. assert (E : nb_step dbg sa b (frag_of text (borrowed, x)) = nb_frag dbg b text borrowed x) by
      (destruct text, borrowed; reflexivity).
    rewrite E. unfold nb_frag. rewrite P. destruct s as [|c s]; [congruence|].
    destruct text, borrowed; cbn; apply fails_no_alloc.
  Qed.
  Lemma frags_run text fs : forall b, parts b = [frag_part text (MkCow false [])] ->
    if one_borrow fs
    then run step b (map (frag_of text) fs) =
         Ok (MkVB [frag_part text (MkCow false (content fs))] (stack b) (in_tb b) (err b))
    else fails (run step b (map (frag_of text) fs)).
  Proof.
    induction fs as [|[borrowed x] fs IH]; intros b P.
    - cbn. rewrite <- P. destruct b. reflexivity.
    - assert (E : step b (frag_of text (borrowed, x)) =
               if borrowed then Ok (MkVB [frag_part text (MkCow false x)] (stack b) (in_tb b) (err b)) else no_alloc dbg b).
      { unfold step. assert (E : nb_step dbg sa b (frag_of text (borrowed, x)) = nb_frag dbg b text borrowed x) by
          (destruct text, borrowed; reflexivity).
        rewrite E. unfold nb_frag. rewrite P. destruct text, borrowed; reflexivity. }
      cbn [map]. rewrite run_cons, E. destruct borrowed.
      + cbn [bind]. unfold one_borrow in *. cbn [forallb fst andb].
        destruct fs as [|f fs].
        { cbn [removelast forallb map run]. unfold content. cbn. rewrite app_nil_r. reflexivity. }
        cbn [removelast]. cbn [forallb snd]. destruct x as [|a x].
        * specialize (IH (MkVB [frag_part text (MkCow false [])] (stack b) (in_tb b) (err b)) eq_refl).
          cbn [stack in_tb err] in IH. exact IH.
        * rewrite andb_false_r. apply (frags_full text (f :: fs) (a :: x)); [discriminate|discriminate|reflexivity].
      + cbn [one_borrow forallb fst andb]. apply fails_bind, fails_no_alloc.
  Qed.

  Ltac first_step :=
    match goal with |- context [step vbuf_new ?e] => change (step vbuf_new e) with (nb_step dbg sa vbuf_new e) end; cbn [nb_step].
  Lemma nb_tree t :
    if storable sa t then run step vbuf_new (emit t) = Ok (MkVB (parts_of t) [] false false)
    else fails (run step vbuf_new (emit t)).
  Proof.
    destruct t as [|x|ty z|f|f|n fs|n fs|tg l i|tg v|tg l i v|tg l i v|n vs|n es|tg l i n fs|tg l i n fs|tg l i n fs]; cbn [storable];
      try reflexivity.
    - pose proof (frags_run true fs (MkVB [PText text_buf_new] [] true false) eq_refl) as F.
      cbn [emit]. rewrite run_cons. change (step vbuf_new (ETextBegin n)) with (@Ok vbuf (MkVB [PText text_buf_new] [] true false)).
      cbn [bind]. change text_frag with (frag_of true). rewrite run_app. destruct (one_borrow fs) eqn:O.
      + rewrite F. cbn [stack in_tb err bind run]. unfold step. cbn [nb_step]. unfold set_in_tb. cbn [bind parts stack in_tb err]. do 2 f_equal.
        pose proof (adds_tree (TText n fs) [] [] false) as A.
        apply (f_equal (fun r => match r with Ok b => parts b | _ => [] end)) in A. cbn [parts app] in A.
        rewrite <- A. cbn [emit]. rewrite run_cons. cbn [vbuf_step bind]. rewrite run_app.
        change text_frag with (frag_of true). apply nb_run_ok in F.
        change (push_part _ _) with (MkVB [PText text_buf_new] [] true false).
        rewrite F. reflexivity.
      + apply fails_bind, F.
    - pose proof (frags_run false fs (MkVB [PBin text_buf_new] [] true false) eq_refl) as F.
      cbn [emit]. rewrite run_cons. change (step vbuf_new (EBinBegin n)) with (@Ok vbuf (MkVB [PBin text_buf_new] [] true false)).
      cbn [bind]. change bin_frag with (frag_of false). rewrite run_app. destruct (one_borrow fs) eqn:O.
      + rewrite F. cbn [stack in_tb err bind run]. unfold step. cbn [nb_step]. unfold set_in_tb. cbn [bind parts stack in_tb err]. do 2 f_equal.
        pose proof (adds_tree (TBin n fs) [] [] false) as A.
        apply (f_equal (fun r => match r with Ok b => parts b | _ => [] end)) in A. cbn [parts app] in A.
        rewrite <- A. cbn [emit]. rewrite run_cons. cbn [vbuf_step bind]. rewrite run_app.
        change bin_frag with (frag_of false). apply nb_run_ok in F.
        change (push_part _ _) with (MkVB [PBin text_buf_new] [] true false).
        rewrite F. reflexivity.
      + apply fails_bind, F.
    - cbn [emit]. rewrite run_cons. unfold step. cbn [nb_step]. destruct (fixed_label sa l) eqn:L.
      + rewrite label_cases by exact L. reflexivity.
      + apply fails_bind, label_fails, L.
    - cbn [emit]. rewrite run_cons. change (step vbuf_new (ETagHint tg)) with (@Ok vbuf (MkVB [PLeaf (VTagHint tg)] [] false false)).
      cbn [bind]. apply fails_second. reflexivity.
    - cbn [emit]. rewrite run_cons. first_step. destruct (fixed_label sa l) eqn:L.
      + rewrite label_cases by exact L. unfold nb_begin. cbn [vbuf_new stack parts List.length Nat.eqb bind in_tb err app].
        cbn -[emit step]. apply fails_app, fails_second. reflexivity.
      + apply fails_bind, label_fails, L.
    - cbn [emit]. rewrite run_cons. first_step. destruct (fixed_label sa l) eqn:L.
      + rewrite label_cases by exact L. cbn -[emit step]. apply fails_app, fails_second. reflexivity.
      + apply fails_bind, label_fails, L.
    - destruct vs as [|v vs]; [reflexivity|]. cbn [emit flat_map]. rewrite run_cons.
      change (step vbuf_new (ESeqBegin n)) with (@Ok vbuf (MkVB [PNode 0 (NSeq n)] [0] false false)). cbn [bind app].
      rewrite run_cons. apply fails_bind. unfold step. cbn [nb_step]. apply fails_begin. reflexivity.
    - destruct es as [|[k v] es]; [reflexivity|]. cbn [emit flat_map]. rewrite run_cons.
      change (step vbuf_new (EMapBegin n)) with (@Ok vbuf (MkVB [PNode 0 (NMap n)] [0] false false)). cbn [bind app].
      rewrite run_cons. apply fails_bind. unfold step. cbn [nb_step]. apply fails_begin. reflexivity.
    - cbn [emit]. rewrite run_cons. first_step.
      destruct fs as [|[[ft fl] v] fs].
      + destruct (fixed_label sa l) eqn:L.
        * rewrite label_cases by exact L. reflexivity.
        * apply fails_bind, label_fails, L.
      + destruct (fixed_label sa l) eqn:L; [|apply fails_bind, label_fails, L].
        rewrite label_cases by exact L. cbn -[emit step]. apply fails_bind. unfold step. cbn [nb_step].
        apply fails_with_label. intros l'. apply fails_begin. reflexivity.
    - cbn [emit]. rewrite run_cons. first_step.
      destruct fs as [|[[ft fi] v] fs].
      + destruct (fixed_label sa l) eqn:L.
        * rewrite label_cases by exact L. reflexivity.
        * apply fails_bind, label_fails, L.
      + destruct (fixed_label sa l) eqn:L; [|apply fails_bind, label_fails, L].
        rewrite label_cases by exact L. cbn -[emit step]. apply fails_bind. unfold step. cbn [nb_step].
        apply fails_begin. reflexivity.
    - cbn [emit]. rewrite run_cons. first_step.
      destruct fs as [|[[[ft fl] fi] v] fs].
      + destruct (fixed_label sa l) eqn:L.
        * rewrite label_cases by exact L. reflexivity.
        * apply fails_bind, label_fails, L.
      + destruct (fixed_label sa l) eqn:L; [|apply fails_bind, label_fails, L].
        rewrite label_cases by exact L. cbn -[emit step]. apply fails_bind. unfold step. cbn [nb_step].
        apply fails_with_label. intros l'. apply fails_begin. reflexivity.
  Qed.
End Accept.

(** ** Histories *)
Section Hist.
  Variable sa : bool.

  Definition small (b : vbuf) : Prop :=
    List.length (parts b) <= 1 /\ List.length (stack b) <= 1 /\
    Forall (fun p => match p with PNode n _ => n = 0 | _ => True end) (parts b) /\
    Forall (fun i => i = 1 \/ i = 0 /\ exists k, parts b = [PNode 0 k]) (stack b).

  Lemma small_new : small vbuf_new.
  Proof. repeat split; cbn; auto. Qed.
  Lemma small_fail b : small b -> small (MkVB (parts b) (stack b) (in_tb b) true).
  Proof. auto. Qed.
  Lemma small_tb b x : small b -> small (set_in_tb b x).
  Proof. auto. Qed.
  Definition post (r : res vbuf) : Prop := match r with Ok b | Err b => small b | Panic => True end.
  Lemma post_no_alloc dbg b : small b -> post (no_alloc dbg b).
  Proof. intros H. unfold no_alloc. destruct dbg; cbn; auto. Qed.
  Lemma post_push dbg b p : small b -> (forall n k, p <> PNode n k) -> post (nb_push dbg b p).
  Proof.
    intros H N. unfold nb_push. destruct (Nat.eqb_spec (List.length (parts b)) nb_cap) as [E|E]; [apply post_no_alloc, H|].
    destruct H as (P & Q & R & S). unfold nb_cap in E. destruct (parts b) as [|q ps] eqn:Ep; [|cbn in *; lia].
    cbn. unfold small, push_part. cbn [parts stack]. rewrite Ep. cbn. repeat split; auto.
    - constructor; [|constructor]. destruct p; auto. exfalso. eapply N. reflexivity.
    - eapply Forall_impl; [|exact S]. intros i [X|[X (k & Y)]]; [auto|discriminate].
  Qed.
  Lemma post_begin dbg b k : small b -> post (nb_begin dbg b k).
  Proof.
    intros H. unfold nb_begin. cbv zeta.
    destruct (Nat.eqb_spec (List.length (stack b)) nb_cap) as [E|E]; [apply post_no_alloc, H|].
    destruct H as (P & Q & R & S). unfold nb_cap in *. destruct (stack b) as [|i st] eqn:Es; [|cbn in *; lia].
    cbn [parts]. destruct (parts b) as [|q ps] eqn:Ep.
    - cbn. unfold small. cbn. repeat split; auto. constructor; [|constructor]. right. eauto.
    - destruct ps; [|cbn in *; lia]. cbn [List.length Nat.eqb]. apply post_no_alloc. unfold small. cbn. repeat split; auto.
  Qed.
  Lemma post_end b : small b -> post (push_end b).
  Proof.
    intros (P & Q & R & S). unfold push_end. destruct (stack b) as [|i st] eqn:Es.
    - cbn. unfold small. cbn. rewrite Es. repeat split; auto.
    - inversion S as [|? ? Si St]; subst. destruct st; [|cbn in *; lia].
      destruct Si as [->|[-> (k & Ek)]].
      + destruct (parts b) as [|q [|? ?]] eqn:Ep; cbn in *; try lia; auto.
      + rewrite Ek. cbn. unfold small. cbn. repeat split; auto.
  Qed.
  Lemma post_label dbg b l f : small b -> (forall l', post (f l')) -> post (with_label dbg sa b l f).
  Proof. intros H F. unfold with_label. destruct (nb_label sa l); [apply F|apply post_no_alloc, H]. Qed.
  Lemma post_opt dbg b l f : small b -> (forall l', post (f l')) -> post (with_opt dbg sa b l f).
  Proof. intros H F. unfold with_opt. destruct l; [apply post_label; auto|apply F]. Qed.
  Lemma post_frag dbg b x y s : small b -> post (nb_frag dbg b x y s).
  Proof.
    intros H. unfold nb_frag. cbv zeta. destruct (last_part (parts b)) as [p|] eqn:L; [|exact I].
    assert (E : parts b = [p]).
    { destruct H as (P & _). destruct (parts b) as [|q [|? ?]]; cbn in *; try lia; congruence. }
    destruct p as [k|c|c|n k]; try (destruct x; exact H).
    - destruct x; [|exact H]. destruct ((if y then frag_push_noalloc else frag_push_computed_noalloc) (c_data c) s); try (apply post_no_alloc, H).
      destruct H as (P & Q & R & S). rewrite E in *. split; [cbn; lia|]. split; [exact Q|]. split; [cbn; repeat constructor|]. cbn [stack].
      eapply Forall_impl; [|exact S]. intros i [X|[X (k & Y)]]; [auto|discriminate].
    - destruct x; [exact H|]. destruct ((if y then frag_push_noalloc else frag_push_computed_noalloc) (c_data c) s); try (apply post_no_alloc, H).
      destruct H as (P & Q & R & S). rewrite E in *. split; [cbn; lia|]. split; [exact Q|]. split; [cbn; repeat constructor|]. cbn [stack].
      eapply Forall_impl; [|exact S]. intros i [X|[X (k & Y)]]; [auto|discriminate].
  Qed.
  Lemma post_step dbg b e : small b -> post (nb_step dbg sa b e).
  Proof.
    intros H. destruct e; cbn [nb_step];
      try (apply post_push; [exact H || apply small_tb, H|discriminate]);
      try (apply post_begin; exact H); try (apply post_end; exact H); try (apply post_frag; exact H);
      try (apply small_tb, H);
      try (apply post_label; [exact H|]; intros; apply post_begin; exact H);
      (apply post_opt; [exact H|]; intros; first [apply post_begin; exact H | apply post_push; [exact H|discriminate]]).
  Qed.
  Lemma small_drive dbg es : small (nb_drive dbg sa es).
  Proof.
    unfold nb_drive. assert (G : forall b, small b -> small (fold_left (nb_next dbg sa) es b)); [|apply G, small_new].
    induction es as [|e es IH]; intros b H; [exact H|]. cbn [fold_left]. apply IH. unfold nb_next.
    pose proof (post_step dbg b e H) as P. destruct (nb_step dbg sa b e); auto.
  Qed.

  Lemma panic_step b e : small b -> nb_step false sa b e = Panic ->
    parts b = [] /\ is_fragment e = true \/ delta e = (-1)%Z /\ exists rest, stack b = 1 :: rest.
  Proof.
    intros H.
    assert (PU : forall b p, nb_push false b p <> Panic) by (intros; unfold nb_push, no_alloc, vfail; destruct (Nat.eqb _ _); discriminate).
    assert (PB : forall b k, nb_begin false b k <> Panic).
    { intros. unfold nb_begin, no_alloc, vfail. cbv zeta. destruct (Nat.eqb _ _); [discriminate|]. cbn [parts]. destruct (Nat.eqb _ _); discriminate. }
    assert (PL : forall b l f, (forall l', f l' <> Panic) -> with_label false sa b l f <> Panic).
    { intros b0 l f F. unfold with_label, no_alloc, vfail. destruct (nb_label sa l); [apply F|discriminate]. }
    assert (PO : forall b l f, (forall l', f l' <> Panic) -> with_opt false sa b l f <> Panic).
    { intros b0 l f F. unfold with_opt. destruct l; [apply PL; auto|apply F]. }
    assert (PE : push_end b = Panic -> exists rest, stack b = 1 :: rest).
    { destruct H as (P & Q & R & S). unfold push_end. destruct (stack b) as [|i st]; [discriminate|].
      inversion S as [|? ? Si St]; subst. destruct Si as [->|[-> (k & Ek)]]; [eauto|]. rewrite Ek. discriminate. }
    assert (PF : forall x y s, nb_frag false b x y s = Panic -> parts b = []).
    { intros x y s. unfold nb_frag, no_alloc, vfail. cbv zeta. destruct (last_part (parts b)) as [p|] eqn:L.
      - destruct p as [k|c|c|n k]; destruct x; try discriminate;
          destruct ((if y then frag_push_noalloc else frag_push_computed_noalloc) (c_data c) s); discriminate.
      - intros _. unfold last_part in L. destruct (rev (parts b)) eqn:R; [|discriminate].
        rewrite <- (rev_involutive (parts b)), R. reflexivity. }
    destruct e; cbn [nb_step delta is_fragment]; intros X;
      try (exfalso; revert X; apply PU); try (exfalso; revert X; apply PB);
      try (left; split; [revert X; apply PF|reflexivity]);
      try (right; split; [reflexivity|apply PE, X]);
      try discriminate;
      try (exfalso; revert X; apply PL; intros; apply PB);
      exfalso; revert X; apply PO; intros; (apply PB || apply PU).
  Qed.
End Hist.

(** ** C58 *)

(** A value is accepted exactly when it is a scalar, one borrowed text or
    binary, or an empty container, with labels that need no allocation; then the
    buffer replays it as a buffer with an allocator would.  Anything else is an
    error, or a panic in a debug build. *)
Theorem C58_collects_exactly :
  forall (dbg sa : bool) (v : list call) (t : tree), streams v t ->
    if storable sa t
    then exists b cs, nb_collect dbg sa v = OOk b /\ vbuf_collect v = OOk b /\ is_complete b = true /\
           vbuf_stream b = Some cs /\ streams cs (rebuilt kept_label t)
    else nb_collect dbg sa v = if dbg then OPanic else OErr.
Proof.
  intros dbg sa v t H. pose proof (nb_tree dbg sa t) as T. unfold nb_collect, stream_value. rewrite H. cbn [fst snd].
  destruct (storable sa t).
  - rewrite T. cbn [bind]. rewrite (collect_streams v t H).
    destruct (acts_tree t) as (cs & P & F).
    exists (MkVB (parts_of t) [] false false), cs. repeat split; try reflexivity.
    + unfold is_complete. cbn. destruct (parts_of t) eqn:E; [|reflexivity]. exfalso. exact (parts_of_nonempty t E).
    + unfold vbuf_stream. apply stream_parts_plays; [exact P|apply parts_of_nonempty].
    + exact F.
  - unfold fails in T. destruct dbg; [rewrite T; reflexivity|]. destruct T as (b & ->). reflexivity.
Qed.

(** Whatever the calls, if none was refused the buffer is the one an allocating
    buffer would be. *)
Theorem C58_accepted_calls_are_kept :
  forall (dbg sa : bool) (es : list ev) (b : vbuf),
    run (nb_step dbg sa) vbuf_new es = Ok b -> run vbuf_step vbuf_new es = Ok b.
Proof. intros dbg sa es b. apply nb_run_ok. Qed.

(** After any history, failed calls included, the buffer holds at most one part
    and replays it without panicking, properly nested. *)
Theorem C58_replay_never_panics :
  forall (dbg sa : bool) (es : list ev), exists cs fs,
    vbuf_stream (nb_drive dbg sa es) = Some cs /\ flat cs false = (fs, true) /\ nested fs.
Proof.
  intros dbg sa es. destruct (small_drive sa dbg es) as (P & _ & R & _). unfold vbuf_stream.
  set (b := nb_drive dbg sa es) in *. destruct (parts b) as [|p [|? ?]] eqn:E; [| |cbn in P; lia].
  - exists [CE ENull], [ENull]. repeat split. apply nested_single; [reflexivity|constructor].
  - assert (Q : exists cs, plays [p] cs).
    { inversion R as [|? ? Rp _]; subst. destruct p as [k|c|c|n k].
      - exists [CE (leaf_ev k)]. apply plays_leaf. constructor.
      - exists (text_buf_ref c ++ []). apply plays_text. constructor.
      - exists (bin_buf_ref c ++ []). apply plays_bin. constructor.
      - subst n. exists (CE (begin_ev k) :: [] ++ [CE (end_ev k)]). apply (plays_node k [] [] [] []); constructor. }
    destruct Q as (cs & Q). destruct (plays_nested _ _ Q) as (fs & F & N). exists cs, fs.
    split; [apply stream_parts_plays; [exact Q|discriminate]|auto].
Qed.

(** In a release build no call panics until a call has failed, but for a
    fragment on an empty buffer. *)
Theorem C58_no_panic_before_a_failure :
  forall (sa : bool) (es : list ev) (b : vbuf) (e : ev),
    run (nb_step false sa) vbuf_new es = Ok b -> nb_step false sa b e = Panic ->
    is_fragment e = true /\ parts b = [].
Proof.
  intros sa es b e H X.
  assert (Hb : forall b0, run (nb_step false sa) b0 es = Ok b -> fold_left (nb_next false sa) es b0 = b).
  { clear. induction es as [|e es IH]; intros b0; cbn [run fold_left]; [congruence|]. unfold nb_next at 2.
    destruct (nb_step false sa b0 e); cbn [bind]; try discriminate. apply IH. }
  apply Hb in H as Eb. pose proof (small_drive sa false es) as S. unfold nb_drive in S. rewrite Eb in S.
  apply nb_run_ok in H. pose proof (run_drive es vbuf_new) as D. rewrite H in D.
  destruct (panic_step sa b e S X) as [[P F]|[De _]]; [auto|]. exfalso.
  pose proof (C19_end_fails_exactly es e De) as C. rewrite D in C.
  replace (nb_step false sa b e) with (vbuf_step b e) in X by (destruct e; try discriminate; reflexivity).
  rewrite X in C. exact C.
Qed.
(** After a failure one can: a refused begin leaves its index on the stack, so
    the matching end looks for a part that is not there. *)
Definition C58_no_panic : Prop :=
  forall (sa : bool) (es : list ev) (e : ev), is_fragment e = false -> nb_step false sa (nb_drive false sa es) e <> Panic.
Theorem C58_no_panic_refuted : ~ C58_no_panic.
Proof. intros H. apply (H false [ENull; EMapBegin None] EMapEnd eq_refl). reflexivity. Qed.
(** Exactly then. *)
Theorem C58_panics_exactly :
  forall (sa : bool) (es : list ev) (e : ev),
    nb_step false sa (nb_drive false sa es) e = Panic <->
    (is_fragment e = true /\ parts (nb_drive false sa es) = []) \/
    (delta e = (-1)%Z /\ stack (nb_drive false sa es) = [1]).
Proof.
  intros sa es e. pose proof (small_drive sa false es) as S. set (b := nb_drive false sa es) in *. split.
  - intros X. destruct (panic_step sa b e S X) as [[P F]|[De (r & Er)]]; [auto|]. right. split; [exact De|].
    destruct S as (_ & Q & _). rewrite Er in Q. destruct r; [exact Er|cbn in Q; lia].
  - intros [[F P]|[De Er]].
    + destruct e; try discriminate; cbn [nb_step]; unfold nb_frag; rewrite P; reflexivity.
    + destruct S as (P & _). replace (nb_step false sa b e) with (push_end b) by (destruct e; try discriminate; reflexivity).
      unfold push_end. rewrite Er. destruct (parts b) as [|p [|? ?]]; [reflexivity|reflexivity|cbn in P; lia].
Qed.

(** Owning: a computed text has nowhere to go, so only values without text or
    binary fragments are accepted. *)
Fixpoint as_computed (t : tree) : tree :=
  match t with
  | TText n fs => TText n (map (fun f => (false, snd f)) fs)
  | TBin n fs => TBin n (map (fun f => (false, snd f)) fs)
  | THint t v => THint t (as_computed v)
  | TTagged t l i v => TTagged t l i (as_computed v)
  | TEnum t l i v => TEnum t l i (as_computed v)
  | TSeq n vs => TSeq n (map as_computed vs)
  | TMap n es => TMap n (map (fun kv => match kv with (k, v) => (as_computed k, as_computed v) end) es)
  | TRecord t l i n fs => TRecord t l i n (map (fun f => match f with (ft, fl, v) => (ft, fl, as_computed v) end) fs)
  | TTuple t l i n fs => TTuple t l i n (map (fun f => match f with (ft, fi, v) => (ft, fi, as_computed v) end) fs)
  | TRecTup t l i n fs => TRecTup t l i n (map (fun f => match f with (ft, fl, fi, v) => (ft, fl, fi, as_computed v) end) fs)
  | t => t
  end.
Lemma flat_map_computed {A} (f g : A -> list ev) (h : A -> A) l :
  Forall (fun x => g (h x) = map computed (f x)) l ->
  flat_map g (map h l) = map computed (flat_map f l).
Proof. induction 1 as [|x l Hx Hl IH]; [reflexivity|]. cbn [map flat_map]. rewrite map_app, Hx, IH. reflexivity. Qed.
Lemma emit_computed t : emit (as_computed t) = map computed (emit t).
Proof.
  induction t using tree_ind'; cbn [emit as_computed map computed]; try reflexivity.
  - f_equal. rewrite map_app, !map_map. f_equal. apply map_ext. intros [[|] s]; reflexivity.
  - f_equal. rewrite map_app, !map_map. f_equal. apply map_ext. intros [[|] s]; reflexivity.
  - f_equal. exact IHt.
  - rewrite map_app, IHt. reflexivity.
  - rewrite map_app, IHt. reflexivity.
  - rewrite map_app. do 2 f_equal. apply flat_map_computed. eapply Forall_impl; [|exact H].
    intros v Hv. cbn [map computed]. rewrite map_app, Hv. reflexivity.
  - rewrite map_app. do 2 f_equal. apply flat_map_computed. eapply Forall_impl; [|exact H].
    intros [k v] [Hk Hv]. cbn [fst snd] in *. cbn [map computed]. rewrite map_app, Hk. cbn [map computed].
    rewrite map_app, Hv. reflexivity.
  - rewrite map_app. do 2 f_equal. apply flat_map_computed. eapply Forall_impl; [|exact H].
    intros [[ft fl] v] Hv. cbn [snd] in Hv. cbn [map computed]. rewrite map_app, Hv. reflexivity.
  - rewrite map_app. do 2 f_equal. apply flat_map_computed. eapply Forall_impl; [|exact H].
    intros [[ft fi] v] Hv. cbn [snd] in Hv. cbn [map computed]. rewrite map_app, Hv. reflexivity.
  - rewrite map_app. do 2 f_equal. apply flat_map_computed. eapply Forall_impl; [|exact H].
    intros [[[ft fl] fi] v] Hv. cbn [snd] in Hv. cbn [map computed]. rewrite map_app, Hv. reflexivity.
Qed.
Theorem C58_collect_owned_exactly :
  forall (dbg sa : bool) (v : list call) (t : tree), streams v t ->
    if storable sa t && no_fragments t
    then exists b cs, nb_collect_owned dbg sa v = OOk b /\ is_complete b = true /\
           vbuf_stream b = Some cs /\ streams cs (rebuilt kept_label t)
    else nb_collect_owned dbg sa v = if dbg then OPanic else OErr.
Proof.
  intros dbg sa v t H.
  assert (X : streams [CVC v] (as_computed t)).
  { unfold streams. rewrite emit_computed.
    assert (X : flat [CVC v] false = (map computed (fst (flat v false)), snd (flat v false))).
    { rewrite <- flat_computed, flat_cons. change (flat1 (CVC v) false) with (flat v true).
      destruct (flat v true) as [x [|]]; cbn; rewrite ?app_nil_r; reflexivity. }
    rewrite X, H. reflexivity. }
  pose proof (C58_collects_exactly dbg sa [CVC v] (as_computed t) X) as C.
  fold (nb_collect_owned dbg sa v) in C.
  assert (E : storable sa (as_computed t) = storable sa t && no_fragments t).
  { destruct t as [|x|ty z|f|f|n fs|n fs|tg l i|tg u|tg l i u|tg l i u|n vs|n es|tg l i n fs|tg l i n fs|tg l i n fs];
      cbn [as_computed storable no_fragments andb]; rewrite ?andb_true_r; try reflexivity.
    - destruct fs as [|[? ?] ?]; [reflexivity|]. cbn. rewrite andb_false_r. reflexivity.
    - destruct fs as [|[? ?] ?]; [reflexivity|]. cbn. rewrite andb_false_r. reflexivity.
    - destruct vs; reflexivity.
    - destruct es; reflexivity.
    - destruct fs; reflexivity.
    - destruct fs; reflexivity.
    - destruct fs; reflexivity. }
  rewrite E in C. destruct (storable sa t && no_fragments t) eqn:S; [|exact C].
  destruct C as (b & cs & C1 & _ & C2 & C3 & C4). exists b, cs. repeat split; auto.
  replace (rebuilt kept_label t) with (rebuilt kept_label (as_computed t)); [exact C4|].
  apply andb_true_iff in S as [S1 S2].
  destruct t as [|x|ty z|f|f|n fs|n fs|tg l i|tg u|tg l i u|tg l i u|n vs|n es|tg l i n fs|tg l i n fs|tg l i n fs];
    try reflexivity; try discriminate; try (destruct fs; [reflexivity|discriminate]);
    try (destruct vs; [reflexivity|discriminate]); try (destruct es; [reflexivity|discriminate]).
Qed.

(** A text in one borrowed piece after an empty one; a record with a computed
    label; a hint before a value. *)
Example C58_sample :
  storable false (TText None [(true, []); (true, bs "hi")]) = true /\
  nb_collect false false [CE (ETextBegin None); CE (ETextFrag []); CE (ETextFrag (bs "hi")); CE ETextEnd] =
    OOk (MkVB [PText (MkCow false (bs "hi"))] [] false false) /\
  storable false (TRecord None (Some (label_new_computed (bs "R"))) None None []) = false /\
  storable true (TRecord None (Some (label_new_computed (bs "R"))) None None []) = true /\
  nb_collect false true [CE (ERecordBegin None (Some (label_new_computed (bs "R"))) None None); CE (ERecordEnd None None None)] =
    OOk (MkVB [PNode 0 (NRecord None (Some (label_new_owned (bs "R"))) None None)] [] false false) /\
  nb_collect false true [CE (ETagHint NUMBER); CE ENull] = OErr /\
  nb_collect true true [CE (ETagHint NUMBER); CE ENull] = OPanic /\
  stack (nb_drive false false [ENull; EMapBegin None]) = [1].
Proof. repeat split; reflexivity. Qed.

Print Assumptions C58_collects_exactly.
Print Assumptions C58_accepted_calls_are_kept.
Print Assumptions C58_replay_never_panics.
Print Assumptions C58_no_panic_before_a_failure.
Print Assumptions C58_no_panic_refuted.
Print Assumptions C58_panics_exactly.
Print Assumptions C58_collect_owned_exactly.
