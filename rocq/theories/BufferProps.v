(** * BufferProps: C13-C19 and C47 *)

From Verif Require Import Base Event Tree LowerModel FlatProofs MethProofs DataModel FragModel FragSpec FragProofs
  BufferModel BufferSpec BufferProofs BufferHistProofs.

(** ** C13: fragment buffers *)

(** After any history a buffer reads as everything pushed since the last clear. *)
Theorem C13_content_is_concatenation :
  forall os : list fop, frag_inner (fop_run os) = history_bytes os.
Proof. intros os. apply fop_run_state. Qed.

(** It is borrowed only if nothing was pushed, or the last push was a borrowed
    fragment that is the whole content. *)
Theorem C13_borrowed_only_if_single :
  forall (os : list fop) (s : bytes),
    frag_borrowed (fop_run os) = Some s <->
    (since_clear os = [] /\ s = []) \/
    exists pre, since_clear os = pre ++ [FPush s] /\ List.concat (map fop_bytes pre) = [].
Proof.
  intros os s. destruct (fop_run_state os) as [D O]. unfold frag_borrowed. split.
  - destruct (c_owned (fop_run os)); [discriminate|]. intros [= <-]. rewrite D.
    destruct O as [O _]. destruct (O eq_refl) as [E|(pre & s & E & C)].
    + left. rewrite E. auto.
    + right. exists pre. rewrite E, concat_map_snoc, C. cbn. auto.
  - intros [[E ->]|(pre & E & C)].
    + destruct O as [_ O]. rewrite O by auto. rewrite D, E. reflexivity.
    + destruct O as [_ O]. rewrite O by eauto. rewrite D, E, concat_map_snoc, C. reflexivity.
Qed.

(** A cleared buffer is a new one, so every later history goes the same way. *)
Theorem C13_clear_is_new :
  forall os : list fop, fop_run (os ++ [FClear]) = fop_run [] /\
  forall later, fop_run (os ++ FClear :: later) = fop_run later.
Proof.
  intros os. split.
  - unfold fop_run. rewrite fold_left_app. reflexivity.
  - intros later. unfold fop_run. rewrite fold_left_app. reflexivity.
Qed.

(** Streaming the buffer gives one fragment with the content. *)
Theorem C13_streams_as_one_fragment :
  forall os : list fop, exists b,
    streams (text_buf_ref (fop_run os)) (TText (Some (blen (history_bytes os))) [(b, history_bytes os)]) /\
    streams (bin_buf_ref (fop_run os)) (TBin (Some (blen (history_bytes os))) [(b, history_bytes os)]) /\
    (b = true <-> frag_borrowed (fop_run os) = Some (history_bytes os)).
Proof.
  intros os. exists (negb (c_owned (fop_run os))). unfold streams. rewrite text_ref_flat, bin_ref_flat.
  pose proof (C13_content_is_concatenation os) as C. unfold frag_inner in C. unfold frag_borrowed. rewrite C.
  repeat split; destruct (c_owned (fop_run os)); try discriminate; reflexivity.
Qed.

(** Without an allocator a buffer takes one borrowed fragment and refuses the rest,
    keeping what it has. *)
Theorem C13_noalloc :
  forall c s : bytes,
    (c = [] -> frag_push_noalloc c s = Ok s) /\
    (c <> [] -> frag_push_noalloc c s = Err c) /\
    frag_push_computed_noalloc c s = Err c.
Proof. intros [|x c] s; repeat split; auto; congruence. Qed.

Example C13_sample :
  let os := [FPushComputed (bs "x"); FClear; FPush (bs ""); FPush (bs "ab"); FPush (bs "c");
             FPushDisplay [bs "d"; bs "e"] false] in
  frag_inner (fop_run os) = bs "abcde" /\ frag_borrowed (fop_run os) = None /\
  frag_borrowed (fop_run (firstn 4 os)) = Some (bs "ab").
Proof. repeat split; reflexivity. Qed.

(** ** C14: collecting text and bytes *)

(** The property as stated. *)
Definition C14_never_panics : Prop :=
  forall v : list call, text_collect v <> OPanic /\ bin_collect v <> OPanic.
(** A value that fails by itself makes both collectors unwrap a missing error. *)
Theorem C14_never_panics_refuted : ~ C14_never_panics.
Proof. intros H. destruct (H [CFail]) as [X _]. apply X. vm_compute. reflexivity. Qed.

(** Every value that does not fail by itself is collected or refused. *)
Theorem C14_never_panics_partial :
  forall v : list call, snd (flat v false) = true -> text_collect v <> OPanic /\ bin_collect v <> OPanic.
Proof.
  intros v H. unfold text_collect, bin_collect, run_impl. destruct (flat v false) as [es ok]. cbn [snd] in H. subst ok.
  split.
  - pose proof (text_col_err (lower_all text_col_over es) text_buf_new) as E.
    pose proof (text_col_nopanic (lower_all text_col_over es) (text_buf_new, false)) as P.
    destruct (run text_col_step _ _) as [c|[c e]|]; cbn [bind collect_end]; try discriminate; [|congruence].
    specialize (E _ eq_refl). cbn in E. subst e. discriminate.
  - pose proof (bin_col_err (lower_all bin_col_over es) text_buf_new) as E.
    pose proof (bin_col_nopanic (lower_all bin_col_over es) (text_buf_new, false)) as P.
    destruct (run bin_col_step _ _) as [c|[c e]|]; cbn [bind collect_end]; try discriminate; [|congruence].
    specialize (E _ eq_refl). cbn in E. subst e. discriminate.
Qed.

(** And the exact outcome on every well-formed value. *)
Theorem C14_text_collect_exact :
  forall v t, streams v t -> ranged t = true ->
    match collected_text t with
    | Some s => exists c, text_collect v = OOk c /\ frag_inner c = s
    | None => text_collect v = OErr
    end.
Proof.
  intros v t H R. unfold text_collect, run_impl. rewrite !H.
  pose proof (text_collect_tree t text_buf_new R) as T.
  destruct (run text_col_step _ _) as [[c e]|[c e]|]; cbn [fst snd bind collect_end] in *; try contradiction.
  - destruct T as [T ->]. rewrite T. cbn. eauto.
  - destruct T as [T ->]. rewrite T. reflexivity.
Qed.
Theorem C14_binary_collect_exact :
  forall v t, streams v t ->
    match collected_bytes t with
    | Some s => exists c, bin_collect v = OOk c /\ frag_inner c = s
    | None => bin_collect v = OErr
    end.
Proof.
  intros v t H. unfold bin_collect. rewrite run_impl_meth. rewrite !H. cbn [fst snd].
  pose proof (bin_collect_tree t text_buf_new) as T. unfold bin_ok in T.
  destruct (collected_bytes t) as [s|].
  - destruct T as (c & E & D). exists c. rewrite E. cbn. split; [reflexivity|exact D].
  - destruct T as (c & E). rewrite E. reflexivity.
Qed.

Example C14_sample_text :
  exists c, text_collect [CV [CE (ETextBegin None); CE (ETextFrag (bs "a")); CE (ETextFragC (bs "b")); CE ETextEnd]] = OOk c
    /\ frag_inner c = bs "ab".
Proof. eexists. split; [vm_compute; reflexivity|reflexivity]. Qed.
Example C14_sample_bin :
  exists c, bin_collect [CE (ESeqBegin None); CE ESeqValBegin; CE (EInt U8 97); CE ESeqValEnd; CE ESeqEnd] = OOk c
    /\ frag_inner c = bs "a".
Proof. eexists. split; [vm_compute; reflexivity|reflexivity]. Qed.
Example C14_sample_err : text_collect [CE (EBool true)] = OErr.
Proof. reflexivity. Qed.

(** ** C15: buffering and replaying *)

(** The property as stated, labels with their text and their tag. *)
Definition C15_round_trip_full : Prop :=
  forall v t, streams v t -> exists b cs,
    vbuf_collect v = OOk b /\ vbuf_stream b = Some cs /\
    streams cs (rebuilt (fun l => MkLabel (l_text l) (l_kind (kept_label l)) (l_tag l)) t).

Lemma collect_streams v t : streams v t -> vbuf_collect v = OOk (MkVB (parts_of t) [] false false).
Proof.
  intros H. unfold vbuf_collect, stream_value. rewrite !H. cbn [fst snd].
  pose proof (adds_tree t [] [] false) as A. change (MkVB [] [] false false) with vbuf_new in A.
  rewrite A. reflexivity.
Qed.

(** What holds: the same calls, each text joined, each label without its tag. *)
Theorem C15_round_trip_partial :
  forall v t, streams v t -> exists b cs,
    vbuf_collect v = OOk b /\ vbuf_stream b = Some cs /\ streams cs (rebuilt kept_label t).
Proof.
  intros v t H. rewrite (collect_streams v t H). destruct (acts_tree t) as (cs & P & F).
  exists (MkVB (parts_of t) [] false false), cs. split; [reflexivity|]. split; [|exact F].
  unfold vbuf_stream. apply stream_parts_plays; [exact P|apply parts_of_nonempty].
Qed.
(** The tag of a label is lost, and the derive macro tags every field's label. *)
Theorem C15_round_trip_full_refuted : ~ C15_round_trip_full.
Proof.
  intros H.
  destruct (H [CE (ETag None (Some (MkLabel (bs "A") LStatic (Some VALUE_IDENT))) None)]
              (TTag None (Some (MkLabel (bs "A") LStatic (Some VALUE_IDENT))) None) eq_refl) as (b & cs & C & S & F).
  vm_compute in C. injection C as <-. vm_compute in S. injection S as <-. vm_compute in F. discriminate.
Qed.
(** So the full statement holds of values whose labels have no tags. *)
Fixpoint tagless (t : tree) : bool :=
  let ok l := match l_tag l with None => true | _ => false end in
  let ok_opt l := match l with Some l => ok l | None => true end in
  match t with
  | TTag _ l _ => ok_opt l
  | THint _ v => tagless v
  | TTagged _ l _ v | TEnum _ l _ v => ok_opt l && tagless v
  | TSeq _ vs => forallb tagless vs
  | TMap _ es => forallb (fun kv => match kv with (k, v) => tagless k && tagless v end) es
  | TRecord _ l _ _ fs => ok_opt l && forallb (fun fd => match fd with (_, fl, v) => ok fl && tagless v end) fs
  | TTuple _ l _ _ fs => ok_opt l && forallb (fun fd => match fd with (_, _, v) => tagless v end) fs
  | TRecTup _ l _ _ fs => ok_opt l && forallb (fun fd => match fd with (_, fl, _, v) => ok fl && tagless v end) fs
  | _ => true
  end.
Theorem C15_round_trip_untagged_labels_partial :
  forall v t, streams v t -> tagless t = true -> exists b cs,
    vbuf_collect v = OOk b /\ vbuf_stream b = Some cs /\
    streams cs (rebuilt (fun l => MkLabel (l_text l) (l_kind (kept_label l)) (l_tag l)) t).
Proof.
  intros v t H U. destruct (C15_round_trip_partial v t H) as (b & cs & C & S & F). exists b, cs.
  split; [exact C|]. split; [exact S|]. replace (rebuilt _ t) with (rebuilt kept_label t); [exact F|].
  clear - U. set (f := fun l => MkLabel (l_text l) (l_kind (kept_label l)) (l_tag l)).
  assert (L : forall l, match l_tag l with None => true | _ => false end = true -> kept_label l = f l).
  { intros [x k g] X. cbn in X. destruct g; [discriminate|]. reflexivity. }
  assert (LO : forall l, match l with Some l => match l_tag l with None => true | _ => false end | None => true end = true ->
    option_map kept_label l = option_map f l).
  { intros [l|] X; [|reflexivity]. cbn. rewrite L by exact X. reflexivity. }
  induction t using tree_ind'; cbn [rebuilt tagless] in *; auto;
    try (apply andb_true_iff in U as [U1 U2]; rewrite (LO _ U1)); try (rewrite LO by exact U; reflexivity);
    try (rewrite IHt by assumption; reflexivity); f_equal.
  - apply map_ext_in. intros x I. rewrite Forall_forall in H. rewrite forallb_forall in U. auto.
  - apply map_ext_in. intros [k x] I. rewrite Forall_forall in H. rewrite forallb_forall in U.
    specialize (H _ I). specialize (U _ I). cbn in U, H. apply andb_true_iff in U as [Ua Ub].
    destruct H as [Ha Hb]. rewrite Ha, Hb by assumption. reflexivity.
  - apply map_ext_in. intros [[ft fl] x] I. rewrite Forall_forall in H. rewrite forallb_forall in U2.
    specialize (H _ I). specialize (U2 _ I). cbn in U2, H. apply andb_true_iff in U2 as [Ua Ub].
    rewrite H, L by assumption. reflexivity.
  - apply map_ext_in. intros [[ft fi] x] I. rewrite Forall_forall in H. rewrite forallb_forall in U2.
    specialize (H _ I). specialize (U2 _ I). cbn in U2, H. rewrite H by assumption. reflexivity.
  - apply map_ext_in. intros [[[ft fl] fi] x] I. rewrite Forall_forall in H. rewrite forallb_forall in U2.
    specialize (H _ I). specialize (U2 _ I). cbn in U2, H. apply andb_true_iff in U2 as [Ua Ub].
    rewrite H, L by assumption. reflexivity.
Qed.

(** A record holding a map with a two-fragment key and a hinted sequence. *)
Definition buffered_sample : tree :=
  TRecord None (Some (MkLabel (bs "R") LStatic None)) None (Some 2%N)
    [(None, MkLabel (bs "a") LOwned None,
      TMap None [(TText None [(true, bs "k"); (false, bs "ey")], TInt I32 (-7))]);
     (Some VALUE_OFFSET, MkLabel (bs "b") LComputed None, THint NUMBER (TSeq (Some 1%N) [TBin None [(true, bs "x")]]))].
Example C15_sample :
  tagless buffered_sample = true /\ streams (map CE (emit buffered_sample)) buffered_sample /\
  rebuilt kept_label buffered_sample =
  TRecord None (Some (MkLabel (bs "R") LStatic None)) None (Some 2%N)
    [(None, MkLabel (bs "a") LOwned None,
      TMap None [(TText (Some 3%N) [(false, bs "key")], TInt I32 (-7))]);
     (Some VALUE_OFFSET, MkLabel (bs "b") LOwned None,
      THint NUMBER (TSeq (Some 1%N) [TBin (Some 1%N) [(true, bs "x")]]))].
Proof. repeat split; vm_compute; reflexivity. Qed.

(** ** C16: [is_complete] *)
Definition C16_exactly_when_complete : Prop :=
  forall t p q, emit t = p ++ q ->
    exists b, run vbuf_step vbuf_new p = Ok b /\ is_complete b = match q with [] => true | _ => false end.

(** After the last call, complete; after a proper prefix, not, unless the prefix
    consists of tag hints. *)
Theorem C16_exactly_when_complete_partial :
  forall t p q, emit t = p ++ q ->
    exists b, run vbuf_step vbuf_new p = Ok b /\
      is_complete b = match q, p with
                      | [], _ => true
                      | _, [] => false
                      | _, _ => forallb is_hint p
                      end.
Proof.
  intros t p q E. destruct q as [|e q].
  - rewrite app_nil_r in E. subst p. pose proof (adds_tree t [] [] false) as A.
    change (MkVB [] [] false false) with vbuf_new in A. rewrite A. eexists. split; [reflexivity|].
    cbn [app]. unfold is_complete. cbn [stack parts in_tb List.length].
    pose proof (parts_of_nonempty t). destruct (parts_of t); [congruence|reflexivity].
  - destruct (complete_prefix t p (e :: q) E) as (b & R & C); [discriminate|]. exists b. split; [exact R|].
    rewrite C. destruct p; reflexivity.
Qed.
(** A tag hint alone counts as a complete value. *)
Theorem C16_exactly_when_complete_refuted : ~ C16_exactly_when_complete.
Proof.
  intros H. destruct (H (THint NUMBER TNull) [ETagHint NUMBER] [ENull] eq_refl) as (b & R & C).
  vm_compute in R. injection R as <-. vm_compute in C. discriminate.
Qed.
Example C16_sample :
  exists b, run vbuf_step vbuf_new (firstn 5 (emit buffered_sample)) = Ok b /\ is_complete b = false /\
    List.length (parts b) = 5.
Proof. eexists. split; [vm_compute; reflexivity|]. split; reflexivity. Qed.

(** ** C17: owning *)

(** Whatever was done to a buffer, [into_owned] replays the same calls, with the
    borrowed fragments turned into computed ones. *)
Theorem C17_into_owned :
  forall es : list ev, exists cs cs',
    vbuf_stream (drive vbuf_new es) = Some cs /\
    vbuf_stream (vbuf_into_owned (drive vbuf_new es)) = Some cs' /\
    flat cs' false = (map computed (fst (flat cs false)), snd (flat cs false)).
Proof.
  intros es. pose proof (good_drive es _ good_new) as G. unfold good in G.
  set (b := drive vbuf_new es) in *. destruct (opened_plays _ _ G) as (cs & P).
  unfold vbuf_stream, vbuf_into_owned. cbn [parts].
  destruct (parts b) as [|p ps] eqn:E.
  - exists [CE ENull], [CE ENull]. repeat split; reflexivity.
  - destruct (plays_owned _ _ P) as (cs' & P' & F). exists cs, cs'.
    split; [apply stream_parts_plays; [exact P|discriminate]|].
    split; [apply stream_parts_plays; [exact P'|discriminate]|].
    destruct (plays_nested _ _ P) as (x & X & _). rewrite F, X. reflexivity.
Qed.

(** [collect_owned] against [collect]: the same outcome for every value, and when
    it is a buffer, the same calls up to borrowing, and no borrowed bytes at all. *)
Theorem C17_collect_owned :
  forall v : list call,
    match vbuf_collect v, vbuf_collect_owned v with
    | OOk b, OOk b' => exists cs cs',
        vbuf_stream b = Some cs /\ vbuf_stream b' = Some cs' /\
        map computed (fst (flat cs' false)) = map computed (fst (flat cs false)) /\
        snd (flat cs' false) = true /\ snd (flat cs false) = true /\
        forallb (fun e => negb (borrows e)) (fst (flat cs' false)) = true
    | OErr, OErr | OPanic, OPanic => True
    | _, _ => False
    end.
Proof.
  intros v. unfold vbuf_collect, vbuf_collect_owned, vbuf_collect, stream_value.
  assert (X : flat [CVC v] false = (map computed (fst (flat v false)), snd (flat v false))).
  { rewrite <- flat_computed, flat_cons. change (flat1 (CVC v) false) with (flat v true).
    destruct (flat v true) as [x [|]]; cbn; rewrite ?app_nil_r; reflexivity. }
  rewrite X. destruct (flat v false) as [es ok]. cbn [fst snd].
  pose proof (run_sim es vbuf_new vbuf_new) as S.
  assert (B : buf_sim vbuf_new vbuf_new) by (repeat split; constructor). specialize (S B).
  pose proof (run_drive es vbuf_new) as D.
  destruct (run vbuf_step vbuf_new es) as [b|b|], (run vbuf_step vbuf_new (map computed es)) as [c|c|];
    try contradiction; cbn [bind]; auto.
  destruct ok; [|exact I]. cbn [res_sim] in S. destruct S as (F & _).
  pose proof (good_drive es _ good_new) as G. rewrite D in G. unfold good in G.
  destruct (opened_plays _ _ G) as (cs & P). destruct (plays_sim _ _ P _ F) as (ds & Q & A1 & A2 & A3 & A4).
  unfold vbuf_stream. destruct (parts b) as [|p ps].
  - inversion F. exists [CE ENull], [CE ENull]. repeat split; reflexivity.
  - exists cs, ds. split; [apply stream_parts_plays; [exact P|discriminate]|].
    split; [apply stream_parts_plays; [exact Q|]; intros E; rewrite E in F; inversion F|]. auto.
Qed.

Example C17_sample :
  exists b b', vbuf_collect (map CE (emit (TSeq None [TText None [(true, bs "ab")]]))) = OOk b /\
    vbuf_collect_owned (map CE (emit (TSeq None [TText None [(true, bs "ab")]]))) = OOk b' /\
    option_map (fun cs => flat cs false) (vbuf_stream b) =
      Some ([ESeqBegin None; ESeqValBegin; ETextBegin (Some 2%N); ETextFrag (bs "ab"); ETextEnd; ESeqValEnd; ESeqEnd], true) /\
    option_map (fun cs => flat cs false) (vbuf_stream b') =
      Some ([ESeqBegin None; ESeqValBegin; ETextBegin (Some 2%N); ETextFragC (bs "ab"); ETextEnd; ESeqValEnd; ESeqEnd], true) /\
    vbuf_into_owned b = b'.
Proof. do 2 eexists. repeat split; vm_compute; reflexivity. Qed.

(** ** C18: clearing *)

(** After any calls, failed ones included, a cleared buffer goes on like a new one. *)
Theorem C18_clear_is_new :
  forall before after : list ev,
    drive (vbuf_clear (drive vbuf_new before)) after = drive vbuf_new after /\
    run vbuf_step (vbuf_clear (drive vbuf_new before)) after = run vbuf_step vbuf_new after /\
    is_complete (vbuf_clear (drive vbuf_new before)) = false.
Proof. intros. repeat split; reflexivity. Qed.
Example C18_sample :
  let b := drive vbuf_new [EMapBegin None; ETextBegin None; ETextFrag (bs "x"); EBinFrag (bs "y")] in
  err b = true /\ in_tb b = true /\ stack b = [0] /\ vbuf_clear b = vbuf_new.
Proof. repeat split; reflexivity. Qed.

(** ** C19: mismatched calls *)

(** Whatever the calls, the replay never leaves the buffer's range and what it
    delivers is properly nested. *)
Theorem C19_replay_always_nested :
  forall es : list ev, exists cs fs,
    vbuf_stream (drive vbuf_new es) = Some cs /\ flat cs false = (fs, true) /\ nested fs.
Proof.
  intros es. pose proof (good_drive es _ good_new) as G. unfold good in G.
  set (b := drive vbuf_new es) in *. destruct (opened_plays _ _ G) as (cs & P).
  unfold vbuf_stream. destruct (parts b) as [|p ps] eqn:E.
  - exists [CE ENull], [ENull]. repeat split. apply nested_single; [reflexivity|constructor].
  - destruct (plays_nested _ _ P) as (fs & F & N). exists cs, fs.
    split; [apply stream_parts_plays; [exact P|discriminate]|auto].
Qed.

(** The only panic is a fragment while nothing is buffered. *)
Theorem C19_panics_exactly :
  forall (es : list ev) (e : ev),
    vbuf_step (drive vbuf_new es) e = Panic <-> parts (drive vbuf_new es) = [] /\ is_fragment e = true.
Proof.
  intros es e. pose proof (good_step _ e (good_drive es _ good_new)) as G. split.
  - intros H. rewrite H in G. exact G.
  - intros [P F]. destruct e; try discriminate; cbn [vbuf_step]; unfold push_frag; rewrite P; reflexivity.
Qed.

(** An end call fails exactly when nothing is open. *)
Theorem C19_end_fails_exactly :
  forall (es : list ev) (e : ev), delta e = (-1)%Z ->
    match vbuf_step (drive vbuf_new es) e with
    | Ok _ => stack (drive vbuf_new es) <> []
    | Err b => stack (drive vbuf_new es) = [] /\ parts b = parts (drive vbuf_new es)
    | Panic => False
    end.
Proof.
  intros es e D. destruct (good_end _ (good_drive es _ good_new)) as [_ H].
  replace (vbuf_step (drive vbuf_new es) e) with (push_end (drive vbuf_new es))
    by (destruct e; try discriminate; reflexivity).
  destruct (stack (drive vbuf_new es)).
  - rewrite H. cbn. auto.
  - destruct H as (b' & H). rewrite H. discriminate.
Qed.

(** A fragment is accepted exactly when the last thing buffered is of its kind, and
    then it changes the content of that and nothing else. *)
Theorem C19_fragment_accepted_exactly :
  forall (es : list ev) (borrowed : bool) (s : bytes),
    (match vbuf_step (drive vbuf_new es) (text_frag (borrowed, s)) with
     | Ok b => exists ps c c', parts (drive vbuf_new es) = ps ++ [PText c] /\ parts b = ps ++ [PText c'] /\
                 frag_inner c' = frag_inner c ++ s /\ stack b = stack (drive vbuf_new es)
     | Err b => parts b = parts (drive vbuf_new es) /\ forall ps c, parts b <> ps ++ [PText c]
     | Panic => parts (drive vbuf_new es) = []
     end) /\
    (match vbuf_step (drive vbuf_new es) (bin_frag (borrowed, s)) with
     | Ok b => exists ps c c', parts (drive vbuf_new es) = ps ++ [PBin c] /\ parts b = ps ++ [PBin c'] /\
                 frag_inner c' = frag_inner c ++ s /\ stack b = stack (drive vbuf_new es)
     | Err b => parts b = parts (drive vbuf_new es) /\ forall ps c, parts b <> ps ++ [PBin c]
     | Panic => parts (drive vbuf_new es) = []
     end).
Proof.
  intros es borrowed s. set (b := drive vbuf_new es).
  assert (D : forall c, c_data ((if borrowed then frag_push else frag_push_computed) c s) = c_data c ++ s)
    by (intros c; destruct borrowed; [apply frag_push_data|reflexivity]).
  replace (vbuf_step b (text_frag (borrowed, s))) with (push_frag b true borrowed s) by (destruct borrowed; reflexivity).
  replace (vbuf_step b (bin_frag (borrowed, s))) with (push_frag b false borrowed s) by (destruct borrowed; reflexivity).
  unfold push_frag. destruct (last_part (parts b)) as [p|] eqn:L; [|apply last_part_none in L; auto].
  apply last_part_some in L as (qs & E).
  assert (N : forall ps q, (parts b = ps ++ [q]) -> (q = p)) by (intros ps q X; rewrite E in X; apply app_inj_tail in X; symmetry; apply X).
  destruct p as [k|c|c|n k]; cbn [vfail parts stack]; split;
    try (split; [reflexivity|intros ps c' X; specialize (N _ _ X); discriminate]);
    rewrite E, set_last_snoc; do 3 eexists; repeat split; apply D.
Qed.

Example C19_sample :
  option_map (fun cs => flat cs false)
    (vbuf_stream (drive vbuf_new
      [ETextFrag (bs "lost"); EMapEnd; ESeqBegin None; EMapKeyBegin; ETextFrag (bs "no"); EBool true;
       ETupleEnd None None None; EMapBegin None; EMapBegin None])) =
  Some ([ESeqBegin None; ESeqEnd; EMapKeyBegin; EBool true; EMapKeyEnd; EMapBegin None; EMapEnd; EMapBegin None; EMapEnd],
        true).
Proof. vm_compute. reflexivity. Qed.

(** ** C47: [to_value] and [into_value] *)
Theorem C47_values_replay_like_the_buffer :
  forall es : list ev,
    stream_parts (to_value (drive vbuf_new es)) = vbuf_stream (drive vbuf_new es) /\
    stream_parts (into_value (drive vbuf_new es)) = vbuf_stream (drive vbuf_new es).
Proof.
  intros es. split; [|reflexivity]. unfold vbuf_stream. rewrite settled_to_value; [reflexivity|].
  apply settled_drive. constructor.
Qed.
Example C47_sample :
  exists cs, stream_parts (to_value (drive vbuf_new (emit buffered_sample))) = Some cs /\
    streams cs (rebuilt kept_label buffered_sample).
Proof. eexists. split; vm_compute; reflexivity. Qed.

Print Assumptions C13_content_is_concatenation.
Print Assumptions C13_borrowed_only_if_single.
Print Assumptions C13_clear_is_new.
Print Assumptions C13_streams_as_one_fragment.
Print Assumptions C13_noalloc.
Print Assumptions C14_never_panics_refuted.
Print Assumptions C14_never_panics_partial.
Print Assumptions C14_text_collect_exact.
Print Assumptions C14_binary_collect_exact.
Print Assumptions C15_round_trip_partial.
Print Assumptions C15_round_trip_full_refuted.
Print Assumptions C15_round_trip_untagged_labels_partial.
Print Assumptions C16_exactly_when_complete_partial.
Print Assumptions C16_exactly_when_complete_refuted.
Print Assumptions C17_into_owned.
Print Assumptions C17_collect_owned.
Print Assumptions C18_clear_is_new.
Print Assumptions C19_replay_always_nested.
Print Assumptions C19_panics_exactly.
Print Assumptions C19_end_fails_exactly.
Print Assumptions C19_fragment_accepted_exactly.
Print Assumptions C47_values_replay_like_the_buffer.
