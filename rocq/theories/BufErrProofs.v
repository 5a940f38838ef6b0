(** * BufErrProofs *)

From Verif Require Import Base Event Tree LowerModel LowerSpec FlatProofs LowerProofs MethProofs ExtractProofs
  FragModel FragSpec FragProofs DataModel BufferModel BufferSpec BufferProofs BufferHistProofs ForwardModel AdaptiveModel BufErrModel BufErrSpec.

(** ** Collecting bytes *)

Notation emeth := (meth bin_col_over bin_ecol_step).
Definition met (w : string) : kind := Unsupported (bs w) (bs "binary").

Lemma emeth_step c e : bin_col_over e = true \/ required e = true -> emeth c e = bin_ecol_step c e.
Proof.
  intros H. rewrite meth_unfold. destruct (bin_col_over e) eqn:E; [reflexivity|].
  destruct H as [H|H]; [discriminate|]. unfold required, default_evs in *.
  destruct (default_calls e); [discriminate|]. reflexivity.
Qed.
Lemma emeth_default c e ds : bin_col_over e = false -> default_evs e = Some ds ->
  emeth c e = run emeth c ds.
Proof. intros H D. rewrite meth_unfold, H, D. reflexivity. Qed.

Lemma emeth_i64 c z : emeth (c, None) (EInt I64 z) = Err (c, Some (met "integer")).
Proof. rewrite emeth_step by (right; reflexivity). reflexivity. Qed.
Lemma emeth_128 c t z : (t = U128 \/ t = I128) ->
  emeth (c, None) (EInt t z) = Err (c, Some (met (if fits I64 z then "integer" else "text"))).
Proof.
  intros H. assert (bin_col_over (EInt t z) = false) by (destruct H; subst; reflexivity).
  destruct (fits I64 z) eqn:F.
  - rewrite meth_int_small by assumption. apply emeth_i64.
  - rewrite meth_int_big by assumption. rewrite run_cons.
    rewrite (emeth_default _ (ETaggedBegin (Some NUMBER) None None) []) by reflexivity.
    cbn [run bind app]. rewrite emeth_step by (right; reflexivity). reflexivity.
Qed.
Lemma fits_more t z : In t [I8; I16; I32; I64] -> fits t z = true -> fits I64 z = true.
Proof.
  unfold fits. rewrite !andb_true_iff, !Z.leb_le. intros [<-|[<-|[<-|[<-|[]]]]]; cbn [ity_min ity_max]; lia.
Qed.
Lemma emeth_int c t z : t <> U8 -> fits t z = true ->
  emeth (c, None) (EInt t z) = Err (c, Some (met (if fits I64 z then "integer" else "text"))).
Proof.
  intros H R.
  assert (W : forall t, t <> U128 -> t <> I128 -> t <> I64 -> t <> U8 ->
     emeth (c, None) (EInt t z) = emeth (c, None) (EInt (wider t) z)).
  { intros t0 A B C D. apply meth_int_wider; try assumption. destruct t0; try reflexivity; congruence. }
  destruct t; try congruence;
    try (match type of R with fits ?t z = true => rewrite (fits_more t z ltac:(cbn; tauto) R) end);
    repeat (rewrite W by discriminate; cbn [wider]);
    first [apply emeth_i64 | apply emeth_128; auto].
Qed.

Lemma emeth_tagged c t l i : emeth c (ETaggedBegin t l i) = Ok c.
Proof. rewrite (emeth_default _ _ []) by reflexivity. reflexivity. Qed.
Lemma emeth_tagged_end c t l i : emeth c (ETaggedEnd t l i) = Ok c.
Proof. rewrite (emeth_default _ _ []) by reflexivity. reflexivity. Qed.
Lemma emeth_enum c t l i : emeth c (EEnumBegin t l i) = Ok c.
Proof.
  rewrite (emeth_default _ _ [ETaggedBegin t l i]) by reflexivity. cbn [run]. rewrite emeth_tagged. reflexivity.
Qed.
Lemma emeth_enum_end c t l i : emeth c (EEnumEnd t l i) = Ok c.
Proof.
  rewrite (emeth_default _ _ [ETaggedEnd t l i]) by reflexivity. cbn [run]. rewrite emeth_tagged_end. reflexivity.
Qed.
Lemma emeth_hint c t : emeth c (ETagHint t) = Ok c.
Proof. rewrite (emeth_default _ _ []) by reflexivity. reflexivity. Qed.
Lemma emeth_seq c n : emeth c (ESeqBegin n) = Ok c.
Proof. rewrite emeth_step by (right; reflexivity). reflexivity. Qed.
Lemma emeth_seq_val c : emeth c ESeqValBegin = Ok c.
Proof. rewrite emeth_step by (right; reflexivity). reflexivity. Qed.
Lemma emeth_seq_val_end c : emeth c ESeqValEnd = Ok c.
Proof. rewrite emeth_step by (right; reflexivity). reflexivity. Qed.
Lemma emeth_seq_end c : emeth c ESeqEnd = Ok c.
Proof. rewrite emeth_step by (right; reflexivity). reflexivity. Qed.
Lemma emeth_tuple c t l i n : emeth c (ETupleBegin t l i n) = Ok c.
Proof.
  rewrite (emeth_default _ _ [ETaggedBegin t l i; ESeqBegin n]) by reflexivity. cbn [run].
  rewrite emeth_tagged. cbn [bind]. rewrite emeth_seq. reflexivity.
Qed.
Lemma emeth_tuple_end c t l i : emeth c (ETupleEnd t l i) = Ok c.
Proof.
  rewrite (emeth_default _ _ [ESeqEnd; ETaggedEnd t l i]) by reflexivity. cbn [run].
  rewrite emeth_seq_end. cbn [bind]. rewrite emeth_tagged_end. reflexivity.
Qed.
Lemma emeth_tuple_val c t i : emeth c (ETupleValBegin t i) = Ok c.
Proof.
  rewrite (emeth_default _ _ [ESeqValBegin]) by reflexivity. cbn [run]. rewrite emeth_seq_val. reflexivity.
Qed.
Lemma emeth_tuple_val_end c t i : emeth c (ETupleValEnd t i) = Ok c.
Proof.
  rewrite (emeth_default _ _ [ESeqValEnd]) by reflexivity. cbn [run]. rewrite emeth_seq_val_end. reflexivity.
Qed.
Lemma emeth_map c n : emeth (c, None) (EMapBegin n) = Err (c, Some (met "map")).
Proof. rewrite emeth_step by (left; reflexivity). reflexivity. Qed.
Lemma emeth_record c t l i n : emeth (c, None) (ERecordBegin t l i n) = Err (c, Some (met "map")).
Proof.
  rewrite (emeth_default _ _ [ETaggedBegin t l i; EMapBegin n]) by reflexivity. cbn [run].
  rewrite emeth_tagged. cbn [bind]. rewrite emeth_map. reflexivity.
Qed.
Lemma emeth_rectup c t l i n : emeth (c, None) (ERecTupBegin t l i n) = Err (c, Some (met "map")).
Proof.
  rewrite (emeth_default _ _ [ERecordBegin t l i n]) by reflexivity. cbn [run].
  rewrite emeth_record. reflexivity.
Qed.
Lemma emeth_text c n : emeth (c, None) (ETextBegin n) = Err (c, Some (met "text")).
Proof. rewrite emeth_step by (right; reflexivity). reflexivity. Qed.
Lemma emeth_null c : emeth (c, None) ENull = Err (c, Some (met "null")).
Proof. rewrite emeth_step by (right; reflexivity). reflexivity. Qed.
Lemma emeth_f64 c f : emeth (c, None) (EF64 f) = Err (c, Some (met "floating point")).
Proof. rewrite emeth_step by (right; reflexivity). reflexivity. Qed.

Lemma ebin_frags_run fs : forall c, exists c',
  run emeth (c, None) (map bin_frag fs) = Ok (c', None) /\
  c_data c' = c_data c ++ List.concat (map snd fs).
Proof.
  induction fs as [|[b s] fs IH]; intros c; cbn [map run List.concat snd].
  - exists c. rewrite app_nil_r. auto.
  - destruct b; unfold bin_frag; cbn [fst snd]; rewrite emeth_step by (left; reflexivity);
      cbn [bin_ecol_step fst snd bind].
    + destruct (IH (frag_push c s)) as (c' & E & D). exists c'. split; [exact E|].
      rewrite D, frag_push_data, <- app_assoc. reflexivity.
    + destruct (IH (frag_push_computed c s)) as (c' & E & D). exists c'. split; [exact E|].
      rewrite D. cbn. rewrite <- app_assoc. reflexivity.
Qed.

Definition ebin_ok (c : cow) (t : tree) (r : res ecol) : Prop :=
  match bytes_or t with
  | inl s => exists c', r = Ok (c', None) /\ c_data c' = c_data c ++ s
  | inr w => exists c', r = Err (c', Some (met w))
  end.

Lemma ebin_collect_tree : forall t c, ranged t = true -> ebin_ok c t (run emeth (c, None) (emit t)).
Proof.
  induction t using tree_ind'; intros c R; unfold ebin_ok in *; cbn [emit bytes_or ranged] in *;
    rewrite ?run_cons.
  - rewrite emeth_null. cbn. eauto.
  - rewrite emeth_step by (right; reflexivity). eexists; reflexivity.
  - assert (S : word (simplify (TInt t z)) = if fits I64 z then "integer"%string else "text"%string).
    { cbn [simplify]. destruct (fits I64 z); reflexivity. }
    rewrite S. destruct t; try (rewrite emeth_int by (try discriminate; assumption); cbn [bind]; eauto; fail).
    rewrite emeth_step by (left; reflexivity). cbn. eauto.
  - rewrite (emeth_default _ _ [EF64 (f32_to_f64 f)]) by reflexivity. cbn [run].
    rewrite emeth_f64. cbn. eauto.
  - rewrite emeth_f64. cbn. eauto.
  - rewrite emeth_text. cbn. eauto.
  - rewrite emeth_step by (left; reflexivity). cbn [bin_ecol_step bind]. rewrite run_app.
    destruct (ebin_frags_run fs c) as (c' & E & D). rewrite E. cbn [bind run].
    rewrite emeth_step by (left; reflexivity). cbn [bin_ecol_step bind]. eauto.
  - rewrite meth_tag by reflexivity. rewrite run_cons, emeth_tagged. cbn [bind simplify].
    destruct (otag_is t RUST_OPTION_NONE); [cbn [app]; rewrite run_cons, emeth_null; cbn; eauto|].
    destruct l as [[lt [| |] lg]|]; cbn -[meth]; rewrite ?emeth_text, ?emeth_null; cbn; eauto.
  - rewrite emeth_hint. cbn [bind]. apply IHt. exact R.
  - rewrite emeth_tagged. cbn [bind]. rewrite run_app. specialize (IHt c R).
    destruct (bytes_or t0) as [s|w].
    + destruct IHt as (c' & -> & D). cbn [bind run]. rewrite emeth_tagged_end. cbn. eauto.
    + destruct IHt as (c' & ->). cbn. eauto.
  - rewrite emeth_enum. cbn [bind]. rewrite run_app. specialize (IHt c R).
    destruct (bytes_or t0) as [s|w].
    + destruct IHt as (c' & -> & D). cbn [bind run]. rewrite emeth_enum_end. cbn. eauto.
    + destruct IHt as (c' & ->). cbn. eauto.
  - rewrite emeth_seq. cbn [bind]. rewrite run_app. revert c.
    induction vs as [|v vs IHvs]; intros c.
    + cbn [flat_map run bind]. rewrite emeth_seq_end. cbn. exists c. rewrite app_nil_r. auto.
    + inversion H as [|? ? Hv Hvs]; subst. cbn [forallb] in R. apply andb_prop in R as [Rv Rs].
      specialize (IHvs Hvs Rs). cbn [flat_map].
      rewrite run_app, run_cons, emeth_seq_val. cbn [bind]. rewrite run_app. specialize (Hv c Rv).
      destruct (bytes_or v) as [s|w].
      * destruct Hv as (c1 & -> & D1). cbn [bind run]. rewrite emeth_seq_val_end. cbn [bind].
        specialize (IHvs c1). match type of IHvs with match ?x with _ => _ end => destruct x as [s2|w2] end.
        -- destruct IHvs as (c2 & E2 & D2). exists c2. split; [exact E2|].
           rewrite D2, D1, app_assoc. reflexivity.
        -- exact IHvs.
      * destruct Hv as (c1 & ->). cbn. eauto.
  - rewrite emeth_map. cbn. eauto.
  - rewrite emeth_record. cbn. eauto.
  - rewrite emeth_tuple. cbn [bind]. rewrite run_app. revert c.
    induction fs as [|[[ft fi] v] vs IHvs]; intros c.
    + cbn [flat_map run bind]. rewrite emeth_tuple_end. cbn. exists c. rewrite app_nil_r. auto.
    + inversion H as [|? ? Hv Hvs]; subst. cbn [forallb] in R. apply andb_prop in R as [Rv Rs].
      specialize (IHvs Hvs Rs). cbn [flat_map]. cbn [snd] in Hv.
      rewrite run_app, run_cons, emeth_tuple_val. cbn [bind]. rewrite run_app. specialize (Hv c Rv).
      destruct (bytes_or v) as [s|w].
      * destruct Hv as (c1 & -> & D1). cbn [bind run]. rewrite emeth_tuple_val_end. cbn [bind].
        specialize (IHvs c1). match type of IHvs with match ?x with _ => _ end => destruct x as [s2|w2] end.
        -- destruct IHvs as (c2 & E2 & D2). exists c2. split; [exact E2|].
           rewrite D2, D1, app_assoc. reflexivity.
        -- exact IHvs.
      * destruct Hv as (c1 & ->). cbn. eauto.
  - rewrite emeth_rectup. cbn. eauto.
Qed.

(** ** Collecting text *)

Lemma etext_core_frags fs : forall c,
  run text_ecol_step (c, None) (map ETextFragC fs) = Ok (fold_left frag_push_computed fs c, None).
Proof. induction fs as [|f fs IH]; intros c; [reflexivity|]. cbn. apply IH. Qed.

Definition ecol_agree (r1 r2 : res ecol) : Prop :=
  match r1, r2 with
  | Ok c1, Ok c2 => c_data (fst c1) = c_data (fst c2) /\ snd c1 = snd c2
  | Err c1, Err c2 => snd c1 = snd c2
  | _, _ => False
  end.
Lemma etext_same es : forall c1 c2 b, c_data c1 = c_data c2 ->
  ecol_agree (run text_ecol_step (c1, b) es)
             (run text_ecol_step (c2, b) (map (fun e => match e with ETextFrag s => ETextFragC s | e => e end) es)).
Proof.
  induction es as [|e es IH]; intros c1 c2 b E; [split; auto|].
  cbn [map run]. destruct e; cbn [text_ecol_step bind ecol_fail ecol_agree fst snd]; auto.
  - apply IH. rewrite frag_push_data. cbn. rewrite E. reflexivity.
  - apply IH. cbn. rewrite E. reflexivity.
  - destruct t; cbn [bind ecol_fail ecol_agree snd]; auto.
Qed.

Definition met_for_text (w : string) : kind := Unsupported (bs w) (bs "text").
Lemma etext_collect_tree t : ranged t = true ->
  match simplify t with
  | KText _ fs => exists c, run text_ecol_step (text_buf_new, None) (lower_all text_col_over (emit t)) = Ok (c, None) /\
                            c_data c = List.concat fs
  | k => exists c, run text_ecol_step (text_buf_new, None) (lower_all text_col_over (emit t)) = Err (c, Some (met_for_text (word k)))
  end.
Proof.
  intros R.
  pose proof (etext_same (lower_all text_col_over (emit t)) text_buf_new text_buf_new None eq_refl) as S.
  rewrite <- text_col_lower in S by apply lower_all_done.
  rewrite lower_all_twice, lower_all_meaning in S by (try discriminate; exact R).
  destruct (simplify t) as [|b|z|f|n fs|n vs]; cbn [emit_core] in S;
    try (cbn in S; destruct (run text_ecol_step _ _) as [[]|[]|]; cbn in S; try contradiction; subst; eauto; fail).
  cbn [run text_ecol_step bind] in S. rewrite run_app, etext_core_frags in S.
  cbn [bind run text_ecol_step] in S.
  destruct (run text_ecol_step _ _) as [[c' e']|c'|]; cbn in S; try contradiction.
  destruct S as [D ->]. exists c'. split; [reflexivity|]. rewrite D.
  rewrite fold_push_computed. destruct fs; reflexivity.
Qed.

(** ** The buffer *)

(** Without its error it is the buffer of BufferModel.v. *)
Definition erase (r : res ebuf) : res vbuf :=
  match r with Ok b => Ok (fst b) | Err b => Err (fst b) | Panic => Panic end.
Lemma ebuf_step_erase b e : erase (ebuf_step b e) = vbuf_step (fst b) e.
Proof.
  assert (K : forall r, erase (keep_err (snd b) r) = r) by (intros []; reflexivity).
  assert (E : erase (push_eend b) = push_end (fst b)).
  { unfold push_eend, push_end. destruct (stack (fst b)) as [|i r]; [reflexivity|].
    destruct (nth_error (parts (fst b)) i) as [[| | |]|]; reflexivity. }
  assert (F : forall t bo s, erase (push_efrag b t bo s) = push_frag (fst b) t bo s).
  { intros t bo s. unfold push_efrag, push_frag. destruct (last_part (parts (fst b))) as [[| | |]|]; try reflexivity; destruct t; reflexivity. }
  destruct e; cbn [ebuf_step]; try apply K; try apply E; apply F.
Qed.

Lemma last_some_snoc {A} (l : list (option A)) o : last_some (l ++ [o]) = match o with Some a => Some a | None => last_some l end.
Proof.
  induction l as [|x l IH]; cbn [app last_some]; [destruct o; reflexivity|]. rewrite IH.
  destruct o; [reflexivity|]. reflexivity.
Qed.
Definition part_thing (p : part) : thing :=
  match p with PText _ => AText | PBin _ => ABinary | _ => AnOther end.
(** The state after a history, in the words of the specification. *)
Definition tracks (es : list ev) (b : vbuf) : Prop :=
  good b /\ List.length (stack b) = open_after es /\ option_map part_thing (last_part (parts b)) = last_thing es.
Lemma open_after_snoc es e : open_after (es ++ [e]) =
  if opens e then S (open_after es) else if ends e then Nat.pred (open_after es) else open_after es.
Proof. unfold open_after. rewrite fold_left_app. reflexivity. Qed.
Lemma last_thing_snoc es e : last_thing (es ++ [e]) = match thing_of e with Some a => Some a | None => last_thing es end.
Proof. unfold last_thing. rewrite map_app. apply last_some_snoc. Qed.
Lemma last_part_snoc ps p : last_part (ps ++ [p]) = Some p.
Proof. unfold last_part. rewrite rev_unit. reflexivity. Qed.
Lemma last_part_set ps n len k len' : nth_error ps n = Some (PNode len k) ->
  option_map part_thing (last_part (set_part ps n (PNode len' k))) = option_map part_thing (last_part ps).
Proof.
  revert n. induction ps as [|p ps IH]; intros [|n] H; cbn [nth_error] in H; try discriminate.
  - injection H as ->. cbn [set_part]. unfold last_part. cbn [rev]. destruct (rev ps); reflexivity.
  - cbn [set_part]. specialize (IH n H). unfold last_part in *. cbn [rev].
    destruct (rev (set_part ps n (PNode len' k))) eqn:A, (rev ps) eqn:B; cbn [app option_map] in *; try discriminate; auto.
Qed.

(** One call. *)
Lemma tracks_step es b k e : tracks es b ->
  match ebuf_step (b, k) e with
  | Ok b' => tracks (es ++ [e]) (fst b') /\ snd b' = k /\ refused es e = None
  | Err b' => tracks (es ++ [e]) (fst b') /\ exists m, snd b' = Some m /\ refused es e = Some (error_text m)
  | Panic => refused es e = None /\ last_thing es = None /\ is_fragment e = true
  end.
Proof.
  intros (G & L & T). pose proof (good_step b e G) as GS. pose proof (ebuf_step_erase (b, k) e) as X. cbn [fst] in X. rewrite <- X in GS. clear X.
  assert (F : forall (text bo : bool) (s : bytes) r, e = (if text then text_frag (bo, s) else bin_frag (bo, s)) -> ebuf_step (b, k) e = r -> r = push_efrag (b, k) text bo s ->
    match r with
    | Ok b' => tracks (es ++ [e]) (fst b') /\ snd b' = k /\ refused es e = None
    | Err b' => tracks (es ++ [e]) (fst b') /\ exists m, snd b' = Some m /\ refused es e = Some (error_text m)
    | Panic => refused es e = None /\ last_thing es = None /\ is_fragment e = true
    end).
  { intros text bo s r Ee Er Ep. rewrite Er in GS. rewrite Ep in *. clear Er.
    assert (NT : thing_of e = None) by (subst e; destruct text, bo; reflexivity).
    assert (NO : open_after (es ++ [e]) = open_after es) by (rewrite open_after_snoc; subst e; destruct text, bo; reflexivity).
    assert (RF : refused es e = if text then match last_thing es with Some ABinary | Some AnOther => Some (bs "expected a fragment while buffering text") | _ => None end
                                else match last_thing es with Some AText | Some AnOther => Some (bs "expected a fragment while buffering binary") | _ => None end)
      by (subst e; destruct text, bo; reflexivity).
    unfold push_efrag in *. cbn [fst snd] in *. rewrite RF, <- T.
    destruct (last_part (parts b)) as [p|] eqn:LP; cbn [option_map] in *.
    - pose proof LP as LP'. apply last_part_some in LP' as (qs & Eq).
      destruct p as [q|c|c|len q]; cbn [part_thing erase efail fst snd] in *;
        destruct text; cbn [part_thing erase efail fst snd] in *; unfold tracks; rewrite NO, last_thing_snoc, NT, <- T; cbn [parts stack];
        (split; [split; [exact GS|split; [exact L|rewrite ?LP, ?Eq, ?set_last_snoc, ?last_part_snoc; reflexivity]]|]);
        try (split; reflexivity); eexists; (split; [reflexivity|reflexivity]).
    - split; [destruct text; reflexivity|]. split; [reflexivity|]. subst e; destruct text, bo; reflexivity. }
  assert (N : ends e = true -> match push_eend (b, k) with
    | Ok b' => tracks (es ++ [e]) (fst b') /\ snd b' = k /\ refused es e = None
    | Err b' => tracks (es ++ [e]) (fst b') /\ exists m, snd b' = Some m /\ refused es e = Some (error_text m)
    | Panic => refused es e = None /\ last_thing es = None /\ is_fragment e = true
    end).
  { intros Ee. assert (X : ebuf_step (b, k) e = push_eend (b, k)) by (destruct e; try discriminate Ee; reflexivity).
    rewrite X in GS.
    assert (NT : thing_of e = None) by (destruct e; try discriminate Ee; reflexivity).
    assert (NO : open_after (es ++ [e]) = Nat.pred (open_after es)).
    { rewrite open_after_snoc, Ee. destruct e; try discriminate Ee; reflexivity. }
    assert (RF : refused es e = if Nat.eqb (open_after es) 0 then Some (bs "the value is invalid: unbalanced calls to `begin` and `end`") else None).
    { destruct e; try discriminate Ee; reflexivity. }
    destruct (good_end b G) as [_ GE]. unfold push_eend in *. cbn [fst snd] in *. rewrite RF, <- L.
    destruct (stack b) as [|i st] eqn:ST.
    - cbn [erase efail fst snd] in *. split.
      + unfold tracks. rewrite NO, last_thing_snoc, NT, <- T, <- L, ST. cbn [parts stack fst].
        rewrite ST in *. split; [exact GS|]. split; reflexivity.
      + eexists. split; reflexivity.
    - destruct GE as (b' & GE). unfold push_end in GE. rewrite ST in GE.
      destruct (nth_error (parts b) i) as [[q|c|c|len q]|] eqn:NE; try discriminate GE.
      cbn [erase fst snd] in *. split; [|split; reflexivity].
      unfold tracks. rewrite NO, last_thing_snoc, NT, <- T, <- L. cbn [parts stack List.length Nat.pred].
      split; [exact GS|]. split; [reflexivity|]. eapply last_part_set. exact NE. }
  destruct e; try (exact (N eq_refl));
    try (exact (F true true s _ eq_refl eq_refl eq_refl)); try (exact (F true false s _ eq_refl eq_refl eq_refl));
    try (exact (F false true s _ eq_refl eq_refl eq_refl)); try (exact (F false false s _ eq_refl eq_refl eq_refl));
    clear F N; cbn [ebuf_step vbuf_step keep_err fst snd erase] in *;
    (split; [|split; reflexivity]); (split; [exact GS|]);
    unfold push_part, push_begin, set_in_tb; cbn [parts stack List.length];
    rewrite open_after_snoc, last_thing_snoc; cbn [opens ends thing_of];
    rewrite ?last_part_snoc; cbn [option_map part_thing]; auto.
Qed.
