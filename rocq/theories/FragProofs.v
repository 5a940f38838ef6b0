(** * FragProofs *)

From Verif Require Import Base Event Tree LowerModel LowerSpec FlatProofs LowerProofs MethProofs ExtractProofs
  FragModel FragSpec.

Lemma fold_push_computed ps : forall c,
  fold_left frag_push_computed ps c =
  match ps with [] => c | _ => MkCow true (c_data c ++ List.concat ps) end.
Proof.
  induction ps as [|p ps IH]; intros c; [reflexivity|]. cbn [fold_left]. rewrite IH.
  destruct ps as [|q ps]; cbn [List.concat frag_push_computed c_data].
  - rewrite app_nil_r. reflexivity.
  - rewrite <- !app_assoc. reflexivity.
Qed.

Definition fstate (h : list fop) (c : cow) : Prop :=
  c_data c = List.concat (map fop_bytes h) /\
  (c_owned c = false <->
   h = [] \/ exists pre s, h = pre ++ [FPush s] /\ List.concat (map fop_bytes pre) = []).

Lemma snoc_push_inj (h : list fop) o :
  (h ++ [o] = [] \/ exists pre s, h ++ [o] = pre ++ [FPush s] /\ List.concat (map fop_bytes pre) = []) <->
  (exists s, o = FPush s) /\ List.concat (map fop_bytes h) = [].
Proof.
  split.
  - intros [H|(pre & s & H & E)]; [destruct h; discriminate|].
    apply app_inj_tail in H as [-> ->]. eauto.
  - intros [(s & ->) E]. right. eauto.
Qed.

Lemma concat_map_snoc (h : list fop) o :
  List.concat (map fop_bytes (h ++ [o])) = List.concat (map fop_bytes h) ++ fop_bytes o.
Proof. rewrite map_app, concat_app. cbn. rewrite app_nil_r. reflexivity. Qed.

Lemma fop_run_state os : fstate (since_clear os) (fop_run os).
Proof.
  induction os as [|o os IH] using rev_ind.
  - split; [reflexivity|]. cbn. split; auto.
  - unfold fop_run, since_clear in *. rewrite !fold_left_app. cbn [fold_left].
    set (c := fold_left fop_next os text_buf_new) in *.
    set (h := fold_left _ os []) in *. destruct IH as [D O].
    unfold fop_next, fop_step. destruct o as [s|s|ps ok| |].
    + unfold fstate. rewrite concat_map_snoc, snoc_push_inj, <- D. unfold frag_push. cbn [fop_bytes].
      destruct (c_data c) as [|x d] eqn:E; cbn [frag_new frag_push_computed c_data c_owned app].
      * split; [reflexivity|]. split; [intros _; split; eauto|reflexivity].
      * rewrite E. split; [reflexivity|]. split; [discriminate|intros [_ H]; discriminate].
    + unfold fstate. rewrite concat_map_snoc, snoc_push_inj, <- D. cbn. split; [reflexivity|].
      split; [discriminate|intros [(t & H) _]; discriminate].
    + assert (X : match (if ok then Ok (fold_left frag_push_computed ps c) else Err (fold_left frag_push_computed ps c))
                  with Ok c' | Err c' => c' | Panic => c end = fold_left frag_push_computed ps c)
        by (destruct ok; reflexivity).
      cbv zeta. rewrite X, fold_push_computed. destruct ps as [|p ps]; [split; assumption|].
      unfold fstate. rewrite concat_map_snoc, snoc_push_inj, <- D. cbn [c_data c_owned fop_bytes].
      split; [reflexivity|]. split; [discriminate|intros [(t & H) _]; discriminate].
    + split; [reflexivity|]. cbn. split; auto.
    + unfold fstate. rewrite concat_map_snoc, snoc_push_inj, <- D. cbn. split; [rewrite app_nil_r; reflexivity|].
      split; [discriminate|intros [(t & H) _]; discriminate].
Qed.

(** ** Collecting text *)

(** Borrowed and computed fragments have the same content. *)
Lemma text_col_core_frags fs : forall c,
  run text_col_step (c, false) (map ETextFragC fs) =
  Ok (fold_left frag_push_computed fs c, false).
Proof. induction fs as [|f fs IH]; intros c; [reflexivity|]. cbn. apply IH. Qed.

Lemma text_col_lower es : Forall (fun e => text_col_over e = true \/ required e = true) es ->
  lower_all overrides_nothing es = map (fun e => match e with ETextFrag s => ETextFragC s | e => e end) es.
Proof.
  induction es as [|e es IH]; intros F; [reflexivity|]. inversion F as [|? ? H F']; subst.
  rewrite lower_all_cons, IH by assumption. cbn [map].
  replace (lower overrides_nothing depth e) with
    [match e with ETextFrag s => ETextFragC s | e => e end]; [reflexivity|].
  destruct e; try reflexivity; try (destruct H as [H|H]; discriminate).
  destruct t; try reflexivity; try (destruct H as [H|H]; discriminate);
  destruct H as [H|H]; unfold required in H; cbn [default_calls] in H; try discriminate;
  destruct (fits I64 z); discriminate.
Qed.

Definition col_agree (r1 r2 : res col) : Prop :=
  match r1, r2 with
  | Ok c1, Ok c2 => c_data (fst c1) = c_data (fst c2) /\ snd c1 = snd c2
  | Err c1, Err c2 => snd c1 = snd c2
  | _, _ => False
  end.

Lemma frag_push_data c s : c_data (frag_push c s) = c_data c ++ s.
Proof. unfold frag_push. destruct (c_data c) eqn:E; cbn; rewrite ?E; reflexivity. Qed.

Lemma text_col_same es : forall c1 c2 b, c_data c1 = c_data c2 ->
  col_agree (run text_col_step (c1, b) es)
            (run text_col_step (c2, b) (map (fun e => match e with ETextFrag s => ETextFragC s | e => e end) es)).
Proof.
  induction es as [|e es IH]; intros c1 c2 b E; [split; auto|].
  cbn [map run]. destruct e; cbn [text_col_step bind col_fail col_agree fst snd]; auto.
  - apply IH. rewrite frag_push_data. cbn. rewrite E. reflexivity.
  - apply IH. cbn. rewrite E. reflexivity.
Qed.

Lemma text_collect_tree t c : ranged t = true ->
  match run text_col_step (c, false) (lower_all text_col_over (emit t)) with
  | Ok c' => collected_text t = Some (skipn (List.length (c_data c)) (c_data (fst c'))) /\ snd c' = false
  | Err c' => collected_text t = None /\ snd c' = true
  | Panic => False
  end.
Proof.
  intros R.
  pose proof (text_col_same (lower_all text_col_over (emit t)) c c false eq_refl) as S.
  rewrite <- text_col_lower in S.
  - rewrite lower_all_twice, lower_all_meaning in S by (try discriminate; exact R).
    unfold collected_text. destruct (simplify t) as [|b|z|f|n fs|n vs]; cbn [emit_core] in S;
      try (cbn in S; destruct (run text_col_step _ _) as [[]|[]|]; cbn in S; try contradiction; split; auto; fail).
    cbn [run text_col_step bind] in S. rewrite run_app, text_col_core_frags in S.
    cbn [bind run text_col_step] in S.
    destruct (run text_col_step _ _) as [[c' e']|c'|]; cbn in S; try contradiction.
    destruct S as [D ->]. cbn [fst snd]. split; [|reflexivity]. rewrite D.
    rewrite fold_push_computed. destruct fs as [|f fs].
    + rewrite skipn_all. reflexivity.
    + cbn [c_data]. rewrite skipn_app, skipn_all, Nat.sub_diag. reflexivity.
  - apply lower_all_done.
Qed.

(** ** Collecting bytes *)

Notation bmeth := (meth bin_col_over bin_col_step).

Definition bin_ok (c : cow) (t : tree) (r : res col) : Prop :=
  match collected_bytes t with
  | Some s => exists c', r = Ok (c', false) /\ c_data c' = c_data c ++ s
  | None => exists c', r = Err (c', true)
  end.

Lemma bmeth_step c e : bin_col_over e = true \/ required e = true -> bmeth c e = bin_col_step c e.
Proof.
  intros H. rewrite meth_unfold. destruct (bin_col_over e) eqn:E; [reflexivity|].
  destruct H as [H|H]; [discriminate|]. unfold required, default_evs in *.
  destruct (default_calls e); [discriminate|]. reflexivity.
Qed.
Lemma bmeth_default c e ds : bin_col_over e = false -> default_evs e = Some ds ->
  bmeth c e = run bmeth c ds.
Proof. intros H D. rewrite meth_unfold, H, D. reflexivity. Qed.

Lemma bmeth_i64 c z : bmeth (c, false) (EInt I64 z) = Err (c, true).
Proof. rewrite bmeth_step by (right; reflexivity). reflexivity. Qed.
Lemma bmeth_128 c t z : (t = U128 \/ t = I128) -> bmeth (c, false) (EInt t z) = Err (c, true).
Proof.
  intros H. assert (bin_col_over (EInt t z) = false) by (destruct H; subst; reflexivity).
  destruct (fits I64 z) eqn:F.
  - rewrite meth_int_small by assumption. apply bmeth_i64.
  - rewrite meth_int_big by assumption. rewrite run_cons.
    rewrite (bmeth_default _ (ETaggedBegin (Some NUMBER) None None) []) by reflexivity.
    cbn [run bind app]. rewrite bmeth_step by (right; reflexivity). reflexivity.
Qed.
Lemma bmeth_int c t z : t <> U8 -> bmeth (c, false) (EInt t z) = Err (c, true).
Proof.
  intros H.
  assert (W : forall t, t <> U128 -> t <> I128 -> t <> I64 -> t <> U8 ->
     bmeth (c, false) (EInt t z) = bmeth (c, false) (EInt (wider t) z)).
  { intros t0 A B C D. apply meth_int_wider; try assumption. destruct t0; try reflexivity; congruence. }
  destruct t; try congruence;
    repeat (rewrite W by discriminate; cbn [wider]);
    first [apply bmeth_i64 | apply bmeth_128; auto].
Qed.

Lemma bmeth_tagged c t l i : bmeth c (ETaggedBegin t l i) = Ok c.
Proof. rewrite (bmeth_default _ _ []) by reflexivity. reflexivity. Qed.
Lemma bmeth_tagged_end c t l i : bmeth c (ETaggedEnd t l i) = Ok c.
Proof. rewrite (bmeth_default _ _ []) by reflexivity. reflexivity. Qed.
Lemma bmeth_enum c t l i : bmeth c (EEnumBegin t l i) = Ok c.
Proof.
  rewrite (bmeth_default _ _ [ETaggedBegin t l i]) by reflexivity. cbn [run]. rewrite bmeth_tagged. reflexivity.
Qed.
Lemma bmeth_enum_end c t l i : bmeth c (EEnumEnd t l i) = Ok c.
Proof.
  rewrite (bmeth_default _ _ [ETaggedEnd t l i]) by reflexivity. cbn [run]. rewrite bmeth_tagged_end. reflexivity.
Qed.
Lemma bmeth_hint c t : bmeth c (ETagHint t) = Ok c.
Proof. rewrite (bmeth_default _ _ []) by reflexivity. reflexivity. Qed.
Lemma bmeth_seq c n : bmeth c (ESeqBegin n) = Ok c.
Proof. rewrite bmeth_step by (right; reflexivity). reflexivity. Qed.
Lemma bmeth_seq_val c : bmeth c ESeqValBegin = Ok c.
Proof. rewrite bmeth_step by (right; reflexivity). reflexivity. Qed.
Lemma bmeth_seq_val_end c : bmeth c ESeqValEnd = Ok c.
Proof. rewrite bmeth_step by (right; reflexivity). reflexivity. Qed.
Lemma bmeth_seq_end c : bmeth c ESeqEnd = Ok c.
Proof. rewrite bmeth_step by (right; reflexivity). reflexivity. Qed.
Lemma bmeth_tuple c t l i n : bmeth c (ETupleBegin t l i n) = Ok c.
Proof.
  rewrite (bmeth_default _ _ [ETaggedBegin t l i; ESeqBegin n]) by reflexivity. cbn [run].
  rewrite bmeth_tagged. cbn [bind]. rewrite bmeth_seq. reflexivity.
Qed.
Lemma bmeth_tuple_end c t l i : bmeth c (ETupleEnd t l i) = Ok c.
Proof.
  rewrite (bmeth_default _ _ [ESeqEnd; ETaggedEnd t l i]) by reflexivity. cbn [run].
  rewrite bmeth_seq_end. cbn [bind]. rewrite bmeth_tagged_end. reflexivity.
Qed.
Lemma bmeth_tuple_val c t i : bmeth c (ETupleValBegin t i) = Ok c.
Proof.
  rewrite (bmeth_default _ _ [ESeqValBegin]) by reflexivity. cbn [run]. rewrite bmeth_seq_val. reflexivity.
Qed.
Lemma bmeth_tuple_val_end c t i : bmeth c (ETupleValEnd t i) = Ok c.
Proof.
  rewrite (bmeth_default _ _ [ESeqValEnd]) by reflexivity. cbn [run]. rewrite bmeth_seq_val_end. reflexivity.
Qed.
Lemma bmeth_map c n : bmeth (c, false) (EMapBegin n) = Err (c, true).
Proof. rewrite bmeth_step by (left; reflexivity). reflexivity. Qed.
Lemma bmeth_record c t l i n : bmeth (c, false) (ERecordBegin t l i n) = Err (c, true).
Proof.
  rewrite (bmeth_default _ _ [ETaggedBegin t l i; EMapBegin n]) by reflexivity. cbn [run].
  rewrite bmeth_tagged. cbn [bind]. rewrite bmeth_map. reflexivity.
Qed.
Lemma bmeth_rectup c t l i n : bmeth (c, false) (ERecTupBegin t l i n) = Err (c, true).
Proof.
  rewrite (bmeth_default _ _ [ERecordBegin t l i n]) by reflexivity. cbn [run].
  rewrite bmeth_record. reflexivity.
Qed.
Lemma bmeth_text c n : bmeth (c, false) (ETextBegin n) = Err (c, true).
Proof. rewrite bmeth_step by (right; reflexivity). reflexivity. Qed.
Lemma bmeth_null c : bmeth (c, false) ENull = Err (c, true).
Proof. rewrite bmeth_step by (right; reflexivity). reflexivity. Qed.
Lemma bmeth_f64 c f : bmeth (c, false) (EF64 f) = Err (c, true).
Proof. rewrite bmeth_step by (right; reflexivity). reflexivity. Qed.

Lemma bin_frags_run fs : forall c, exists c',
  run bmeth (c, false) (map bin_frag fs) = Ok (c', false) /\
  c_data c' = c_data c ++ List.concat (map snd fs).
Proof.
  induction fs as [|[b s] fs IH]; intros c; cbn [map run List.concat snd].
  - exists c. rewrite app_nil_r. auto.
  - destruct b; unfold bin_frag; cbn [fst snd]; rewrite bmeth_step by (left; reflexivity);
      cbn [bin_col_step fst snd bind].
    + destruct (IH (frag_push c s)) as (c' & E & D). exists c'. split; [exact E|].
      rewrite D, frag_push_data, <- app_assoc. reflexivity.
    + destruct (IH (frag_push_computed c s)) as (c' & E & D). exists c'. split; [exact E|].
      rewrite D. cbn. rewrite <- app_assoc. reflexivity.
Qed.

Lemma bin_collect_tree : forall t c, bin_ok c t (run bmeth (c, false) (emit t)).
Proof.
  induction t using tree_ind'; intros c; unfold bin_ok in *; cbn [emit collected_bytes];
    rewrite ?run_cons.
  - rewrite bmeth_null. cbn. eauto.
  - rewrite bmeth_step by (right; reflexivity). eexists; reflexivity.
  - destruct t; try (rewrite bmeth_int by discriminate; cbn; eauto; fail).
    rewrite bmeth_step by (left; reflexivity). cbn. eauto.
  - rewrite (bmeth_default _ _ [EF64 (f32_to_f64 f)]) by reflexivity. cbn [run].
    rewrite bmeth_f64. cbn. eauto.
  - rewrite bmeth_f64. cbn. eauto.
  - rewrite bmeth_text. cbn. eauto.
  - rewrite bmeth_step by (left; reflexivity). cbn [bin_col_step bind]. rewrite run_app.
    destruct (bin_frags_run fs c) as (c' & E & D). rewrite E. cbn [bind run].
    rewrite bmeth_step by (left; reflexivity). cbn [bin_col_step bind]. eauto.
  - rewrite meth_tag by reflexivity. rewrite run_cons, bmeth_tagged. cbn [bind].
    destruct (otag_is t RUST_OPTION_NONE); [cbn [app]; rewrite run_cons, bmeth_null; cbn; eauto|].
    destruct l as [[lt [| |] lg]|]; cbn -[meth]; rewrite ?bmeth_text, ?bmeth_null; cbn; eauto.
  - rewrite bmeth_hint. cbn [bind]. apply IHt.
  - rewrite bmeth_tagged. cbn [bind]. rewrite run_app. specialize (IHt c).
    destruct (collected_bytes t0) as [s|].
    + destruct IHt as (c' & -> & D). cbn [bind run]. rewrite bmeth_tagged_end. cbn. eauto.
    + destruct IHt as (c' & ->). cbn. eauto.
  - rewrite bmeth_enum. cbn [bind]. rewrite run_app. specialize (IHt c).
    destruct (collected_bytes t0) as [s|].
    + destruct IHt as (c' & -> & D). cbn [bind run]. rewrite bmeth_enum_end. cbn. eauto.
    + destruct IHt as (c' & ->). cbn. eauto.
  - rewrite bmeth_seq. cbn [bind]. rewrite run_app. revert c.
    induction vs as [|v vs IHvs]; intros c.
    + cbn [flat_map run bind]. rewrite bmeth_seq_end. cbn. exists c. rewrite app_nil_r. auto.
    + inversion H as [|? ? Hv Hvs]; subst. specialize (IHvs Hvs). cbn [flat_map].
      rewrite run_app, run_cons, bmeth_seq_val. cbn [bind]. rewrite run_app. specialize (Hv c).
      destruct (collected_bytes v) as [s|].
      * destruct Hv as (c1 & -> & D1). cbn [bind run]. rewrite bmeth_seq_val_end. cbn [bind].
        specialize (IHvs c1). match type of IHvs with match ?x with _ => _ end => destruct x as [s2|] end.
        -- destruct IHvs as (c2 & E2 & D2). exists c2. split; [exact E2|].
           rewrite D2, D1, app_assoc. reflexivity.
        -- exact IHvs.
      * destruct Hv as (c1 & ->). cbn. eauto.
  - rewrite bmeth_map. cbn. eauto.
  - rewrite bmeth_record. cbn. eauto.
  - rewrite bmeth_tuple. cbn [bind]. rewrite run_app. revert c.
    induction fs as [|[[ft fi] v] vs IHvs]; intros c.
    + cbn [flat_map run bind]. rewrite bmeth_tuple_end. cbn. exists c. rewrite app_nil_r. auto.
    + inversion H as [|? ? Hv Hvs]; subst. specialize (IHvs Hvs). cbn [flat_map]. cbn [snd] in Hv.
      rewrite run_app, run_cons, bmeth_tuple_val. cbn [bind]. rewrite run_app. specialize (Hv c).
      destruct (collected_bytes v) as [s|].
      * destruct Hv as (c1 & -> & D1). cbn [bind run]. rewrite bmeth_tuple_val_end. cbn [bind].
        specialize (IHvs c1). match type of IHvs with match ?x with _ => _ end => destruct x as [s2|] end.
        -- destruct IHvs as (c2 & E2 & D2). exists c2. split; [exact E2|].
           rewrite D2, D1, app_assoc. reflexivity.
        -- exact IHvs.
      * destruct Hv as (c1 & ->). cbn. eauto.
  - rewrite bmeth_rectup. cbn. eauto.
Qed.

(** ** Any behaviour: the collectors fail only with [err] set *)
Lemma text_col_err es : forall c c', run text_col_step (c, false) es = Err c' -> snd c' = true.
Proof.
  induction es as [|e es IH]; intros c c' H; [discriminate|]. cbn [run] in H.
  destruct e; cbn [text_col_step col_fail bind fst snd] in H; try (injection H as <-; reflexivity); eapply IH; eauto.
Qed.
Lemma bin_col_err es : forall c c', run bin_col_step (c, false) es = Err c' -> snd c' = true.
Proof.
  induction es as [|e es IH]; intros c c' H; [discriminate|]. cbn [run] in H.
  destruct e; cbn [bin_col_step col_fail bind fst snd] in H; try (injection H as <-; reflexivity); try solve [eapply IH; eauto].
  destruct t; cbn [bind] in H; try (injection H as <-; reflexivity); eapply IH; eauto.
Qed.
Lemma text_col_ok es : forall c c', run text_col_step (c, false) es = Ok c' -> snd c' = false.
Proof.
  induction es as [|e es IH]; intros c c' H; [injection H as <-; reflexivity|]. cbn [run] in H.
  destruct e; cbn [text_col_step col_fail bind fst snd] in H; try discriminate; eapply IH; eauto.
Qed.
Lemma bin_col_ok es : forall c c', run bin_col_step (c, false) es = Ok c' -> snd c' = false.
Proof.
  induction es as [|e es IH]; intros c c' H; [injection H as <-; reflexivity|]. cbn [run] in H.
  destruct e; cbn [bin_col_step col_fail bind fst snd] in H; try discriminate; try solve [eapply IH; eauto].
  destruct t; cbn [bind] in H; try discriminate; eapply IH; eauto.
Qed.
Lemma text_col_nopanic es : forall c, run text_col_step c es <> Panic.
Proof.
  induction es as [|e es IH]; intros c; [discriminate|]. cbn [run].
  destruct e; cbn [text_col_step col_fail bind]; try discriminate; apply IH.
Qed.
Lemma bin_col_nopanic es : forall c, run bin_col_step c es <> Panic.
Proof.
  induction es as [|e es IH]; intros c; [discriminate|]. cbn [run].
  destruct e; cbn [bin_col_step col_fail bind]; try discriminate; try apply IH.
  destruct t; cbn [bind]; try discriminate; apply IH.
Qed.
