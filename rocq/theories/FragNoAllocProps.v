(** * FragNoAllocProps: C74, text and binary buffers without an allocator *)

From Verif Require Import Base Event Tree LowerModel LowerSpec FlatProofs LowerProofs MethProofs ExtractProofs FragModel FragSpec FragProofs
  BufferModel BufferSpec BufferProofs CollectProps FragNoAllocModel FragNoAllocSpec.

(** ** Proofs *)
Section Na.
  Variable dbg : bool.
  Notation tm := (meth text_col_over (nf_text_step dbg)).
  Notation bm := (meth bin_col_over (nf_bin_step dbg)).

  (** What the fragments do to a buffer. *)
  Fixpoint feed_all (c : bytes) (fs : list (bool * bytes)) : res bytes :=
    match fs with
    | [] => Ok c
    | (b, s) :: fs' => (if b then nf_push dbg c s else nf_computed dbg c s) >>= fun c' => feed_all c' fs'
    end.
  Definition fed (c : bytes) (h : list (bool * bytes) * bool) : res (bytes * bool) :=
    match feed_all c (fst h) with
    | Ok c' => if snd h then Ok (c', false) else Err (c', true)
    | Err c' => Err (c', true)
    | Panic => Panic
    end.
  Lemma feed_all_app a : forall c b, feed_all c (a ++ b) = (feed_all c a >>= fun c' => feed_all c' b).
  Proof.
    induction a as [|[x s] a IH]; intros c b; [reflexivity|]. cbn [app feed_all].
    destruct (if x then nf_push dbg c s else nf_computed dbg c s); cbn [bind]; auto.
  Qed.
  Lemma fed_then c h (k : bytes * bool -> res (bytes * bool)) :
    (forall c, k c = Ok c) -> (fed c h >>= k) = fed c h.
  Proof.
    intros K. unfold fed. destruct (feed_all c (fst h)) as [c'|c'|]; [|reflexivity..]. destruct (snd h); cbn [bind]; [apply K|reflexivity].
  Qed.
  Lemma fed_nil c : fed c ([], true) = Ok (c, false). Proof. reflexivity. Qed.
  Lemma fed_no c : fed c ([], false) = Err (c, true). Proof. reflexivity. Qed.

  Lemma tm_step c e : text_col_over e = true \/ required e = true -> tm c e = nf_text_step dbg c e.
  Proof.
    intros H. rewrite meth_unfold. destruct (text_col_over e) eqn:E; [reflexivity|].
    destruct H as [H|H]; [discriminate|]. unfold required, default_evs in *. destruct (default_calls e); [discriminate|]. reflexivity.
  Qed.
  Lemma bm_step c e : bin_col_over e = true \/ required e = true -> bm c e = nf_bin_step dbg c e.
  Proof.
    intros H. rewrite meth_unfold. destruct (bin_col_over e) eqn:E; [reflexivity|].
    destruct H as [H|H]; [discriminate|]. unfold required, default_evs in *. destruct (default_calls e); [discriminate|]. reflexivity.
  Qed.
  Lemma tm_default c e ds : text_col_over e = false -> default_evs e = Some ds -> tm c e = run tm c ds.
  Proof. intros H D. rewrite meth_unfold, H, D. reflexivity. Qed.
  Lemma bm_default c e ds : bin_col_over e = false -> default_evs e = Some ds -> bm c e = run bm c ds.
  Proof. intros H D. rewrite meth_unfold, H, D. reflexivity. Qed.

  (** Text. *)
  Lemma catch_ok (f : res bytes) (k : bytes * bool -> res (bytes * bool)) :
    (nf_catch false f >>= k) = match f with Ok c' => k (c', false) | Err c' => Err (c', true) | Panic => Panic end.
  Proof. destruct f; reflexivity. Qed.
  Lemma tm_frags fs : forall c, run tm (c, false) (map text_frag fs) = fed c (fs, true).
  Proof.
    induction fs as [|[b s] fs IH]; intros c; [reflexivity|]. cbn [map]. rewrite run_cons. unfold text_frag at 1. cbn [fst snd].
    unfold fed. cbn [fst snd feed_all]. destruct b; rewrite tm_step by (first [left; reflexivity|right; reflexivity]);
      cbn [nf_text_step fst snd]; rewrite catch_ok; [destruct (nf_push dbg c s) as [c'|c'|]|destruct (nf_computed dbg c s) as [c'|c'|]];
      cbn [bind]; try reflexivity; apply IH.
  Qed.
  Lemma tm_tagged c t l i : tm c (ETaggedBegin t l i) = Ok c.
  Proof. rewrite (tm_default _ _ []) by reflexivity. reflexivity. Qed.
  Lemma tm_tagged_end c t l i : tm c (ETaggedEnd t l i) = Ok c.
  Proof. rewrite (tm_default _ _ []) by reflexivity. reflexivity. Qed.
  Lemma tm_i64 c z : tm (c, false) (EInt I64 z) = Err (c, true).
  Proof. rewrite tm_step by (right; reflexivity). reflexivity. Qed.
  Lemma computed_fails c s : nf_computed dbg c s = nf_refuse dbg c. Proof. reflexivity. Qed.
  Definition int_fed (c : bytes) (z : Z) : res (bytes * bool) :=
    if fits I64 z then Err (c, true) else fed c ([(false, dec z)], true).
  Lemma tm_128 c t z : (t = U128 \/ t = I128) -> tm (c, false) (EInt t z) = int_fed c z.
  Proof.
    intros H. assert (text_col_over (EInt t z) = false) by (destruct H; subst; reflexivity). unfold int_fed.
    destruct (fits I64 z) eqn:F.
    - rewrite meth_int_small by assumption. apply tm_i64.
    - rewrite meth_int_big by assumption. rewrite run_cons, tm_tagged. cbn [bind app].
      rewrite run_cons, tm_step by (right; reflexivity). cbn [nf_text_step bind].
      rewrite run_app, run_app.
      replace (run tm (c, false) (map ETextFragC (dec_frags z))) with (fed c ([(false, dec z)], true)).
      + rewrite (fed_then c _ (fun s => run tm s [ETextEnd])) by (intros c'; rewrite run_one, tm_step by (right; reflexivity); reflexivity).
        rewrite (fed_then c _ (fun s => run tm s [_])) by (intros c'; rewrite run_one; apply tm_tagged_end). reflexivity.
      + assert (D : exists d ds, dec_frags z = d :: ds) by (unfold dec_frags; destruct (z <? 0)%Z; eauto). destruct D as (d & ds & ->).
        cbn [map]. rewrite run_cons, tm_step by (right; reflexivity). cbn [nf_text_step fst snd]. rewrite catch_ok, computed_fails.
        unfold fed. cbn [fst feed_all]. rewrite computed_fails. unfold nf_refuse. destruct dbg; reflexivity.
  Qed.
  Lemma tm_int c t z : fits t z = true -> tm (c, false) (EInt t z) = int_fed c z.
  Proof.
    intros F.
    assert (W : forall t, t <> U128 -> t <> I128 -> t <> I64 -> tm (c, false) (EInt t z) = tm (c, false) (EInt (wider t) z))
      by (intros t0 A B C; apply meth_int_wider; try assumption; reflexivity).
    destruct t; repeat (rewrite W by discriminate; cbn [wider]); try (apply tm_128; auto; fail);
      rewrite tm_i64; unfold int_fed; replace (fits I64 z) with true; try reflexivity; symmetry;
      unfold fits, ity_min, ity_max in *; lia.
  Qed.
  Definition text_heard (t : tree) : list (bool * bytes) * bool :=
    match text_given t with Some fs => (fs, true) | None => ([], false) end.
  Lemma tm_seq c n : tm (c, false) (ESeqBegin n) = Err (c, true).
  Proof. rewrite tm_step by (right; reflexivity). reflexivity. Qed.
  Lemma tm_map c n : tm (c, false) (EMapBegin n) = Err (c, true).
  Proof. rewrite (tm_default _ _ [ESeqBegin n]) by reflexivity. rewrite run_one. apply tm_seq. Qed.
  Lemma tm_record c t l i n : tm (c, false) (ERecordBegin t l i n) = Err (c, true).
  Proof.
    rewrite (tm_default _ _ [ETaggedBegin t l i; EMapBegin n]) by reflexivity. rewrite run_cons, tm_tagged. cbn [bind]. rewrite run_one. apply tm_map.
  Qed.
  Lemma text_heard_run t : forall c, ranged t = true -> run tm (c, false) (emit t) = fed c (text_heard t).
  Proof.
    induction t using tree_ind'; intros c R; unfold text_heard; cbn [emit text_given]; try (rewrite run_cons).
    - rewrite tm_step by (right; reflexivity). reflexivity.
    - rewrite tm_step by (right; reflexivity). reflexivity.
    - cbn [ranged] in R. rewrite tm_int by exact R. unfold int_fed. destruct (fits I64 z); [reflexivity|].
      unfold fed. cbn [fst snd]. destruct (feed_all c _); reflexivity.
    - rewrite (tm_default _ _ [EF64 (f32_to_f64 f)]) by reflexivity. rewrite run_one, tm_step by (right; reflexivity). reflexivity.
    - rewrite tm_step by (right; reflexivity). reflexivity.
    - rewrite tm_step by (right; reflexivity). cbn [nf_text_step bind]. rewrite run_app, tm_frags.
      apply fed_then. intros c'. rewrite run_one, tm_step by (right; reflexivity). reflexivity.
    - rewrite (tm_default _ _ [ESeqBegin n]) by reflexivity. rewrite run_one, tm_seq. reflexivity.
    - rewrite meth_tag by reflexivity. rewrite run_cons, tm_tagged. cbn [bind]. destruct (otag_is t RUST_OPTION_NONE).
      + cbn [app]. rewrite run_cons, tm_step by (right; reflexivity). destruct l; reflexivity.
      + destruct l as [l|]; [|cbn [app]; rewrite run_cons, tm_step by (right; reflexivity); reflexivity].
        unfold as_static_str. destruct (l_kind l); cbn [app]; rewrite run_cons, tm_step by (right; reflexivity); cbn [nf_text_step bind];
          rewrite run_cons, tm_step by (first [left; reflexivity|right; reflexivity]); cbn [nf_text_step fst snd]; rewrite catch_ok;
          unfold fed; cbn [fst snd feed_all];
          [destruct (nf_push dbg c (l_text l)) as [c'|c'|]|destruct (nf_computed dbg c (l_text l)) as [c'|c'|]|destruct (nf_computed dbg c (l_text l)) as [c'|c'|]];
          cbn [bind]; try reflexivity;
          rewrite run_cons, tm_step by (right; reflexivity); cbn [nf_text_step bind]; rewrite run_one, tm_tagged_end; reflexivity.
    - rewrite (tm_default _ _ []) by reflexivity. cbn [run bind]. apply IHt, R.
    - rewrite tm_tagged. cbn [bind]. rewrite run_app, IHt by exact R. apply fed_then. intros c'. rewrite run_one. apply tm_tagged_end.
    - rewrite (tm_default _ _ [ETaggedBegin t l i]) by reflexivity. rewrite run_one, tm_tagged. cbn [bind].
      rewrite run_app, IHt by exact R. apply fed_then. intros c'. rewrite run_one.
      rewrite (tm_default _ _ [ETaggedEnd t l i]) by reflexivity. rewrite run_one. apply tm_tagged_end.
    - rewrite tm_seq. reflexivity.
    - rewrite tm_map. reflexivity.
    - rewrite tm_record. reflexivity.
    - rewrite (tm_default _ _ [ETaggedBegin t l i; ESeqBegin n]) by reflexivity. rewrite run_cons, tm_tagged. cbn [bind]. rewrite run_one, tm_seq. reflexivity.
    - rewrite (tm_default _ _ [ERecordBegin t l i n]) by reflexivity. rewrite run_one, tm_record. reflexivity.
  Qed.

  (** Bytes. *)
  Lemma bm_frags fs : forall c, run bm (c, false) (map bin_frag fs) = fed c (fs, true).
  Proof.
    induction fs as [|[b s] fs IH]; intros c; [reflexivity|]. cbn [map]. rewrite run_cons. unfold bin_frag at 1. cbn [fst snd].
    unfold fed. cbn [fst snd feed_all]. destruct b; rewrite bm_step by (left; reflexivity);
      cbn [nf_bin_step fst snd]; rewrite catch_ok; [destruct (nf_push dbg c s) as [c'|c'|]|destruct (nf_computed dbg c s) as [c'|c'|]];
      cbn [bind]; try reflexivity; apply IH.
  Qed.
  Lemma bm_tagged c t l i : bm c (ETaggedBegin t l i) = Ok c.
  Proof. rewrite (bm_default _ _ []) by reflexivity. reflexivity. Qed.
  Lemma bm_tagged_end c t l i : bm c (ETaggedEnd t l i) = Ok c.
  Proof. rewrite (bm_default _ _ []) by reflexivity. reflexivity. Qed.
  Lemma bm_i64 c z : bm (c, false) (EInt I64 z) = Err (c, true).
  Proof. rewrite bm_step by (right; reflexivity). reflexivity. Qed.
  Lemma bm_text c n : bm (c, false) (ETextBegin n) = Err (c, true).
  Proof. rewrite bm_step by (right; reflexivity). reflexivity. Qed.
  Lemma bm_null c : bm (c, false) ENull = Err (c, true).
  Proof. rewrite bm_step by (right; reflexivity). reflexivity. Qed.
  Lemma bm_f64 c f : bm (c, false) (EF64 f) = Err (c, true).
  Proof. rewrite bm_step by (right; reflexivity). reflexivity. Qed.
  Lemma bm_128 c t z : (t = U128 \/ t = I128) -> bm (c, false) (EInt t z) = Err (c, true).
  Proof.
    intros H. assert (bin_col_over (EInt t z) = false) by (destruct H; subst; reflexivity).
    destruct (fits I64 z) eqn:F.
    - rewrite meth_int_small by assumption. apply bm_i64.
    - rewrite meth_int_big by assumption. rewrite run_cons, bm_tagged. cbn [bind app]. rewrite run_cons, bm_text. reflexivity.
  Qed.
  Lemma bm_int c t z : t <> U8 -> bm (c, false) (EInt t z) = Err (c, true).
  Proof.
    intros H.
    assert (W : forall t, t <> U128 -> t <> I128 -> t <> I64 -> t <> U8 ->
       bm (c, false) (EInt t z) = bm (c, false) (EInt (wider t) z)).
    { intros t0 A B C D. apply meth_int_wider; try assumption. destruct t0; try reflexivity; congruence. }
    destruct t; try congruence; repeat (rewrite W by discriminate; cbn [wider]); first [apply bm_i64 | apply bm_128; auto].
  Qed.
  Lemma bm_map c n : bm (c, false) (EMapBegin n) = Err (c, true).
  Proof. rewrite bm_step by (left; reflexivity). reflexivity. Qed.
  Lemma bm_record c t l i n : bm (c, false) (ERecordBegin t l i n) = Err (c, true).
  Proof.
    rewrite (bm_default _ _ [ETaggedBegin t l i; EMapBegin n]) by reflexivity. rewrite run_cons, bm_tagged. cbn [bind]. rewrite run_one. apply bm_map.
  Qed.
  Lemma bm_seq c n : bm c (ESeqBegin n) = Ok c.
  Proof. rewrite bm_step by (right; reflexivity). reflexivity. Qed.
  Lemma bm_seq_val c : bm c ESeqValBegin = Ok c.
  Proof. rewrite bm_step by (right; reflexivity). reflexivity. Qed.
  Lemma bm_seq_val_end c : bm c ESeqValEnd = Ok c.
  Proof. rewrite bm_step by (right; reflexivity). reflexivity. Qed.
  Lemma bm_seq_end c : bm c ESeqEnd = Ok c.
  Proof. rewrite bm_step by (right; reflexivity). reflexivity. Qed.
  Lemma bm_blocks {A} (block : A -> list ev) (h : A -> list (bool * bytes) * bool) l :
    Forall (fun a => forall c, run bm (c, false) (block a) = fed c (h a)) l ->
    forall c, run bm (c, false) (flat_map block l) = fed c (heard_all h l).
  Proof.
    induction 1 as [|a l H _ IH]; intros c; [reflexivity|]. cbn [heard_all flat_map]. rewrite run_app, H.
    destruct (h a) as [fs ok]. unfold fed at 1. cbn [fst snd]. destruct ok.
    - destruct (heard_all h l) as [fs' ok'] eqn:E. unfold fed. cbn [fst snd]. rewrite feed_all_app.
      destruct (feed_all c fs) as [c'|c'|]; cbn [bind]; try reflexivity. rewrite IH. reflexivity.
    - unfold fed. cbn [fst snd]. destruct (feed_all c fs); reflexivity.
  Qed.
  Lemma bytes_heard_run t : forall c, run bm (c, false) (emit t) = fed c (bytes_heard t).
  Proof.
    induction t using tree_ind'; intros c; cbn [emit bytes_heard]; try (rewrite run_cons).
    - rewrite bm_null. reflexivity.
    - rewrite bm_step by (right; reflexivity). reflexivity.
    - destruct t; try (rewrite bm_int by discriminate; reflexivity). rewrite bm_step by (left; reflexivity). cbn [nf_bin_step fst snd].
      rewrite catch_ok, computed_fails. unfold fed. cbn [fst snd feed_all]. rewrite computed_fails. unfold nf_refuse. destruct dbg; reflexivity.
    - rewrite (bm_default _ _ [EF64 (f32_to_f64 f)]) by reflexivity. rewrite run_one, bm_f64. reflexivity.
    - rewrite bm_f64. reflexivity.
    - rewrite bm_text. reflexivity.
    - rewrite bm_step by (left; reflexivity). cbn [nf_bin_step bind]. rewrite run_app, bm_frags.
      apply fed_then. intros c'. rewrite run_one, bm_step by (left; reflexivity). reflexivity.
    - rewrite meth_tag by reflexivity. rewrite run_cons, bm_tagged. cbn [bind].
      destruct (otag_is t RUST_OPTION_NONE); [cbn [app]; rewrite run_cons, bm_null; reflexivity|].
      destruct l as [l|]; [destruct (as_static_str l)|]; cbn [app]; rewrite run_cons, ?bm_text, ?bm_null; reflexivity.
    - rewrite (bm_default _ _ []) by reflexivity. cbn [run bind]. apply IHt.
    - rewrite bm_tagged. cbn [bind]. rewrite run_app, IHt. apply fed_then. intros c'. rewrite run_one. apply bm_tagged_end.
    - rewrite (bm_default _ _ [ETaggedBegin t l i]) by reflexivity. rewrite run_one, bm_tagged. cbn [bind].
      rewrite run_app, IHt. apply fed_then. intros c'. rewrite run_one.
      rewrite (bm_default _ _ [ETaggedEnd t l i]) by reflexivity. rewrite run_one. apply bm_tagged_end.
    - rewrite bm_seq. cbn [bind]. rewrite run_app.
      rewrite (bm_blocks (fun v => ESeqValBegin :: emit v ++ [ESeqValEnd]) bytes_heard).
      + apply fed_then. intros c'. rewrite run_one. apply bm_seq_end.
      + eapply Forall_impl; [|exact H]. intros v Hv c'. rewrite run_cons, bm_seq_val. cbn [bind]. rewrite run_app, Hv.
        apply fed_then. intros c''. rewrite run_one. apply bm_seq_val_end.
    - rewrite bm_map. reflexivity.
    - rewrite bm_record. reflexivity.
    - rewrite (bm_default _ _ [ETaggedBegin t l i; ESeqBegin n]) by reflexivity. rewrite run_cons, bm_tagged. cbn [bind].
      rewrite run_one, bm_seq. cbn [bind]. rewrite run_app.
      rewrite (bm_blocks _ (fun f => bytes_heard (snd f))).
      + apply fed_then. intros c'. rewrite run_one. rewrite (bm_default _ _ [ESeqEnd; ETaggedEnd t l i]) by reflexivity.
        rewrite run_cons, bm_seq_end. cbn [bind]. rewrite run_one. apply bm_tagged_end.
      + eapply Forall_impl; [|exact H]. intros [[ft fi] v] Hv c'. cbn [snd] in *. rewrite run_cons.
        rewrite (bm_default _ _ [ESeqValBegin]) by reflexivity. rewrite run_one, bm_seq_val. cbn [bind]. rewrite run_app, Hv.
        apply fed_then. intros c''. rewrite run_one. rewrite (bm_default _ _ [ESeqValEnd]) by reflexivity. rewrite run_one. apply bm_seq_val_end.
    - rewrite (bm_default _ _ [ERecordBegin t l i n]) by reflexivity. rewrite run_one, bm_record. reflexivity.
  Qed.

  (** What a new buffer makes of the fragments. *)
  Lemma feed_full c fs : c <> [] -> feed_all c fs = match fs with [] => Ok c | _ => nf_refuse dbg c end.
  Proof.
    intros H. destruct fs as [|[b s] fs]; [reflexivity|]. cbn [feed_all].
    assert (E : (if b then nf_push dbg c s else nf_computed dbg c s) = nf_refuse dbg c).
    { destruct b; [|reflexivity]. unfold nf_push. destruct c; [congruence|reflexivity]. }
    rewrite E. unfold nf_refuse. destruct dbg; reflexivity.
  Qed.
  Lemma feed_new fs : if one_borrow fs then feed_all [] fs = Ok (content fs) else exists c, feed_all [] fs = nf_refuse dbg c.
  Proof.
    induction fs as [|[b s] fs IH]; [reflexivity|]. unfold one_borrow in *. cbn [forallb fst feed_all].
    destruct b; cbn [andb].
    - change (nf_push dbg [] s) with (Ok s). cbn [bind]. unfold content. cbn [map snd List.concat]. fold (content fs).
      destruct fs as [|f fs]; [cbn; rewrite app_nil_r; reflexivity|].
      change (removelast ((true, s) :: f :: fs)) with ((true, s) :: removelast (f :: fs)).
      cbn [forallb] in IH |- *. destruct s as [|x s]; cbn [is_empty snd].
      + cbn [app andb]. exact IH.
      + rewrite andb_false_r. exists (x :: s). apply feed_full. discriminate.
    - exists []. unfold nf_computed, nf_refuse. cbn [frag_push_computed_noalloc]. destruct dbg; reflexivity.
  Qed.
  Lemma fed_new h (o := one_borrow (fst h)) : nf_collect_end (fed [] h) =
    if o then (if snd h then OOk (content (fst h)) else OErr) else if dbg then OPanic else OErr.
  Proof.
    subst o. pose proof (feed_new (fst h)) as F. unfold fed. destruct (one_borrow (fst h)).
    - rewrite F. destruct (snd h); reflexivity.
    - destruct F as (c & ->). unfold nf_refuse. destruct dbg; reflexivity.
  Qed.
End Na.

Lemma heard_given_all {A} (h : A -> list (bool * bytes) * bool) g l :
  Forall (fun a => g a = if snd (h a) then Some (fst (h a)) else None) l ->
  all_given (map g l) = if snd (heard_all h l) then Some (fst (heard_all h l)) else None.
Proof.
  induction 1 as [|a l E _ IH]; [reflexivity|]. cbn [map all_given heard_all]. rewrite E, IH. destruct (h a) as [fs ok]. cbn [fst snd].
  destruct ok; [|reflexivity]. destruct (heard_all h l) as [fs' ok']. cbn [fst snd]. destruct ok'; reflexivity.
Qed.
Lemma heard_given t : bytes_given t = if snd (bytes_heard t) then Some (fst (bytes_heard t)) else None.
Proof.
  induction t using tree_ind'; try reflexivity; cbn [bytes_given bytes_heard]; auto.
  - destruct t; reflexivity.
  - apply heard_given_all, H.
  - apply heard_given_all. eapply Forall_impl; [|exact H]. auto.
Qed.
Lemma one_borrow_lent fs : one_borrow fs = true -> lent fs = Some (content fs).
Proof.
  intros H. unfold lent, borrowed_whole. destruct (rev fs) as [|[b s] r] eqn:E; [reflexivity|].
  apply (f_equal (@rev _)) in E. rewrite rev_involutive in E. cbn [rev] in E. subst fs.
  unfold one_borrow in H. rewrite removelast_last, forallb_app in H. cbn [forallb fst] in H.
  apply andb_prop in H as [H1 H2]. apply andb_prop in H1 as [_ H1]. rewrite andb_true_r in H1. rewrite H1. cbn [andb].
  replace (forallb is_empty r) with true; [reflexivity|]. symmetry. rewrite forallb_forall in *. intros x I. apply H2. apply -> in_rev. exact I.
Qed.

(** ** C74 *)

(** [TextBuf::collect] without an allocator: the text of a value that lends it in
    one piece; anything else is an error, or a panic in a debug build if it is a
    text. *)
Theorem C74_text_collect :
  forall (dbg : bool) (v : list call) (t : tree), streams v t -> ranged t = true ->
  nf_text_collect dbg v =
    match text_given t with
    | Some fs => if one_borrow fs then OOk (content fs) else if dbg then OPanic else OErr
    | None => OErr
    end.
Proof.
  intros dbg v t H R. unfold nf_text_collect. rewrite run_impl_meth. unfold streams in H. rewrite !H. cbn [fst snd].
  rewrite text_heard_run by exact R. rewrite (fed_then dbg [] _ (fun s => Ok s)) by reflexivity. rewrite fed_new.
  unfold text_heard. destruct (text_given t) as [fs|]; reflexivity.
Qed.
(** The same for [BinaryBuf::collect]. *)
Theorem C74_binary_collect :
  forall (dbg : bool) (v : list call) (t : tree), streams v t ->
  nf_bin_collect dbg v =
    let '(fs, ok) := bytes_heard t in
    if one_borrow fs then if ok then OOk (content fs) else OErr else if dbg then OPanic else OErr.
Proof.
  intros dbg v t H. unfold nf_bin_collect. rewrite run_impl_meth. unfold streams in H. rewrite !H. cbn [fst snd].
  rewrite bytes_heard_run. rewrite (fed_then dbg [] _ (fun s => Ok s)) by reflexivity. rewrite fed_new.
  destruct (bytes_heard t) as [fs ok]. reflexivity.
Qed.
(** What is collected without an allocator is what is collected with one, and is
    borrowed there too. *)
Theorem C74_like_with_alloc :
  forall (dbg : bool) (v : list call) (t : tree) (s : bytes), streams v t ->
  (ranged t = true -> nf_text_collect dbg v = OOk s ->
     exists c, text_collect v = OOk c /\ frag_inner c = s /\ frag_borrowed c = Some s) /\
  (nf_bin_collect dbg v = OOk s ->
     exists c, bin_collect v = OOk c /\ frag_inner c = s /\ frag_borrowed c = Some s).
Proof.
  intros dbg v t s H. split.
  - intros R. rewrite (C74_text_collect dbg v t H R). pose proof (C14_text_collect_lends v t H R) as L.
    destruct (text_given t) as [fs|]; [|discriminate]. destruct (one_borrow fs) eqn:O; [|destruct dbg; discriminate].
    intros [= <-]. rewrite (one_borrow_lent fs O) in L. exact L.
  - rewrite (C74_binary_collect dbg v t H). pose proof (C14_binary_collect_lends v t H) as L. rewrite heard_given in L.
    destruct (bytes_heard t) as [fs ok]. cbn [fst snd] in L. destruct (one_borrow fs) eqn:O; [|destruct dbg; discriminate].
    destruct ok; [|discriminate]. intros [= <-]. rewrite (one_borrow_lent fs O) in L. exact L.
Qed.

(** After any history of calls a buffer holds the first fragment borrowed since
    the last clear that is not empty, and nothing else. *)
Lemma nf_step_held dbg c o :
  match nf_step dbg c o with
  | Ok c' => c' = held_next c o /\ needs_alloc c o = false
  | Err c' => c' = held_next c o /\ (needs_alloc c o = true /\ dbg = false \/ o = FPushDisplay [] false)
  | Panic => needs_alloc c o = true /\ dbg = true
  end.
Proof.
  destruct o as [s|s|ps ok| |]; cbn [nf_step needs_alloc held_next]; auto.
  - unfold nf_push, nf_refuse. destruct c; cbn; [auto|]. destruct dbg; auto.
  - unfold nf_computed, nf_refuse. cbn. destruct dbg; auto.
  - destruct ps as [|p ps]; cbn [nf_display]; [destruct ok; eauto|]. unfold nf_computed, nf_refuse. cbn. destruct dbg; cbn; auto.
Qed.
Lemma nf_run_held os : forall c, nf_run false c os = Some (fold_left held_next os c).
Proof.
  induction os as [|o os IH]; intros c; [reflexivity|]. cbn [nf_run fold_left]. pose proof (nf_step_held false c o) as H.
  destruct (nf_step false c o) as [c'|c'|]; [destruct H as [-> _]|destruct H as [-> _]|destruct H; discriminate]; apply IH.
Qed.
Theorem C74_history :
  forall os : list fop,
  nf_run false [] os = Some (held os) /\
  forall o, (exists c, nf_step false (held os) o = Ok c) <->
    needs_alloc (held os) o = false /\ (forall ps, o <> FPushDisplay ps false).
Proof.
  intros os. split; [apply nf_run_held|]. intros o. split.
  - intros (c & E). pose proof (nf_step_held false (held os) o) as H. rewrite E in H. split; [apply H|].
    intros ps ->. revert E. cbn [nf_step]. generalize (held os). induction ps as [|p ps IH]; intros c0; cbn; discriminate.
  - intros [N D]. pose proof (nf_step_held false (held os) o) as H. destruct (nf_step false (held os) o) as [c|c|].
    + eauto.
    + destruct H as [_ [[X _]|X]]; [congruence|]. destruct (D _ X).
    + destruct H; congruence.
Qed.
(** In a debug build a history either goes the same way or panics at the first call
    that needs an allocator. *)
Theorem C74_debug_history :
  forall (os : list fop) (c : bytes),
  nf_run true [] os = Some c <->
  c = held os /\ forall pre o post, os = pre ++ o :: post -> needs_alloc (held pre) o = false.
Proof.
  intros os c. induction os as [|o os IH] using rev_ind in c |- *.
  - cbn. split; [intros [= <-]; split; [reflexivity|]; intros [|] ? ? E; discriminate E|intros [-> _]; reflexivity].
  - assert (A : forall os c0, nf_run true c0 (os ++ [o]) =
      match nf_run true c0 os with Some c => match nf_step true c o with Ok c' | Err c' => Some c' | Panic => None end | None => None end).
    { clear. induction os as [|p os IH]; intros c0; cbn [app nf_run].
      - destruct (nf_step true c0 o); reflexivity.
      - destruct (nf_step true c0 p); auto. }
    rewrite A. replace (held (os ++ [o])) with (held_next (held os) o) by (unfold held; rewrite fold_left_app; reflexivity).
    destruct (nf_run true [] os) as [c0|] eqn:E.
    + destruct (proj1 (IH c0) eq_refl) as [-> P]. pose proof (nf_step_held true (held os) o) as H. destruct (nf_step true (held os) o) as [c'|c'|].
      * destruct H as [-> N]. split; [|intros [-> _]; reflexivity]. intros [= <-]. split; [reflexivity|].
        intros pre o' post X. destruct post as [|z post] using rev_ind; [apply app_inj_tail in X as [-> ->]; exact N|].
        rewrite app_comm_cons, app_assoc in X. apply app_inj_tail in X as [-> _]. eapply P. reflexivity.
      * destruct H as [-> [[_ X]|X]]; [discriminate|]. split; [|intros [-> _]; reflexivity]. intros [= <-]. split; [reflexivity|].
        intros pre o' post Y. destruct post as [|z post _] using rev_ind.
        -- apply app_inj_tail in Y as [-> ->]. rewrite X. reflexivity.
        -- rewrite app_comm_cons, app_assoc in Y. apply app_inj_tail in Y as [-> _]. eapply P. reflexivity.
      * destruct H as [N _]. split; [discriminate|]. intros [_ Q]. specialize (Q os o [] eq_refl). congruence.
    + split; [discriminate|]. intros [_ Q]. exfalso.
      assert (X : None = Some (held os)); [|discriminate X]. apply IH. split; [reflexivity|].
      intros pre o' post ->. apply (Q pre o' (post ++ [o])). rewrite <- app_assoc. reflexivity.
Qed.

(** Concrete cases. *)
Example C74_sample :
  nf_text_collect true [CV [CE (ETextBegin None); CE (ETextFrag []); CE (ETextFrag (bs "ab")); CE ETextEnd]] = OOk (bs "ab") /\
  nf_text_collect false [CE (ETextBegin None); CE (ETextFrag (bs "a")); CE (ETextFrag (bs "b")); CE ETextEnd] = OErr /\
  nf_text_collect true [CE (ETextBegin None); CE (ETextFrag (bs "a")); CE (ETextFrag []); CE ETextEnd] = OPanic /\
  nf_text_collect true [CE (EBool true)] = OErr /\
  nf_bin_collect false [CE (ESeqBegin None); CE ESeqValBegin; CE (EBinBegin None); CE (EBinFrag (bs "a")); CE EBinEnd; CE ESeqValEnd; CE ESeqEnd] = OOk (bs "a") /\
  nf_bin_collect true [CE (ESeqBegin None); CE ESeqValBegin; CE (EInt U8 1); CE ESeqValEnd; CE ESeqValBegin; CE ENull; CE ESeqValEnd; CE ESeqEnd] = OPanic /\
  bytes_heard (TSeq None [TBin None [(true, bs "a")]; TNull; TInt U8 1]) = ([(true, bs "a")], false) /\
  held [FPush (bs "x"); FClear; FPush []; FPush (bs "ab"); FPush (bs "c"); FPushComputed (bs "d")] = bs "ab" /\
  nf_run true [] [FPush []; FPushDisplay [] false; FPush (bs "ab"); FClear; FPush (bs "c")] = Some (bs "c") /\
  nf_run true [] [FPush (bs "ab"); FPush (bs "c")] = None.
Proof. repeat split; vm_compute; reflexivity. Qed.

Print Assumptions C74_text_collect.
Print Assumptions C74_binary_collect.
Print Assumptions C74_like_with_alloc.
Print Assumptions C74_history.
Print Assumptions C74_debug_history.
