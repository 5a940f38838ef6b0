(** * CollectProps: what collected text and bytes borrow (C14) *)

From Verif Require Import Base Event Tree LowerModel LowerSpec FlatProofs LowerProofs MethProofs ExtractProofs FragModel FragSpec FragProofs BufferModel BufferSpec BufferProofs.

(** ** Specification

    The fragments of text in a value that is one: borrowed ones are marked. A number
    too big for an [i64] is its digits, a unit variant its label. *)
Fixpoint text_given (t : tree) : option (list (bool * bytes)) :=
  match t with
  | TText _ fs => Some fs
  | TInt _ z => if fits I64 z then None else Some [(false, dec z)]
  | TTag t (Some l) _ =>
      if otag_is t RUST_OPTION_NONE then None
      else Some [(match l_kind l with LStatic => true | _ => false end, l_text l)]
  | THint _ v | TTagged _ _ _ v | TEnum _ _ _ v => text_given v
  | _ => None
  end.
(** The fragments of bytes in a value made of them; a [u8] is a computed one. *)
Fixpoint all_given (os : list (option (list (bool * bytes)))) : option (list (bool * bytes)) :=
  match os with
  | [] => Some []
  | Some a :: os' => match all_given os' with Some b => Some (a ++ b) | None => None end
  | None :: _ => None
  end.
Fixpoint bytes_given (t : tree) : option (list (bool * bytes)) :=
  match t with
  | TBin _ fs => Some fs
  | TInt U8 z => Some [(false, [byte_of_Z z])]
  | TSeq _ vs => all_given (map bytes_given vs)
  | TTuple _ _ _ _ fs => all_given (map (fun f => bytes_given (snd f)) fs)
  | THint _ v | TTagged _ _ _ v | TEnum _ _ _ v => bytes_given v
  | _ => None
  end.
(** What a buffer that was given the fragments [fs] lends. *)
Definition lent (fs : list (bool * bytes)) : option bytes := if borrowed_whole fs then Some (content fs) else None.

(** ** Text *)
Notation tmeth := (meth text_col_over text_col_step).
Definition pushes (c : cow) (fs : list (bool * bytes)) : cow :=
  fold_left (fun c (f : bool * bytes) => if fst f then frag_push c (snd f) else frag_push_computed c (snd f)) fs c.

Lemma tmeth_step c e : text_col_over e = true \/ required e = true -> tmeth c e = text_col_step c e.
Proof.
  intros H. rewrite meth_unfold. destruct (text_col_over e) eqn:E; [reflexivity|].
  destruct H as [H|H]; [discriminate|]. unfold required, default_evs in *. destruct (default_calls e); [discriminate|]. reflexivity.
Qed.
Lemma tmeth_default c e ds : text_col_over e = false -> default_evs e = Some ds -> tmeth c e = run tmeth c ds.
Proof. intros H D. rewrite meth_unfold, H, D. reflexivity. Qed.

Lemma tmeth_tagged c t l i : tmeth c (ETaggedBegin t l i) = Ok c.
Proof. rewrite (tmeth_default _ _ []) by reflexivity. reflexivity. Qed.
Lemma tmeth_tagged_end c t l i : tmeth c (ETaggedEnd t l i) = Ok c.
Proof. rewrite (tmeth_default _ _ []) by reflexivity. reflexivity. Qed.
Lemma tmeth_enum c t l i : tmeth c (EEnumBegin t l i) = Ok c.
Proof. rewrite (tmeth_default _ _ [ETaggedBegin t l i]) by reflexivity. rewrite run_one. apply tmeth_tagged. Qed.
Lemma tmeth_enum_end c t l i : tmeth c (EEnumEnd t l i) = Ok c.
Proof. rewrite (tmeth_default _ _ [ETaggedEnd t l i]) by reflexivity. rewrite run_one. apply tmeth_tagged_end. Qed.
Lemma tmeth_hint c t : tmeth c (ETagHint t) = Ok c.
Proof. rewrite (tmeth_default _ _ []) by reflexivity. reflexivity. Qed.
Lemma tmeth_seq c n : tmeth (c, false) (ESeqBegin n) = Err (c, true).
Proof. rewrite tmeth_step by (right; reflexivity). reflexivity. Qed.
Lemma tmeth_map c n : tmeth (c, false) (EMapBegin n) = Err (c, true).
Proof. rewrite (tmeth_default _ _ [ESeqBegin n]) by reflexivity. rewrite run_one. apply tmeth_seq. Qed.
Lemma tmeth_record c t l i n : tmeth (c, false) (ERecordBegin t l i n) = Err (c, true).
Proof.
  rewrite (tmeth_default _ _ [ETaggedBegin t l i; EMapBegin n]) by reflexivity. rewrite run_cons, tmeth_tagged. cbn [bind]. rewrite run_one. apply tmeth_map.
Qed.
Lemma tmeth_i64 c z : tmeth (c, false) (EInt I64 z) = Err (c, true).
Proof. rewrite tmeth_step by (right; reflexivity). reflexivity. Qed.
Lemma computed_frags ds : forall c, run tmeth (c, false) (map ETextFragC ds) = Ok (fold_left frag_push_computed ds c, false).
Proof. induction ds as [|d ds IH]; intros c; [reflexivity|]. cbn [map]. rewrite run_cons, tmeth_step by (right; reflexivity). apply IH. Qed.
Lemma digits_pushed z c : fold_left frag_push_computed (dec_frags z) c = frag_push_computed c (dec z).
Proof.
  rewrite <- concat_dec_frags. unfold dec_frags. destruct (z <? 0)%Z; cbn [fold_left List.concat]; unfold frag_push_computed; cbn [c_data app]; rewrite ?app_nil_r, <- ?app_assoc; reflexivity.
Qed.
Definition int_given (c : cow) (z : Z) : res col := if fits I64 z then Err (c, true) else Ok (frag_push_computed c (dec z), false).
Lemma tmeth_128 c t z : (t = U128 \/ t = I128) -> tmeth (c, false) (EInt t z) = int_given c z.
Proof.
  intros H. assert (text_col_over (EInt t z) = false) by (destruct H; subst; reflexivity). unfold int_given.
  destruct (fits I64 z) eqn:F.
  - rewrite meth_int_small by assumption. apply tmeth_i64.
  - rewrite meth_int_big by assumption. rewrite run_cons, tmeth_tagged. cbn [bind app].
    rewrite run_cons, tmeth_step by (right; reflexivity). cbn [text_col_step bind].
    rewrite run_app, run_app, computed_frags. cbn [bind]. rewrite run_one, tmeth_step by (right; reflexivity). cbn [text_col_step bind].
    rewrite run_one, tmeth_tagged_end, digits_pushed. reflexivity.
Qed.
Lemma tmeth_int c t z : fits t z = true -> tmeth (c, false) (EInt t z) = int_given c z.
Proof.
  intros F.
  assert (W : forall t, t <> U128 -> t <> I128 -> t <> I64 -> tmeth (c, false) (EInt t z) = tmeth (c, false) (EInt (wider t) z))
    by (intros t0 A B C; apply meth_int_wider; try assumption; reflexivity).
  destruct t; repeat (rewrite W by discriminate; cbn [wider]); try (apply tmeth_128; auto; fail);
    rewrite tmeth_i64; unfold int_given; replace (fits I64 z) with true; try reflexivity; symmetry;
    unfold fits, ity_min, ity_max in *; lia.
Qed.
Lemma text_frags_run fs : forall c, run tmeth (c, false) (map text_frag fs) = Ok (pushes c fs, false).
Proof.
  induction fs as [|[b s] fs IH]; intros c; [reflexivity|]. cbn [map]. rewrite run_cons. unfold text_frag at 1. cbn [fst snd].
  destruct b; rewrite tmeth_step by (first [left; reflexivity|right; reflexivity]); apply IH.
Qed.

Definition text_result (c : cow) (o : option (list (bool * bytes))) (r : res col) : Prop :=
  match o with Some fs => r = Ok (pushes c fs, false) | None => exists c', r = Err (c', true) end.
Lemma text_result_then c o r (k : col -> res col) : text_result c o r -> (forall c, k c = Ok c) -> text_result c o (r >>= k).
Proof. unfold text_result. destruct o; [intros -> K; apply K|intros (c' & ->) _; exists c'; reflexivity]. Qed.
Lemma text_given_run t : forall c, ranged t = true -> text_result c (text_given t) (run tmeth (c, false) (emit t)).
Proof.
  induction t using tree_ind'; intros c R; cbn [emit text_given]; try (rewrite run_cons).
  - rewrite tmeth_step by (right; reflexivity). eexists; reflexivity.
  - rewrite tmeth_step by (right; reflexivity). eexists; reflexivity.
  - cbn [ranged] in R. rewrite tmeth_int by exact R. unfold int_given. destruct (fits I64 z); [eexists; reflexivity|reflexivity].
  - rewrite (tmeth_default _ _ [EF64 (f32_to_f64 f)]) by reflexivity. rewrite run_one, tmeth_step by (right; reflexivity). eexists; reflexivity.
  - rewrite tmeth_step by (right; reflexivity). eexists; reflexivity.
  - rewrite tmeth_step by (right; reflexivity). cbn [text_col_step bind]. rewrite run_app, text_frags_run. cbn [bind].
    rewrite run_one, tmeth_step by (right; reflexivity). reflexivity.
  - rewrite (tmeth_default _ _ [ESeqBegin n]) by reflexivity. rewrite run_one, tmeth_seq. eexists; reflexivity.
  - rewrite meth_tag by reflexivity. rewrite run_cons, tmeth_tagged. cbn [bind]. destruct (otag_is t RUST_OPTION_NONE).
    + cbn [app]. rewrite run_cons, tmeth_step by (right; reflexivity). destruct l; eexists; reflexivity.
    + destruct l as [l|]; [|cbn [app]; rewrite run_cons, tmeth_step by (right; reflexivity); eexists; reflexivity].
      unfold as_static_str. destruct (l_kind l); cbn [app]; rewrite run_cons, tmeth_step by (right; reflexivity); cbn [text_col_step bind];
        rewrite run_cons, tmeth_step by (first [left; reflexivity|right; reflexivity]); cbn [text_col_step bind];
        rewrite run_cons, tmeth_step by (right; reflexivity); cbn [text_col_step bind]; rewrite run_one, tmeth_tagged_end; reflexivity.
  - rewrite tmeth_hint. cbn [bind]. apply IHt, R.
  - rewrite tmeth_tagged. cbn [bind]. rewrite run_app. apply text_result_then; [apply IHt, R|]. intros c'. rewrite run_one. apply tmeth_tagged_end.
  - rewrite tmeth_enum. cbn [bind]. rewrite run_app. apply text_result_then; [apply IHt, R|]. intros c'. rewrite run_one. apply tmeth_enum_end.
  - rewrite tmeth_seq. eexists; reflexivity.
  - rewrite tmeth_map. eexists; reflexivity.
  - rewrite tmeth_record. eexists; reflexivity.
  - rewrite (tmeth_default _ _ [ETaggedBegin t l i; ESeqBegin n]) by reflexivity. rewrite run_cons, tmeth_tagged. cbn [bind]. rewrite run_one, tmeth_seq. eexists; reflexivity.
  - rewrite (tmeth_default _ _ [ERecordBegin t l i n]) by reflexivity. rewrite run_one, tmeth_record. eexists; reflexivity.
Qed.

Lemma pushes_lent fs : frag_inner (pushes text_buf_new fs) = content fs /\ frag_borrowed (pushes text_buf_new fs) = lent fs.
Proof.
  change (pushes text_buf_new fs) with (frag_cow fs). rewrite frag_cow_spec. unfold lent, frag_borrowed, frag_inner. cbn [c_owned c_data].
  destruct (borrowed_whole fs); split; reflexivity.
Qed.

(** [TextBuf::collect] gives the whole text of any value that is one, and lends it for
    as long as the value's data lives exactly when the value lent it in one piece. *)
Theorem C14_text_collect_lends :
  forall v t, streams v t -> ranged t = true ->
  match text_given t with
  | Some fs => exists c, text_collect v = OOk c /\ frag_inner c = content fs /\ frag_borrowed c = lent fs
  | None => text_collect v = OErr
  end.
Proof.
  intros v t H R. unfold text_collect. rewrite run_impl_meth. unfold streams in H. rewrite !H. cbn [fst snd].
  pose proof (text_given_run t text_buf_new R) as T. unfold text_result in T. destruct (text_given t) as [fs|].
  - rewrite T. cbn [bind collect_end fst]. exists (pushes text_buf_new fs). split; [reflexivity|]. apply pushes_lent.
  - destruct T as (c & ->). reflexivity.
Qed.

(** ** Bytes *)
Lemma pushes_app c a b : pushes c (a ++ b) = pushes (pushes c a) b.
Proof. apply fold_left_app. Qed.
Lemma bin_frags_pushed fs : forall c, run bmeth (c, false) (map bin_frag fs) = Ok (pushes c fs, false).
Proof.
  induction fs as [|[b s] fs IH]; intros c; [reflexivity|]. cbn [map]. rewrite run_cons. unfold bin_frag at 1. cbn [fst snd].
  destruct b; rewrite bmeth_step by (left; reflexivity); apply IH.
Qed.
Lemma blocks_pushed {A} (block : A -> list ev) (g : A -> option (list (bool * bytes))) l :
  Forall (fun a => forall c, text_result c (g a) (run bmeth (c, false) (block a))) l ->
  forall c, text_result c (all_given (map g l)) (run bmeth (c, false) (flat_map block l)).
Proof.
  induction 1 as [|a l H _ IH]; intros c; [reflexivity|]. cbn [map all_given flat_map]. rewrite run_app. specialize (H c).
  unfold text_result in H. destruct (g a) as [fs|]; [|destruct H as (c' & ->); exists c'; reflexivity]. rewrite H. cbn [bind].
  specialize (IH (pushes c fs)). unfold text_result in *. destruct (all_given (map g l)) as [fs'|]; [rewrite pushes_app|]; exact IH.
Qed.
Lemma bytes_given_run t : forall c, text_result c (bytes_given t) (run bmeth (c, false) (emit t)).
Proof.
  induction t using tree_ind'; intros c; cbn [emit bytes_given]; try (rewrite run_cons).
  - rewrite bmeth_null. eexists; reflexivity.
  - rewrite bmeth_step by (right; reflexivity). eexists; reflexivity.
  - destruct t; try (rewrite bmeth_int by discriminate; eexists; reflexivity). rewrite bmeth_step by (left; reflexivity). reflexivity.
  - rewrite (bmeth_default _ _ [EF64 (f32_to_f64 f)]) by reflexivity. rewrite run_one, bmeth_f64. eexists; reflexivity.
  - rewrite bmeth_f64. eexists; reflexivity.
  - rewrite bmeth_text. eexists; reflexivity.
  - rewrite bmeth_step by (left; reflexivity). cbn [bin_col_step bind]. rewrite run_app, bin_frags_pushed. cbn [bind].
    rewrite run_one, bmeth_step by (left; reflexivity). reflexivity.
  - rewrite meth_tag by reflexivity. rewrite run_cons, bmeth_tagged. cbn [bind].
    destruct (otag_is t RUST_OPTION_NONE); [cbn [app]; rewrite run_cons, bmeth_null; eexists; reflexivity|].
    destruct l as [l|]; [destruct (as_static_str l)|]; cbn [app]; rewrite run_cons, ?bmeth_text, ?bmeth_null; eexists; reflexivity.
  - rewrite bmeth_hint. cbn [bind]. apply IHt.
  - rewrite bmeth_tagged. cbn [bind]. rewrite run_app. apply text_result_then; [apply IHt|]. intros c'. rewrite run_one. apply bmeth_tagged_end.
  - rewrite bmeth_enum. cbn [bind]. rewrite run_app. apply text_result_then; [apply IHt|]. intros c'. rewrite run_one. apply bmeth_enum_end.
  - rewrite bmeth_seq. cbn [bind]. rewrite run_app. apply text_result_then; [|intros c'; rewrite run_one; apply bmeth_seq_end].
    apply blocks_pushed. eapply Forall_impl; [|exact H]. intros v Hv c'. rewrite run_cons, bmeth_seq_val. cbn [bind]. rewrite run_app.
    apply text_result_then; [apply Hv|]. intros c''. rewrite run_one. apply bmeth_seq_val_end.
  - rewrite bmeth_map. eexists; reflexivity.
  - rewrite bmeth_record. eexists; reflexivity.
  - rewrite bmeth_tuple. cbn [bind]. rewrite run_app. apply text_result_then; [|intros c'; rewrite run_one; apply bmeth_tuple_end].
    apply blocks_pushed. eapply Forall_impl; [|exact H]. intros [[ft fi] v] Hv c'. cbn [snd] in *. rewrite run_cons, bmeth_tuple_val. cbn [bind]. rewrite run_app.
    apply text_result_then; [apply Hv|]. intros c''. rewrite run_one. apply bmeth_tuple_val_end.
  - rewrite bmeth_rectup. eexists; reflexivity.
Qed.
(** The same for [BinaryBuf::collect]. *)
Theorem C14_binary_collect_lends :
  forall v t, streams v t ->
  match bytes_given t with
  | Some fs => exists c, bin_collect v = OOk c /\ frag_inner c = content fs /\ frag_borrowed c = lent fs
  | None => bin_collect v = OErr
  end.
Proof.
  intros v t H. unfold bin_collect. rewrite run_impl_meth. unfold streams in H. rewrite !H. cbn [fst snd].
  pose proof (bytes_given_run t text_buf_new) as T. unfold text_result in T. destruct (bytes_given t) as [fs|].
  - rewrite T. cbn [bind collect_end fst]. exists (pushes text_buf_new fs). split; [reflexivity|]. apply pushes_lent.
  - destruct T as (c & ->). reflexivity.
Qed.

Example C14_lends_sample :
  text_given (TTagged None None None (TText None [(false, []); (true, bs "hi")])) = Some [(false, []); (true, bs "hi")] /\
  lent [(false, []); (true, bs "hi")] = Some (bs "hi") /\ lent [(true, bs "h"); (true, bs "i")] = None /\
  bytes_given (TSeq None [TBin None [(true, bs "ab")]; TInt U8 99]) = Some [(true, bs "ab"); (false, bs "c")] /\
  lent [(true, bs "ab"); (false, bs "c")] = None.
Proof. repeat split; vm_compute; reflexivity. Qed.

Print Assumptions C14_text_collect_lends.
Print Assumptions C14_binary_collect_lends.
