(** * NestedNoAllocProofs: what one level of a direct value does *)

From Verif Require Import Base Event FlatProofs LowerModel DataModel FragModel BufferModel NoAllocModel NestedModel NestedMono SerdeModel
  SerdeSpec NestedSpec NestedNoAllocModel NestedNoAllocSpec.

(** ** The calls on the user's stream *)
Section Formula.
  Variable S : nstream.
  Definition part (v : list call) : arg := (true, v).
  Definition kept (l : option label) : option label := option_map label_to_owned l.
  Definition bare (x : level) : outcome (n_ok S) :=
    match x with
    | LNull => n_null S
    | LBool b => n_bool S b
    | LInt t z => n_int S t z
    | LF32 f => n_f32 S f
    | LF64 f => n_f64 S f
    | LText _ s => n_text S true s
    | LBin _ s => n_bin S true s
    | LTag t l i => n_tag S t (cloned l) i
    | LTagged t l i v => n_tagged S t (kept l) i (part v)
    | LSeq n vs => s <- n_seq_begin S n ;; s <- fold_o (fun s v => seq_value S s (part v)) s vs ;; seq_end S s
    | LMap n es =>
        s <- n_map_begin S n ;;
        s <- fold_o (fun s e => s <- map_key S s (part (fst e)) ;; map_value S s (part (snd e))) s es ;; map_end S s
    | LTuple t l i n fs =>
        s <- n_tuple_begin S t (cloned l) i n ;;
        s <- fold_o (fun s f => match f with (ft, fi, v) => tuple_value S s ft fi (part v) end) s fs ;; tuple_end S s
    | LRecord t l i n fs =>
        s <- n_record_begin S t (cloned l) i n ;;
        s <- fold_o (fun s f => match f with (ft, fl, v) => record_value S s ft (label_to_owned fl) (part v) end) s fs ;;
        record_end S s
    | LRecTup t l i n fs =>
        s <- n_record_begin S t (cloned l) i n ;;
        s <- fold_o (fun s f => match f with (ft, fl, _, v) => record_value S s ft (label_to_owned fl) (part v) end) s fs ;;
        record_end S s
    end.
  Definition variant (e : n_enum S) (x : level) : outcome (n_ok S) :=
    match x with
    | LTag t l i => enum_tag S e t (cloned l) i
    | LTagged t l i v => enum_tagged S e t (kept l) i (part v)
    | LTuple t l i n fs =>
        s <- enum_tuple_begin S e t (cloned l) i n ;;
        s <- fold_o (fun s f => match f with (ft, fi, v) => vtuple_value S s ft fi (part v) end) s fs ;; vtuple_end S s
    | LRecord t l i n fs =>
        s <- enum_record_begin S e t (cloned l) i n ;;
        s <- fold_o (fun s f => match f with (ft, fl, v) => vrecord_value S s ft (label_to_owned fl) (part v) end) s fs ;;
        vrecord_end S s
    | LRecTup t l i n fs =>
        s <- enum_record_begin S e t (cloned l) i n ;;
        s <- fold_o (fun s f => match f with (ft, fl, _, v) => vrecord_value S s ft (label_to_owned fl) (part v) end) s fs ;;
        vrecord_end S s
    | _ => OErr
    end.
  Definition one (x : value1) : outcome (n_ok S) :=
    match x with
    | Bare x => bare x
    | Variant t l i x => e <- n_enum_begin S t (cloned l) i ;; variant e x
    end.
End Formula.

(** ** The calls on which the two agree *)
Lemma owned_static l : static_label l = true -> forall dbg, na_owned dbg l = OOk (label_to_owned l).
Proof. unfold static_label, na_owned, label_to_owned, as_static_str. destruct (l_kind l); try discriminate. reflexivity. Qed.
Lemma opt_static l : static_opt l = true -> forall dbg, na_opt dbg l = OOk (kept l).
Proof. destruct l as [l|]; [|reflexivity]. intros H dbg. cbn [na_opt static_opt kept option_map] in *. rewrite owned_static by exact H. reflexivity. Qed.

Section Agree.
  Context {S : nstream}.
  Definition opening (st : state S) : bool := match st with SAny | SEnum _ => true | _ => false end.
  Definition simple (f : fstream S) (e : ev) : bool :=
    match f_buf f with Some (BValue _) => false | _ => true end &&
    match e with
    | ETextFragC _ | EBinFragC _ => false
    | ETextFrag _ => match f_buf f with Some (BText c) => match c_data c with [] => true | _ => false end | _ => false end
    | EBinFrag _ => match f_buf f with Some (BBin c) => match c_data c with [] => true | _ => false end | _ => false end
    | EEnumBegin _ _ _ => match f_state f with SAny => true | _ => false end
    | ETaggedBegin _ l _ => static_opt l && opening (f_state f)
    | ESeqBegin _ | EMapBegin _ | ERecordBegin _ _ _ _ | ETupleBegin _ _ _ _ | ERecTupBegin _ _ _ _ => opening (f_state f)
    | ERecordValBegin _ l | ERecTupValBegin _ l _ => static_label l
    | _ => true
    end.
  Lemma step_agree dbg sa f e : simple f e = true -> na_step dbg sa f e = fs_step f e.
  Proof.
    unfold simple. destruct f as [b st]. cbn [f_buf f_state]. intros H. apply andb_true_iff in H as (B & H).
    destruct e; try discriminate H; cbn [na_step fs_step na_own fs_own]; try reflexivity;
      unfold buffer_or_with, buffer_or_begin, buffer_or_end, buffer_or_value; cbn [f_buf f_state];
      destruct b as [[c|c|?]|]; try discriminate B; try discriminate H; try reflexivity;
      destruct st; try discriminate H; try reflexivity; cbn [opening] in H;
      rewrite ?andb_true_r in H; unfold na_field;
      rewrite ?(opt_static _ H), ?(owned_static _ H); try reflexivity.
    all: try (match goal with c : cow |- _ => unfold na_text, na_binary, with_text, with_binary; cbn [f_buf]; destruct (c_data c) eqn:E; try discriminate H;
      cbn; unfold na_frag, frag_push; rewrite ?E; reflexivity end).
    all: rewrite andb_false_r in H; discriminate H.
  Qed.
End Agree.

(** ** One level

    [cc] is [fs_call] or [na_call]. *)
Section OneLevel.
  Context {S : nstream}.
  Variable cc : call -> fstream S -> res (fstream S).
  Fixpoint ccs (cs : list call) (f : fstream S) : res (fstream S) :=
    match cs with [] => Ok f | c :: cs => cc c f >>= ccs cs end.
  Definition cend (r : res (fstream S)) : outcome (n_ok S) := match r with Ok f | Err f => finish f | Panic => OPanic end.
  Hypothesis CE_ok : forall f e, simple f e = true -> cc (CE e) f = fs_step f e.
  Hypothesis CV_ok : forall st v, opening st = false ->
    cc (CV v) (MkFS None st) = try_catch (settle (MkFS None st) (state_value st OErr (true, v))).

  Lemma ccs_app a b f : ccs (a ++ b) f = ccs a f >>= ccs b.
  Proof. revert f. induction a as [|c a IH]; intros f; [reflexivity|]. cbn [app ccs]. destruct (cc c f); cbn [bind]; [apply IH|reflexivity|reflexivity]. Qed.

  (** The parts of a compound value. *)
  Definition got {A} (mk : A -> state S) (o : outcome A) : res (fstream S) :=
    match o with OOk s => Ok (MkFS None (mk s)) | OErr => Err (MkFS None (SDone None)) | OPanic => Panic end.
  Lemma got_end {A} (mk : A -> state S) (o : outcome A) (k : A -> outcome (n_ok S)) cs :
    (forall s, cend (ccs cs (MkFS None (mk s))) = k s) ->
    cend (got mk o >>= ccs cs) = (s <- o ;; k s).
  Proof. intros H. destruct o; cbn [got bind obind]; [apply H|reflexivity|reflexivity]. Qed.
  Lemma got_loop {A X} (mk : A -> state S) (parts : X -> list call) (f : A -> X -> outcome A) xs :
    (forall s x, In x xs -> ccs (parts x) (MkFS None (mk s)) = got mk (f s x)) ->
    forall s, ccs (flat_map parts xs) (MkFS None (mk s)) = got mk (fold_o f s xs).
  Proof.
    induction xs as [|x xs IH]; intros H s; [reflexivity|]. cbn [flat_map fold_o]. rewrite ccs_app, H by (left; reflexivity).
    destruct (f s x) as [s'| |]; cbn [got bind obind]; try reflexivity. apply IH. intros s0 y I. apply H. right. exact I.
  Qed.

  Ltac step := rewrite CE_ok by reflexivity.
  Ltac go := cbn [ccs]; repeat (first [rewrite CE_ok by (try assumption; reflexivity)|rewrite CV_ok by reflexivity]; cbn).

  Lemma seq_parts s v : ccs [CE ESeqValBegin; CV v; CE ESeqValEnd] (MkFS None (SSeq s)) = got SSeq (seq_value S s (part v)).
  Proof. go. unfold part. destruct (seq_value S s (true, v)); cbn; try reflexivity. go. reflexivity. Qed.
  Lemma map_parts s k v b :
    ccs [CE EMapKeyBegin; CV k; CE EMapKeyEnd; CE EMapValBegin; CV v; CE EMapValEnd] (MkFS None (SMap s b)) =
    got (fun s => SMap s false) (s <- map_key S s (part k) ;; map_value S s (part v)).
  Proof.
    go. unfold part. destruct (map_key S s (true, k)) as [s'| |]; cbn; try reflexivity. go.
    destruct (map_value S s' (true, v)); cbn; try reflexivity. go. reflexivity.
  Qed.
  Lemma tuple_parts s t i v :
    ccs [CE (ETupleValBegin t i); CV v; CE (ETupleValEnd t i)] (MkFS None (STuple s None)) = got (fun s => STuple s None) (tuple_value S s t i (part v)).
  Proof. go. unfold part. destruct (tuple_value S s t i (true, v)); cbn; try reflexivity. go. reflexivity. Qed.
  Lemma record_parts s t l v : static_label l = true ->
    ccs [CE (ERecordValBegin t l); CV v; CE (ERecordValEnd t l)] (MkFS None (SRecord s None)) =
    got (fun s => SRecord s None) (record_value S s t (label_to_owned l) (part v)).
  Proof. intros H. go. unfold part. destruct (record_value S s t (label_to_owned l) (true, v)); cbn; try reflexivity. go. reflexivity. Qed.
  Lemma rectup_parts s t l i v : static_label l = true ->
    ccs [CE (ERecTupValBegin t l i); CV v; CE (ERecTupValEnd t l i)] (MkFS None (SRecord s None)) =
    got (fun s => SRecord s None) (record_value S s t (label_to_owned l) (part v)).
  Proof. intros H. go. unfold part. destruct (record_value S s t (label_to_owned l) (true, v)); cbn; try reflexivity. go. reflexivity. Qed.
  Lemma vtuple_parts s t i v :
    ccs [CE (ETupleValBegin t i); CV v; CE (ETupleValEnd t i)] (MkFS None (SVTuple s None)) = got (fun s => SVTuple s None) (vtuple_value S s t i (part v)).
  Proof. go. unfold part. destruct (vtuple_value S s t i (true, v)); cbn; try reflexivity. go. reflexivity. Qed.
  Lemma vrecord_parts s t l v : static_label l = true ->
    ccs [CE (ERecordValBegin t l); CV v; CE (ERecordValEnd t l)] (MkFS None (SVRecord s None)) =
    got (fun s => SVRecord s None) (vrecord_value S s t (label_to_owned l) (part v)).
  Proof. intros H. go. unfold part. destruct (vrecord_value S s t (label_to_owned l) (true, v)); cbn; try reflexivity. go. reflexivity. Qed.
  Lemma vrectup_parts s t l i v : static_label l = true ->
    ccs [CE (ERecTupValBegin t l i); CV v; CE (ERecTupValEnd t l i)] (MkFS None (SVRecord s None)) =
    got (fun s => SVRecord s None) (vrecord_value S s t (label_to_owned l) (part v)).
  Proof. intros H. go. unfold part. destruct (vrecord_value S s t (label_to_owned l) (true, v)); cbn; try reflexivity. go. reflexivity. Qed.

  (** [done] at the end of a level; the end of an enum after it. *)
  Definition finished (o : outcome (n_ok S)) : res (fstream S) := got (fun x => SDone (Some x)) o.
  Lemma then_finished {A} (mk : A -> state S) (o : outcome A) (k : A -> outcome (n_ok S)) cs :
    (forall s, ccs cs (MkFS None (mk s)) = finished (k s)) -> (got mk o >>= ccs cs) = finished (s <- o ;; k s).
  Proof. intros H. destruct o; cbn [got bind obind]; [apply H|reflexivity|reflexivity]. Qed.
  Lemma bare_ok x : level_static x = true -> ccs (level_calls x) fs_new = finished (bare S x).
  Proof.
    intros H. destruct x; cbn [level_calls bare level_static] in *; unfold fs_new.
    - go. destruct (n_null S); reflexivity.
    - go. destruct (n_bool S b); reflexivity.
    - go. destruct (n_int S t z); reflexivity.
    - go. destruct (n_f32 S f); reflexivity.
    - go. destruct (n_f64 S f); reflexivity.
    - go. unfold buffer_or_with. cbn. destruct (n_text S true s); reflexivity.
    - go. unfold buffer_or_with. cbn. destruct (n_bin S true s); reflexivity.
    - go. destruct (n_tag S t (cloned l) i); reflexivity.
    - cbn [ccs]. rewrite CE_ok by (cbn; rewrite H; reflexivity). cbn. rewrite CV_ok by reflexivity. cbn. unfold part, kept.
      destruct (n_tagged S t (option_map label_to_owned l) i (true, v)); cbn; try reflexivity. go. reflexivity.
    - cbn [ccs]. rewrite CE_ok by reflexivity. cbn. destruct (n_seq_begin S n) as [s| |]; cbn; try reflexivity.
      rewrite ccs_app, (got_loop SSeq _ (fun s v => seq_value S s (part v))) by (intros; apply seq_parts).
      apply then_finished. clear s. intros s. go. destruct (seq_end S s); reflexivity.
    - cbn [ccs]. rewrite CE_ok by reflexivity. cbn. destruct (n_map_begin S n) as [s| |]; cbn; try reflexivity.
      destruct es as [|e es]; [cbn; go; destruct (map_end S s); reflexivity|].
      set (step := fun s e => s <- map_key S s (part (fst e)) ;; map_value S s (part (snd e))).
      assert (L : forall s e b, ccs [CE EMapKeyBegin; CV (fst e); CE EMapKeyEnd; CE EMapValBegin; CV (snd e); CE EMapValEnd] (MkFS None (SMap s b)) =
        got (fun s => SMap s false) (step s e)) by (intros; apply map_parts).
      rewrite ccs_app. change (flat_map ?f (e :: es)) with (f e ++ flat_map f es). rewrite ccs_app, L. cbn [fold_o].
      destruct (step s e) as [s'| |]; cbn [got bind obind]; try reflexivity.
      rewrite (got_loop (fun s => SMap s false) _ step) by (intros; apply L).
      apply then_finished. clear s'. intros s'. go. destruct (map_end S s'); reflexivity.
    - cbn [ccs]. rewrite CE_ok by reflexivity. cbn. destruct (n_tuple_begin S t (cloned l) i n) as [s| |]; cbn; try reflexivity.
      rewrite ccs_app, (got_loop (fun s => STuple s None) _ (fun s f => match f with (ft, fi, v) => tuple_value S s ft fi (part v) end)) by (intros ? [[? ?] ?] ?; apply tuple_parts).
      apply then_finished. clear s. intros s. go. destruct (tuple_end S s); reflexivity.
    - cbn [ccs]. rewrite CE_ok by reflexivity. cbn. destruct (n_record_begin S t (cloned l) i n) as [s| |]; cbn; try reflexivity.
      rewrite forallb_forall in H.
      rewrite ccs_app, (got_loop (fun s => SRecord s None) _ (fun s f => match f with (ft, fl, v) => record_value S s ft (label_to_owned fl) (part v) end))
        by (intros ? [[? ?] ?] I; apply record_parts; exact (H _ I)).
      apply then_finished. clear s. intros s. go. destruct (record_end S s); reflexivity.
    - cbn [ccs]. rewrite CE_ok by reflexivity. cbn. destruct (n_record_begin S t (cloned l) i n) as [s| |]; cbn; try reflexivity.
      rewrite forallb_forall in H.
      rewrite ccs_app, (got_loop (fun s => SRecord s None) _ (fun s f => match f with (ft, fl, _, v) => record_value S s ft (label_to_owned fl) (part v) end))
        by (intros ? [[[? ?] ?] ?] I; apply rectup_parts; exact (H _ I)).
      apply then_finished. clear s. intros s. go. destruct (record_end S s); reflexivity.
  Qed.
  Lemma variant_ok e x : level_static x = true -> is_variant x = true -> ccs (level_calls x) (MkFS None (SEnum (fe_new e))) = finished (variant S e x).
  Proof.
    intros H V. destruct x; try discriminate V; cbn [level_calls variant level_static] in *.
    - go. unfold buffer_or_with, fe_tag. cbn. destruct (enum_tag S e t (cloned l) i); reflexivity.
    - cbn [ccs]. rewrite CE_ok by (cbn; rewrite H; reflexivity). cbn. rewrite CV_ok by reflexivity. cbn. unfold fe_tagged. cbn. unfold part, kept.
      destruct (enum_tagged S e t (option_map label_to_owned l) i (true, v)); cbn; try reflexivity. go. reflexivity.
    - cbn [ccs]. rewrite CE_ok by reflexivity. cbn. unfold buffer_or_begin, fe_tuple_begin. cbn. destruct (enum_tuple_begin S e t (cloned l) i n) as [s| |]; cbn; try reflexivity.
      rewrite ccs_app, (got_loop (fun s => SVTuple s None) _ (fun s f => match f with (ft, fi, v) => vtuple_value S s ft fi (part v) end)) by (intros ? [[? ?] ?] ?; apply vtuple_parts).
      apply then_finished. clear s. intros s. go. destruct (vtuple_end S s); reflexivity.
    - cbn [ccs]. rewrite CE_ok by reflexivity. cbn. unfold buffer_or_begin, fe_record_begin. cbn. destruct (enum_record_begin S e t (cloned l) i n) as [s| |]; cbn; try reflexivity.
      rewrite forallb_forall in H.
      rewrite ccs_app, (got_loop (fun s => SVRecord s None) _ (fun s f => match f with (ft, fl, v) => vrecord_value S s ft (label_to_owned fl) (part v) end))
        by (intros ? [[? ?] ?] I; apply vrecord_parts; exact (H _ I)).
      apply then_finished. clear s. intros s. go. destruct (vrecord_end S s); reflexivity.
    - cbn [ccs]. rewrite CE_ok by reflexivity. cbn. unfold buffer_or_begin, fe_record_begin. cbn. destruct (enum_record_begin S e t (cloned l) i n) as [s| |]; cbn; try reflexivity.
      rewrite forallb_forall in H.
      rewrite ccs_app, (got_loop (fun s => SVRecord s None) _ (fun s f => match f with (ft, fl, _, v) => vrecord_value S s ft (label_to_owned fl) (part v) end))
        by (intros ? [[[? ?] ?] ?] I; apply vrectup_parts; exact (H _ I)).
      apply then_finished. clear s. intros s. go. destruct (vrecord_end S s); reflexivity.
  Qed.
  Lemma one_ok x : value1_ok x = true -> cend (ccs (value1_calls x) fs_new) = one S x.
  Proof.
    assert (E : forall o : outcome (n_ok S), cend (finished o) = o) by (intros [| |]; reflexivity).
    destruct x as [x|t l i x]; cbn [value1_ok value1_calls one]; intros H; [rewrite bare_ok by exact H; apply E|].
    apply andb_true_iff in H as (H & V). cbn [ccs]. rewrite CE_ok by reflexivity. cbn. destruct (n_enum_begin S t (cloned l) i) as [e| |]; cbn; try reflexivity.
    rewrite ccs_app, variant_ok by assumption. destruct (variant S e x); cbn; try reflexivity. go. reflexivity.
  Qed.
End OneLevel.

Lemma nested_one S x : value1_ok x = true -> nested_stream S (value1_calls x) = one S x.
Proof.
  intros H. rewrite <- (one_ok (fun c => fs_call c false) (fun f e _ => eq_refl)); [|intros st v O; destruct st; try discriminate O; reflexivity|exact H].
  unfold nested_stream, nested_value, cend. replace (ccs (fun c => fs_call c false) (value1_calls x) fs_new) with (fs_calls (S := S) (value1_calls x) false fs_new); [reflexivity|].
  generalize (fs_new (S := S)). induction (value1_calls x) as [|c cs IH]; intros f; [reflexivity|]. cbn [fs_calls ccs]. destruct (fs_call c false f); cbn [bind]; [apply IH|reflexivity|reflexivity].
Qed.
Lemma na_one dbg sa S x : value1_ok x = true -> na_stream dbg sa S (value1_calls x) = one S x.
Proof.
  intros H. rewrite <- (one_ok (fun c => na_call dbg sa c false) (step_agree dbg sa)); [|intros st v O; destruct st; try discriminate O; reflexivity|exact H].
  unfold na_stream, na_value, cend. replace (ccs (fun c => na_call dbg sa c false) (value1_calls x) fs_new) with (na_calls (S := S) dbg sa (value1_calls x) false fs_new); [reflexivity|].
  generalize (fs_new (S := S)). induction (value1_calls x) as [|c cs IH]; intros f; [reflexivity|]. cbn [na_calls ccs]. destruct (na_call dbg sa c false f); cbn [bind]; [apply IH|reflexivity|reflexivity].
Qed.

(** ** What happens without [alloc] is the same, or an error *)
Section Never.
  Variables (dbg sa : bool).
  Definition ltv (r1 r2 : res vbuf) : Prop := r1 = r2 \/ (exists b, r1 = Err b) \/ (dbg = true /\ r1 = Panic).
  Lemma no_alloc_lt b r : ltv (no_alloc dbg b) r.
  Proof. unfold no_alloc. destruct dbg eqn:E; [right; right; split; [exact E|reflexivity]|right; left; unfold vfail; eexists; reflexivity]. Qed.
  Lemma nb_push_lt b p : ltv (nb_push dbg b p) (Ok (push_part b p)).
  Proof. unfold nb_push. destruct (Nat.eqb _ _); [apply no_alloc_lt|left; reflexivity]. Qed.
  Lemma nb_begin_lt b k : ltv (nb_begin dbg b k) (Ok (push_begin b k)).
  Proof. unfold nb_begin. destruct (Nat.eqb _ _); [apply no_alloc_lt|]. cbv zeta. destruct (Nat.eqb _ _); [apply no_alloc_lt|left; reflexivity]. Qed.
  Lemma nb_label_some l l' : nb_label sa l = Some l' -> l' = label_to_owned l.
  Proof.
    unfold nb_label, label_try_to_owned, label_try_to_owned_noalloc, label_to_owned. destruct sa; [intros [= <-]; reflexivity|].
    destruct (as_static_str l); [intros [= <-]; reflexivity|discriminate].
  Qed.
  Lemma with_label_lt b l f g : ltv (f (label_to_owned l)) g -> ltv (with_label dbg sa b l f) g.
  Proof. intros H. unfold with_label. destruct (nb_label sa l) eqn:E; [apply nb_label_some in E; subst; exact H|apply no_alloc_lt]. Qed.
  Lemma with_opt_lt b l f g : ltv (f (own l)) g -> ltv (with_opt dbg sa b l f) g.
  Proof. intros H. destruct l as [l|]; [|exact H]. cbn [with_opt]. apply with_label_lt. exact H. Qed.
  Lemma nb_frag_lt b t x s : ltv (nb_frag dbg b t x s) (push_frag b t x s).
  Proof.
    unfold nb_frag, push_frag. destruct (last_part (parts b)) as [[?|c|c|?]|]; try (left; reflexivity).
    all: destruct t, x; try (left; reflexivity); cbn [frag_push_noalloc frag_push_computed_noalloc]; try apply no_alloc_lt.
    all: unfold frag_push; destruct (c_data c); cbn; try apply no_alloc_lt; left; reflexivity.
  Qed.
  Lemma nb_step_lt b e : ltv (nb_step dbg sa b e) (vbuf_step b e).
  Proof.
    destruct e; cbn [nb_step vbuf_step]; try apply nb_push_lt; try apply nb_begin_lt; try apply nb_frag_lt; try (left; reflexivity);
      try (apply with_opt_lt; first [apply nb_begin_lt|apply nb_push_lt]); apply with_label_lt; apply nb_begin_lt.
  Qed.
  Lemma nb_run_lt es : forall b, ltv (run (nb_step dbg sa) b es) (run vbuf_step b es).
  Proof.
    induction es as [|e es IH]; intros b; [left; reflexivity|]. cbn [run]. destruct (nb_step_lt b e) as [->|[(b' & ->)|(D & ->)]].
    - destruct (vbuf_step b e); cbn [bind]; [apply IH|left; reflexivity|left; reflexivity].
    - right. left. eexists. reflexivity.
    - right. right. split; [exact D|reflexivity].
  Qed.
  Lemma na_buf_value_lt c v b : ltv (na_buf_value dbg sa c v b) (buf_value c v b).
  Proof.
    unfold na_buf_value, buf_value, Event.stream_value. destruct (flat _ _) as [es ok].
    destruct (nb_run_lt es b) as [->|[(b' & ->)|(D & ->)]]; [left; reflexivity| |right; right; split; [exact D|reflexivity]].
    right. left. eexists. reflexivity.
  Qed.

  Context {S : nstream}.
  (** A failure leaves the stream failed. *)
  Definition ltf (r1 r2 : res (fstream S)) : Prop :=
    r1 = r2 \/ (exists f, r1 = Err f /\ f_state f = SDone None) \/ (dbg = true /\ r1 = Panic).
  (** The same before [try_catch]. *)
  Definition ltc (r1 r2 : res (fstream S)) : Prop := r1 = r2 \/ (exists f, r1 = Err f) \/ (dbg = true /\ r1 = Panic).
  Definition lto {A} (o1 o2 : outcome A) : Prop := o1 = o2 \/ o1 = OErr \/ (dbg = true /\ o1 = OPanic).
  Lemma catch_lt r1 r2 : ltc r1 r2 -> ltf (try_catch r1) (try_catch r2).
  Proof.
    intros [->|[(f & ->)|(D & ->)]]; [left; reflexivity| |right; right; split; [exact D|reflexivity]].
    right. left. eexists. split; reflexivity.
  Qed.
  Lemma with_buf_lt f r1 r2 k : ltv r1 r2 -> ltc (with_buf f r1 k) (with_buf f r2 k).
  Proof.
    intros [->|[(b & ->)|(D & ->)]]; [left; reflexivity| |right; right; split; [exact D|reflexivity]].
    right. left. eexists. reflexivity.
  Qed.
  Lemma settle_lt f o1 o2 : lto o1 o2 -> ltc (settle f o1) (settle f o2).
  Proof. intros [->|[->|(D & ->)]]; [left; reflexivity|right; left; eexists; reflexivity|right; right; split; [exact D|reflexivity]]. Qed.
  Lemma lift_lt f o1 o2 : lto o1 o2 -> ltc (lift f o1) (lift f o2).
  Proof. intros [->|[->|(D & ->)]]; [left; reflexivity|right; left; eexists; reflexivity|right; right; split; [exact D|reflexivity]]. Qed.
  Lemma obind_lt {A B} (o1 o2 : outcome A) (k1 k2 : A -> outcome B) : lto o1 o2 -> (forall a, lto (k1 a) (k2 a)) ->
    lto (x <- o1 ;; k1 x) (x <- o2 ;; k2 x).
  Proof.
    intros [->|[->|(D & ->)]] K; [|right; left; reflexivity|right; right; split; [exact D|reflexivity]].
    destruct o2; cbn [obind]; [apply K|left; reflexivity|left; reflexivity].
  Qed.
  Lemma lto_refl {A} (o : outcome A) : lto o o.
  Proof. left. reflexivity. Qed.
  Lemma no_room_lt {A} (o : outcome A) : lto (no_room dbg) o.
  Proof. unfold no_room. destruct dbg eqn:E; [right; right; split; [exact E|reflexivity]|right; left; reflexivity]. Qed.
  Lemma owned_lt l : lto (na_owned dbg l) (OOk (label_to_owned l)).
  Proof. unfold na_owned, label_to_owned. destruct (as_static_str l); [left; reflexivity|apply no_room_lt]. Qed.
  Lemma opt_lt l : lto (na_opt dbg l) (OOk (kept l)).
  Proof. destruct l as [l|]; [|left; reflexivity]. cbn [na_opt kept option_map]. apply (obind_lt _ (OOk (label_to_owned l)) _ (fun l => OOk (Some l)) (owned_lt l)). intros; apply lto_refl. Qed.

  Lemma bow_lt f (buf1 buf2 : vbuf -> res vbuf) k1 k2 : (forall b, ltv (buf1 b) (buf2 b)) -> ltc (k1 f) (k2 f) ->
    ltf (buffer_or_with f buf1 k1) (buffer_or_with f buf2 k2).
  Proof. intros B K. apply catch_lt. destruct (f_buf f) as [[| |b]|]; try exact K. apply with_buf_lt, B. Qed.
  Lemma bob_lt f (buf1 buf2 : vbuf -> res vbuf) a1 a2 e1 e2 : (forall b, ltv (buf1 b) (buf2 b)) -> lto a1 a2 -> (forall e, lto (e1 e) (e2 e)) ->
    ltf (buffer_or_begin f buf1 a1 e1) (buffer_or_begin f buf2 a2 e2).
  Proof.
    intros B A E. apply catch_lt. destruct (f_buf f) as [[| |b]|]; try (left; reflexivity); [apply with_buf_lt, B|].
    destruct (f_state f); try (apply lift_lt; auto; fail).
    all: destruct (B vbuf_new) as [->|[(b' & ->)|(D & ->)]]; [left; reflexivity|right; left; eexists; reflexivity|right; right; split; [exact D|reflexivity]].
  Qed.
  Lemma boe_lt f (buf1 buf2 : vbuf -> res vbuf) t : (forall b, ltv (buf1 b) (buf2 b)) ->
    ltf (buffer_or_end f buf1 t) (buffer_or_end f buf2 t).
  Proof. intros B. apply catch_lt. destruct (f_buf f) as [[| |b]|]; try (left; reflexivity). apply with_buf_lt, B. Qed.
  Lemma field_lt (f : fstream S) l k : ltc (na_field dbg f l k) (lift f (OOk (k (label_to_owned l)))).
  Proof. unfold na_field. apply lift_lt. apply (obind_lt _ (OOk (label_to_owned l)) _ (fun l => OOk (k l)) (owned_lt l)). intros; apply lto_refl. Qed.
  Lemma frag_lt f s : ltc (na_text dbg f (fun c => frag_push_noalloc c s)) (with_text f (fun c => frag_push c s)) /\
    ltc (na_binary dbg f (fun c => frag_push_noalloc c s)) (with_binary f (fun c => frag_push c s)).
  Proof.
    assert (N : forall r, ltc (if dbg then Panic else Err f) r) by (intros r; destruct dbg eqn:E; [right; right; split; [exact E|reflexivity]|right; left; eexists; reflexivity]).
    unfold na_text, with_text, na_binary, with_binary, na_frag, frag_push. split; destruct (f_buf f) as [[c|c|?]|]; try (left; reflexivity);
      destruct (c_data c); cbn; first [apply N|left; reflexivity].
  Qed.
  Lemma fragc_lt f s r : ltc (na_text dbg f (fun c => frag_push_computed_noalloc c s)) (with_text f r) /\
    ltc (na_binary dbg f (fun c => frag_push_computed_noalloc c s)) (with_binary f r).
  Proof.
    assert (N : forall r, ltc (if dbg then Panic else Err f) r) by (intros r'; destruct dbg eqn:E; [right; right; split; [exact E|reflexivity]|right; left; eexists; reflexivity]).
    unfold na_text, with_text, na_binary, with_binary, na_frag. split; destruct (f_buf f) as [[c|c|?]|]; try (left; reflexivity); apply N.
  Qed.
  Lemma ltc_refl r : ltc r r. Proof. left. reflexivity. Qed.
  Lemma own_lt (f : fstream S) e : ltf (na_own dbg sa f e) (fs_own f e).
  Proof.
    assert (B : forall e b, ltv (nb_step dbg sa b e) (vbuf_step b e)) by (intros; apply nb_step_lt).
    destruct e; cbn [na_own fs_own]; try (left; reflexivity);
      try (apply bow_lt; [apply B|apply ltc_refl]; fail);
      try (apply boe_lt; apply B; fail);
      try (apply bob_lt; [apply B|apply lto_refl|intros; apply lto_refl]; fail).
    - apply bow_lt; [apply B|apply frag_lt].
    - apply bow_lt; [apply B|apply fragc_lt].
    - apply bow_lt; [apply B|apply frag_lt].
    - apply bow_lt; [apply B|apply fragc_lt].
    - apply bob_lt; [apply B|apply lto_refl|]. intros e. unfold na_push. destruct (opt_lt (cloned l)) as [->|[->|(D & ->)]]; cbn [obind].
      + apply (obind_lt _ (OOk _) _ (fun s => OOk (SEnum s))); [apply no_room_lt|intros; apply lto_refl].
      + right. left. reflexivity.
      + right. right. split; [exact D|reflexivity].
    - apply bob_lt; [apply B| |intros e].
      + apply (obind_lt _ (OOk (kept l)) _ (fun l => OOk (STagged t l i)) (opt_lt l)). intros; apply lto_refl.
      + apply (obind_lt _ (OOk (kept l)) _ (fun l => OOk (SVTagged e t l i)) (opt_lt l)). intros; apply lto_refl.
    - apply bow_lt; [apply B|]. destruct (f_buf f) eqn:E, (f_state f); try (left; reflexivity);
        (eapply eq_rect; [apply field_lt|]; unfold lift; rewrite E; reflexivity).
  Qed.
  Lemma step_lt (f : fstream S) e : ltf (na_step dbg sa f e) (fs_step f e).
  Proof. destruct e; cbn [na_step fs_step]; try apply own_lt. left. reflexivity. Qed.

  Lemma state_value_lt st a1 a2 v : lto a1 a2 -> lto (state_value (S := S) st a1 v) (state_value st a2 v).
  Proof. intros A. destruct st; try (left; reflexivity). cbn [state_value]. apply obind_lt; [exact A|]. intros; apply lto_refl. Qed.
  Lemma bind_lt r1 r2 (k1 k2 : fstream S -> res (fstream S)) : ltf r1 r2 -> (forall f, ltf (k1 f) (k2 f)) -> ltf (r1 >>= k1) (r2 >>= k2).
  Proof.
    intros [->|[(f & -> & F)|(D & ->)]] K; [|right; left; exists f; split; [reflexivity|exact F]|right; right; split; [exact D|reflexivity]].
    destruct r2; cbn [bind]; [apply K|left; reflexivity|left; reflexivity].
  Qed.
  Definition ended (r : res (fstream S)) : outcome (n_ok S) := match r with Ok f | Err f => finish f | Panic => OPanic end.
  Lemma ended_lt r1 r2 : ltf r1 r2 -> lto (ended r1) (ended r2).
  Proof.
    intros [->|[(f & -> & F)|(D & ->)]]; [left; reflexivity| |right; right; split; [exact D|reflexivity]].
    right. left. unfold ended, finish. rewrite F. reflexivity.
  Qed.
  Lemma ltf_ltc r1 r2 : ltf r1 r2 -> ltc r1 r2.
  Proof. intros [->|[(f & -> & F)|(D & ->)]]; [left; reflexivity|right; left; eexists; reflexivity|right; right; split; [exact D|reflexivity]]. Qed.
  Lemma call_lt c : forall comp (f : fstream S), ltf (na_call dbg sa c comp f) (fs_call c comp f).
  Proof.
    assert (L : forall cs, Forall (fun c => forall comp f, ltf (na_call dbg sa c comp f) (fs_call c comp f)) cs ->
      forall comp f, ltf ((fix go cs comp f := match cs with [] => Ok f | c :: cs' => na_call dbg sa c comp f >>= go cs' comp end) cs comp f)
                         ((fix go cs comp f := match cs with [] => Ok f | c :: cs' => fs_call c comp f >>= go cs' comp end) cs comp f)).
    { induction 1 as [|c' cs Hc _ IH]; intros comp f; [left; reflexivity|]. apply bind_lt; [apply Hc|intros; apply IH]. }
    assert (V : forall cs (c : bool), Forall (fun c => forall comp f, ltf (na_call dbg sa c comp f) (fs_call c comp f)) cs -> forall f,
      ltc (match f_state f with
           | SEnum _ => (fix go cs comp f := match cs with [] => Ok f | c :: cs' => na_call dbg sa c comp f >>= go cs' comp end) cs c f
           | st => settle f (state_value st (ended ((fix go cs comp f := match cs with [] => Ok f | c :: cs' => na_call dbg sa c comp f >>= go cs' comp end) cs c fs_new)) (negb c, cs))
           end)
          (match f_state f with
           | SEnum _ => (fix go cs comp f := match cs with [] => Ok f | c :: cs' => fs_call c comp f >>= go cs' comp end) cs c f
           | st => settle f (state_value st (ended ((fix go cs comp f := match cs with [] => Ok f | c :: cs' => fs_call c comp f >>= go cs' comp end) cs c fs_new)) (negb c, cs))
           end)).
    { intros cs c0 H f. destruct (f_state f); try (apply settle_lt, state_value_lt, ended_lt, L, H). apply ltf_ltc, L, H. }
    induction c as [e|cs H|cs H|] using call_ind'; intros comp f.
    - apply step_lt.
    - cbn [na_call fs_call]. destruct comp; [apply L, H|]. apply bow_lt; [intros; apply na_buf_value_lt|apply (V cs false H)].
    - cbn [na_call fs_call]. apply bow_lt; [intros; apply na_buf_value_lt|apply (V cs true H)].
    - left. reflexivity.
  Qed.
  Lemma calls_lt cs : forall comp (f : fstream S), ltf (na_calls dbg sa cs comp f) (fs_calls cs comp f).
  Proof. induction cs as [|c cs IH]; intros comp f; [left; reflexivity|]. cbn [na_calls fs_calls]. apply bind_lt; [apply call_lt|intros; apply IH]. Qed.
  Lemma value_lt comp v : lto (na_value dbg sa (S := S) comp v) (nested_value comp v).
  Proof. apply (ended_lt _ _ (calls_lt v comp fs_new)). Qed.
End Never.

(** ** Serializing *)
Lemma fold_same {St A} (f g : St -> A -> outcome St) l : (forall s x, In x l -> f s x = g s x) -> forall s, fold_o f s l = fold_o g s l.
Proof.
  induction l as [|x l IH]; intros H s; [reflexivity|]. cbn [fold_o]. rewrite H by (left; reflexivity).
  destruct (g s x); cbn [obind]; try reflexivity. apply IH. intros s0 y I. apply H. right. exact I.
Qed.
Lemma fold_then {St A B} (f g : St -> A -> outcome St) l s (k : St -> outcome B) : (forall s x, In x l -> f s x = g s x) ->
  (s <- fold_o f s l ;; k s) = (s <- fold_o g s l ;; k s).
Proof. intros H. rewrite (fold_same f g) by exact H. reflexivity. Qed.
Lemma obind_same {A B} (o : outcome A) (k1 k2 : A -> outcome B) : (forall a, k1 a = k2 a) -> (x <- o ;; k1 x) = (x <- o ;; k2 x).
Proof. intros H. destruct o; cbn [obind]; [apply H|reflexivity|reflexivity]. Qed.
Section Serialize.
  Variable S : serializer.
  Hypothesis OC : opaque_children S.
  Variables rec1 rec2 : list call -> k_ser S -> outcome (k_ok S).
  Notation Z1 := (serialize_stream S rec1).
  Notation Z2 := (serialize_stream S rec2).
  Lemma feed_same {A} (s : option A) f g : (forall a, f a = g a) -> feed s f = feed s g.
  Proof. intros H. destruct s; [|reflexivity]. cbn [feed]. rewrite H. reflexivity. Qed.
  Lemma same_tuple k c : same_child (rec1 c) (rec2 c) -> forall s t i, tuple_value (Z1 k) s t i (part c) = tuple_value (Z2 k) s t i (part c).
  Proof. intros C s t i. apply feed_same. intros [a|a]; cbn [part snd]; [rewrite (oc_tstruct _ OC _ _ _ C)|rewrite (oc_tuple _ OC _ _ _ C)]; reflexivity. Qed.
  Lemma same_record k c : same_child (rec1 c) (rec2 c) -> forall s t l, record_value (Z1 k) s t l (part c) = record_value (Z2 k) s t l (part c).
  Proof.
    intros C s t l. apply feed_same. intros [a|a]; cbn [part snd]; [|rewrite (oc_tuple _ OC _ _ _ C); reflexivity].
    apply obind_same. intros f. rewrite (oc_struct _ OC _ _ _ _ C). reflexivity.
  Qed.
  Lemma same_vtuple k c : same_child (rec1 c) (rec2 c) -> forall s t i, vtuple_value (Z1 k) s t i (part c) = vtuple_value (Z2 k) s t i (part c).
  Proof. intros C s t i. apply feed_same. intros a. apply (oc_tvariant _ OC). exact C. Qed.
  Lemma same_vrecord k c : same_child (rec1 c) (rec2 c) -> forall s t l, vrecord_value (Z1 k) s t l (part c) = vrecord_value (Z2 k) s t l (part c).
  Proof. intros C s t l. cbn [serialize_stream vrecord_value]. apply obind_same. intros f. apply feed_same. intros a. apply (oc_svariant _ OC). exact C. Qed.
  Lemma one_same x k : Forall (fun c => same_child (rec1 c) (rec2 c)) (value1_children x) -> one (Z1 k) x = one (Z2 k) x.
  Proof.
    intros H. rewrite Forall_forall in H. destruct x as [x|t l i x]; cbn [one value1_children] in *; [|apply obind_same; intros e];
      destruct x; cbn [bare variant level_children] in *; try reflexivity.
    - cbn [serialize_stream n_tagged part snd]. specialize (H v (or_introl eq_refl)). destruct (otag_is t _).
      + rewrite (oc_some _ OC _ _ _ H). reflexivity.
      + apply obind_same. intros name. rewrite (oc_newtype_struct _ OC _ _ _ _ H). reflexivity.
    - apply obind_same. intros s. apply fold_then. intros s' v I. apply feed_same. intros a. apply (oc_seq _ OC). apply H. exact I.
    - apply obind_same. intros s. apply fold_then. intros s' [a b] I.
      assert (I' : forall c, c = a \/ c = b -> In c (flat_map (fun e => [fst e; snd e]) es)).
      { intros c J. apply in_flat_map. exists (a, b). split; [exact I|]. cbn. destruct J as [->| ->]; auto. }
      cbn [fst snd]. transitivity (s1 <- map_key (Z2 k) s' (part a);; map_value (Z1 k) s1 (part b)).
      + f_equal. apply feed_same. intros m. apply (oc_map_key _ OC). apply H, I'. auto.
      + apply obind_same. intros m. apply feed_same. intros m'. apply (oc_map_value _ OC). apply H, I'. auto.
    - apply obind_same. intros s. apply fold_then. intros s' [[ft fi] v] I. apply same_tuple. apply H. apply in_map_iff. exists (ft, fi, v). auto.
    - apply obind_same. intros s. apply fold_then. intros s' [[ft fl] v] I. apply same_record. apply H. apply in_map_iff. exists (ft, fl, v). auto.
    - apply obind_same. intros s. apply fold_then. intros s' [[[ft fl] fi] v] I. apply same_record. apply H. apply in_map_iff. exists (ft, fl, fi, v). auto.
    - cbn [serialize_stream enum_tagged part snd]. specialize (H v (or_introl eq_refl)).
      apply obind_same. intros name. apply obind_same. intros ix. rewrite (oc_newtype_variant _ OC _ _ _ _ _ _ H). reflexivity.
    - apply obind_same. intros s. apply fold_then. intros s' [[ft fi] v] I. apply same_vtuple. apply H. apply in_map_iff. exists (ft, fi, v). auto.
    - apply obind_same. intros s. apply fold_then. intros s' [[ft fl] v] I. apply same_vrecord. apply H. apply in_map_iff. exists (ft, fl, v). auto.
    - apply obind_same. intros s. apply fold_then. intros s' [[[ft fl] fi] v] I. apply same_vrecord. apply H. apply in_map_iff. exists (ft, fl, fi, v). auto.
  Qed.
End Serialize.

Lemma serialize_direct dbg sa S : opaque_children S -> forall n v k, direct v -> na_serialize dbg sa S n v k = to_serialize S n v k.
Proof.
  intros OC. induction n as [|n IH]; intros v k D; [reflexivity|]. destruct D as [x H F]. cbn [na_serialize to_serialize].
  rewrite na_one, nested_one by exact H. rewrite (one_same S OC (na_serialize dbg sa S n) (to_serialize S n)); [reflexivity|].
  eapply Forall_impl; [|exact F]. intros c D k'. apply IH. exact D.
Qed.

(** ** Serializing what needs buffering *)
Section Worse.
  Variable dbg : bool.
  Variable S : serializer.
  Hypothesis HE : hands_on_errors dbg S.
  Variables rec1 rec2 : list call -> k_ser S -> outcome (k_ok S).
  Hypothesis REC : forall v k, worse dbg (rec1 v k) (rec2 v k).
  Definition lost {A} (x : option A) : Prop := x = None.
  Definition kept_or_lost {A} (x y : option A) : Prop := x = None \/ x = y.
  Lemma under_refl {A} (bad : A -> Prop) (R : A -> A -> Prop) o : (forall a, R a a) -> under dbg bad R o o.
  Proof. intros H. destruct o; [apply below_ok, H|apply below_err|apply below_panic]. Qed.
  Lemma inner_worse {A} (o1 o2 : outcome A) : worse dbg o1 o2 -> under dbg lost kept_or_lost (inner o1) (inner o2).
  Proof.
    intros [->|[->|(D & ->)]]; [apply under_refl; right; reflexivity| |right; left; split; [exact D|reflexivity]].
    right. right. destruct o2; cbn; try (left; reflexivity). reflexivity.
  Qed.
  Lemma worse_bind {A B} (o1 o2 : outcome A) (k : A -> outcome B) : worse dbg o1 o2 -> worse dbg (x <- o1 ;; k x) (x <- o2 ;; k x).
  Proof. intros [->|[->|(D & ->)]]; [left; reflexivity|right; left; reflexivity|right; right; split; [exact D|reflexivity]]. Qed.
  Lemma feed_worse {A} (s s' : option A) f g : s = s' -> (forall a, worse dbg (f a) (g a)) -> under dbg never eq (feed s f) (feed s' g).
  Proof.
    intros <- H. destruct s as [a|]; cbn [feed]; [|apply below_err].
    destruct (H a) as [->|[->|(D & ->)]]; [apply under_refl; reflexivity|apply below_err|right; left; split; [exact D|reflexivity]].
  Qed.
  Lemma under_eq_bind {A B C} p (R : B -> C -> Prop) (o : outcome A) k1 k2 : (forall a, under dbg p R (k1 a) (k2 a)) -> under dbg p R (x <- o ;; k1 x) (x <- o ;; k2 x).
  Proof. intros H. destruct o; cbn [obind]; [apply H|apply below_err|apply below_panic]. Qed.
  Lemma worse_fields k : stream_below dbg (serialize_stream S rec1 k) (serialize_stream S rec2 k).
  Proof.
    refine {| r_ok := (kept_or_lost : n_ok (serialize_stream S rec1 k) -> n_ok (serialize_stream S rec2 k) -> Prop);
              bad := (lost : n_ok (serialize_stream S rec1 k) -> Prop);
              r_seq := (eq : n_seq (serialize_stream S rec1 k) -> n_seq (serialize_stream S rec2 k) -> Prop);
              r_map := (eq : n_map (serialize_stream S rec1 k) -> n_map (serialize_stream S rec2 k) -> Prop);
              r_tuple := (eq : n_tuple (serialize_stream S rec1 k) -> n_tuple (serialize_stream S rec2 k) -> Prop);
              r_record := (eq : n_record (serialize_stream S rec1 k) -> n_record (serialize_stream S rec2 k) -> Prop);
              r_enum := (eq : n_enum (serialize_stream S rec1 k) -> n_enum (serialize_stream S rec2 k) -> Prop);
              r_vtuple := (eq : n_vtuple (serialize_stream S rec1 k) -> n_vtuple (serialize_stream S rec2 k) -> Prop);
              r_vrecord := (eq : n_vrecord (serialize_stream S rec1 k) -> n_vrecord (serialize_stream S rec2 k) -> Prop) |}.
    all: intros; subst; try (apply under_refl; first [intros; reflexivity|intros; right; reflexivity]; fail); try apply below_err.
    - cbn [n_tagged serialize_stream]. destruct (otag_is t RUST_OPTION_SOME).
      + apply inner_worse, (he_some _ _ HE). apply REC.
      + apply under_eq_bind. intros name. apply inner_worse, (he_newtype_struct _ _ HE). apply REC.
    - apply feed_worse; [reflexivity|]. intros s. apply (he_seq _ _ HE), REC.
    - apply feed_worse; [reflexivity|]. intros s. apply (he_map_key _ _ HE), REC.
    - apply feed_worse; [reflexivity|]. intros s. apply (he_map_value _ _ HE), REC.
    - apply feed_worse; [reflexivity|]. intros [s|s]; apply worse_bind; [apply (he_tstruct _ _ HE), REC|apply (he_tuple _ _ HE), REC].
    - apply feed_worse; [reflexivity|]. intros [s|s]; [|apply worse_bind, (he_tuple _ _ HE), REC].
      destruct (need (as_static_str l)) as [f| |]; cbn [obind]; [|left; reflexivity|left; reflexivity]. apply worse_bind, (he_struct _ _ HE), REC.
    - cbn [enum_tagged serialize_stream]. apply under_eq_bind. intros v. apply under_eq_bind. intros x. apply inner_worse, (he_newtype_variant _ _ HE), REC.
    - apply feed_worse; [reflexivity|]. intros s. apply (he_tvariant _ _ HE), REC.
    - cbn [vrecord_value serialize_stream]. apply under_eq_bind. intros f. apply feed_worse; [reflexivity|]. intros s. apply (he_svariant _ _ HE), REC.
  Defined.
End Worse.
Lemma serialize_worse dbg sa S : hands_on_errors dbg S -> forall n v k, worse dbg (na_serialize dbg sa S n v k) (to_serialize S n v k).
Proof.
  intros HE. induction n as [|n IH]; intros v k; [left; reflexivity|]. cbn [na_serialize to_serialize].
  pose proof (nested_below dbg _ _ (worse_fields dbg S HE _ _ IH k) false v) as N.
  destruct (value_lt dbg sa (S := serialize_stream S (na_serialize dbg sa S n) k) false v) as [E|[E|(D & E)]]; unfold na_stream.
  - rewrite E. unfold nested_stream. destruct N as [->|[(D & ->)|N]]; [right; left; reflexivity|right; right; split; [exact D|reflexivity]|].
    destruct (nested_value (S := serialize_stream S (na_serialize dbg sa S n) k) false v) as [a| |], (nested_value (S := serialize_stream S (to_serialize S n) k) false v) as [b| |]; try contradiction; cbn [obind]; try (left; reflexivity).
    + destruct N as [-> | ->]; [right; left; reflexivity|left; reflexivity].
    + rewrite N. right. left. reflexivity.
  - rewrite E. right. left. reflexivity.
  - rewrite E. right. right. split; [exact D|reflexivity].
Qed.
