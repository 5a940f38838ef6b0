(** * ExtractProofs *)

From Verif Require Import Base Event Tree LowerModel LowerSpec FlatProofs LowerProofs MethProofs WidenProofs
  ExtractModel ExtractSpec.

Lemma finish_ok {A} (r : res (option A)) (ok : bool) :
  finish (r >>= fun s => if ok then Ok s else Err s) = if ok then finish r else None.
Proof. destruct r, ok; reflexivity. Qed.

(** Extractors with an [option] state. *)
Definition ext_ok {A} O (step : option A -> ev -> res (option A)) (sel : ev -> option A) : Prop :=
  forall s e,
    match sel e with
    | Some a => meth O step s e = Ok (Some a)
    | None => if silent e then meth O step s e = Ok s
              else exists s', meth O step s e = Err s'
    end.

Lemma ext_ok_run {A} O (step : option A -> ev -> res (option A)) sel : ext_ok O step sel ->
  forall es s, finish (run (meth O step) s es) = only_content sel s es.
Proof.
  intros H. induction es as [|e es IH]; intros s; [reflexivity|].
  rewrite run_cons. cbn [only_content]. specialize (H s e).
  destruct (sel e).
  - rewrite H. cbn [bind]. apply IH.
  - destruct (silent e).
    + rewrite H. cbn [bind]. apply IH.
    + destruct H as [s' H]. rewrite H. reflexivity.
Qed.

Lemma ext_ok_impl {A} O (step : option A -> ev -> res (option A)) sel : ext_ok O step sel ->
  forall v, finish (run_impl O step None v) =
            if snd (flat v false) then only_content sel None (fst (flat v false)) else None.
Proof.
  intros H v. rewrite run_impl_meth. destruct (flat v false) as [es ok]. cbn [fst snd].
  rewrite finish_ok, (ext_ok_run _ _ _ H). reflexivity.
Qed.

Ltac mu := rewrite meth_unfold; cbn [default_evs default_calls option_map flat flat1 fst snd run bind].

(** Integers: what any extractor does with them. *)
Lemma meth_int_big {S} O (step : S -> ev -> res S) s t z :
  fits I64 z = false -> (t = U128 \/ t = I128) -> O (EInt t z) = false ->
  meth O step s (EInt t z) =
    run (meth O step) s
      (ETaggedBegin (Some NUMBER) None None ::
        (ETextBegin None :: map ETextFragC (dec_frags z) ++ [ETextEnd]) ++
        [ETaggedEnd (Some NUMBER) None None]).
Proof. intros F Ht HO. rewrite meth_unfold, HO, default_evs_int_big by assumption. reflexivity. Qed.
Lemma meth_int_small {S} O (step : S -> ev -> res S) s t z :
  fits I64 z = true -> (t = U128 \/ t = I128) -> O (EInt t z) = false ->
  meth O step s (EInt t z) = meth O step s (EInt I64 z).
Proof. intros F Ht HO. rewrite meth_unfold, HO, default_evs_int_small by assumption. apply run_one. Qed.
Lemma meth_int_wider {S} O (step : S -> ev -> res S) s t z :
  t <> U128 -> t <> I128 -> t <> I64 -> O (EInt t z) = false ->
  meth O step s (EInt t z) = meth O step s (EInt (wider t) z).
Proof.
  intros A B C HO. rewrite meth_unfold, HO.
  destruct t; try congruence; apply run_one.
Qed.

(** Extractors that fail on [i64] and on text. *)
Lemma int128_fails {S} O (step : S -> ev -> res S) s t z :
  (forall s z, exists s', meth O step s (EInt I64 z) = Err s') ->
  (forall s f, exists s', run (meth O step) s
      [ETaggedBegin (Some NUMBER) None None; ETextBegin None; ETextFragC f] = Err s') ->
  (t = U128 \/ t = I128) -> O (EInt t z) = false ->
  exists s', meth O step s (EInt t z) = Err s'.
Proof.
  intros H64 HT Ht HO. destruct (fits I64 z) eqn:F.
  - rewrite meth_int_small by assumption. apply H64.
  - rewrite meth_int_big by assumption.
    unfold dec_frags. destruct (z <? 0)%Z; cbn [map app];
    match goal with |- context [run _ _ (?a :: ?b :: ETextFragC ?f :: ?d)] =>
      change (a :: b :: ETextFragC f :: d) with ([a; b; ETextFragC f] ++ d); destruct (HT s f) as [s' E] end;
    rewrite run_app, E; cbn [bind]; eauto.
Qed.

Ltac ec := lazy beta iota zeta delta
  [meth run bind lower depth flat_map flat flat1 fst snd app default_calls overrides_nothing
   f32_overrides i128_overrides u128_overrides text_overrides bin_overrides tag_overrides
   bool_step f32_step f64_step i128_step u128_step text_step bin_step tag_step tag_set negb label_calls as_static_str l_kind str_calls].
Ltac wid := repeat (rewrite meth_int_wider by (first [discriminate | reflexivity]); cbn [wider]).
Ltac int_case := wid; first [ reflexivity
  | apply int128_fails; [intros; eexists; ec; reflexivity | intros; eexists; ec; reflexivity | solve [auto] | reflexivity]
  | eexists; reflexivity ].

Ltac lbl l := destruct l as [? [] ?].
Ltac ext_case :=
  lazymatch goal with
  | |- context [EInt ?t _] => lazymatch t with I64 => first [ reflexivity | eexists; reflexivity ] | _ => idtac end
  | |- context [ETag _ _ _] => idtac
  | |- context [EBinFrag _] => idtac
  | |- context [EBinFragC _] => idtac
  | |- _ => first [ ec; reflexivity | eexists; ec; reflexivity ]
  end.

Lemma bin_fragC_meth {S} O (step : S -> ev -> res S) s b r :
  O (EBinFragC (b :: r)) = false ->
  meth O step s (EBinFragC (b :: r)) =
  meth O step s ESeqValBegin >>= fun s1 =>
  run (meth O step) s1 ([EInt U8 (byte_val b); ESeqValEnd] ++
     flat_map (fun b => [ESeqValBegin; EInt U8 (byte_val b); ESeqValEnd]) r).
Proof.
  intros HO. rewrite meth_unfold, HO. unfold default_evs. cbn [default_calls option_map].
  rewrite bin_calls_flat. reflexivity.
Qed.

Ltac sel_case e :=
  destruct e as [| | | | | | |b|b| |ty z| | | | | | | | | | | | | | | | |t l i|t|t l i n|t l| | |t l i n| | | |t l i n|t l i| |];
  cbn [sel_bool sel_f32 sel_f64 sel_signed sel_unsigned silent];
  try ext_case.

Ltac bin_case b := destruct b as [|b r]; [ec; reflexivity|].
Ltac binC_case := rewrite bin_fragC_meth by reflexivity;
  match goal with |- exists s', meth ?O ?st ?s ESeqValBegin >>= _ = _ =>
   change (meth O st s ESeqValBegin) with (Err s) end; cbn [bind]; eexists; reflexivity.
Lemma bin_frag_meth {S} O (step : S -> ev -> res S) s b :
  O (EBinFrag b) = false -> meth O step s (EBinFrag b) = meth O step s (EBinFragC b).
Proof. intros HO. rewrite meth_unfold, HO. apply run_one. Qed.
Ltac binF_case := rewrite bin_frag_meth by reflexivity; binC_case.

Ltac tag_case t l := destruct t as [t|];
  [ destruct (tag_eqb t RUST_OPTION_NONE) eqn:?E | ].

Lemma meth_tag {S} O (step : S -> ev -> res S) s t l i : O (ETag t l i) = false ->
  meth O step s (ETag t l i) =
  run (meth O step) s
   (ETaggedBegin t l i ::
     (if otag_is t RUST_OPTION_NONE then [ENull]
      else match l with
           | Some l => match as_static_str l with
                       | Some x => [ETextBegin (Some (blen x)); ETextFrag x; ETextEnd]
                       | None => [ETextBegin (Some (blen (l_text l))); ETextFragC (l_text l); ETextEnd]
                       end
           | None => [ENull]
           end) ++ [ETaggedEnd t l i]).
Proof.
  intros HO. rewrite meth_unfold, HO. unfold default_evs. cbn [default_calls option_map].
  rewrite flat_cons, flat_app.
  destruct (otag_is t RUST_OPTION_NONE); [reflexivity|].
  destruct l as [l|]; [|reflexivity].
  unfold label_calls. destruct (as_static_str l); reflexivity.
Qed.

(** Extractors that fail on [null] and [text_begin] after [tagged_begin]. *)
Lemma tag_fails {S} O (step : S -> ev -> res S) s t l i :
  O (ETag t l i) = false ->
  (forall s, exists s', run (meth O step) s [ETaggedBegin t l i; ENull] = Err s') ->
  (forall s n, exists s', run (meth O step) s [ETaggedBegin t l i; ETextBegin n] = Err s') ->
  exists s', meth O step s (ETag t l i) = Err s'.
Proof.
  intros HO HN HT. rewrite meth_tag by exact HO.
  assert (G : forall a b r, (forall s, exists s', run (meth O step) s [a; b] = Err s') ->
              exists s', run (meth O step) s (a :: b :: r) = Err s').
  { intros a b r H. change (a :: b :: r) with ([a; b] ++ r). rewrite run_app.
    destruct (H s) as [s' ->]. eexists; reflexivity. }
  destruct (otag_is t RUST_OPTION_NONE); [apply G, HN|].
  destruct l as [l|]; [|apply G, HN].
  destruct (as_static_str l); apply G; intros; apply HT.
Qed.
Ltac tag_fail := apply tag_fails; [reflexivity | intros; eexists; ec; reflexivity | intros; eexists; ec; reflexivity].

Lemma ext_bool : ext_ok overrides_nothing bool_step sel_bool.
Proof.
  intros s e. sel_case e.
  - bin_case b. binF_case.
  - bin_case b. binC_case.
  - destruct ty; cbn [unsigned]; int_case.
  - tag_fail.
  - lbl l; ext_case.
  - lbl l; ext_case.
Qed.

Lemma ext_f32 : ext_ok f32_overrides f32_step sel_f32.
Proof.
  intros s e. sel_case e.
  - bin_case b. binF_case.
  - bin_case b. binC_case.
  - destruct ty; cbn [unsigned]; int_case.
  - tag_fail.
  - lbl l; ext_case.
  - lbl l; ext_case.
Qed.

Lemma ext_f64 : ext_ok overrides_nothing f64_step sel_f64.
Proof.
  intros s e. sel_case e.
  - bin_case b. binF_case.
  - bin_case b. binC_case.
  - destruct ty; cbn [unsigned]; int_case.
  - tag_fail.
  - lbl l; ext_case.
  - lbl l; ext_case.
Qed.

Lemma ext_i128 : ext_ok i128_overrides i128_step sel_signed.
Proof.
  intros s e. sel_case e.
  - bin_case b. binF_case.
  - bin_case b. binC_case.
  - destruct ty; cbn [unsigned]; int_case.
  - tag_fail.
  - lbl l; ext_case.
  - lbl l; ext_case.
Qed.

Lemma ext_u128 : ext_ok u128_overrides u128_step sel_unsigned.
Proof.
  intros s e. sel_case e.
  - bin_case b. binF_case.
  - bin_case b. binC_case.
  - destruct ty; cbn [unsigned]; int_case.
  - tag_fail.
  - lbl l; ext_case.
  - lbl l; ext_case.
Qed.


Lemma to_bool_spec v : to_bool v =
  if snd (flat v false) then only_content sel_bool None (fst (flat v false)) else None.
Proof. apply ext_ok_impl, ext_bool. Qed.
Lemma to_f32_spec v : to_f32 v =
  if snd (flat v false) then only_content sel_f32 None (fst (flat v false)) else None.
Proof. apply ext_ok_impl, ext_f32. Qed.
Lemma to_f64_spec v : to_f64 v =
  if snd (flat v false) then only_content sel_f64 None (fst (flat v false)) else None.
Proof. apply ext_ok_impl, ext_f64. Qed.
Lemma to_i128_spec v : to_i128 v =
  if snd (flat v false) then only_content sel_signed None (fst (flat v false)) else None.
Proof. apply ext_ok_impl, ext_i128. Qed.
Lemma to_u128_spec v : to_u128 v =
  if snd (flat v false) then only_content sel_unsigned None (fst (flat v false)) else None.
Proof. apply ext_ok_impl, ext_u128. Qed.

(** Content of a tree: that of the primitive inside the wrappers. *)
Lemma only_content_snoc {A} (sel : ev -> option A) es e : silent e = true -> sel e = None ->
  forall acc, only_content sel acc (es ++ [e]) = only_content sel acc es.
Proof.
  intros Hs Hn. induction es as [|x es IH]; intros acc; cbn [app only_content].
  - rewrite Hn, Hs. reflexivity.
  - destruct (sel x); [apply IH|]. destruct (silent x); [apply IH|reflexivity].
Qed.

Lemma only_content_peel {A} (sel : ev -> option A) :
  (forall e, silent e = true -> sel e = None) ->
  forall t acc, only_content sel acc (emit t) = only_content sel acc (emit (peel t)).
Proof.
  intros H. induction t using tree_ind'; intros acc; try reflexivity; cbn [emit peel only_content].
  - rewrite H by reflexivity. cbn [silent]. apply IHt.
  - rewrite H by reflexivity. cbn [silent]. rewrite only_content_snoc by auto. apply IHt.
  - rewrite H by reflexivity. cbn [silent]. rewrite only_content_snoc by auto. apply IHt.
Qed.

Lemma peel_idem t : match peel t with THint _ _ | TTagged _ _ _ _ | TEnum _ _ _ _ => False | _ => True end.
Proof. induction t using tree_ind'; cbn [peel]; auto. Qed.

Ltac sel_silent := let e := fresh in intros e; destruct e; try discriminate; reflexivity.
Ltac peel_cases t :=
  let P := fresh in pose proof (peel_idem t) as P; destruct (peel t); try contradiction; clear P;
  try reflexivity.

Lemma bool_tree t : only_content sel_bool None (emit t) = bool_of t.
Proof. rewrite only_content_peel by sel_silent. unfold bool_of. peel_cases t. Qed.
Lemma f32_tree t : only_content sel_f32 None (emit t) = f32_of t.
Proof. rewrite only_content_peel by sel_silent. unfold f32_of. peel_cases t. Qed.
Lemma f64_tree t : only_content sel_f64 None (emit t) = f64_of t.
Proof. rewrite only_content_peel by sel_silent. unfold f64_of. peel_cases t. Qed.
Lemma i128_tree t : only_content sel_signed None (emit t) =
  match int_of t with Some (I128, z) => Some z | _ => None end.
Proof. rewrite only_content_peel by sel_silent. unfold int_of. peel_cases t. destruct t0; reflexivity. Qed.
Lemma u128_tree t : only_content sel_unsigned None (emit t) =
  match int_of t with Some (ty, z) => if unsigned ty then Some z else None | _ => None end.
Proof. rewrite only_content_peel by sel_silent. unfold int_of. peel_cases t. destruct t0; reflexivity. Qed.

(** Text and binary. *)
Definition txt_state (ps : list bytes) : option bytes * bool :=
  match ps with
  | [] => (None, false)
  | [s] => (Some s, true)
  | _ => (None, true)
  end.

Definition ext2_ok O (step : option bytes * bool -> ev -> res (option bytes * bool)) f : Prop :=
  forall ps e,
    match f e with
    | Some qs => meth O step (txt_state ps) e = Ok (txt_state (ps ++ qs))
    | None => exists s', meth O step (txt_state ps) e = Err s'
    end.

Lemma ext2_run O step f : ext2_ok O step f -> forall es ps,
  match run (meth O step) (txt_state ps) es with Ok s => fst s | _ => None end =
  single (option_map (app ps) (pieces f es)).
Proof.
  intros H. induction es as [|e es IH]; intros ps.
  - cbn [run pieces option_map]. rewrite app_nil_r. destruct ps as [|? [|]]; reflexivity.
  - rewrite run_cons. cbn [pieces]. specialize (H ps e). destruct (f e) as [qs|].
    + rewrite H. cbn [bind]. rewrite IH. destruct (pieces f es); cbn [option_map]; [|reflexivity].
      rewrite app_assoc. reflexivity.
    + destruct H as [s' ->]. reflexivity.
Qed.

Lemma txt_frag ps s :
  text_step (txt_state ps) (ETextFrag s) = Ok (txt_state (ps ++ [s])).
Proof. destruct ps as [|a [|b ps]]; reflexivity. Qed.

Ltac sel_case2 e :=
  destruct e as [| | | | | | |b|b| |ty z| | | | | | | | | | | | | | | | |t l i|t|t l i n|t l| | |t l i n| | | |t l i n|t l i| |];
  cbn [text_pieces bin_pieces silent].

Lemma ext_text : ext2_ok text_overrides text_step text_pieces.
Proof.
  intros ps e. set (st := txt_state ps).
  assert (E : Ok st = Ok (txt_state (ps ++ [])) :> res (option bytes * bool)) by (rewrite app_nil_r; reflexivity).
  sel_case2 e; try (rewrite <- E; ext_case; fail); try (ext_case; fail).
  - change (meth text_overrides text_step st (ETextFrag s)) with (text_step st (ETextFrag s) >>= Ok).
    subst st. rewrite txt_frag. reflexivity.
  - destruct b as [|b r]; [rewrite <- E; ec; reflexivity|]. binF_case.
  - destruct b as [|b r]; [rewrite <- E; ec; reflexivity|]. binC_case.
  - destruct ty; int_case.
  - destruct (otag_is t RUST_OPTION_NONE) eqn:T.
    { assert (G : exists s', meth text_overrides text_step st (ETag t l i) = Err s').
      { rewrite meth_tag, T by reflexivity. eexists; reflexivity. }
      destruct l; exact G. }
    rewrite meth_tag, T by reflexivity.
    destruct l as [l|]; [|eexists; reflexivity].
    destruct (as_static_str l) as [x|]; [|eexists; reflexivity].
    cbn [app run]. change (meth text_overrides text_step st (ETaggedBegin t (Some l) i)) with (Ok st).
    cbn [bind]. change (meth text_overrides text_step st (ETextBegin (Some (blen x)))) with (Ok st).
    cbn [bind]. change (meth text_overrides text_step st (ETextFrag x)) with (text_step st (ETextFrag x) >>= Ok).
    subst st. rewrite txt_frag. reflexivity.
  - lbl l; ext_case.
  - lbl l; ext_case.
Qed.

Lemma bin_frag_step ps s :
  bin_step (txt_state ps) (EBinFrag s) = Ok (txt_state (ps ++ [s])).
Proof. destruct ps as [|a [|b ps]]; reflexivity. Qed.

Lemma ext_bin : ext2_ok bin_overrides bin_step bin_pieces.
Proof.
  intros ps e. set (st := txt_state ps).
  assert (E : Ok st = Ok (txt_state (ps ++ [])) :> res (option bytes * bool)) by (rewrite app_nil_r; reflexivity).
  sel_case2 e; try (rewrite <- E; ext_case; fail); try (ext_case; fail).
  - change (meth bin_overrides bin_step st (EBinFrag b)) with (bin_step st (EBinFrag b) >>= Ok).
    subst st. rewrite bin_frag_step. reflexivity.
  - eexists; reflexivity.
  - destruct ty; int_case.
  - tag_fail.
  - lbl l; ext_case.
  - lbl l; ext_case.
Qed.

Lemma ext2_impl O step f : ext2_ok O step f -> forall v,
  match run_impl O step (None, false) v with Ok s => fst s | _ => None end =
  if snd (flat v false) then single (pieces f (fst (flat v false))) else None.
Proof.
  intros H v. rewrite run_impl_meth. destruct (flat v false) as [es ok]. cbn [fst snd].
  pose proof (ext2_run O step f H es []) as R. cbn [txt_state app] in R.
  destruct (run (meth O step) (None, false) es) eqn:E; destruct ok; cbn [bind]; try reflexivity;
    rewrite R; destruct (pieces f es); reflexivity.
Qed.

Lemma to_text_spec v : to_text v =
  if snd (flat v false) then single (pieces text_pieces (fst (flat v false))) else None.
Proof. apply ext2_impl, ext_text. Qed.
Lemma to_binary_spec v : to_binary v =
  if snd (flat v false) then single (pieces bin_pieces (fst (flat v false))) else None.
Proof. apply ext2_impl, ext_bin. Qed.

Lemma pieces_app f a b : pieces f (a ++ b) =
  match pieces f a, pieces f b with Some x, Some y => Some (x ++ y) | _, _ => None end.
Proof.
  induction a as [|e a IH]; cbn [app pieces].
  - destruct (pieces f b); reflexivity.
  - rewrite IH. destruct (f e), (pieces f a), (pieces f b); try reflexivity. rewrite app_assoc; reflexivity.
Qed.

Lemma pieces_peel f :
  (forall t, f (ETagHint t) = Some []) ->
  (forall t l i, f (ETaggedBegin t l i) = Some []) -> (forall t l i, f (ETaggedEnd t l i) = Some []) ->
  (forall t l i, f (EEnumBegin t l i) = Some []) -> (forall t l i, f (EEnumEnd t l i) = Some []) ->
  forall t, pieces f (emit t) = pieces f (emit (peel t)).
Proof.
  intros H1 H2 H3 H4 H5. induction t using tree_ind'; try reflexivity; cbn [emit peel pieces].
  - rewrite H1, IHt. match goal with |- context [pieces f (emit (peel ?x))] => destruct (pieces f (emit (peel x))) end; reflexivity.
  - rewrite H2, pieces_app. cbn [pieces]. rewrite H3, IHt. match goal with |- context [pieces f (emit (peel ?x))] => destruct (pieces f (emit (peel x))) end; [|reflexivity].
    rewrite !app_nil_r. reflexivity.
  - rewrite H4, pieces_app. cbn [pieces]. rewrite H5, IHt. match goal with |- context [pieces f (emit (peel ?x))] => destruct (pieces f (emit (peel x))) end; [|reflexivity].
    rewrite !app_nil_r. reflexivity.
Qed.

Lemma text_frags_pieces fs : pieces text_pieces (map text_frag fs) =
  if forallb fst fs then Some (map snd fs) else None.
Proof.
  induction fs as [|[b s] fs IH]; [reflexivity|]. cbn [map pieces forallb fst snd]. rewrite IH.
  unfold text_frag; cbn [fst snd]. destruct b; cbn [text_pieces silent andb]; [|reflexivity].
  destruct (forallb fst fs); reflexivity.
Qed.
Lemma bin_frags_pieces fs : pieces bin_pieces (map bin_frag fs) =
  if forallb fst fs then Some (map snd fs) else None.
Proof.
  induction fs as [|[b s] fs IH]; [reflexivity|]. cbn [map pieces forallb fst snd]. rewrite IH.
  unfold bin_frag; cbn [fst snd]. destruct b; cbn [bin_pieces silent andb]; [|reflexivity].
  destruct (forallb fst fs); reflexivity.
Qed.

Lemma single_frags (fs : list (bool * bytes)) :
  single (if forallb fst fs then Some (map snd fs) else None) =
  match fs with [(true, s)] => Some s | _ => None end.
Proof.
  destruct fs as [|[b s] [|[b2 s2] fs]]; try reflexivity; destruct b; try reflexivity.
  cbn [forallb fst andb]. destruct b2; [|reflexivity]. cbn [andb]. destruct (forallb fst fs); reflexivity.
Qed.

Lemma text_tree t : single (pieces text_pieces (emit t)) = text_of t.
Proof.
  rewrite pieces_peel by reflexivity. unfold text_of. peel_cases t.
  - cbn [emit pieces text_pieces]. rewrite pieces_app, text_frags_pieces, <- single_frags.
    cbn [pieces text_pieces]. destruct (forallb fst fs); [|reflexivity]. rewrite !app_nil_r. reflexivity.
  - cbn [emit pieces]. cbn [text_pieces]. destruct l as [l|]; [|reflexivity].
    destruct (otag_is t0 RUST_OPTION_NONE); [reflexivity|]. destruct (as_static_str l); reflexivity.
Qed.
Lemma bin_tree t : single (pieces bin_pieces (emit t)) = bin_of t.
Proof.
  rewrite pieces_peel by reflexivity. unfold bin_of. peel_cases t.
  cbn [emit pieces bin_pieces]. rewrite pieces_app, bin_frags_pieces, <- single_frags.
  cbn [pieces bin_pieces]. destruct (forallb fst fs); [|reflexivity]. rewrite !app_nil_r. reflexivity.
Qed.

(** Tags. *)
Definition tag_result (r : res (option tag * bool)) : option tag :=
  match r with Ok s | Err s => fst s | Panic => None end.

Lemma tag_step_set t e : exists r, tag_step (t, true) e = r /\ (r = Ok (t, true) \/ r = Err (t, true)).
Proof. destruct e as [| | | | | | | | | |[] ?| | | | | | | | | | | | | | | | | | | | | | | | | | | | | |]; eexists; split; try reflexivity; auto. Qed.

Lemma tag_run_set t es : run tag_step (t, true) es = Ok (t, true) \/ run tag_step (t, true) es = Err (t, true).
Proof.
  induction es as [|e es IH]; [left; reflexivity|]. rewrite run_cons.
  destruct (tag_step_set t e) as (r & E & [-> | ->]); rewrite E; [exact IH|right; reflexivity].
Qed.

Lemma tag_lower_first e :
  (lower tag_overrides depth e = [] /\ forall es, first_tag (e :: es) = first_tag es) \/
  (exists d r, lower tag_overrides depth e = d :: r /\ forall es, (tag_step (None, false) d = Ok (first_tag (e :: es), true) \/
      (tag_step (None, false) d = Err (None, false) /\ first_tag (e :: es) = None))).
Proof.
  assert (I64c : forall z, lower tag_overrides depth (EInt I64 z) = [EInt I64 z]) by reflexivity.
  assert (I128c : forall t z, t = U128 \/ t = I128 -> exists d r, lower tag_overrides depth (EInt t z) = d :: r /\
     tag_step (None, false) d = Ok (Some NUMBER, true)).
  { intros t z Ht. rewrite lower_unfold. replace (tag_overrides (EInt t z)) with false by reflexivity.
    destruct (fits I64 z) eqn:F.
    - rewrite default_evs_int_small by assumption. do 2 eexists; split; reflexivity.
    - rewrite default_evs_int_big by assumption. do 2 eexists; split; reflexivity. }
  assert (Ic : forall t z, exists d r, lower tag_overrides depth (EInt t z) = d :: r /\
     tag_step (None, false) d = Ok (Some NUMBER, true)).
  { intros t z. destruct t; try (apply I128c; solve [auto]); try (do 2 eexists; split; reflexivity);
    repeat (rewrite widen_step by (first [discriminate|reflexivity]); cbn [wider]);
    try (apply I128c; solve [auto]); do 2 eexists; split; reflexivity. }
  destruct e as [| | | | | | |b|b| |ty z| | | | | | | | | | | | | | | | |t l i|t|t l i n|t l| | |t l i n| | | |t l i n|t l i| |];
  try (left; split; reflexivity);
  try (right; do 2 eexists; split; [reflexivity|]; intros es; first [left; reflexivity | right; split; reflexivity]; fail).
  - destruct b as [|b r]; [left; split; reflexivity|].
    right. assert (L : exists rest, lower tag_overrides depth (EBinFrag (b :: r)) = ESeqValBegin :: rest).
    { rewrite (lower_fuel _ depth (S depth)) by (simpl; unfold depth; lia).
      rewrite lower_unfold. cbn [tag_overrides default_evs default_calls option_map flat flat1 fst flat_map app].
      rewrite app_nil_r, lower_unfold. unfold default_evs. cbn [tag_overrides default_calls option_map depth].
      rewrite bin_calls_flat. eexists; reflexivity. }
    destruct L as [rest L]. exists ESeqValBegin, rest. split; [exact L|].
    intros es; right; split; reflexivity.
  - destruct b as [|b r]; [left; split; reflexivity|].
    right. assert (L : exists rest, lower tag_overrides depth (EBinFragC (b :: r)) = ESeqValBegin :: rest).
    { rewrite lower_unfold. unfold default_evs. cbn [tag_overrides default_calls option_map depth].
      rewrite bin_calls_flat. eexists; reflexivity. }
    destruct L as [rest L]. exists ESeqValBegin, rest. split; [exact L|].
    intros es; right; split; reflexivity.
  - right. destruct (Ic ty z) as (d & r & L & T). exists d, r. split; [exact L|].
    intros es. left. rewrite T. reflexivity.
  - right. rewrite lower_unfold. unfold default_evs. cbn [tag_overrides default_calls option_map depth].
    rewrite flat_cons, flat_app. destruct (label_calls_flat l) as [f [-> _]].
    do 2 eexists. split; [reflexivity|]. intros es; right; split; reflexivity.
  - right. rewrite (lower_fuel _ depth (S depth)) by (simpl; unfold depth; lia).
    rewrite lower_unfold. cbn [tag_overrides default_evs default_calls option_map flat flat1 fst flat_map app].
    rewrite app_nil_r, lower_unfold. unfold default_evs. cbn [tag_overrides default_calls option_map depth].
    rewrite flat_cons, flat_app. destruct (label_calls_flat l) as [f [-> _]].
    do 2 eexists. split; [reflexivity|]. intros es; right; split; reflexivity.
Qed.

Lemma value_tag_spec v : value_tag v = first_tag (fst (flat v false)).
Proof.
  unfold value_tag, run_impl. destruct (flat v false) as [es ok]. cbn [fst].
  assert (H : run tag_step (None, false) (lower_all tag_overrides es) <> Panic /\
              tag_result (run tag_step (None, false) (lower_all tag_overrides es)) = first_tag es).
  { induction es as [|e es IH]; [split; [discriminate|reflexivity]|].
    rewrite lower_all_cons. destruct (tag_lower_first e) as [[-> F] | (d & r & -> & F)].
    - rewrite F. exact IH.
    - cbn [app]. rewrite run_cons. destruct (F es) as [-> | [-> ->]]; cbn [bind].
      + destruct (tag_run_set (first_tag (e :: es)) (r ++ lower_all tag_overrides es)) as [-> | ->];
          split; try discriminate; reflexivity.
      + split; [discriminate|reflexivity]. }
  destruct H as [NP H]. destruct (run tag_step _ _); try congruence; cbn [bind tag_result] in *;
    destruct ok; assumption.
Qed.

Lemma tag_tree t : first_tag (emit t) = tag_of t.
Proof. induction t using tree_ind'; try reflexivity. cbn [emit first_tag tag_of]. exact IHt. Qed.

