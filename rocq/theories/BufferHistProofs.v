(** * BufferHistProofs: arbitrary histories, prefixes and owning *)

From Verif Require Import Base Event Tree LowerModel FlatProofs DataModel FragModel FragProofs
  BufferModel BufferSpec BufferProofs.

Lemma Forall2_length {A B} (R : A -> B -> Prop) l m : Forall2 R l m -> List.length l = List.length m.
Proof. induction 1; cbn; congruence. Qed.

(** ** Every reachable state is properly nested *)
Inductive opened : list part -> list nat -> Prop :=
| opened_root ps cs : plays ps cs -> opened ps []
| opened_in ps st k body cs : opened ps st -> plays body cs ->
    opened (ps ++ PNode 0 k :: body) (List.length ps :: st).

Lemma opened_add ps st qs ds : opened ps st -> plays qs ds -> opened (ps ++ qs) st.
Proof.
  intros [ps' cs P|ps' st' k body cs O P] Q.
  - econstructor. eapply plays_app; eauto.
  - rewrite <- app_assoc. cbn [app]. econstructor; [exact O|]. eapply plays_app; eauto.
Qed.
Lemma opened_plays ps st : opened ps st -> exists cs, plays ps cs.
Proof.
  induction 1 as [ps cs P|ps st k body cs O (cs0 & IH) P]; [eauto|].
  eexists. apply plays_app; [exact IH|]. apply (plays_node k [] body [] cs); [constructor|exact P].
Qed.

Definition shape (p q : part) : Prop :=
  match p, q with
  | PNode n _, PNode m _ => n = m
  | PNode _ _, _ | _, PNode _ _ => False
  | _, _ => True
  end.
Lemma shape_refl p : shape p p.
Proof. destruct p; cbn; auto. Qed.
Lemma shapes_refl ps : Forall2 shape ps ps.
Proof. induction ps; constructor; auto using shape_refl. Qed.

Lemma plays_shape ps cs : plays ps cs -> forall ps', Forall2 shape ps ps' -> exists cs', plays ps' cs'.
Proof.
  induction 1 as [|k ps cs _ IH|c ps cs _ IH|c ps cs _ IH|k body ps cb cs H1 IH1 _ IH2]; intros ps' F.
  - inversion F; subst. eexists; constructor.
  - inversion F as [|? q ? qs S F']; subst. destruct (IH _ F') as [cs' P].
    destruct q; try contradiction; eexists; constructor; eauto.
  - inversion F as [|? q ? qs S F']; subst. destruct (IH _ F') as [cs' P].
    destruct q; try contradiction; eexists; constructor; eauto.
  - inversion F as [|? q ? qs S F']; subst. destruct (IH _ F') as [cs' P].
    destruct q; try contradiction; eexists; constructor; eauto.
  - inversion F as [|? q ? qs S F']; subst. apply Forall2_app_inv_l in F' as (b' & r' & Fb & Fr & ->).
    destruct q as [| | |m k']; try contradiction. cbn in S. subst m.
    destruct (IH1 _ Fb) as [cb' Pb]. destruct (IH2 _ Fr) as [cr' Pr].
    rewrite (Forall2_length _ _ _ Fb). eexists. constructor; eauto.
Qed.
Lemma opened_shape ps st : opened ps st -> forall ps', Forall2 shape ps ps' -> opened ps' st.
Proof.
  induction 1 as [ps cs P|ps st k body cs O IH P]; intros ps' F.
  - destruct (plays_shape _ _ P _ F) as [cs' P']. econstructor; eauto.
  - apply Forall2_app_inv_l in F as (a & r & Fa & Fr & ->).
    inversion Fr as [|? q ? qs S F']; subst. destruct q as [| | |m k']; try contradiction. cbn in S. subst m.
    rewrite (Forall2_length _ _ _ Fa). destruct (plays_shape _ _ P _ F') as [cs' P']. econstructor; eauto.
Qed.

Lemma opened_last qs p p' st : opened (qs ++ [p]) st -> shape p p' -> opened (qs ++ [p']) st.
Proof.
  intros O S. eapply opened_shape; [exact O|]. apply Forall2_app; [apply shapes_refl|]. constructor; auto.
Qed.

Definition good (b : vbuf) : Prop := opened (parts b) (stack b).

Lemma good_new : good vbuf_new.
Proof. unfold good. econstructor. constructor. Qed.

Lemma good_push b p : good b -> (exists cs, plays [p] cs) -> good (push_part b p).
Proof. intros G [cs P]. unfold good in *. eapply opened_add; eauto. Qed.
Lemma good_begin b k : good b -> good (push_begin b k).
Proof. intros G. unfold good in *. cbn. econstructor; [exact G|constructor]. Qed.
Lemma good_end b : good b ->
  match push_end b with Ok b' | Err b' => good b' | Panic => False end /\
  (match stack b with [] => push_end b = vfail b | _ => exists b', push_end b = Ok b' end).
Proof.
  intros G. destruct b as [p st tb er]. unfold good in G. cbn [parts stack] in G.
  inversion G as [ps cs P|ps st' k body cs O P]; subst.
  - split; [exact G|reflexivity].
  - rewrite push_end_body. split; [|eexists; reflexivity]. unfold good. cbn [parts stack].
    eapply opened_add; [exact O|].
    pose proof (plays_node k body [] cs [] P plays_nil) as X. rewrite app_nil_r in X. exact X.
Qed.
Lemma good_frag b text bor s : good b ->
  match push_frag b text bor s with
  | Ok b' | Err b' => good b'
  | Panic => parts b = []
  end.
Proof.
  intros G. unfold push_frag. destruct (last_part (parts b)) as [p|] eqn:L; [|apply last_part_none, L].
  apply last_part_some in L as (qs & E).
  destruct p as [k|c|c|n k]; try exact G; destruct text; try exact G; unfold good in *; cbn [parts stack];
    rewrite E in *; rewrite set_last_snoc; eapply opened_last; eauto; exact I.
Qed.

Lemma good_step b e : good b ->
  match vbuf_step b e with
  | Ok b' | Err b' => good b'
  | Panic => parts b = [] /\ is_fragment e = true
  end.
Proof.
  intros G.
  assert (L : forall k, exists cs, plays [PLeaf k] cs) by (intros; eexists; repeat constructor).
  assert (E : match push_end b with Ok b' | Err b' => good b' | Panic => False end) by apply good_end, G.
  assert (E' : match push_end b with Ok b' | Err b' => good b' | Panic => parts b = [] /\ false = true end)
    by (destruct (push_end b); tauto).
  destruct e; cbn [vbuf_step is_fragment];
    try (apply good_push; auto; fail); try (apply good_begin; auto; fail); try exact E'; try exact G.
  - apply good_push; [exact G|]. eexists. repeat constructor.
  - pose proof (good_frag b true true s G). destruct (push_frag b true true s); auto.
  - pose proof (good_frag b true false s G). destruct (push_frag b true false s); auto.
  - apply good_push; [exact G|]. eexists. repeat constructor.
  - pose proof (good_frag b false true s G). destruct (push_frag b false true s); auto.
  - pose proof (good_frag b false false s G). destruct (push_frag b false false s); auto.
Qed.

(** A history that goes on after errors and panics (the buffer is unchanged by a
    panicking call). *)
Definition vbuf_next (b : vbuf) (e : ev) : vbuf :=
  match vbuf_step b e with Ok b' | Err b' => b' | Panic => b end.
Definition drive (b : vbuf) (es : list ev) : vbuf := fold_left vbuf_next es b.

Lemma good_next b e : good b -> good (vbuf_next b e).
Proof. intros G. pose proof (good_step b e G). unfold vbuf_next. destruct (vbuf_step b e); auto. Qed.
Lemma good_drive es : forall b, good b -> good (drive b es).
Proof. induction es as [|e es IH]; intros b G; [exact G|]. apply IH, good_next, G. Qed.

Lemma run_drive es : forall b,
  match run vbuf_step b es with Ok b' => drive b es = b' | _ => True end.
Proof.
  induction es as [|e es IH]; intros b; [reflexivity|]. cbn [run drive fold_left]. unfold vbuf_next.
  destruct (vbuf_step b e); cbn [bind]; [apply IH|exact I|exact I].
Qed.
Lemma run_prefix_err es : forall b b', run vbuf_step b es = Err b' -> exists p q, es = p ++ q /\ drive b p = b'.
Proof.
  induction es as [|e es IH]; intros b b' H; [discriminate|]. cbn [run] in H.
  destruct (vbuf_step b e) as [b1|b1|] eqn:E; cbn [bind] in H; try discriminate.
  - destruct (IH _ _ H) as (p & q & -> & D). exists (e :: p), q. split; [reflexivity|].
    cbn [drive fold_left]. unfold vbuf_next. rewrite E. exact D.
  - injection H as <-. exists [e], es. split; [reflexivity|]. cbn. unfold vbuf_next. rewrite E. reflexivity.
Qed.

(** What properly nested parts replay is properly nested. *)
Lemma nested_app a b : nested a -> nested b -> nested (a ++ b).
Proof.
  induction 1 as [|e es S H IH|n b0 s es H IH|n b0 s es H IH|b0 e body es C H1 IH1 H2 IH2]; intros B; cbn [app].
  - exact B.
  - apply nested_single; auto.
  - apply nested_text; auto.
  - apply nested_bin; auto.
  - rewrite <- app_assoc. cbn [app]. apply nested_node; auto.
Qed.
Lemma closes_node k : closes (begin_ev k) (end_ev k).
Proof. destruct k; cbn; auto. Qed.
Lemma plays_nested ps cs : plays ps cs -> exists es, flat cs false = (es, true) /\ nested es.
Proof.
  induction 1 as [|k ps cs _ (es & E & N)|c ps cs _ (es & E & N)|c ps cs _ (es & E & N)
                 |k body ps cb cs _ (es1 & E1 & N1) _ (es2 & E2 & N2)].
  - exists []. split; [reflexivity|constructor].
  - eexists. split; [apply flat_CE1, E|]. apply nested_single; [destruct k; reflexivity|exact N].
  - eexists. split; [apply flat_app_ok; [apply text_ref_flat|exact E]|]. cbn [app]. apply nested_text. exact N.
  - eexists. split; [apply flat_app_ok; [apply bin_ref_flat|exact E]|]. cbn [app]. apply nested_bin. exact N.
  - eexists. split; [apply flat_CE1, flat_app_ok; [exact E1|apply flat_CE1, E2]|].
    apply nested_node; [apply closes_node|exact N1|exact N2].
Qed.

(** ** Owning *)
Lemma plays_owned ps cs : plays ps cs -> exists cs', plays (map part_into_owned ps) cs' /\
  flat cs' false = (map computed (fst (flat cs false)), true).
Proof.
  induction 1 as [|k ps cs _ (cs' & P & F)|c ps cs H (cs' & P & F)|c ps cs H (cs' & P & F)
                 |k body ps cb cs H1 (cb' & P1 & F1) H2 (cs' & P2 & F2)]; cbn [map part_into_owned].
  - exists []. split; [constructor|reflexivity].
  - exists (CE (leaf_ev k) :: cs'). split; [constructor; exact P|].
    rewrite flat_cons, F, flat_cons. cbn [flat1]. destruct (flat cs false) as [es ok]. cbn.
    destruct k; reflexivity.
  - exists (text_buf_ref (frag_into_owned c) ++ cs'). split; [constructor; exact P|].
    rewrite !flat_app, !text_ref_flat, F. destruct (flat cs false) as [es ok]. cbn.
    destruct c as [[|] d]; reflexivity.
  - exists (bin_buf_ref (frag_into_owned c) ++ cs'). split; [constructor; exact P|].
    rewrite !flat_app, !bin_ref_flat, F. destruct (flat cs false) as [es ok]. cbn.
    destruct c as [[|] d]; reflexivity.
  - rewrite map_app. exists (CE (begin_ev k) :: cb' ++ CE (end_ev k) :: cs'). split.
    + rewrite <- (map_length part_into_owned body). constructor; assumption.
    + destruct (plays_nested _ _ H1) as (e1 & E1 & _). destruct (plays_nested _ _ H2) as (e2 & E2 & _).
      erewrite flat_CE1; [|apply flat_app_ok; [exact F1|apply flat_CE1, F2]].
      erewrite (flat_CE1 (begin_ev k)); [|apply flat_app_ok; [exact E1|apply flat_CE1, E2]].
      rewrite E1, E2. cbn [fst map]. rewrite map_app. cbn [map].
      replace (computed (begin_ev k)) with (begin_ev k) by (destruct k; reflexivity).
      replace (computed (end_ev k)) with (end_ev k) by (destruct k; reflexivity). reflexivity.
Qed.

(** Cloning buffered parts changes nothing: their labels are already owned. *)
Definition settled_label (l : label) : Prop := label_clone l = l.
Definition settled (p : part) : Prop := part_clone p = p.
Lemma settled_own l : label_clone (label_to_owned l) = label_to_owned l.
Proof. destruct l as [t [| |] g]; reflexivity. Qed.
Lemma settled_own_opt l : clone_opt (own l) = own l.
Proof. destruct l; cbn; [rewrite settled_own|]; reflexivity. Qed.

Lemma Forall_set_part (P : part -> Prop) ps p : forall n, Forall P ps -> P p -> Forall P (set_part ps n p).
Proof.
  induction ps as [|q ps IH]; intros [|n] F Hp; cbn; auto; inversion F; subst; constructor; auto.
Qed.
Lemma settled_step b e : Forall settled (parts b) -> Forall settled (parts (vbuf_next b e)).
Proof.
  intros F. unfold vbuf_next.
  assert (SN : forall p, settled p -> Forall settled (parts b ++ [p])) by (intros; apply Forall_app; auto).
  assert (PE : Forall settled (parts (match push_end b with Ok b' | Err b' => b' | Panic => b end))).
  { unfold push_end. destruct (stack b) as [|i st]; [exact F|].
    destruct (nth_error (parts b) i) as [[k|c|c|n k]|] eqn:E; try exact F.
    cbn [parts]. apply Forall_set_part; [exact F|].
    apply nth_error_In in E. rewrite Forall_forall in F. apply F in E.
    unfold settled in *. cbn in *. congruence. }
  assert (PF : forall t bo s, Forall settled (parts (match push_frag b t bo s with Ok b' | Err b' => b' | Panic => b end))).
  { intros t bo s. unfold push_frag. destruct (last_part (parts b)) as [p|] eqn:L; [|exact F].
    apply last_part_some in L as (qs & E).
    destruct p as [k|c|c|n k]; try exact F; destruct t; try exact F; cbn [parts]; rewrite E in *;
      rewrite set_last_snoc; apply Forall_app in F as [F1 _]; apply Forall_app; split; auto;
      constructor; [reflexivity|constructor| reflexivity|constructor]. }
  destruct e; cbn [vbuf_step]; try exact PE; try apply PF; try exact F; cbn [parts push_part push_begin set_in_tb];
    apply SN; unfold settled; cbn [part_clone leaf_clone node_clone];
    rewrite ?settled_own_opt, ?settled_own; reflexivity.
Qed.
Lemma settled_drive es : forall b, Forall settled (parts b) -> Forall settled (parts (drive b es)).
Proof. induction es as [|e es IH]; intros b F; [exact F|]. apply IH, settled_step, F. Qed.
Lemma settled_to_value b : Forall settled (parts b) -> to_value b = parts b.
Proof.
  unfold to_value. induction 1 as [|p ps H F IH]; [reflexivity|]. cbn [map]. rewrite IH, H. reflexivity.
Qed.

(** [collect_owned] against [collect]: the same parts up to who owns the text. *)
Definition owned_sim (p q : part) : Prop :=
  match p, q with
  | PText c, PText d => c_data c = c_data d /\ (c_owned d = false -> c_data d = [])
  | PBin c, PBin d => c_data c = c_data d /\ (c_owned d = false -> c_data d = [])
  | PLeaf k, PLeaf k' => k = k'
  | PNode n k, PNode m k' => n = m /\ k = k'
  | _, _ => False
  end.
Definition buf_sim (b c : vbuf) : Prop :=
  Forall2 owned_sim (parts b) (parts c) /\ stack b = stack c /\ in_tb b = in_tb c /\ err b = err c.
Definition res_sim (r s : res vbuf) : Prop :=
  match r, s with
  | Ok b, Ok c | Err b, Err c => buf_sim b c
  | Panic, Panic => True
  | _, _ => False
  end.

Lemma Forall2_snoc {A B} (R : A -> B -> Prop) l m x y : Forall2 R l m -> R x y -> Forall2 R (l ++ [x]) (m ++ [y]).
Proof. intros. apply Forall2_app; auto. Qed.
Lemma Forall2_set_part ps qs : Forall2 owned_sim ps qs -> forall n p q, owned_sim p q ->
  Forall2 owned_sim (set_part ps n p) (set_part qs n q).
Proof. induction 1; intros [|n] p q O; cbn; constructor; auto. Qed.
Lemma Forall2_nth ps qs n : Forall2 owned_sim ps qs ->
  match nth_error ps n, nth_error qs n with
  | Some p, Some q => owned_sim p q
  | None, None => True
  | _, _ => False
  end.
Proof. intros F. revert n. induction F; intros [|n]; cbn; auto. apply IHF. Qed.
Lemma Forall2_last ps qs : Forall2 owned_sim ps qs ->
  match last_part ps, last_part qs with
  | Some p, Some q => owned_sim p q
  | None, None => True
  | _, _ => False
  end.
Proof.
  intros F. unfold last_part.
  assert (R : Forall2 owned_sim (rev ps) (rev qs)).
  { induction F; cbn; [constructor|]. apply Forall2_snoc; auto. }
  destruct R; auto.
Qed.
Lemma Forall2_set_last ps qs p q : Forall2 owned_sim ps qs -> owned_sim p q ->
  Forall2 owned_sim (set_last ps p) (set_last qs q).
Proof.
  intros F O. unfold set_last. apply Forall2_snoc; [|exact O].
  induction F as [|x y l m H F IH]; [constructor|]. cbn. destruct F; constructor; auto.
Qed.

Lemma push_sim b c p q : buf_sim b c -> owned_sim p q -> buf_sim (push_part b p) (push_part c q).
Proof. intros (F & S & T & E) O. repeat split; cbn; auto. apply Forall2_snoc; auto. Qed.
Lemma begin_sim b c k : buf_sim b c -> buf_sim (push_begin b k) (push_begin c k).
Proof.
  intros (F & S & T & E). repeat split; cbn; auto.
  - apply Forall2_snoc; [exact F|]. cbn. auto.
  - rewrite S, (Forall2_length _ _ _ F). reflexivity.
Qed.
Lemma fail_sim b c : buf_sim b c -> res_sim (vfail b) (vfail c).
Proof. intros (F & S & T & E). repeat split; cbn; auto. Qed.
Lemma end_sim b c : buf_sim b c -> res_sim (push_end b) (push_end c).
Proof.
  intros B. pose proof B as (F & S & T & E). unfold push_end. rewrite <- S.
  destruct (stack b) as [|i st]; [apply fail_sim, B|].
  pose proof (Forall2_nth _ _ i F) as N.
  destruct (nth_error (parts b) i) as [p|], (nth_error (parts c) i) as [q|]; try contradiction; [|exact I].
  destruct p, q; try contradiction; cbn [owned_sim] in N; try (cbn; repeat split; auto; fail).
  destruct N as [-> ->]. cbn. repeat split; auto. cbn. rewrite (Forall2_length _ _ _ F).
  apply Forall2_set_part; [exact F|]. cbn. auto.
Qed.
Lemma frag_sim b c text bor s : buf_sim b c -> res_sim (push_frag b text bor s) (push_frag c text false s).
Proof.
  intros (F & S & T & E). unfold push_frag. pose proof (Forall2_last _ _ F) as L.
  destruct (last_part (parts b)) as [p|], (last_part (parts c)) as [q|]; try contradiction; [|exact I].
  assert (B : buf_sim b c) by (repeat split; auto).
  destruct p, q; try contradiction; cbn [owned_sim] in L; try (apply fail_sim, B);
    destruct text; try (apply fail_sim, B); destruct L as [D O];
    cbn [res_sim]; repeat split; cbn [parts stack in_tb err]; auto; apply Forall2_set_last; auto; cbn;
    (split; [destruct bor; rewrite ?frag_push_data; cbn; congruence|discriminate]).
Qed.
Lemma set_tb_sim b c x : buf_sim b c -> buf_sim (set_in_tb b x) (set_in_tb c x).
Proof. intros (F & S & T & E). repeat split; auto. Qed.

Lemma step_sim b c e : buf_sim b c -> res_sim (vbuf_step b e) (vbuf_step c (computed e)).
Proof.
  intros B.
  destruct e; cbn [vbuf_step computed];
    try (apply push_sim; [|cbn; auto; fail]; auto using set_tb_sim; fail);
    try (apply begin_sim, B); try (apply end_sim, B); try (apply frag_sim, B); try (apply set_tb_sim, B).
Qed.
Lemma run_sim es : forall b c, buf_sim b c -> res_sim (run vbuf_step b es) (run vbuf_step c (map computed es)).
Proof.
  induction es as [|e es IH]; intros b c B; [exact B|]. cbn [run map].
  pose proof (step_sim b c e B) as S.
  destruct (vbuf_step b e), (vbuf_step c (computed e)); try contradiction; cbn [bind]; auto.
Qed.

Lemma plays_sim ps cs : plays ps cs -> forall qs, Forall2 owned_sim ps qs ->
  exists ds, plays qs ds /\ snd (flat cs false) = true /\ snd (flat ds false) = true /\
    map computed (fst (flat ds false)) = map computed (fst (flat cs false)) /\
    forallb (fun e => negb (borrows e)) (fst (flat ds false)) = true.
Proof.
  induction 1 as [|k ps cs _ IH|c ps cs H IH|c ps cs H IH|k body ps cb cs H1 IH1 H2 IH2]; intros qs F.
  - inversion F; subst. exists []. repeat split; constructor.
  - inversion F as [|? q ? qs' S F']; subst. destruct (IH _ F') as (ds & P & A & B & C & D).
    destruct q as [k'|d|d|m k']; try contradiction. cbn in S. subst k'.
    exists (CE (leaf_ev k) :: ds). split; [constructor; exact P|].
    rewrite !flat_cons. destruct (flat cs false), (flat ds false). cbn in *. repeat split; auto; [congruence|].
    rewrite D. destruct k; reflexivity.
  - inversion F as [|? q ? qs' S F']; subst. destruct (IH _ F') as (ds & P & A & B & C & D).
    destruct q as [k'|d|d|m k']; try contradiction. cbn in S. destruct S as [S1 S2].
    exists (text_buf_ref d ++ ds). split; [constructor; exact P|].
    rewrite !flat_app, !text_ref_flat. destruct (flat cs false), (flat ds false). cbn in *.
    repeat split; auto.
    + rewrite S1, C. destruct c as [[|] x], d as [[|] y]; reflexivity.
    + rewrite D. destruct d as [[|] y]; cbn in *; [reflexivity|]. rewrite S2; reflexivity.
  - inversion F as [|? q ? qs' S F']; subst. destruct (IH _ F') as (ds & P & A & B & C & D).
    destruct q as [k'|d|d|m k']; try contradiction. cbn in S. destruct S as [S1 S2].
    exists (bin_buf_ref d ++ ds). split; [constructor; exact P|].
    rewrite !flat_app, !bin_ref_flat. destruct (flat cs false), (flat ds false). cbn in *.
    repeat split; auto.
    + rewrite S1, C. destruct c as [[|] x], d as [[|] y]; reflexivity.
    + rewrite D. destruct d as [[|] y]; cbn in *; [reflexivity|]. rewrite S2; reflexivity.
  - inversion F as [|? q ? qs' S F']; subst. apply Forall2_app_inv_l in F' as (b' & r' & Fb & Fr & ->).
    destruct q as [k'|d|d|m k']; try contradiction. cbn in S. destruct S as [<- <-].
    destruct (IH1 _ Fb) as (d1 & P1 & A1 & B1 & C1 & D1). destruct (IH2 _ Fr) as (d2 & P2 & A2 & B2 & C2 & D2).
    exists (CE (begin_ev k) :: d1 ++ CE (end_ev k) :: d2). split.
    { rewrite (Forall2_length _ _ _ Fb). constructor; assumption. }
    rewrite !flat_cons, !flat_app, !flat_cons.
    destruct (flat cs false), (flat cb false), (flat d1 false), (flat d2 false). cbn in *. subst. cbn.
    repeat split; auto.
    + rewrite !map_app, C1. cbn. rewrite C2. reflexivity.
    + rewrite forallb_app, D1. cbn. rewrite D2. destruct k; reflexivity.
Qed.

(** ** Prefixes *)
Definition delta (e : ev) : Z :=
  match e with
  | EMapBegin _ | EMapKeyBegin | EMapValBegin | ESeqBegin _ | ESeqValBegin
  | EEnumBegin _ _ _ | ETaggedBegin _ _ _ | ERecordBegin _ _ _ _ | ERecordValBegin _ _
  | ETupleBegin _ _ _ _ | ETupleValBegin _ _ | ERecTupBegin _ _ _ _ | ERecTupValBegin _ _ _ => 1
  | EMapEnd | EMapKeyEnd | EMapValEnd | ESeqEnd | ESeqValEnd
  | EEnumEnd _ _ _ | ETaggedEnd _ _ _ | ERecordEnd _ _ _ | ERecordValEnd _ _
  | ETupleEnd _ _ _ | ETupleValEnd _ _ | ERecTupEnd _ _ _ | ERecTupValEnd _ _ _ => -1
  | _ => 0
  end%Z.
Fixpoint total (es : list ev) : Z := match es with [] => 0 | e :: es' => (delta e + total es')%Z end.
Definition flag1 (f : bool) (e : ev) : bool :=
  match e with ETextBegin _ | EBinBegin _ => true | ETextEnd | EBinEnd => false | _ => f end.

Lemma total_app a b : total (a ++ b) = (total a + total b)%Z.
Proof. induction a as [|e a IH]; cbn [app total]; [lia|]. rewrite IH. lia. Qed.

Lemma step_count b e b' : vbuf_step b e = Ok b' ->
  Z.of_nat (List.length (stack b')) = (Z.of_nat (List.length (stack b)) + delta e)%Z /\
  in_tb b' = flag1 (in_tb b) e /\
  (List.length (parts b) <= List.length (parts b')).
Proof.
  intros H.
  assert (SP : forall ps n p, List.length (set_part ps n p) = List.length ps)
    by (induction ps as [|q ps IH]; intros [|n] p; cbn; auto).
  assert (PE : push_end b = Ok b' ->
    Z.of_nat (List.length (stack b')) = (Z.of_nat (List.length (stack b)) + -1)%Z /\ in_tb b' = in_tb b /\
    (List.length (parts b) <= List.length (parts b'))).
  { unfold push_end. destruct (stack b) as [|i st] eqn:S; [discriminate|].
    destruct (nth_error (parts b) i) as [[| | |n k]|]; try discriminate. intros [= <-].
    cbn [stack in_tb parts List.length]. rewrite SP. repeat split; lia. }
  assert (PF : forall t bo s, push_frag b t bo s = Ok b' ->
    Z.of_nat (List.length (stack b')) = (Z.of_nat (List.length (stack b)) + 0)%Z /\ in_tb b' = in_tb b /\
    (List.length (parts b) <= List.length (parts b'))).
  { intros t bo s. unfold push_frag. destruct (last_part (parts b)) as [p|] eqn:L; [|discriminate].
    apply last_part_some in L as (qs & E).
    destruct p, t; try discriminate; intros [= <-]; cbn [stack in_tb parts]; rewrite E, set_last_snoc, !app_length;
      repeat split; cbn; lia. }
  destruct e; cbn [vbuf_step delta flag1] in *; try (apply PE, H); try (eapply PF, H);
    injection H as <-; cbn [parts stack in_tb push_part push_begin set_in_tb List.length];
    rewrite ?app_length; cbn [List.length]; repeat split; lia.
Qed.
Lemma run_count es : forall b b', run vbuf_step b es = Ok b' ->
  Z.of_nat (List.length (stack b')) = (Z.of_nat (List.length (stack b)) + total es)%Z /\
  in_tb b' = fold_left flag1 es (in_tb b) /\
  (List.length (parts b) <= List.length (parts b')).
Proof.
  induction es as [|e es IH]; intros b b' H.
  - injection H as <-. cbn. repeat split; lia.
  - cbn [run] in H. destruct (vbuf_step b e) as [b1|b1|] eqn:E; try discriminate. cbn [bind] in H.
    destruct (step_count _ _ _ E) as (A & B & C). destruct (IH _ _ H) as (A' & B' & C').
    cbn [total fold_left]. rewrite <- B. repeat split; [lia|exact B'|lia].
Qed.

(** [level es]: begins and ends match, and no prefix ends more than it began. *)
Definition level (es : list ev) : Prop :=
  total es = 0%Z /\ forall p q, es = p ++ q -> (0 <= total p)%Z.
Lemma level_nil : level [].
Proof. split; [reflexivity|]. intros p q H. symmetry in H. apply app_eq_nil in H as [-> _]. cbn. lia. Qed.
Lemma level_app a b : level a -> level b -> level (a ++ b).
Proof.
  intros [A1 A2] [B1 B2]. split; [rewrite total_app; lia|]. intros p q H.
  apply app_eq_app in H as (l & [[-> ->]|[-> ->]]).
  - eapply A2. reflexivity.
  - rewrite total_app. specialize (B2 l q eq_refl). lia.
Qed.
Lemma level_flat_map {A} (f : A -> list ev) l : Forall (fun x => level (f x)) l -> level (flat_map f l).
Proof. induction 1; [apply level_nil|]. cbn [flat_map]. apply level_app; assumption. Qed.
Lemma level_zero es : forallb (fun e => (delta e =? 0)%Z) es = true -> level es.
Proof.
  induction es as [|e es IH]; intros H; [apply level_nil|]. cbn [forallb] in H. apply andb_true_iff in H as [H1 H2].
  apply (level_app [e]); [|apply IH, H2]. apply Z.eqb_eq in H1. split; [cbn; lia|].
  intros [|x p] q E; cbn; [lia|]. injection E as -> E. symmetry in E. apply app_eq_nil in E as [-> _]. cbn. lia.
Qed.
Lemma prefix_snoc {A} (l : list A) x p q : l ++ [x] = p ++ q -> q <> [] -> exists r, l = p ++ r.
Proof.
  intros H N. destruct q as [|y q] using rev_ind; [congruence|]. rewrite app_assoc in H.
  apply app_inj_tail in H as [-> _]. eauto.
Qed.
Lemma level_wrap b e es : delta b = 1%Z -> delta e = (-1)%Z -> level es -> level (b :: es ++ [e]).
Proof.
  intros B E [A1 A2]. split; [cbn [total]; rewrite total_app; cbn [total]; lia|].
  intros [|x p] q H; [cbn; lia|]. injection H as <- H. cbn [total].
  destruct q as [|y q].
  - rewrite app_nil_r in H. subst p. rewrite total_app. cbn [total]. lia.
  - apply prefix_snoc in H as [r ->]; [|discriminate]. specialize (A2 p r eq_refl). lia.
Qed.

Lemma level_text {A} (f : A -> ev) (fs : list A) b e : delta b = 0%Z -> delta e = 0%Z -> (forall x, delta (f x) = 0%Z) ->
  level (b :: map f fs ++ [e]).
Proof.
  intros B E F. apply level_zero. cbn [forallb]. rewrite B, forallb_app. cbn [forallb]. rewrite E.
  cbn. rewrite andb_true_r. apply forallb_forall. intros x H. apply in_map_iff in H as (y & <- & _).
  rewrite F. reflexivity.
Qed.
Lemma text_frag_delta f : delta (text_frag f) = 0%Z.
Proof. destruct f as [[|] s]; reflexivity. Qed.
Lemma bin_frag_delta f : delta (bin_frag f) = 0%Z.
Proof. destruct f as [[|] s]; reflexivity. Qed.

Lemma level_emit t : level (emit t).
Proof.
  induction t using tree_ind'; cbn [emit];
    try (apply level_zero; reflexivity);
    try (apply level_wrap; [reflexivity|reflexivity|]; try assumption; apply level_flat_map).
  - apply level_text; auto using text_frag_delta.
  - apply level_text; auto using bin_frag_delta.
  - apply (level_app [ETagHint t]); [apply level_zero; reflexivity|exact IHt].
  - eapply Forall_impl; [|exact H]. intros v Hv. apply level_wrap; auto.
  - eapply Forall_impl; [|exact H]. intros [k v] [Hk Hv]. cbn [fst snd] in *.
    replace (EMapKeyBegin :: emit k ++ EMapKeyEnd :: EMapValBegin :: emit v ++ [EMapValEnd])
      with ((EMapKeyBegin :: emit k ++ [EMapKeyEnd]) ++ (EMapValBegin :: emit v ++ [EMapValEnd]))
      by (cbn; rewrite <- app_assoc; reflexivity).
    apply level_app; apply level_wrap; auto.
  - eapply Forall_impl; [|exact H]. intros [[ft fl] v] Hv. apply level_wrap; auto.
  - eapply Forall_impl; [|exact H]. intros [[ft fi] v] Hv. apply level_wrap; auto.
  - eapply Forall_impl; [|exact H]. intros [[[ft fl] fi] v] Hv. apply level_wrap; auto.
Qed.

Lemma flag_frags {A} (f : A -> ev) (l : list A) : (forall x b, flag1 b (f x) = b) -> forall p r, map f l = p ++ r ->
  fold_left flag1 p true = true.
Proof.
  intros F p. revert l. induction p as [|e p IH]; intros l r H; [reflexivity|].
  destruct l as [|x l]; [discriminate|]. injection H as <- H. cbn [fold_left]. rewrite F. eapply IH; eauto.
Qed.

(** Before a value is complete something is open, or there were only tag hints. *)
Lemma inside_wrap b es e p q : delta b = 1%Z -> level es -> b :: es ++ [e] = p ++ q -> q <> [] ->
  p = [] \/ (0 < total p)%Z.
Proof.
  intros B [_ L] H N. destruct p as [|x p]; [auto|]. injection H as <- H. right. cbn [total].
  apply prefix_snoc in H as [r H]; [|exact N]. specialize (L p r H). lia.
Qed.
Lemma emit_inside t : forall p q, emit t = p ++ q -> q <> [] ->
  forallb is_hint p = true \/ (0 < total p)%Z \/ fold_left flag1 p false = true.
Proof.
  assert (ONE : forall (e : ev) p q, [e] = p ++ q -> q <> [] -> p = []).
  { intros e [|x p] q H N; [reflexivity|]. injection H as _ H. symmetry in H. apply app_eq_nil in H as [_ ->]. congruence. }
  assert (WR : forall b es e p q, delta b = 1%Z -> level es -> b :: es ++ [e] = p ++ q -> q <> [] ->
     forallb is_hint p = true \/ (0 < total p)%Z \/ fold_left flag1 p false = true).
  { intros. edestruct inside_wrap as [->|X]; eauto. }
  induction t using tree_ind'; intros p q E N; cbn [emit] in E;
    try (left; rewrite (ONE _ _ _ E N); reflexivity).
  - destruct p as [|x p]; [left; reflexivity|]. injection E as <- E. right. right. cbn [fold_left flag1].
    apply prefix_snoc in E as [r E]; [|exact N].
    eapply (flag_frags text_frag); [|exact E]. intros [[|] s] b; reflexivity.
  - destruct p as [|x p]; [left; reflexivity|]. injection E as <- E. right. right. cbn [fold_left flag1].
    apply prefix_snoc in E as [r E]; [|exact N].
    eapply (flag_frags bin_frag); [|exact E]. intros [[|] s] b; reflexivity.
  - destruct p as [|x p]; [left; reflexivity|]. injection E as <- E.
    destruct (IHt p q E N) as [H|[H|H]]; cbn; auto.
  - eapply WR; [|apply level_emit|exact E|exact N]; reflexivity.
  - eapply WR; [|apply level_emit|exact E|exact N]; reflexivity.
  - eapply WR; [| |exact E|exact N]; [reflexivity|]. apply level_flat_map, Forall_forall. intros v _.
    apply level_wrap; auto using level_emit.
  - eapply WR; [| |exact E|exact N]; [reflexivity|]. apply level_flat_map, Forall_forall. intros [k v] _.
    replace (EMapKeyBegin :: emit k ++ EMapKeyEnd :: EMapValBegin :: emit v ++ [EMapValEnd])
      with ((EMapKeyBegin :: emit k ++ [EMapKeyEnd]) ++ (EMapValBegin :: emit v ++ [EMapValEnd]))
      by (cbn; rewrite <- app_assoc; reflexivity).
    apply level_app; apply level_wrap; auto using level_emit.
  - eapply WR; [| |exact E|exact N]; [reflexivity|]. apply level_flat_map, Forall_forall. intros [[ft fl] v] _.
    apply level_wrap; auto using level_emit.
  - eapply WR; [| |exact E|exact N]; [reflexivity|]. apply level_flat_map, Forall_forall. intros [[ft fi] v] _.
    apply level_wrap; auto using level_emit.
  - eapply WR; [| |exact E|exact N]; [reflexivity|]. apply level_flat_map, Forall_forall. intros [[[ft fl] fi] v] _.
    apply level_wrap; auto using level_emit.
Qed.

Lemma complete_prefix t p q : emit t = p ++ q -> q <> [] ->
  exists b, run vbuf_step vbuf_new p = Ok b /\
    is_complete b = match p with [] => false | _ => forallb is_hint p end.
Proof.
  intros E N. pose proof (adds_tree t [] [] false) as A. rewrite E, run_app in A.
  change (MkVB [] [] false false) with vbuf_new in A.
  destruct (run vbuf_step vbuf_new p) as [b|b|] eqn:R; cbn [bind] in A; try discriminate.
  exists b. split; [reflexivity|]. destruct (run_count _ _ _ R) as (C1 & C2 & C3). cbn in C1, C2.
  destruct p as [|e p]; [injection R as <-; reflexivity|].
  assert (P : List.length (parts b) > 0).
  { cbn [run] in R. destruct (vbuf_step vbuf_new e) as [b1|b1|] eqn:S; cbn [bind] in R; try discriminate.
    destruct (run_count _ _ _ R) as (_ & _ & C).
    assert (List.length (parts b1) > 0); [|lia].
    clear - E S. destruct t; cbn [emit] in E; injection E as <- _; cbn in S; injection S as <-; cbn; lia. }
  unfold is_complete. destruct (emit_inside t _ _ E N) as [H|[H|H]].
  - rewrite H.
    assert (Z0 : total (e :: p) = 0%Z /\ fold_left flag1 (e :: p) false = false).
    { clear - H. revert H. generalize (e :: p). induction l as [|x l IH]; intros H; [auto|].
      cbn [forallb] in H. apply andb_true_iff in H as [H1 H2]. destruct x; try discriminate. cbn. apply IH, H2. }
    destruct Z0 as [Z1 Z2]. rewrite Z1 in C1. rewrite C2, Z2.
    replace (List.length (stack b)) with 0 by lia. apply Nat.ltb_lt in P. rewrite P. reflexivity.
  - destruct (forallb is_hint (e :: p)) eqn:HH.
    + exfalso. assert (Z0 : total (e :: p) = 0%Z); [|lia].
      clear - HH. revert HH. generalize (e :: p). induction l as [|x l IH]; intros H; [auto|].
      cbn [forallb] in H. apply andb_true_iff in H as [H1 H2]. destruct x; try discriminate. cbn [total delta].
      rewrite IH by exact H2. reflexivity.
    + destruct (Nat.eqb_spec (List.length (stack b)) 0); [lia|reflexivity].
  - destruct (forallb is_hint (e :: p)) eqn:HH.
    + exfalso. assert (Z0 : fold_left flag1 (e :: p) false = false); [|congruence].
      clear - HH. revert HH. generalize (e :: p). induction l as [|x l IH]; intros H; [auto|].
      cbn [forallb] in H. apply andb_true_iff in H as [H1 H2]. destruct x; try discriminate. cbn. apply IH, H2.
    + rewrite C2, H. rewrite andb_false_r. reflexivity.
Qed.
