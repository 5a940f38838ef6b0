(** * MemBufProps: buffers only refer to memory that is there (C86) *)

From Verif Require Import Base Event LowerModel DataModel FragModel BufferModel MemBufModel MemBufSpec MemBufProofs.

(** ** Whatever a borrow-checked program does, no buffer is ever read where there
    is nothing left, and each buffer and value holds what it would if texts never
    went away.  A computed fragment is gone as soon as the call returns. *)
Theorem C86_never_dangles : forall xs, checked world_new xs ->
  exists w, do_acts world_new xs = Some w /\
  Forall2 (fun x v => seen (w_mem w) (fst x) = Some v) (w_bufs w) (p_bufs (plain_acts xs)).
Proof.
  intros xs C. destruct (acts_agree xs _ _ agree_new C) as (w & E & (_ & _ & _ & F)). exists w. split; [exact E|].
  eapply Forall2_impl; [|exact F]. intros x v H. apply H.
Qed.
(** So replaying it makes the calls of the plain buffer. *)
Theorem C86_replays : forall xs, checked world_new xs ->
  exists w, do_acts world_new xs = Some w /\
  forall i b hs, nth_error (w_bufs w) i = Some (b, hs) ->
  exists v, nth_error (p_bufs (plain_acts xs)) i = Some v /\
            option_map vbuf_stream (seen (w_mem w) b) = Some (vbuf_stream v).
Proof.
  intros xs C. destruct (C86_never_dangles xs C) as (w & E & F). exists w. split; [exact E|]. intros i b hs N.
  pose proof (Forall2_nth _ _ i F) as G. rewrite N in G. destruct (nth_error (p_bufs (plain_acts xs)) i) as [v|]; [|contradiction].
  exists v. split; [reflexivity|]. cbn in G. rewrite G. reflexivity.
Qed.

(** A program: a text goes into a buffer in two ways, a value is made of the
    buffer and owned, and then buffer and text go away. *)
Definition program : list act :=
  [AKeep (bs "abc"); ANew; ACall 0 (ESeqBegin None);
   ACall 0 ESeqValBegin; ACall 0 (ETextBegin None); ABorrowed 0 true 1; ACall 0 ETextEnd; ACall 0 ESeqValEnd;
   ACall 0 ESeqValBegin; ACall 0 (ETextBegin None); AComputed 0 true (bs "de"); ABorrowed 0 true 1; ACall 0 ETextEnd; ACall 0 ESeqValEnd;
   ACall 0 ESeqEnd; AValue 0; AOwn 1; ADrop 0; ARelease 1].
Example C86_program_checked : checked world_new program.
Proof. cbn. repeat (split; [trivial; try (eexists; reflexivity)|intros w E; injection E as <-; cbn]).
  - split; [discriminate|]. repeat constructor; intros [].
  - exact I.
Qed.
Example C86_program_sees :
  match do_acts world_new program with
  | Some w => match nth_error (w_bufs w) 1 with
              | Some (b, hs) => hs = [] /\ read (w_mem w) 1 = None /\
                  option_map vbuf_stream (seen (w_mem w) b) =
                  Some (Some [CE (ESeqBegin None);
                    CE ESeqValBegin; CE (ETextBegin (Some 3%N)); CE (ETextFragC (bs "abc")); CE ETextEnd; CE ESeqValEnd;
                    CE ESeqValBegin; CE (ETextBegin (Some 5%N)); CE (ETextFragC (bs "deabc")); CE ETextEnd; CE ESeqValEnd;
                    CE ESeqEnd])
              | None => False
              end
  | None => False
  end.
Proof. vm_compute. repeat split. Qed.
(** The borrow checker is needed: this program is not one it accepts. *)
Example C86_unchecked_dangles :
  let xs := [AKeep (bs "abc"); ANew; ACall 0 (ETextBegin None); ABorrowed 0 true 1; ARelease 1] in
  match do_acts world_new xs with
  | Some w => option_map (fun x => seen (w_mem w) (fst x)) (nth_error (w_bufs w) 0) = Some None
  | None => False
  end /\ do_acts world_new (xs ++ [AOwn 0]) = None.
Proof. vm_compute. split; reflexivity. Qed.

(** ** What a buffer refers to was lent to it: it is the static empty text, or a
    text its type says it borrows, and that was passed as a borrowed fragment. *)
Definition lent (xs : list act) (a : nat) : Prop := exists i text, In (ABorrowed i text a) xs.
Lemma act_lent w x w' : do_act w x = Some w' -> forall b hs a, In (b, hs) (w_bufs w') -> In a hs ->
  (exists b hs, In (b, hs) (w_bufs w) /\ In a hs) \/ exists i text, x = ABorrowed i text a.
Proof.
  assert (Set_ : forall l i y z, In z (set_buf l i y) -> z = y \/ In z l).
  { clear. induction l as [|q l IH]; intros [|i] y z; cbn; auto; intros [<-|I]; auto. destruct (IH i y z I); auto. }
  assert (On : forall i f, match nth_error (w_bufs w) i with
               | Some (b, hs) => option_map (fun x => MkW (w_mem w) (set_buf (w_bufs w) i x)) (f b hs)
               | None => Some w end = Some w' ->
     (forall b hs y, f b hs = Some y -> forall a, In a (snd y) -> In a hs \/ exists i text, x = ABorrowed i text a) ->
     forall b hs a, In (b, hs) (w_bufs w') -> In a hs -> (exists b hs, In (b, hs) (w_bufs w) /\ In a hs) \/ exists i text, x = ABorrowed i text a).
  { intros i f E H b hs a I J. destruct (nth_error (w_bufs w) i) as [[b0 hs0]|] eqn:N.
    - destruct (f b0 hs0) as [y|] eqn:F; [|discriminate]. injection E as <-. cbn in I. apply Set_ in I as [I|I]; [|left; eauto].
      subst y. destruct (H _ _ _ F a J) as [K|K]; [|right; exact K]. left. exists b0, hs0. split; [|exact K]. eapply nth_error_In, N.
    - injection E as <-. left. eauto. }
  destruct x as [s|a0| |i e|i text a0|i text s|i|i|i|i|i]; cbn [do_act]; intros E.
  - injection E as <-. cbn. left. eauto.
  - injection E as <-. cbn. left. eauto.
  - injection E as <-. cbn. intros b hs a I J. apply in_app_iff in I as [I|[I|[]]]; [left; eauto|]. injection I as <- <-. destruct J.
  - eapply On; [exact E|]. cbn. intros b hs y F a J. injection F as <-. left. exact J.
  - eapply On; [exact E|]. cbn. intros b hs y F a J. destruct (m_frag _ _ _ _ _); [|discriminate]. injection F as <-. destruct J as [<-|J]; eauto.
  - destruct (nth_error (w_bufs w) i) as [[b0 hs0]|] eqn:N.
    + destruct (m_frag _ _ _ _ _); [|discriminate]. injection E as <-. cbn. intros b hs a I J. apply Set_ in I as [I|I]; [|left; eauto].
      injection I as -> ->. left. exists b0, hs0. split; [|exact J]. eapply nth_error_In, N.
    + injection E as <-. cbn. left. eauto.
  - eapply On; [exact E|]. cbn. intros b hs y F a J. injection F as <-. left. exact J.
  - eapply On; [exact E|]. cbn. intros b hs y F a J. destruct (m_into_owned _ _); [|discriminate]. injection F as <-. destruct J.
  - destruct (nth_error (w_bufs w) i) as [[b0 hs0]|] eqn:N; injection E as <-; [|left; eauto]. cbn. intros b hs a I J. apply in_app_iff in I as [I|[I|[]]]; [left; eauto|].
    injection I as <- <-. left. exists b0, hs0. split; [|exact J]. eapply nth_error_In, N.
  - eapply On; [exact E|]. cbn. intros b hs y F a J. injection F as <-. left. exact J.
  - eapply On; [exact E|]. cbn. intros b hs y F a J. injection F as <-. destruct J.
Qed.
Lemma acts_lent xs : forall w w', do_acts w xs = Some w' -> forall b hs a, In (b, hs) (w_bufs w') -> In a hs ->
  (exists b hs, In (b, hs) (w_bufs w) /\ In a hs) \/ lent xs a.
Proof.
  induction xs as [|x xs IH]; intros w w' E b hs a I J.
  - injection E as <-. left. eauto.
  - cbn in E. destruct (do_act w x) as [w1|] eqn:E1; [|discriminate]. destruct (IH _ _ E b hs a I J) as [(b1 & hs1 & I1 & J1)|(i & t & L)].
    + destruct (act_lent _ _ _ E1 _ _ _ I1 J1) as [K|(i & t & ->)]; [left; exact K|]. right. exists i, t. left. reflexivity.
    + right. exists i, t. right. exact L.
Qed.
Theorem C86_refers_to_what_was_lent : forall xs w, checked world_new xs -> do_acts world_new xs = Some w ->
  forall b hs a, In (b, hs) (w_bufs w) -> In a (refers b) -> a = empty_text \/ (In a hs /\ lent xs a).
Proof.
  intros xs w C E b hs a I R. destruct (acts_agree xs _ _ agree_new C) as (w' & E' & (_ & _ & _ & F)). rewrite E in E'. injection E' as <-.
  assert (X : exists v, fine (w_mem w) (b, hs) v).
  { clear - F I. induction F; [destruct I|]. destruct I as [->|I]; eauto. }
  destruct X as (v & _ & R' & _). destruct (R' a R) as [K|K]; [left; exact K|]. right. split; [exact K|].
  destruct (acts_lent _ _ _ E _ _ _ I K) as [(b0 & hs0 & [] & _)|L]. exact L.
Qed.
(** What is streamed as computed, as [collect_owned] does with everything, is
    never referred to. *)
Theorem C86_computed_is_copied : forall xs w, checked world_new xs -> do_acts world_new xs = Some w ->
  (forall i text a, ~ In (ABorrowed i text a) xs) ->
  forall b hs a, In (b, hs) (w_bufs w) -> In a (refers b) -> a = empty_text.
Proof.
  intros xs w C E N b hs a I R. destruct (C86_refers_to_what_was_lent xs w C E b hs a I R) as [K|(_ & (i & t & K))]; [exact K|].
  destruct (N _ _ _ K).
Qed.
Example C86_computed_applies :
  let xs := [ANew; ACall 0 (EBinBegin None); AComputed 0 false (bs "xy"); ACall 0 EBinEnd; AValue 0] in
  checked world_new xs /\ (forall i text a, ~ In (ABorrowed i text a) xs) /\
  option_map (fun w => map (fun x => refers (fst x)) (w_bufs w)) (do_acts world_new xs) = Some [[]; []].
Proof.
  split; [cbn; repeat (split; [trivial|intros w E; injection E as <-; cbn]); exact I|]. split; [|vm_compute; reflexivity].
  intros i t a H. cbn in H. intuition discriminate.
Qed.

(** ** An owned buffer needs no memory but its own: whatever becomes of the rest,
    it holds what the buffer held. *)
Theorem C86_owned_needs_nothing : forall xs w i b hs, checked world_new xs -> do_acts world_new xs = Some w ->
  nth_error (w_bufs w) i = Some (b, hs) ->
  exists v b', nth_error (p_bufs (plain_acts xs)) i = Some v /\ m_into_owned (w_mem w) b = Some b' /\
  forall m, seen m b' = Some (vbuf_into_owned v).
Proof.
  intros xs w i b hs C E N. destruct (C86_never_dangles xs C) as (w' & E' & F). rewrite E in E'. injection E' as <-.
  pose proof (Forall2_nth _ _ i F) as G. rewrite N in G. destruct (nth_error (p_bufs (plain_acts xs)) i) as [v|]; [|contradiction]. cbn in G.
  destruct (own_seen _ _ _ G) as (b' & O & S & R). exists v, b'. split; [reflexivity|]. split; [exact O|]. intros m. rewrite <- S. apply seen_ext. rewrite R. intros a [].
Qed.

(** ** Labels: none of those a buffer or value holds refers to the caller's
    memory; they are static or the buffer's own. *)
Definition own_label (l : label) : Prop := l_kind l <> LComputed.
Definition own_part (p : part) : Prop := Forall own_label (part_labels p).
Lemma to_owned_own l : own_label (label_to_owned l).
Proof. unfold own_label, label_to_owned, as_static_str. destruct (l_kind l); cbn; discriminate. Qed.
Lemma clone_own l : own_label l -> own_label (label_clone l).
Proof. unfold own_label, label_clone. destruct (l_kind l) eqn:K; cbn; rewrite ?K; congruence. Qed.
Lemma own_opt l : Forall own_label (opt_label (own l)).
Proof. destruct l; cbn; repeat constructor. apply to_owned_own. Qed.
Lemma clone_opt_own l : Forall own_label (opt_label l) -> Forall own_label (opt_label (clone_opt l)).
Proof. destruct l; cbn; intros H; constructor; [|constructor]. inversion H; subst. apply clone_own. assumption. Qed.
Lemma set_part_own ps : Forall own_part ps -> forall n p, own_part p -> Forall own_part (set_part ps n p).
Proof. induction 1; intros [|n] p P; cbn; constructor; auto. Qed.
Lemma own_snoc ps p : Forall own_part ps -> own_part p -> Forall own_part (ps ++ [p]).
Proof. intros A B. apply Forall_app. auto. Qed.
Lemma removelast_own ps : Forall own_part ps -> Forall own_part (removelast ps).
Proof.
  induction 1 as [|p ps P H IH]; [constructor|]. cbn. destruct ps; [constructor|]. constructor; assumption.
Qed.
Lemma step_own b e : Forall own_part (parts b) -> Forall own_part (parts (after b (vbuf_step b e))).
Proof.
  intros H.
  assert (End_ : Forall own_part (parts (after b (push_end b)))).
  { unfold push_end. destruct (stack b); [exact H|]. destruct (nth_error (parts b) n) as [p|] eqn:N; [|exact H]. destruct p; cbn; try exact H.
    apply set_part_own; [exact H|]. apply nth_error_In in N. rewrite Forall_forall in H. exact (H _ N). }
  assert (Frag : forall t x s, Forall own_part (parts (after b (push_frag b t x s)))).
  { intros t x s. unfold push_frag. destruct (last_part (parts b)) as [[k|c|c|n k]|]; try exact H; destruct t; cbn; try exact H;
      apply own_snoc; try (apply removelast_own, H); constructor. }
  destruct e; cbn [vbuf_step]; auto; cbn [after parts push_part push_begin set_in_tb]; try exact H; apply own_snoc; try exact H;
    unfold own_part; cbn [part_labels]; try (apply own_opt); try (constructor; [apply to_owned_own|constructor]); constructor.
Qed.
Lemma act_own p x : Forall (fun b => Forall own_part (parts b)) (p_bufs p) -> Forall (fun b => Forall own_part (parts b)) (p_bufs (plain_act p x)).
Proof.
  intros H.
  assert (Put : forall l i b, Forall (fun b => Forall own_part (parts b)) l -> Forall own_part (parts b) -> Forall (fun b => Forall own_part (parts b)) (put l i b)).
  { clear. intros l i b H. revert i. induction H; intros [|i] B; cbn; constructor; auto. }
  assert (On : forall i (f : vbuf -> vbuf), (forall b, Forall own_part (parts b) -> Forall own_part (parts (f b))) ->
    Forall (fun b => Forall own_part (parts b)) (match nth_error (p_bufs p) i with Some b => put (p_bufs p) i (f b) | None => p_bufs p end)).
  { intros i f F. destruct (nth_error (p_bufs p) i) as [b|] eqn:N; [|exact H]. apply Put; [exact H|]. apply F. apply nth_error_In in N. rewrite Forall_forall in H. exact (H _ N). }
  assert (New : Forall own_part (parts vbuf_new)) by constructor.
  destruct x as [s|a| |i e|i text a|i text s|i|i|i|i|i]; cbn [plain_act p_bufs]; try exact H.
  - apply Forall_app. split; [exact H|]. constructor; [exact New|constructor].
  - destruct (is_frag e); [exact H|]. apply On. intros b. apply step_own.
  - apply On. intros b. apply step_own.
  - apply On. intros b. apply step_own.
  - apply On. constructor.
  - apply On. intros b B. cbn. clear - B. induction B as [|q ps P _ IH]; cbn; constructor; [|exact IH]. destruct q; try exact P; constructor.
  - destruct (nth_error (p_bufs p) i) as [b|] eqn:N; [|exact H]. cbn. apply Forall_app. split; [exact H|]. constructor; [|constructor].
    apply nth_error_In in N. rewrite Forall_forall in H. specialize (H _ N). cbn. unfold to_value. clear - H. induction H as [|q ps P _ IH]; cbn; constructor; [|exact IH].
    unfold own_part in *. destruct q as [[]|c|c|n []]; cbn in *; try exact P; try (apply clone_opt_own, P); (inversion P; subst; constructor; [apply clone_own; assumption|constructor]).
  - apply On. intros b B. exact B.
  - apply On. intros b B. exact New.
Qed.
Theorem C86_labels_are_own : forall xs b p l, In b (p_bufs (plain_acts xs)) -> In p (parts b) -> In l (part_labels p) -> l_kind l <> LComputed.
Proof.
  intros xs b p l I J K.
  assert (H : Forall (fun b => Forall own_part (parts b)) (p_bufs (plain_acts xs))).
  { clear. unfold plain_acts. assert (Z : Forall (fun b => Forall own_part (parts b)) (p_bufs plain_new)) by constructor. revert Z. generalize plain_new.
    induction xs as [|x xs IH]; intros q Z; [exact Z|]. cbn. apply IH, act_own, Z. }
  rewrite Forall_forall in H. specialize (H _ I). rewrite Forall_forall in H. specialize (H _ J). unfold own_part in H. rewrite Forall_forall in H. exact (H _ K).
Qed.
Example C86_labels_apply :
  let v := nth 0 (p_bufs (plain_acts [ANew; ACall 0 (ETag None (Some (label_new_computed (bs "x"))) None)])) vbuf_new in
  flat_map part_labels (parts v) = [MkLabel (bs "x") LOwned None].
Proof. reflexivity. Qed.

Print Assumptions C86_never_dangles.
Print Assumptions C86_replays.
Print Assumptions C86_refers_to_what_was_lent.
Print Assumptions C86_computed_is_copied.
Print Assumptions C86_owned_needs_nothing.
Print Assumptions C86_labels_are_own.
