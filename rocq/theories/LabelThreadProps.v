(** * LabelThreadProps: C85, labels are safe to send to and to share with other threads *)

From Verif Require Import Base LabelHeapModel LabelHeapProofs LabelThreadModel LabelThreadSpec LabelThreadProofs.
From Coq Require Import Lia.

(** ** The history has no race *)
Lemma before_more h e i t j : before h i t j -> before (h ++ [e]) i t j.
Proof.
  induction 1 as [i t x w j N L|i a b m j _ IH N L].
  - eapply b_own; [|exact L]. rewrite nth_error_app1; [exact N|]. apply nth_error_Some. congruence.
  - eapply b_tell; [exact IH| |exact L]. rewrite nth_error_app1; [exact N|]. apply nth_error_Some. congruence.
Qed.
Lemma before_later h i t j k : before h i t j -> j <= k -> before h i t k.
Proof. intros H L. destruct H; [eapply b_own; [eassumption|lia]|eapply b_tell; [eassumption|eassumption|lia]]. Qed.

Record det (accs : list access) (time : nat) (know : nat -> nat -> bool) (h : list event) : Prop := MkDet {
  d_time : time = length h;
  d_accs : forall p t x w, nth_error h p = Some (EAcc t x w) -> In (MkAcc x p w) accs;
  d_know : forall u p, know u p = true -> before h p u (length h);
  d_race : forall i j t u x w v, i < j -> nth_error h i = Some (EAcc t x w) -> nth_error h j = Some (EAcc u x v) ->
    (w = true \/ v = true) -> before h i u j
}.
Definition Det s := det (t_accs s) (t_time s) (t_know s) (t_hist s).

Lemma nth_snoc {A} (h : list A) e p y : nth_error (h ++ [e]) p = Some y -> nth_error h p = Some y \/ p = length h /\ y = e.
Proof.
  intros E. destruct (Nat.lt_ge_cases p (length h)) as [L|L].
  - rewrite nth_error_app1 in E by exact L. left. exact E.
  - rewrite nth_error_app2 in E by exact L. destruct (p - length h) as [|n] eqn:F; cbn in E.
    + right. split; [lia|congruence].
    + destruct n; discriminate.
Qed.
Lemma det_touch t x w s s' : Det s -> touch t x w s = Some s' -> Det s'.
Proof.
  intros [T A K R]. unfold touch. destruct (races s t x w) eqn:RC; [discriminate|]. intros E. injection E as <-.
  constructor; cbn [t_accs t_time t_know t_hist].
  - rewrite app_length. cbn. lia.
  - intros p u y v N. apply nth_snoc in N as [N|[-> Q]]; [right; eapply A; exact N|]. injection Q as <- <- <-. left. congruence.
  - intros u p Q. rewrite app_length. cbn [length].
    assert (t_know s u p = true -> before (t_hist s ++ [EAcc t x w]) p u (length (t_hist s) + 1)) as OLD.
    { intros H. eapply before_later; [apply before_more, K, H|lia]. }
    destruct (Nat.eq_dec u t) as [->|NE]; [|rewrite upd_other in Q by exact NE; auto].
    rewrite upd_same in Q. apply Bool.orb_prop in Q as [Q|Q]; [auto|]. apply Nat.eqb_eq in Q. subst p. rewrite T.
    eapply b_own; [|lia]. rewrite nth_error_app2 by lia. rewrite Nat.sub_diag. reflexivity.
  - intros i j a b y v v' L N1 N2 W. apply nth_snoc in N2 as [N2|[-> Q]].
    + apply before_more. eapply R; try eassumption. apply nth_snoc in N1 as [N1|[-> _]]; [exact N1|].
      assert (j < length (t_hist s)) by (apply nth_error_Some; congruence). lia.
    + injection Q as <- <- <-. apply nth_snoc in N1 as [N1|[-> _]]; [|lia]. apply before_more, K.
      destruct (t_know s b i) eqn:KB; [reflexivity|]. exfalso.
      assert (races s b y v' = true) as X; [|congruence]. apply existsb_exists. exists (MkAcc y i v). split; [eapply A; exact N1|].
      cbn. rewrite KB. rewrite (proj2 (loc_eqb_eq y y) eq_refl). destruct W as [-> | ->]; [rewrite Bool.orb_true_r|]; reflexivity.
Qed.
Lemma det_tell a b s : Det s -> Det (tell a b s).
Proof.
  intros [T A K R]. constructor; cbn [t_accs t_time t_know t_hist tell].
  - rewrite app_length. cbn. lia.
  - intros p u y v N. apply nth_snoc in N as [N|[-> Q]]; [eapply A; exact N|discriminate].
  - intros u p Q. rewrite app_length. cbn [length].
    assert (t_know s u p = true -> before (t_hist s ++ [ETell a b]) p u (length (t_hist s) + 1)) as OLD.
    { intros H. eapply before_later; [apply before_more, K, H|lia]. }
    destruct (Nat.eq_dec u b) as [->|NE]; [|rewrite upd_other in Q by exact NE; auto].
    rewrite upd_same in Q. apply Bool.orb_prop in Q as [Q|Q]; [auto|].
    eapply b_tell; [apply before_more, K, Q| |lia]. rewrite nth_error_app2 by lia. rewrite Nat.sub_diag. reflexivity.
  - intros i j t u y v v' L N1 N2 W. apply nth_snoc in N2 as [N2|[_ Q]]; [|discriminate].
    apply nth_snoc in N1 as [N1|[_ Q]]; [|discriminate]. apply before_more. eapply R; eassumption.
Qed.
Lemma det_add_label t l s s' : Det s -> add_label t l s = Some s' -> Det s'.
Proof.
  unfold add_label. intros D E. destruct (touch _ _ _ s) as [s1|] eqn:T; [|discriminate]. injection E as <-.
  exact (det_touch _ _ _ _ _ D T).
Qed.
Lemma det_add_owned t x m s s' : Det s -> add_owned t x m s = Some s' -> Det s'.
Proof.
  unfold add_owned. intros D E. destruct (touch _ _ _ s) as [s1|] eqn:T; [|discriminate].
  eapply det_add_label; [|exact E]. exact (det_touch _ _ _ _ _ D T).
Qed.
Lemma det_step s t a s' : Det s -> tstep s t a = Some s' -> Det s'.
Proof.
  intros D E. destruct a; cbn [tstep] in E;
    repeat match type of E with
           | (let _ := _ in _) = _ => cbv zeta in E
           | add_label _ _ _ = _ => eapply det_add_label; [|exact E]
           | add_owned _ _ _ _ = _ => eapply det_add_owned; [|exact E]
           | None = Some _ => discriminate E
           | Some ?y = Some _ => injection E as <-
           | match touch ?t ?x ?w ?s with _ => _ end = _ =>
               let T := fresh "T" in destruct (touch t x w s) eqn:T; [apply det_touch in T; [|assumption]|discriminate E]
           | match read_byte ?t ?p ?i ?s with _ => _ end = _ => 
               let T := fresh "T" in destruct (read_byte t p i s) as [[? ?]|] eqn:T; [|discriminate E]; unfold read_byte in T;
               repeat match type of T with
                      | match touch ?t ?x ?w ?s with _ => _ end = _ =>
                          let T' := fresh "T" in destruct (touch t x w s) eqn:T'; [apply det_touch in T'; [|assumption]|discriminate T]
                      | match ?y with _ => _ end = _ => destruct y eqn:?; try discriminate T
                      | Some _ = Some _ => injection T as <- <-
                      end
           | match ?y with _ => _ end = _ => destruct y eqn:?; try discriminate E
           | (if ?y then _ else _) = _ => destruct y eqn:?
           end; try assumption.
  all: apply det_tell; assumption.
Qed.
Lemma det_run sched : forall s s', Det s -> trun s sched = Some s' -> Det s'.
Proof.
  induction sched as [|[t a] sched IH]; intros s s' D E; cbn [trun] in E; [injection E as <-; exact D|].
  destruct (may s t a); [|exact (IH _ _ D E)]. destruct (tstep s t a) as [s1|] eqn:T; [|discriminate].
  exact (IH _ _ (det_step _ _ _ _ D T) E).
Qed.
Lemma det_init : Det tinit.
Proof. constructor; cbn; [reflexivity| | |]; intros; try discriminate; destruct p || destruct i; discriminate. Qed.

(** ** The property *)
(** Whatever the threads do and however their steps interleave, no dead box is read or
    freed. *)
Theorem C85_threads_safe : forall sched, exists s, trun tinit sched = Some s.
Proof. intros sched. destruct (run_inv sched tinit inv_init) as [s [E _]]. eauto. Qed.

(** And no two accesses race. *)
Theorem C85_no_race : forall sched s, trun tinit sched = Some s -> ~ race (t_hist s).
Proof.
  intros sched s E [i [j [t [u [x [w [v [L [N1 [N2 [W B]]]]]]]]]]]. apply B.
  destruct (det_run _ _ _ det_init E) as [_ _ _ R]. eapply R; eassumption.
Qed.

(** Each text that is read, for itself or for a copy, is the text the label was made
    of, although its bytes are read one by one. *)
Theorem C85_reads_its_text : forall sched s seen made,
  trun tinit sched = Some s -> In (seen, made) (t_seen s) -> seen = made.
Proof.
  intros sched s x m E I. destruct (run_inv sched tinit inv_init) as [s' [E' [ST _]]]. rewrite E in E'. injection E' as <-.
  exact (s_seen _ _ _ _ _ ST _ I).
Qed.

(** At any time the text behind a label is the text it was made of. *)
Theorem C85_text_stays : forall sched s k l,
  trun tinit sched = Some s -> tlab s k = Some l ->
  match l_ptr l with
  | TText x => x = l_made l
  | TBox id n => n = length (l_made l) /\ nth_error (t_heap s) id = Some (Some (l_made l))
  end.
Proof.
  intros sched s k l E L. destruct (run_inv sched tinit inv_init) as [s' [E' [ST _]]]. rewrite E in E'. injection E' as <-.
  change (lab (t_labels s) k = Some l) in L.
  destruct (reach _ _ _ _ _ ST k l (l_owner l) L (ex_intro _ l (conj L (or_introl eq_refl)))) as [P|[id [r [P [B _]]]]];
    rewrite P; auto.
Qed.

Lemma count_none {A} (f : A -> bool) l : (forall j y, nth_error l j = Some y -> f y = false) -> length (filter f l) = 0.
Proof.
  induction l as [|y l IH]; cbn; intros H; [reflexivity|]. rewrite (H 0 y eq_refl). apply IH. intros j z E. exact (H (S j) z E).
Qed.
Lemma count_one {A} (f : A -> bool) l j y : nth_error l j = Some y -> f y = true ->
  (forall i z, nth_error l i = Some z -> f z = true -> i = j) -> length (filter f l) = 1.
Proof.
  revert j. induction l as [|a l IH]; intros j E F U; [destruct j; discriminate|]. cbn. destruct j as [|j]; cbn in E.
  - injection E as ->. rewrite F. cbn. f_equal. apply count_none. intros i z N. destruct (f z) eqn:FZ; [|reflexivity].
    specialize (U (S i) z N FZ). discriminate.
  - destruct (f a) eqn:FA; [specialize (U 0 a eq_refl FA); discriminate|]. apply (IH j E F).
    intros i z N FZ. specialize (U (S i) z N FZ). lia.
Qed.

(** A box has one owner for as long as it is allocated, and then none. *)
Theorem C85_one_owner : forall sched s id,
  trun tinit sched = Some s ->
  owners s id = match nth_error (t_heap s) id with Some (Some _) => 1 | _ => 0 end.
Proof.
  intros sched s id E. destruct (run_inv sched tinit inv_init) as [s' [E' [ST _]]]. rewrite E in E'. injection E' as <-.
  assert (forall j l n, lab (t_labels s) j = Some l -> l_owned l = Some (id, n) -> nth_error (t_heap s) id = Some (Some (l_made l))) as LIVE.
  { intros j l n L O. destruct (s_good _ _ _ _ _ ST _ _ L) as [GF GP _]. destruct (l_from l) as [k|].
    - destruct (GF k eq_refl) as [_ [N _]]. congruence.
    - destruct (GP eq_refl) as [[N _]|[i [N [_ B]]]]; [congruence|]. rewrite O in N. injection N as <- _. exact B. }
  assert (forall j y, nth_error (t_labels s) j = Some y ->
            match y with Some l => match l_owned l with Some (i, _) => Nat.eqb i id | None => false end | None => false end = true ->
            exists l n, lab (t_labels s) j = Some l /\ l_owned l = Some (id, n)) as OWN.
  { intros j [l|] N F; [|discriminate]. destruct (l_owned l) as [[i n]|] eqn:O; [|discriminate]. apply Nat.eqb_eq in F. subst i.
    exists l, n. split; [unfold lab; rewrite N; reflexivity|exact O]. }
  unfold owners. destruct (nth_error (t_heap s) id) as [[x|]|] eqn:B.
  - destruct (s_leak _ _ _ _ _ ST _ _ B) as [j [l [n [L O]]]].
    assert (nth_error (t_labels s) j = Some (Some l)) as N.
    { unfold lab in L. destruct (nth_error (t_labels s) j) as [[?|]|]; congruence. }
    apply (count_one _ _ j (Some l) N); [rewrite O; apply Nat.eqb_refl|].
    intros i z NZ FZ. destruct (OWN i z NZ FZ) as [l' [n' [L' O']]]. eapply s_uniq; eassumption.
  - apply count_none. intros j y N.
    match goal with |- ?b = false => destruct b eqn:F; [|reflexivity] end.
    destruct (OWN j y N F) as [l [n [L O]]]. specialize (LIVE j l n L O). congruence.
  - apply count_none. intros j y N.
    match goal with |- ?b = false => destruct b eqn:F; [|reflexivity] end.
    destruct (OWN j y N F) as [l [n [L O]]]. specialize (LIVE j l n L O). congruence.
Qed.

(** Nothing is leaked. *)
Theorem C85_nothing_leaked : forall sched s, trun tinit sched = Some s -> all_dropped s -> all_freed s.
Proof.
  intros sched s E A id x B. destruct (run_inv sched tinit inv_init) as [s' [E' [ST _]]]. rewrite E in E'. injection E' as <-.
  destruct (s_leak _ _ _ _ _ ST _ _ B) as [j [l [n [L _]]]]. pose proof (A j) as N.
  change (lab (t_labels s) j = None) in N. congruence.
Qed.

(** ** Not vacuous *)
Definition ab : bytes := bs "ab".
(** Thread 0 makes a label and lends it to threads 1 and 2.  Thread 1 copies it while
    thread 2 borrows its text and reads it through the borrowed label, and thread 0 reads
    it too.  When both are done thread 0 drops it; thread 1 sends its copy to thread 3,
    which reads and drops it. *)
Definition busy_day : list (nat * act) :=
  [(0, MOwned ab); (0, MLend 0 1); (0, MLend 0 2);
   (1, MClone 0); (2, MBorrow 0); (1, MNext); (2, MRead 1); (0, MRead 0); (2, MNext); (1, MNext); (0, MNext);
   (2, MNext); (0, MNext); (0, MNext); (2, MNext); (1, MNext); (2, MDrop 1);
   (1, MReturn 0 0); (2, MReturn 0 0); (0, MDrop 0);
   (1, MSend 2 3); (3, MRead 2); (3, MNext); (3, MNext); (3, MNext); (3, MDrop 2)].
Example busy_day_all_done :
  match trun tinit busy_day with
  | Some s => t_labels s = [None; None; None] /\ t_heap s = [None; None] /\
              t_seen s = [(ab, ab); (ab, ab); (ab, ab); (ab, ab)] /\ length (t_hist s) = 29
  | None => False
  end.
Proof. vm_compute. repeat split. Qed.

(** Without the borrow checker's conditions all of this can go wrong. *)
Fixpoint unchecked (s : tstate) (sched : list (nat * act)) : option tstate :=
  match sched with
  | [] => Some s
  | (t, a) :: sched => match tstep s t a with Some s' => unchecked s' sched | None => None end
  end.
(** Dropped under a reader, although the threads talk all the time. *)
Example dropped_while_read :
  unchecked tinit [(0, MOwned ab); (0, MLend 0 1); (1, MRead 0); (1, MNext); (1, MSync 0); (0, MDrop 0); (0, MSync 1); (1, MNext)] = None.
Proof. vm_compute. reflexivity. Qed.
(** Read and then dropped, but nothing orders the two. *)
Example dropped_unordered :
  unchecked tinit [(0, MOwned ab); (0, MLend 0 1); (1, MRead 0); (1, MNext); (1, MNext); (1, MNext); (0, MDrop 0)] = None /\
  match unchecked tinit [(0, MOwned ab); (0, MLend 0 1); (1, MRead 0); (1, MNext); (1, MNext); (1, MNext); (1, MReturn 0 0); (0, MDrop 0)] with
  | Some s => t_heap s = [None]
  | None => False
  end.
Proof. vm_compute. split; reflexivity. Qed.
(** Used without having been handed over. *)
Example used_unordered :
  unchecked tinit [(0, MOwned ab); (1, MRead 0)] = None.
Proof. vm_compute. reflexivity. Qed.
(** A history with a race. *)
Example a_race : race [EAcc 0 (AtBox 0) true; ETell 0 2; EAcc 1 (AtBox 0) false].
Proof.
  exists 0, 2, 0, 1, (AtBox 0), true, false. split; [lia|]. split; [reflexivity|]. split; [reflexivity|]. split; [auto|].
  intros H. inversion H as [i t x w j N L|i a b m j _ N L]; subst; [discriminate N|].
  destruct m as [|[|m]]; [discriminate N|discriminate N|lia].
Qed.

Print Assumptions C85_threads_safe.
Print Assumptions C85_no_race.
Print Assumptions C85_reads_its_text.
Print Assumptions C85_text_stays.
Print Assumptions C85_one_owner.
Print Assumptions C85_nothing_leaked.
