(** * MemBufProofs: buffers and the memory they refer to (C86) *)

From Verif Require Import Base Event LowerModel DataModel FragModel BufferModel MemBufModel MemBufSpec.

(** ** Memory *)
Lemma read_app m c a s : read m a = Some s -> read (m ++ [c]) a = Some s.
Proof.
  unfold read. destruct (nth_error m a) eqn:E; [|discriminate].
  rewrite nth_error_app1 by (apply nth_error_Some; congruence). rewrite E. auto.
Qed.
Lemma read_gone m : forall a b, a <> b -> read (gone m a) b = read m b.
Proof.
  unfold read. induction m as [|c m IH]; intros a b N; [reflexivity|].
  destruct a, b; cbn; try congruence; auto.
Qed.
Lemma read_gone_le m : forall a b s, read (gone m a) b = Some s -> read m b = Some s.
Proof.
  unfold read. induction m as [|c m IH]; intros a b s; [auto|].
  destruct a, b; cbn; try discriminate; eauto.
Qed.
Lemma gone_length m : forall a, List.length (gone m a) = List.length m.
Proof. induction m; intros [|n]; cbn; congruence. Qed.
Lemma read_next m c : read (m ++ [c]) (List.length m) = c.
Proof. unfold read. rewrite nth_error_app2, Nat.sub_diag by lia. reflexivity. Qed.

(** ** What is seen of a buffer *)
Notation same m := (Forall2 (fun p q => seen_part m p = Some q)).
Lemma seen_parts_iff m ps qs : seen_parts m ps = Some qs <-> same m ps qs.
Proof.
  revert qs. induction ps as [|p ps IH]; intros qs; cbn; split; intros H.
  - injection H as <-. constructor.
  - inversion H. reflexivity.
  - destruct (seen_part m p) eqn:E; [|discriminate]. destruct (seen_parts m ps); [|discriminate].
    injection H as <-. constructor; [exact E|]. apply IH. reflexivity.
  - inversion H; subst. rewrite H2. replace (seen_parts m ps) with (Some l') by (symmetry; apply IH; assumption). reflexivity.
Qed.
Lemma seen_iff m b v : seen m b = Some v <->
  same m (m_parts b) (parts v) /\ m_stack b = stack v /\ m_in_tb b = in_tb v /\ m_err b = err v.
Proof.
  unfold seen. destruct v as [qs st tb er]. cbn. rewrite <- seen_parts_iff. destruct (seen_parts m (m_parts b)); cbn; split.
  - intros H. injection H as <- <- <- <-. auto.
  - intros (H & <- & <- & <-). congruence.
  - discriminate.
  - intros (H & _). discriminate.
Qed.
Lemma same_length m ps qs : same m ps qs -> List.length ps = List.length qs.
Proof. induction 1; cbn; congruence. Qed.

Lemma seen_cow_ext m m' c : (forall a, In a (cow_refers c) -> read m' a = read m a) -> seen_cow m' c = seen_cow m c.
Proof. destruct c; cbn; intros H; [rewrite H by (left; reflexivity)|]; reflexivity. Qed.
Lemma seen_part_ext m m' p : (forall a, In a (part_refers p) -> read m' a = read m a) -> seen_part m' p = seen_part m p.
Proof. destruct p; cbn; intros H; try reflexivity; rewrite (seen_cow_ext m m') by exact H; reflexivity. Qed.
Lemma seen_ext m m' b : (forall a, In a (refers b) -> read m' a = read m a) -> seen m' b = seen m b.
Proof.
  unfold refers, seen. intros H. replace (seen_parts m' (m_parts b)) with (seen_parts m (m_parts b)); [reflexivity|].
  revert H. induction (m_parts b) as [|p ps IH]; intros H; [reflexivity|]. cbn in *.
  rewrite (seen_part_ext m m') by (intros a I; apply H, in_app_iff; left; exact I).
  rewrite IH by (intros a I; apply H, in_app_iff; right; exact I). reflexivity.
Qed.

(** ** Calls *)
Lemma inner_seen m c q : seen_cow m c = Some q -> m_inner m c = Some (c_data q).
Proof. destruct c; cbn; [destruct (read m a); [|discriminate]|]; intros H; injection H as <-; reflexivity. Qed.
Lemma push_computed_seen m c q a s : seen_cow m c = Some q -> read m a = Some s ->
  exists c', m_push_computed m c a = Some c' /\ seen_cow m c' = Some (frag_push_computed q s) /\ cow_refers c' = [].
Proof. intros H R. unfold m_push_computed. rewrite (inner_seen _ _ _ H), R. eexists. split; [reflexivity|]. split; reflexivity. Qed.
Lemma push_seen m c q a s : seen_cow m c = Some q -> read m a = Some s ->
  exists c', m_push m c a = Some c' /\ seen_cow m c' = Some (frag_push q s) /\ (cow_refers c' = [] \/ cow_refers c' = [a]).
Proof.
  intros H R. unfold m_push, frag_push. rewrite (inner_seen _ _ _ H). destruct (c_data q) eqn:E.
  - eexists. split; [reflexivity|]. cbn. rewrite R. split; [reflexivity|]. right. reflexivity.
  - destruct (push_computed_seen m c q a s H R) as (c' & A & B & C). eauto.
Qed.

Lemma same_app m a b c d : same m a c -> same m b d -> same m (a ++ b) (c ++ d).
Proof. apply Forall2_app. Qed.
Lemma same_snoc m ps p qs : same m (ps ++ [p]) qs -> exists qs' q, qs = qs' ++ [q] /\ same m ps qs' /\ seen_part m p = Some q.
Proof.
  intros H. apply Forall2_app_inv_l in H as (a & b & A & B & ->). inversion B; subst. inversion H3; subst. eauto.
Qed.

Lemma frag_seen m b v text borrowed a s : seen m b = Some v -> read m a = Some s ->
  exists r, m_frag m b text borrowed a = Some r /\
    seen m (m_after b r) = Some (after v (vbuf_step v (frag_ev text borrowed s))) /\
    forall x, In x (refers (m_after b r)) -> In x (refers b) \/ (borrowed = true /\ x = a).
Proof.
  intros H R. pose proof H as H0. apply seen_iff in H as (P & St & Tb & Er).
  assert (E : vbuf_step v (frag_ev text borrowed s) = push_frag v text borrowed s) by (destruct text, borrowed; reflexivity).
  rewrite E. clear E. unfold m_frag, push_frag, last_part.
  assert (Fail : seen m (m_after b (m_fail b)) = Some (after v (vfail v)) /\ forall x, In x (refers (m_after b (m_fail b))) -> In x (refers b) \/ (borrowed = true /\ x = a)).
  { split; [|cbn; auto]. apply seen_iff. cbn. auto. }
  destruct (m_parts b) as [|p0 ps0 _] eqn:Eb using rev_ind.
  - inversion P. cbn. eexists. split; [reflexivity|]. cbn. auto.
  - apply same_snoc in P as (qs & q & Ev & Ps & Pq). rewrite Ev, !rev_unit.
    assert (Add : forall c mk pk c0, (p0 = mk c) -> (forall c, part_refers (mk c) = cow_refers c) -> (forall c, seen_part m (mk c) = option_map pk (seen_cow m c)) -> seen_cow m c = Some c0 ->
      exists r, match (if borrowed then m_push m c a else m_push_computed m c a) with
                | Some c' => Some (Ok (MkMB (removelast (ps0 ++ [p0]) ++ [mk c']) (m_stack b) (m_in_tb b) (m_err b)))
                | None => None end = Some r /\
        seen m (m_after b r) = Some (after v (Ok (MkVB (set_last (qs ++ [q]) (pk ((if borrowed then frag_push else frag_push_computed) c0 s))) (stack v) (in_tb v) (err v)))) /\
        forall x, In x (refers (m_after b r)) -> In x (refers b) \/ (borrowed = true /\ x = a)).
    { intros c mk pk c0 -> Rf Sn Sc.
      assert (Z : exists c', (if borrowed then m_push m c a else m_push_computed m c a) = Some c' /\
        seen_cow m c' = Some ((if borrowed then frag_push else frag_push_computed) c0 s) /\ (forall x, In x (cow_refers c') -> borrowed = true /\ x = a)).
      { destruct borrowed.
        - destruct (push_seen m c c0 a s Sc R) as (c' & A & B & C). exists c'. split; [exact A|]. split; [exact B|]. intros x I. destruct C as [C|C]; rewrite C in I; [destruct I|]. destruct I as [<-|[]]. auto.
        - destruct (push_computed_seen m c c0 a s Sc R) as (c' & A & B & C). exists c'. split; [exact A|]. split; [exact B|]. intros x I. rewrite C in I. destruct I. }
      destruct Z as (c' & A & B & C). rewrite A. eexists. split; [reflexivity|]. cbn [m_after after]. split.
      - apply seen_iff. cbn [m_parts m_stack m_in_tb m_err parts stack in_tb err]. unfold set_last. rewrite !removelast_last. split; [|auto].
        apply same_app; [exact Ps|]. constructor; [|constructor]. rewrite Sn, B. reflexivity.
      - unfold refers. cbn [m_parts]. rewrite removelast_last, Eb, !flat_map_app. cbn [flat_map]. rewrite !app_nil_r, Rf. intros x I. apply in_app_iff in I as [I|I].
        + left. apply in_app_iff. left. exact I.
        + right. apply C, I. }
    destruct p0 as [c|c|k|n k]; cbn in Pq.
    + destruct (seen_cow m c) as [c0|] eqn:Sc; [|discriminate]. injection Pq as <-. destruct text.
      * apply (Add c MText PText c0); auto.
      * eexists. split; [reflexivity|]. exact Fail.
    + destruct (seen_cow m c) as [c0|] eqn:Sc; [|discriminate]. injection Pq as <-. destruct text.
      * eexists. split; [reflexivity|]. exact Fail.
      * apply (Add c MBin PBin c0); auto.
    + injection Pq as <-. eexists. split; [reflexivity|]. exact Fail.
    + injection Pq as <-. eexists. split; [reflexivity|]. exact Fail.
Qed.

Lemma set_part_same m ps qs : same m ps qs -> forall n p q, seen_part m p = Some q -> same m (m_set_part ps n p) (set_part qs n q).
Proof. induction 1; intros n p q S; destruct n; cbn; constructor; auto. Qed.
Lemma same_nth m ps qs : same m ps qs -> forall n, 
  match nth_error ps n, nth_error qs n with
  | Some p, Some q => seen_part m p = Some q
  | None, None => True
  | _, _ => False
  end.
Proof. induction 1; intros [|n]; cbn; auto. apply IHForall2. Qed.
Lemma set_part_refers ps : forall n p x, part_refers p = [] -> In x (flat_map part_refers (m_set_part ps n p)) -> In x (flat_map part_refers ps).
Proof.
  induction ps as [|q ps IH]; intros n p x E; [destruct n; auto|]. destruct n; cbn.
  - rewrite E. cbn. intros I. apply in_app_iff. right. exact I.
  - rewrite !in_app_iff. intros [I|I]; [left; exact I|right; eauto].
Qed.

Definition kept_refs (b b' : mbuf) : Prop := forall x, In x (refers b') -> In x (refers b) \/ x = empty_text.
Lemma push_part_seen m b v p q : seen m b = Some v -> seen_part m p = Some q -> (forall x, In x (part_refers p) -> x = empty_text) ->
  seen m (m_push_part b p) = Some (push_part v q) /\ kept_refs b (m_push_part b p).
Proof.
  intros H S N. apply seen_iff in H as (P & St & Tb & Er). split.
  - apply seen_iff. cbn. split; [|auto]. apply same_app; [exact P|]. constructor; [exact S|constructor].
  - unfold kept_refs, refers. cbn. intros x I. rewrite flat_map_app in I. apply in_app_iff in I as [I|I]; [left; exact I|]. cbn in I. rewrite app_nil_r in I. right. auto.
Qed.
Lemma begin_seen m b v k : seen m b = Some v -> seen m (m_begin b k) = Some (push_begin v k) /\ kept_refs b (m_begin b k).
Proof.
  intros H. apply seen_iff in H as (P & St & Tb & Er). split.
  - apply seen_iff. cbn. rewrite (same_length _ _ _ P), St. split; [|auto]. apply same_app; [exact P|]. constructor; [reflexivity|constructor].
  - unfold kept_refs, refers. cbn. intros x I. rewrite flat_map_app in I. apply in_app_iff in I as [I|I]; [left; exact I|]. destruct I.
Qed.
Lemma end_seen m b v : seen m b = Some v -> seen m (m_after b (m_end b)) = Some (after v (push_end v)) /\ kept_refs b (m_after b (m_end b)).
Proof.
  intros H. pose proof H as H0. apply seen_iff in H as (P & St & Tb & Er). unfold m_end, push_end. rewrite <- St. destruct (m_stack b) as [|i r] eqn:Sb.
  - split; [|left; assumption]. apply seen_iff. cbn. rewrite Sb. auto.
  - pose proof (same_nth _ _ _ P i) as N. destruct (nth_error (m_parts b) i) as [p|], (nth_error (parts v) i) as [q|]; try contradiction.
    2: { split; [exact H0|left; assumption]. }
    assert (Fail : seen m (m_after b (m_fail (MkMB (m_parts b) r (m_in_tb b) (m_err b)))) = Some (after v (vfail (MkVB (parts v) r (in_tb v) (err v)))) /\ kept_refs b (m_after b (m_fail (MkMB (m_parts b) r (m_in_tb b) (m_err b))))).
    { split; [|left; assumption]. apply seen_iff. cbn. auto. }
    destruct p as [c|c|k|n k]; cbn in N.
    + destruct (seen_cow m c); [|discriminate]. injection N as <-. exact Fail.
    + destruct (seen_cow m c); [|discriminate]. injection N as <-. exact Fail.
    + injection N as <-. exact Fail.
    + injection N as <-. split.
      * apply seen_iff. cbn. rewrite (same_length _ _ _ P). split; [|auto]. apply set_part_same; [exact P|reflexivity].
      * intros x I. left. unfold refers in *. cbn in I. eapply set_part_refers; [|exact I]. reflexivity.
Qed.
Lemma tb_seen m b v x : seen m b = Some v -> seen m (m_set_in_tb b x) = Some (set_in_tb v x).
Proof. intros H. apply seen_iff in H as (P & St & Tb & Er). apply seen_iff. cbn. auto. Qed.

Lemma step_seen m b v e : is_frag e = false -> read m empty_text = Some [] -> seen m b = Some v ->
  seen m (m_after b (m_step b e)) = Some (after v (vbuf_step v e)) /\ kept_refs b (m_after b (m_step b e)).
Proof.
  intros F Z H.
  assert (T : seen_part m (MText (MBorrowed empty_text)) = Some (PText text_buf_new)) by (cbn [seen_part seen_cow]; rewrite Z; reflexivity).
  assert (B : seen_part m (MBin (MBorrowed empty_text)) = Some (PBin text_buf_new)) by (cbn [seen_part seen_cow]; rewrite Z; reflexivity).
  destruct e; try discriminate F; cbn [m_step vbuf_step m_after after];
    try (apply end_seen; exact H);
    try (apply begin_seen; exact H);
    try (apply push_part_seen; [exact H|reflexivity|intros x []]);
    try (split; [apply tb_seen; exact H|left; assumption]).
  - apply (push_part_seen m _ _ _ _ (tb_seen m b v true H) T). intros x [<-|[]]. reflexivity.
  - apply (push_part_seen m _ _ _ _ (tb_seen m b v true H) B). intros x [<-|[]]. reflexivity.
Qed.

(** ** Owning and copying *)
Lemma own_parts_seen m ps qs : same m ps qs ->
  exists ps', m_own_parts m ps = Some ps' /\ same m ps' (map part_into_owned qs) /\ flat_map part_refers ps' = [].
Proof.
  induction 1 as [|p q ps qs S _ (ps' & A & B & C)]; [exists []; repeat split; constructor|].
  assert (Z : exists p', m_own_part m p = Some p' /\ seen_part m p' = Some (part_into_owned q) /\ part_refers p' = []).
  { destruct p as [c|c|k|n k]; cbn in *.
    - destruct c; cbn in *; [destruct (read m a); [|discriminate]|]; injection S as <-; eexists; repeat split; reflexivity.
    - destruct c; cbn in *; [destruct (read m a); [|discriminate]|]; injection S as <-; eexists; repeat split; reflexivity.
    - injection S as <-. eexists; repeat split; reflexivity.
    - injection S as <-. eexists; repeat split; reflexivity. }
  destruct Z as (p' & D & E & F). exists (p' :: ps'). cbn. rewrite D, A, F, C. split; [reflexivity|]. split; [|reflexivity]. constructor; assumption.
Qed.
Lemma own_seen m b v : seen m b = Some v ->
  exists b', m_into_owned m b = Some b' /\ seen m b' = Some (vbuf_into_owned v) /\ refers b' = [].
Proof.
  intros H. apply seen_iff in H as (P & St & Tb & Er). destruct (own_parts_seen _ _ _ P) as (ps' & A & B & C).
  unfold m_into_owned. rewrite A. eexists. split; [reflexivity|]. split; [|exact C]. apply seen_iff. cbn. auto.
Qed.
Lemma value_seen m b v : seen m b = Some v ->
  seen m (m_to_value b) = Some (MkVB (to_value v) [] false false) /\ refers (m_to_value b) = refers b.
Proof.
  intros H. apply seen_iff in H as (P & St & Tb & Er). split.
  - apply seen_iff. cbn. split; [|auto]. unfold to_value. clear - P. induction P as [|p q ps qs S _ IH]; cbn; constructor; [|exact IH].
    destruct p as [c|c|k|n k]; cbn in *; try (destruct (seen_cow m c); [|discriminate]); injection S as <-; reflexivity.
  - unfold refers. cbn. clear. induction (m_parts b) as [|p ps IH]; [reflexivity|]. cbn. rewrite IH. f_equal. destruct p; reflexivity.
Qed.

(** ** Programs *)
Definition fine (m : mem) (x : mbuf * list nat) (v : vbuf) : Prop :=
  seen m (fst x) = Some v /\
  (forall a, In a (refers (fst x)) -> a = empty_text \/ In a (snd x)) /\
  (forall a, In a (snd x) -> exists s, read m a = Some s).
Definition agree (w : world) (p : plain) : Prop :=
  List.length (w_mem w) = List.length (p_texts p) /\
  (forall a s, read (w_mem w) a = Some s -> nth a (p_texts p) [] = s) /\
  read (w_mem w) empty_text = Some [] /\
  Forall2 (fine (w_mem w)) (w_bufs w) (p_bufs p).

Lemma fine_ext m m' x v : (forall a s, read m a = Some s -> a = empty_text \/ In a (snd x) -> read m' a = Some s) -> read m empty_text = Some [] -> fine m x v -> fine m' x v.
Proof.
  intros K Z (S & R & L). split; [|split].
  - rewrite <- S. apply seen_ext. intros a I. pose proof (R a I) as J. destruct J as [->|J].
    + rewrite (K _ _ Z); auto.
    + destruct (L a J) as (s & E). rewrite E. apply K; auto.
  - exact R.
  - intros a I. destruct (L a I) as (s & E). exists s. apply K; auto.
Qed.
Lemma Forall2_set {P : mbuf * list nat -> vbuf -> Prop} xs vs i x v : Forall2 P xs vs -> P x v -> Forall2 P (set_buf xs i x) (put vs i v).
Proof. intros H Q. revert i. induction H; intros [|i]; cbn; constructor; auto. Qed.
Lemma Forall2_nth {P : mbuf * list nat -> vbuf -> Prop} xs vs i : Forall2 P xs vs ->
  match nth_error xs i, nth_error vs i with
  | Some x, Some v => P x v
  | None, None => True
  | _, _ => False
  end.
Proof. intros H. revert i. induction H; intros [|i]; cbn; auto. apply IHForall2. Qed.
Lemma Forall2_impl {A B} (P Q : A -> B -> Prop) xs ys : (forall x y, P x y -> Q x y) -> Forall2 P xs ys -> Forall2 Q xs ys.
Proof. intros H. induction 1; constructor; auto. Qed.

Lemma act_agree w p x : agree w p -> borrow_checked w x -> exists w', do_act w x = Some w' /\ agree w' (plain_act p x).
Proof.
  intros (Len & Txt & Z & Bs) B.
  assert (On : forall i f g, (forall b hs v, nth_error (w_bufs w) i = Some (b, hs) -> fine (w_mem w) (b, hs) v -> exists y, f b hs = Some y /\ fine (w_mem w) y (g v)) ->
    exists w', match nth_error (w_bufs w) i with
               | Some (b, hs) => option_map (fun x => MkW (w_mem w) (set_buf (w_bufs w) i x)) (f b hs)
               | None => Some w end = Some w' /\
      agree w' (MkP (p_texts p) (match nth_error (p_bufs p) i with Some b => put (p_bufs p) i (g b) | None => p_bufs p end))).
  { intros i f g H. pose proof (Forall2_nth _ _ i Bs) as N. destruct (nth_error (w_bufs w) i) as [[b hs]|] eqn:E, (nth_error (p_bufs p) i) as [v|]; try contradiction.
    - destruct (H b hs v eq_refl N) as (y & F & G). rewrite F. eexists. split; [reflexivity|]. repeat split; cbn; auto. apply Forall2_set; assumption.
    - eexists. split; [reflexivity|]. destruct w. repeat split; auto. }
  destruct x as [s|a| |i e|i text a|i text s|i|i|i|i|i]; cbn [do_act plain_act].
  - (* AKeep *)
    eexists. split; [reflexivity|]. repeat split; cbn [w_mem w_bufs p_texts p_bufs].
    + rewrite !app_length, Len. reflexivity.
    + intros a s' R. destruct (Nat.eq_dec a (List.length (w_mem w))) as [->|Ne].
      * rewrite read_next in R. rewrite app_nth2, Len, Nat.sub_diag by lia. cbn. congruence.
      * unfold read in R. destruct (Nat.lt_ge_cases a (List.length (w_mem w))) as [Lt|Ge].
        -- rewrite nth_error_app1 in R by exact Lt. rewrite app_nth1 by lia. apply Txt. exact R.
        -- rewrite (proj2 (nth_error_None _ _)) in R by (rewrite app_length; cbn; lia). discriminate.
    + apply read_app, Z.
    + eapply Forall2_impl; [|exact Bs]. intros y v. apply fine_ext; [|exact Z]. intros. apply read_app. assumption.
  - (* ARelease *)
    destruct B as (Ne & B). eexists. split; [reflexivity|]. repeat split; cbn [w_mem w_bufs].
    + rewrite gone_length. exact Len.
    + intros b s R. apply Txt. eapply read_gone_le, R.
    + rewrite read_gone by exact Ne. exact Z.
    + clear On. revert B Bs. generalize (p_bufs p). induction (w_bufs w) as [|y ys IH]; intros vs B F; inversion F; subst; constructor.
      * inversion B; subst. eapply fine_ext; [|exact Z|eassumption]. intros b s R J. rewrite read_gone; [exact R|].
        intros ->. destruct J as [->|J]; [apply Ne; reflexivity|]. contradiction.
      * inversion B; subst. apply IH; assumption.
  - (* ANew *)
    eexists. split; [reflexivity|]. repeat split; cbn [w_mem w_bufs p_texts p_bufs]; auto. apply Forall2_app; [exact Bs|]. constructor; [|constructor].
    split; [reflexivity|]. split; intros a [].
  - (* ACall *)
    destruct (is_frag e) eqn:F.
    + destruct (nth_error (w_bufs w) i) as [[b hs]|] eqn:E.
      * eexists. split; [reflexivity|]. replace (m_after b (m_step b e)) with b by (destruct e; try discriminate F; reflexivity).
        replace (set_buf (w_bufs w) i (b, hs)) with (w_bufs w); [repeat split; auto|].
        clear - E. revert i E. induction (w_bufs w); intros [|i] E; cbn in *; try discriminate; [injection E as ->; reflexivity|]. f_equal. auto.
      * eexists. split; [reflexivity|]. repeat split; auto.
    + apply (On i (fun b hs => Some (m_after b (m_step b e), hs)) (fun b => after b (vbuf_step b e))).
      intros b hs v _ (S & R & L). eexists. split; [reflexivity|]. destruct (step_seen _ _ _ e F Z S) as (S' & K). split; [exact S'|]. cbn [fst snd] in *. split; [|exact L].
      intros a I. destruct (K a I) as [J|J]; auto.
  - (* ABorrowed *)
    destruct B as (s & R0).
    apply (On i (fun b hs => option_map (fun r => (m_after b r, a :: hs)) (m_frag (w_mem w) b text true a)) (fun b => after b (vbuf_step b (frag_ev text true (nth a (p_texts p) []))))).
    intros b hs v _ (S & R & L). cbn [fst snd] in S, R, L. rewrite (Txt _ _ R0). destruct (frag_seen _ _ _ text true a s S R0) as (r & E & S' & K). rewrite E. eexists. split; [reflexivity|].
    split; [exact S'|]. cbn [fst snd] in *. split.
    + intros x I. destruct (K x I) as [J|[_ ->]]; [|right; left; reflexivity]. destruct (R x J); auto. right. right. assumption.
    + intros x [<-|I]; eauto.
  - (* AComputed *)
    pose proof (Forall2_nth _ _ i Bs) as N.
    assert (G : forall y v, fine (w_mem w) y v -> fine (w_mem w ++ [None]) y v).
    { intros y v. apply fine_ext; [|exact Z]. intros. apply read_app. assumption. }
    assert (T : forall a s', read (w_mem w ++ [None]) a = Some s' -> nth a (p_texts p ++ [s]) [] = s').
    { intros a s' R. destruct (Nat.lt_ge_cases a (List.length (w_mem w))) as [Lt|Ge].
      - rewrite app_nth1 by lia. apply Txt. unfold read in *. rewrite nth_error_app1 in R by exact Lt. exact R.
      - unfold read in R. rewrite nth_error_app2 in R by exact Ge. destruct (a - List.length (w_mem w)) as [|k]; [discriminate R|]. destruct k; discriminate R. }
    destruct (nth_error (w_bufs w) i) as [[b hs]|], (nth_error (p_bufs p) i) as [v|]; try contradiction.
    + destruct N as (S & R & L). cbn [fst snd] in *.
      assert (S1 : seen (w_mem w ++ [Some s]) b = Some v).
      { apply (fine_ext (w_mem w) _ (b, hs) v); [|exact Z|split; [exact S|split; [exact R|exact L]]]. intros. apply read_app. assumption. }
      destruct (frag_seen _ _ _ text false (List.length (w_mem w)) s S1 (read_next _ _)) as (r & E & S' & K). rewrite E. eexists. split; [reflexivity|].
      assert (R' : forall x, In x (refers (m_after b r)) -> x = empty_text \/ In x hs) by (intros x I; destruct (K x I) as [J|[J _]]; [auto|discriminate J]).
      repeat split; cbn [w_mem w_bufs p_texts p_bufs]; [rewrite !app_length, Len; reflexivity|exact T|apply read_app, Z|].
      apply Forall2_set; [eapply Forall2_impl; [|exact Bs]; exact G|]. split; [|split; [exact R'|]]; cbn [fst snd].
      * rewrite <- S'. apply seen_ext. intros x I. assert (X : exists s', read (w_mem w) x = Some s') by (destruct (R' x I) as [->|J]; eauto).
        destruct X as (s' & X). rewrite !(read_app _ _ _ _ X). reflexivity.
      * intros x I. destruct (L x I) as (s' & X). exists s'. apply read_app, X.
    + eexists. split; [reflexivity|]. repeat split; cbn [w_mem w_bufs p_texts p_bufs]; [rewrite !app_length, Len; reflexivity|exact T|apply read_app, Z|].
      eapply Forall2_impl; [|exact Bs]; exact G.
  - apply (On i (fun b hs => Some (m_clear b, hs)) vbuf_clear). intros b hs v _ (S & R & L). eexists. split; [reflexivity|]. split; [reflexivity|]. split; [intros a []|exact L].
  - apply (On i (fun b hs => option_map (fun b => (b, [])) (m_into_owned (w_mem w) b)) vbuf_into_owned). intros b hs v _ (S & R & L).
    destruct (own_seen _ _ _ S) as (b' & E & S' & K). cbn [fst snd] in *. rewrite E. eexists. split; [reflexivity|]. split; [exact S'|]. cbn [fst snd]. rewrite K. split; intros a [].
  - pose proof (Forall2_nth _ _ i Bs) as N. destruct (nth_error (w_bufs w) i) as [[b hs]|], (nth_error (p_bufs p) i) as [v|]; try contradiction.
    + eexists. split; [reflexivity|]. repeat split; cbn [w_mem w_bufs p_texts p_bufs]; auto. apply Forall2_app; [exact Bs|]. constructor; [|constructor].
      destruct N as (S & R & L). cbn [fst snd] in *. destruct (value_seen _ _ _ S) as (S' & K). split; [exact S'|]. cbn [fst snd]. rewrite K. split; assumption.
    + eexists. split; [reflexivity|]. repeat split; auto.
  - apply (On i (fun b hs => Some (m_into_value b, hs)) (fun b => MkVB (into_value b) [] false false)). intros b hs v _ (S & R & L). eexists. split; [reflexivity|].
    split; [|split; assumption]. apply seen_iff in S as (P & _). apply seen_iff. cbn. auto.
  - apply (On i (fun b hs => Some (m_new, [])) (fun _ => vbuf_new)). intros b hs v _ _. eexists. split; [reflexivity|]. split; [reflexivity|]. split; intros a [].
Qed.

Lemma acts_agree xs : forall w p, agree w p -> checked w xs -> exists w', do_acts w xs = Some w' /\ agree w' (fold_left plain_act xs p).
Proof.
  induction xs as [|x xs IH]; intros w p A C; [eexists; split; [reflexivity|exact A]|]. destruct C as (B & C). cbn [do_acts fold_left].
  destruct (act_agree w p x A B) as (w1 & E & A1). rewrite E. apply IH; auto.
Qed.
Lemma agree_new : agree world_new plain_new.
Proof.
  split; [reflexivity|]. split; [|split; [reflexivity|constructor]]. intros [|[|a]] s; cbn; congruence.
Qed.
