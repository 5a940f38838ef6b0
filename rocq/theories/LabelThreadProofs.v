(** * LabelThreadProofs: the invariant behind LabelThreadProps.v *)

From Verif Require Import Base LabelHeapModel LabelHeapProofs LabelThreadModel.
From Coq Require Import Lia.

Definition lab (ls : list (option tlabel)) (k : nat) : option tlabel :=
  match nth_error ls k with Some (Some l) => Some l | _ => None end.
Definition Has (ls : list (option tlabel)) (rs : list (nat * nat)) (t k : nat) : Prop :=
  exists l, lab ls k = Some l /\ (l_owner l = t \/ In (t, k) rs).
Definition Prot (ls : list (option tlabel)) (k : nat) (x : loc) : Prop :=
  exists l, lab ls k = Some l /\ (x = AtLabel k \/ exists id n, l_owned l = Some (id, n) /\ x = AtBox id).

(** ** Small facts *)
Lemma lab_lt ls k l : lab ls k = Some l -> k < length ls.
Proof. unfold lab. intros E. apply nth_error_Some. destruct (nth_error ls k); congruence. Qed.
Lemma lab_app ls l k x : lab (ls ++ [Some l]) k = Some x -> lab ls k = Some x \/ k = length ls /\ x = l.
Proof.
  unfold lab. intros E. destruct (Nat.lt_ge_cases k (length ls)) as [H|H].
  - rewrite nth_error_app1 in E by exact H. left. exact E.
  - rewrite nth_error_app2 in E by exact H. destruct (k - length ls) as [|n] eqn:F; cbn in E.
    + right. split; [lia|congruence].
    + destruct n; discriminate.
Qed.
Lemma lab_app_old ls l k x : lab ls k = Some x -> lab (ls ++ [Some l]) k = Some x.
Proof. intros E. unfold lab. rewrite nth_error_app1 by (eapply lab_lt; exact E). exact E. Qed.
Lemma lab_app_new ls l : lab (ls ++ [Some l]) (length ls) = Some l.
Proof. unfold lab. rewrite nth_error_app2 by lia. rewrite Nat.sub_diag. reflexivity. Qed.
Lemma lab_set ls k o j : k < length ls -> lab (set_nth ls k o) j = if Nat.eqb j k then o else lab ls j.
Proof.
  intros H. unfold lab. destruct (Nat.eqb_spec j k) as [->|N].
  - rewrite nth_set_nth_eq by exact H. destruct o; reflexivity.
  - rewrite nth_set_nth_neq by congruence. reflexivity.
Qed.

Lemma has_iff s t k : has s t k = true <-> Has (t_labels s) (t_refs s) t k.
Proof.
  unfold has, Has, tlab. fold (lab (t_labels s) k). destruct (lab (t_labels s) k) as [l|].
  - rewrite Bool.orb_true_iff, Nat.eqb_eq, existsb_exists. split.
    + intros [E|[[a b] [I E]]]; exists l; (split; [reflexivity|]); [left; exact E|].
      cbn in E. apply andb_prop in E as [E1 E2]. apply Nat.eqb_eq in E1, E2. subst. right. exact I.
    + intros [l' [E [H|H]]]; [left; congruence|right]. exists (t, k). split; [exact H|]. cbn. rewrite !Nat.eqb_refl. reflexivity.
  - split; [discriminate|intros [l [E _]]; discriminate].
Qed.
Lemma owns_iff s t k : owns s t k = true <-> exists l, lab (t_labels s) k = Some l /\ l_owner l = t.
Proof.
  unfold owns, tlab. fold (lab (t_labels s) k). destruct (lab (t_labels s) k) as [l|].
  - rewrite Nat.eqb_eq. split; [intros E; exists l; auto|intros [l' [E H]]; congruence].
  - split; [discriminate|intros [l [E _]]; discriminate].
Qed.
Lemma no_refs_iff s k : no_refs s k = true -> forall t, ~ In (t, k) (t_refs s).
Proof.
  unfold no_refs. rewrite Bool.negb_true_iff. intros E t I.
  assert (existsb (fun r : nat * nat => Nat.eqb (snd r) k) (t_refs s) = true) as H; [|congruence].
  apply existsb_exists. exists (t, k). split; [exact I|]. cbn. apply Nat.eqb_refl.
Qed.
Lemma no_borrows_iff s k : no_borrows s k = true -> forall j l, lab (t_labels s) j = Some l -> l_from l <> Some k.
Proof.
  unfold no_borrows. rewrite Bool.negb_true_iff. intros E j l L F.
  assert (existsb (fun o => borrows o k) (t_labels s) = true) as H; [|congruence].
  apply existsb_exists. exists (Some l). split.
  - unfold lab in L. destruct (nth_error (t_labels s) j) as [[x|]|] eqn:N; try discriminate. injection L as ->. eapply nth_error_In. exact N.
  - cbn. rewrite F. apply Nat.eqb_refl.
Qed.
Lemma nothing_from_iff s t k : nothing_from s t k = true ->
  forall j l, lab (t_labels s) j = Some l -> l_from l = Some k -> ~ Has (t_labels s) (t_refs s) t j.
Proof.
  unfold nothing_from. rewrite forallb_forall. intros E j l L F H.
  specialize (E j). rewrite in_seq in E. specialize (E ltac:(pose proof (lab_lt _ _ _ L); lia)).
  apply has_iff in H. rewrite H in E. unfold lab in L.
  destruct (nth_error (t_labels s) j) as [[x|]|] eqn:N; try discriminate. injection L as ->.
  rewrite (nth_error_nth _ _ None N) in E. cbn in E. rewrite F, Nat.eqb_refl in E. discriminate.
Qed.
Lemma remove_one_in r q rs : In q (remove_one r rs) -> In q rs.
Proof. induction rs as [|x rs IH]; cbn; [auto|]. destruct (_ && _); cbn; [auto|intros [H|H]; auto]. Qed.
Lemma remove_one_keep r q rs : q <> r -> In q rs -> In q (remove_one r rs).
Proof.
  intros N. induction rs as [|[a b] rs IH]; cbn; [auto|]. destruct (Nat.eqb_spec a (fst r)), (Nat.eqb_spec b (snd r)); cbn.
  - intros [H|H]; [|exact H]. destruct r; cbn in *; subst. contradiction.
  - intros [H|H]; auto.
  - intros [H|H]; auto.
  - intros [H|H]; auto.
Qed.

(** ** The invariant *)
Record good (h : heap) (ls : list (option tlabel)) (rs : list (nat * nat)) (j : nat) (l : tlabel) : Prop := MkGood {
  g_from : forall k, l_from l = Some k ->
    k < j /\ l_owned l = None /\
    (exists p, lab ls k = Some p /\ l_ptr l = l_ptr p /\ l_made l = l_made p) /\
    (forall t, Has ls rs t j -> Has ls rs t k);
  g_plain : l_from l = None ->
    (l_owned l = None /\ l_ptr l = TText (l_made l)) \/
    (exists id, l_owned l = Some (id, length (l_made l)) /\ l_ptr l = TBox id (length (l_made l)) /\
                nth_error h id = Some (Some (l_made l)));
  g_static : forall x, l_static l = Some x -> x = l_made l
}.
Record struct (h : heap) (ls : list (option tlabel)) (rs : list (nat * nat))
    (busy : nat -> option (nat * tptr * use * bytes)) (seen : list (bytes * bytes)) : Prop := MkStruct {
  s_good : forall j l, lab ls j = Some l -> good h ls rs j l;
  s_uniq : forall j j' l l' id n n', lab ls j = Some l -> lab ls j' = Some l' ->
    l_owned l = Some (id, n) -> l_owned l' = Some (id, n') -> j = j';
  s_leak : forall id x, nth_error h id = Some (Some x) -> exists j l n, lab ls j = Some l /\ l_owned l = Some (id, n);
  s_refs : forall t k, In (t, k) rs -> exists l, lab ls k = Some l;
  s_busy : forall t k p u x, busy t = Some (k, p, u, x) ->
    Has ls rs t k /\ exists l, lab ls k = Some l /\ p = l_ptr l /\ exists r, l_made l = x ++ r;
  s_seen : forall e, In e seen -> fst e = snd e
}.
Definition exists_loc (h : heap) (ls : list (option tlabel)) (x : loc) : Prop :=
  match x with AtLabel k => k < length ls | AtBox id => id < length h end.
Record seq_ok (h : heap) (ls : list (option tlabel)) (rs : list (nat * nat)) (accs : list access) (know : nat -> nat -> bool) : Prop := MkSeq {
  q_old : forall a, In a accs -> exists_loc h ls (a_loc a);
  q_write : forall a k, In a accs -> Prot ls k (a_loc a) -> a_write a = true -> forall t, Has ls rs t k -> know t (a_time a) = true;
  q_any : forall a k, In a accs -> Prot ls k (a_loc a) -> exists t, Has ls rs t k /\ know t (a_time a) = true
}.
Definition Inv (s : tstate) : Prop :=
  struct (t_heap s) (t_labels s) (t_refs s) (t_busy s) (t_seen s) /\
  seq_ok (t_heap s) (t_labels s) (t_refs s) (t_accs s) (t_know s).

Lemma inv_init : Inv tinit.
Proof.
  assert (forall k, lab [] k = None) as N by (intros [|k]; reflexivity).
  split; constructor; cbn; intros; try contradiction; try discriminate.
  - rewrite N in H. discriminate.
  - rewrite N in H. discriminate.
  - destruct id; discriminate.
Qed.

Lemma prot_uniq h ls rs busy seen k k' x :
  struct h ls rs busy seen -> Prot ls k x -> Prot ls k' x -> k = k'.
Proof.
  intros S [l [L [->|[id [n [O ->]]]]]] [l' [L' [E|[id' [n' [O' E]]]]]]; try discriminate; [congruence|].
  injection E as <-. eapply s_uniq; eassumption.
Qed.

(** ** Accesses *)
Definition touched (t : nat) (x : loc) (w : bool) (s : tstate) : tstate :=
  MkTS (t_heap s) (t_labels s) (t_refs s) (t_busy s) (MkAcc x (t_time s) w :: t_accs s) (S (t_time s))
       (upd (t_know s) t (fun p => t_know s t p || Nat.eqb p (t_time s))) (t_seen s) (t_hist s ++ [EAcc t x w]).
Lemma loc_eqb_eq x y : loc_eqb x y = true <-> x = y.
Proof. destruct x, y; cbn; try (split; discriminate); rewrite Nat.eqb_eq; split; congruence. Qed.
Lemma touch_ok t x w s :
  (forall a, In a (t_accs s) -> a_loc a = x -> (w || a_write a) = true -> t_know s t (a_time a) = true) ->
  touch t x w s = Some (touched t x w s).
Proof.
  intros H. unfold touch. destruct (races s t x w) eqn:R; [|reflexivity].
  unfold races in R. apply existsb_exists in R as [a [I E]].
  apply andb_prop in E as [E K]. apply andb_prop in E as [E W]. apply loc_eqb_eq in E.
  rewrite (H a I E W) in K. discriminate.
Qed.
Lemma upd_same {A} (f : nat -> A) k x : upd f k x k = x.
Proof. unfold upd. rewrite Nat.eqb_refl. reflexivity. Qed.
Lemma upd_other {A} (f : nat -> A) k x j : j <> k -> upd f k x j = f j.
Proof. unfold upd. intros H. destruct (Nat.eqb_spec j k); [contradiction|reflexivity]. Qed.
Lemma know_more t x w s u p : t_know s u p = true -> t_know (touched t x w s) u p = true.
Proof.
  intros H. cbn. destruct (Nat.eq_dec u t) as [->|N]; [rewrite upd_same, H; reflexivity|rewrite upd_other by exact N; exact H].
Qed.
Lemma know_new t x w s : t_know (touched t x w s) t (t_time s) = true.
Proof. cbn. rewrite upd_same, Nat.eqb_refl. apply Bool.orb_true_r. Qed.

Lemma touch_prot t x w k s :
  Inv s -> Prot (t_labels s) k x -> Has (t_labels s) (t_refs s) t k ->
  (w = true -> forall t', Has (t_labels s) (t_refs s) t' k -> t' = t) ->
  touch t x w s = Some (touched t x w s) /\ Inv (touched t x w s).
Proof.
  intros [ST SQ] P H O. split.
  - apply touch_ok. intros a I E W. subst x. destruct w.
    + destruct (q_any _ _ _ _ _ SQ a k I P) as [t' [H' K]]. rewrite <- (O eq_refl t' H'). exact K.
    + eapply q_write; eauto.
  - split; [exact ST|]. constructor.
    + intros a [<-|I]; [|eapply q_old; eauto]. cbn. destruct P as [l [L [->|[id [n [E ->]]]]]]; cbn; [eapply lab_lt; exact L|].
      destruct (s_good _ _ _ _ _ ST _ _ L) as [GF GP _]. destruct (l_from l) as [j|] eqn:F.
      * destruct (GF j eq_refl) as [_ [N _]]. congruence.
      * destruct (GP eq_refl) as [[N _]|[i [N [_ B]]]]; [congruence|]. rewrite E in N. injection N as <- _.
        apply nth_error_Some. rewrite B. discriminate.
    + intros a k' [<-|I] P' W t' H'; cbn [a_loc a_write a_time] in *.
      * rewrite (prot_uniq _ _ _ _ _ _ _ _ ST P' P) in H'. rewrite (O W t' H'). apply know_new.
      * apply know_more. eapply q_write; eauto.
    + intros a k' [<-|I] P'; cbn [a_loc a_write a_time] in *.
      * rewrite (prot_uniq _ _ _ _ _ _ _ _ ST P' P). exists t. split; [exact H|apply know_new].
      * destruct (q_any _ _ _ _ _ SQ a k' I P') as [t' [H' K]]. exists t'. split; [exact H'|apply know_more; exact K].
Qed.

(** ** A new label *)
Lemma has_app ls rs l t k : (forall u, ~ In (u, length ls) rs) ->
  Has (ls ++ [Some l]) rs t k -> (Has ls rs t k /\ k < length ls) \/ k = length ls /\ t = l_owner l.
Proof.
  intros N [x [E H]]. apply lab_app in E as [E|[-> ->]].
  - left. split; [exists x; auto|eapply lab_lt; exact E].
  - right. split; [reflexivity|]. destruct H as [H|H]; [congruence|]. destruct (N _ H).
Qed.
Lemma has_app_old ls rs l t k : Has ls rs t k -> Has (ls ++ [Some l]) rs t k.
Proof. intros [x [E H]]. exists x. split; [apply lab_app_old; exact E|exact H]. Qed.

Lemma grow s t l nb accs time know hist :
  Inv s ->
  (forall u p, t_know s u p = true -> know u p = true) ->
  (forall a, In a accs -> In a (t_accs s) \/
     know t (a_time a) = true /\ (a_loc a = AtLabel (length (t_labels s)) \/ nb <> [] /\ a_loc a = AtBox (length (t_heap s)))) ->
  l_owner l = t ->
  (forall k, l_from l = Some k -> l_owned l = None /\ Has (t_labels s) (t_refs s) t k /\
     exists p, lab (t_labels s) k = Some p /\ l_ptr l = l_ptr p /\ l_made l = l_made p) ->
  (forall x, l_static l = Some x -> x = l_made l) ->
  (nb = [] /\ l_owned l = None /\ (l_from l = None -> l_ptr l = TText (l_made l))) \/
  (nb = [Some (l_made l)] /\ l_from l = None /\ l_owned l = Some (length (t_heap s), length (l_made l)) /\
   l_ptr l = TBox (length (t_heap s)) (length (l_made l))) ->
  Inv (MkTS (t_heap s ++ nb) (t_labels s ++ [Some l]) (t_refs s) (t_busy s) accs time know (t_seen s) hist).
Proof.
  intros [ST SQ] KM AC OW FR SC BX.
  assert (forall u, ~ In (u, length (t_labels s)) (t_refs s)) as NR.
  { intros u I. destruct (s_refs _ _ _ _ _ ST _ _ I) as [x E]. apply lab_lt in E. lia. }
  assert (forall id x, nth_error (t_heap s) id = Some x -> nth_error (t_heap s ++ nb) id = Some x) as HO.
  { intros id x E. rewrite nth_error_app1; [exact E|]. apply nth_error_Some. congruence. }
  assert (forall j x id n, lab (t_labels s) j = Some x -> l_owned x = Some (id, n) -> id < length (t_heap s)) as OL.
  { intros j x id n L O. destruct (s_good _ _ _ _ _ ST _ _ L) as [GF GP _]. destruct (l_from x) as [k|] eqn:F.
    - destruct (GF k eq_refl) as [_ [N _]]. congruence.
    - destruct (GP eq_refl) as [[N _]|[i [N [_ B]]]]; [congruence|]. rewrite O in N. injection N as <- _.
      apply nth_error_Some. rewrite B. discriminate. }
  split; cbn [t_heap t_labels t_refs t_busy t_seen t_accs t_know].
  - constructor.
    + intros j x E. apply lab_app in E as [E|[-> ->]].
      * destruct (s_good _ _ _ _ _ ST _ _ E) as [GF GP GS]. constructor; [|intros F|exact GS].
        -- intros k F. destruct (GF k F) as [LT [N [[p [Lp [P M]]] HH]]].
           split; [exact LT|]. split; [exact N|]. split; [exists p; split; [apply lab_app_old; exact Lp|auto]|].
           intros u H. apply has_app in H as [[H _]|[-> _]]; [apply has_app_old; auto| |exact NR].
           apply lab_lt in E. lia.
        -- destruct (GP F) as [G|[id [O [P B]]]]; [left; exact G|right]. exists id. split; [exact O|]. split; [exact P|apply HO; exact B].
      * constructor; [|intros F|exact SC].
        -- intros k F. destruct (FR k F) as [N [H [p [Lp [P M]]]]].
           split; [eapply lab_lt; exact Lp|]. split; [exact N|]. split; [exists p; split; [apply lab_app_old; exact Lp|auto]|].
           intros u H'. apply has_app in H' as [[_ H']|[_ ->]]; [lia| |exact NR]. apply has_app_old. rewrite OW. exact H.
        -- destruct BX as [[-> [N P]]|[-> [_ [O P]]]]; [left; auto|right].
           exists (length (t_heap s)). split; [exact O|]. split; [exact P|].
           rewrite nth_error_app2 by lia. rewrite Nat.sub_diag. reflexivity.
    + intros j j' x x' id n n' E E' O O'. apply lab_app in E as [E|[-> ->]]; apply lab_app in E' as [E'|[-> ->]].
      * eapply s_uniq; eassumption.
      * exfalso. pose proof (OL _ _ _ _ E O). destruct BX as [[_ [N _]]|[_ [_ [N _]]]]; [congruence|]. rewrite N in O'. injection O' as <- _. lia.
      * exfalso. pose proof (OL _ _ _ _ E' O'). destruct BX as [[_ [N _]]|[_ [_ [N _]]]]; [congruence|]. rewrite N in O. injection O as <- _. lia.
      * reflexivity.
    + intros id x B. destruct (Nat.lt_ge_cases id (length (t_heap s))) as [H|H].
      * rewrite nth_error_app1 in B by exact H. destruct (s_leak _ _ _ _ _ ST _ _ B) as [j [y [n [E O]]]].
        exists j, y, n. split; [apply lab_app_old; exact E|exact O].
      * destruct BX as [[-> _]|[-> [_ [O _]]]].
        -- rewrite app_nil_r in B. assert (id < length (t_heap s)) by (apply nth_error_Some; congruence). lia.
        -- assert (id < length (t_heap s ++ [Some (l_made l)])) as H' by (apply nth_error_Some; congruence).
           rewrite app_length in H'. cbn in H'. assert (id = length (t_heap s)) as -> by lia.
           exists (length (t_labels s)), l, (length (l_made l)). split; [apply lab_app_new|exact O].
    + intros u k I. destruct (s_refs _ _ _ _ _ ST _ _ I) as [x E]. exists x. apply lab_app_old. exact E.
    + intros u k p us x B. destruct (s_busy _ _ _ _ _ ST _ _ _ _ _ B) as [H [y [E R]]].
      split; [apply has_app_old; exact H|]. exists y. split; [apply lab_app_old; exact E|exact R].
    + exact (s_seen _ _ _ _ _ ST).
  - assert (forall a k, In a (t_accs s) -> Prot (t_labels s ++ [Some l]) k (a_loc a) -> k <> length (t_labels s) /\ Prot (t_labels s) k (a_loc a)) as PO.
    { intros a k I [x [E C]]. pose proof (q_old _ _ _ _ _ SQ a I) as OLD. apply lab_app in E as [E|[-> ->]].
      - split; [apply lab_lt in E; lia|exists x; auto].
      - exfalso. destruct C as [C|[id [n [O C]]]]; rewrite C in OLD; cbn in OLD; [lia|].
        destruct BX as [[_ [N _]]|[_ [_ [N _]]]]; [congruence|]. rewrite N in O. injection O as <- _. lia. }
    assert (forall a k, a_loc a = AtLabel (length (t_labels s)) \/ nb <> [] /\ a_loc a = AtBox (length (t_heap s)) ->
              Prot (t_labels s ++ [Some l]) k (a_loc a) -> k = length (t_labels s)) as PN.
    { intros a k C [x [E P]]. apply lab_app in E as [E|[-> _]]; [|reflexivity]. exfalso.
      destruct P as [P|[id [n [O P]]]]; rewrite P in C; destruct C as [C|[_ C]]; try discriminate; injection C as C.
      - apply lab_lt in E. lia.
      - pose proof (OL _ _ _ _ E O). lia. }
    constructor.
    + intros a I. destruct (AC a I) as [I'|[_ [C|[C' C]]]].
      * pose proof (q_old _ _ _ _ _ SQ a I') as OLD. destruct (a_loc a); cbn in *; rewrite app_length; lia.
      * rewrite C. cbn. rewrite app_length. cbn. lia.
      * rewrite C. cbn. rewrite app_length. destruct nb; [contradiction|cbn; lia].
    + intros a k I P W u H. destruct (AC a I) as [I'|[K C]].
      * destruct (PO a k I' P) as [N P']. apply has_app in H as [[H _]|[H _]]; [|contradiction|exact NR].
        apply KM. eapply q_write; eauto.
      * pose proof (PN a k C P) as ->. apply has_app in H as [[_ H]|[_ ->]]; [lia| |exact NR]. rewrite OW. exact K.
    + intros a k I P. destruct (AC a I) as [I'|[K C]].
      * destruct (PO a k I' P) as [N P']. destruct (q_any _ _ _ _ _ SQ a k I' P') as [u [H KK]].
        exists u. split; [apply has_app_old; exact H|apply KM; exact KK].
      * pose proof (PN a k C P) as ->. exists t. split; [|exact K].
        exists l. split; [apply lab_app_new|left; exact OW].
Qed.

Lemma add_label_inv s t l :
  Inv s -> l_owner l = t ->
  (forall k, l_from l = Some k -> l_owned l = None /\ Has (t_labels s) (t_refs s) t k /\
     exists p, lab (t_labels s) k = Some p /\ l_ptr l = l_ptr p /\ l_made l = l_made p) ->
  (forall x, l_static l = Some x -> x = l_made l) ->
  l_owned l = None -> (l_from l = None -> l_ptr l = TText (l_made l)) ->
  exists s', add_label t l s = Some s' /\ Inv s'.
Proof.
  intros I OW FR SC N P. unfold add_label. rewrite touch_ok.
  - eexists. split; [reflexivity|].
    set (s1 := touched t (AtLabel (length (t_labels s))) true s).
    assert (Inv (MkTS (t_heap s ++ []) (t_labels s ++ [Some l]) (t_refs s) (t_busy s) (t_accs s1) (t_time s1) (t_know s1) (t_seen s) (t_hist s1))) as G.
    { apply (grow s t l []); try assumption.
      - intros u p K. apply know_more. exact K.
      - intros a [<-|H]; [right|left; exact H]. split; [apply know_new|left; reflexivity].
      - left. auto. }
    rewrite app_nil_r in G. exact G.
  - intros a H E _. destruct I as [_ SQ]. pose proof (q_old _ _ _ _ _ SQ a H) as OLD. rewrite E in OLD. cbn in OLD. lia.
Qed.
Lemma add_owned_inv s t x : Inv s -> exists s', add_owned t x x s = Some s' /\ Inv s'.
Proof.
  intros I. unfold add_owned. pose proof I as [_ SQ].
  assert (forall a, In a (t_accs s) -> a_loc a <> AtBox (length (t_heap s))) as N1.
  { intros a H E. pose proof (q_old _ _ _ _ _ SQ a H) as OLD. rewrite E in OLD. cbn in OLD. lia. }
  assert (forall a, In a (t_accs s) -> a_loc a <> AtLabel (length (t_labels s))) as N2.
  { intros a H E. pose proof (q_old _ _ _ _ _ SQ a H) as OLD. rewrite E in OLD. cbn in OLD. lia. }
  rewrite touch_ok by (intros a H E; destruct (N1 a H E)). unfold add_label. rewrite touch_ok.
  2:{ cbn. intros a [<-|H] E; [discriminate|destruct (N2 a H E)]. }
  eexists. split; [reflexivity|].
  eapply (grow s t (MkTL (TBox (length (t_heap s)) (length x)) None (Some (length (t_heap s), length x)) None None t x) [Some x]);
    [exact I| | |reflexivity|discriminate|discriminate|right; auto].
  - intros u p K. apply (know_more t (AtLabel (length (t_labels s))) true). apply (know_more t (AtBox (length (t_heap s))) true s u p K).
  - intros a [<-|[<-|H]]; [right|right|left; exact H]; (split; [|cbn; auto]).
    + cbn. rewrite !upd_same. rewrite Nat.eqb_refl. apply Bool.orb_true_r.
    + cbn. rewrite !upd_same. rewrite Nat.eqb_refl. rewrite Bool.orb_true_r. reflexivity.
    + right. split; [discriminate|reflexivity].
Qed.

(** ** Reading *)
Lemma reach h ls rs busy seen : struct h ls rs busy seen -> forall j l t, lab ls j = Some l -> Has ls rs t j ->
  l_ptr l = TText (l_made l) \/
  exists id r, l_ptr l = TBox id (length (l_made l)) /\ nth_error h id = Some (Some (l_made l)) /\
               Prot ls r (AtBox id) /\ Has ls rs t r.
Proof.
  intros ST j. induction j as [j IH] using (well_founded_induction Wf_nat.lt_wf). intros l t L H.
  destruct (s_good _ _ _ _ _ ST _ _ L) as [GF GP _]. destruct (l_from l) as [k|] eqn:F.
  - destruct (GF k eq_refl) as [LT [_ [[p [Lp [P M]]] HH]]]. rewrite P, M. exact (IH k LT p t Lp (HH t H)).
  - destruct (GP eq_refl) as [[_ P]|[id [O [P B]]]]; [left; exact P|right].
    exists id, j. split; [exact P|]. split; [exact B|]. split; [|exact H]. exists l. split; [exact L|]. right. eauto.
Qed.

Lemma inv_busy s t b :
  Inv s ->
  (forall k p u x, b = Some (k, p, u, x) ->
     Has (t_labels s) (t_refs s) t k /\ exists l, lab (t_labels s) k = Some l /\ p = l_ptr l /\ exists r, l_made l = x ++ r) ->
  Inv (set_busy t b s).
Proof.
  intros [ST SQ] H. split; [|exact SQ]. destruct ST as [A B C D E F]. constructor; try assumption.
  cbn. intros u k p us x. destruct (Nat.eq_dec u t) as [->|N]; [rewrite upd_same; apply H|rewrite upd_other by exact N; apply E].
Qed.

(** ** Telling *)
Lemma know_tell a b s u p : t_know s u p = true -> t_know (tell a b s) u p = true.
Proof. intros H. cbn. destruct (Nat.eq_dec u b) as [->|N]; [rewrite upd_same, H; reflexivity|rewrite upd_other by exact N; exact H]. Qed.
Lemma know_told a b s p : t_know s a p = true -> t_know (tell a b s) b p = true.
Proof. intros H. cbn. rewrite upd_same, H. apply Bool.orb_true_r. Qed.
Lemma inv_tell a b s : Inv s -> Inv (tell a b s).
Proof.
  intros [ST SQ]. split; [exact ST|]. destruct SQ as [A B C]. constructor; [exact A| |].
  - intros x k I P W t H. apply know_tell. eapply B; eauto.
  - intros x k I P. destruct (C x k I P) as [t [H K]]. exists t. split; [exact H|apply know_tell; exact K].
Qed.

(** ** References *)
Lemma inv_lend s t k b :
  Inv s -> Has (t_labels s) (t_refs s) t k -> reaches_origin s b k = true ->
  Inv (tell t b (set_refs ((b, k) :: t_refs s) s)).
Proof.
  intros [ST SQ] HT RO. pose proof HT as [l [L _]].
  assert (forall u j, Has (t_labels s) (t_refs s) u j -> Has (t_labels s) ((b, k) :: t_refs s) u j) as M.
  { intros u j [x [E [O|I]]]; exists x; (split; [exact E|]); [left; exact O|right; right; exact I]. }
  assert (forall u j, Has (t_labels s) ((b, k) :: t_refs s) u j -> Has (t_labels s) (t_refs s) u j \/ (u = b /\ j = k)) as N.
  { intros u j [x [E [O|[Q|I]]]]; [left; exists x; auto|injection Q as <- <-; auto|left; exists x; auto]. }
  split; cbn [t_heap t_labels t_refs t_busy t_seen t_accs set_refs tell].
  - destruct ST as [A B C D E F]. constructor; try assumption.
    + intros j x X. destruct (A j x X) as [GF GP GS]. constructor; try assumption.
      intros i FI. destruct (GF i FI) as [LT [NO [PP HH]]]. split; [exact LT|]. split; [exact NO|]. split; [exact PP|].
      intros u H. destruct (N u j H) as [H'|[-> ->]]; [apply M, HH, H'|]. apply M.
      unfold reaches_origin, tlab in RO. fold (lab (t_labels s) k) in RO. rewrite X, FI in RO. apply has_iff. exact RO.
    + intros u j [Q|I]; [injection Q as <- <-; eauto|eauto].
    + intros u j p us x X. destruct (E _ _ _ _ _ X) as [H R]. split; [apply M; exact H|exact R].
  - destruct SQ as [A B C]. constructor; [exact A| |].
    + intros a j I P W u H. destruct (N u j H) as [H'|[-> ->]].
      * apply (know_tell t b (set_refs ((b, k) :: t_refs s) s)). eapply B; eauto.
      * apply (know_told t b (set_refs ((b, k) :: t_refs s) s)). eapply B; eauto.
    + intros a j I P. destruct (C a j I P) as [u [H K]]. exists u. split; [apply M; exact H|].
      apply (know_tell t b (set_refs ((b, k) :: t_refs s) s)). exact K.
Qed.

Lemma inv_return s t k b :
  Inv s -> t_busy s t = None ->
  (let s' := set_refs (remove_one (t, k) (t_refs s)) s in has s' b k && (has s' t k || nothing_from s' t k) = true) ->
  Inv (tell t b (set_refs (remove_one (t, k) (t_refs s)) s)).
Proof.
  intros [ST SQ] NB C. cbv zeta in C. apply andb_prop in C as [HB HT]. apply has_iff in HB. cbn [set_refs t_labels t_refs] in HB.
  set (rs := remove_one (t, k) (t_refs s)) in *.
  assert (forall u j, Has (t_labels s) rs u j -> Has (t_labels s) (t_refs s) u j) as M.
  { intros u j [x [E [O|I]]]; exists x; (split; [exact E|]); [left; exact O|right; eapply remove_one_in; exact I]. }
  assert (forall u j, Has (t_labels s) (t_refs s) u j -> (u = t /\ j = k) \/ Has (t_labels s) rs u j) as N.
  { intros u j [x [E [O|I]]]; [right; exists x; auto|].
    destruct (Nat.eq_dec u t) as [->|NE]; [destruct (Nat.eq_dec j k) as [->|NE]; [left; auto|]|];
      right; exists x; (split; [exact E|]); right; apply remove_one_keep; congruence. }
  split; cbn [t_heap t_labels t_refs t_busy t_seen t_accs set_refs tell].
  - destruct ST as [A B D E F G]. constructor; try assumption.
    + intros j x X. destruct (A j x X) as [GF GP GS]. constructor; try assumption.
      intros i FI. destruct (GF i FI) as [LT [NO [PP HH]]]. split; [exact LT|]. split; [exact NO|]. split; [exact PP|].
      intros u H. destruct (N u i (HH u (M u j H))) as [[-> ->]|R]; [|exact R].
      apply Bool.orb_prop in HT as [HT|HT]; [apply has_iff in HT; exact HT|].
      exfalso. exact (nothing_from_iff _ _ _ HT j x X FI H).
    + intros u j I. apply remove_one_in in I. eauto.
    + intros u j p us x X. destruct (F _ _ _ _ _ X) as [H R]. split; [|exact R].
      destruct (N u j H) as [[-> _]|H']; [congruence|exact H'].
  - destruct SQ as [A B D]. constructor; [exact A| |].
    + intros a j I P W u H. apply (know_tell t b (set_refs rs s)). eapply B; eauto.
    + intros a j I P. destruct (D a j I P) as [u [H K]]. destruct (N u j H) as [[-> ->]|H'].
      * exists b. split; [exact HB|]. apply (know_told t b (set_refs rs s)). exact K.
      * exists u. split; [exact H'|]. apply (know_tell t b (set_refs rs s)). exact K.
Qed.

(** ** A label that only its owner can reach *)
Lemma alone s t k :
  owns s t k = true -> no_refs s k = true -> forall u, Has (t_labels s) (t_refs s) u k -> u = t.
Proof.
  intros O R u [l [L [E|I]]]; [|destruct (no_refs_iff _ _ R _ I)].
  apply owns_iff in O as [l' [L' E']]. congruence.
Qed.

(** Another label in its place, that differs in its owner and its tag. *)
Lemma inv_replace s t b k l g :
  Inv s -> t_busy s t = None -> lab (t_labels s) k = Some l ->
  owns s t k = true -> no_refs s k = true -> no_borrows s k = true -> (b = t \/ reaches_origin s b k = true) ->
  Inv (tell t b (set_labels (set_nth (t_labels s) k
         (Some (MkTL (l_ptr l) (l_static l) (l_owned l) g (l_from l) b (l_made l)))) s)).
Proof.
  intros [ST SQ] NB L OW RF BO RO. set (l' := MkTL _ _ _ _ _ _ _). set (ls := set_nth _ _ _).
  assert (forall j, lab ls j = if Nat.eqb j k then Some l' else lab (t_labels s) j) as LS by (intros j; apply lab_set; eapply lab_lt; exact L).
  assert (forall j x, lab ls j = Some x -> exists y, lab (t_labels s) j = Some y /\
            l_ptr x = l_ptr y /\ l_static x = l_static y /\ l_owned x = l_owned y /\ l_from x = l_from y /\ l_made x = l_made y /\
            (j <> k -> x = y)) as BACK.
  { intros j x E. rewrite LS in E. destruct (Nat.eqb_spec j k) as [->|NE].
    - injection E as <-. exists l. cbn. repeat split; auto. contradiction.
    - exists x. repeat split; auto. }
  assert (forall j y, lab (t_labels s) j = Some y -> exists x, lab ls j = Some x /\
            l_ptr x = l_ptr y /\ l_owned x = l_owned y /\ l_made x = l_made y /\ (j <> k -> x = y)) as FORTH.
  { intros j y E. destruct (Nat.eq_dec j k) as [->|NE].
    - exists l'. rewrite LS, Nat.eqb_refl. replace y with l by congruence. cbn. repeat split; auto. contradiction.
    - exists y. rewrite LS. destruct (Nat.eqb_spec j k); [contradiction|]. repeat split; auto. }
  assert (forall u j, Has ls (t_refs s) u j -> (j <> k /\ Has (t_labels s) (t_refs s) u j) \/ (j = k /\ u = b)) as N.
  { intros u j [x [E H]]. rewrite LS in E. destruct (Nat.eqb_spec j k) as [->|NE].
    - right. split; [reflexivity|]. injection E as <-. destruct H as [H|H]; [cbn in H; congruence|destruct (no_refs_iff _ _ RF _ H)].
    - left. split; [exact NE|]. exists x. auto. }
  assert (forall u j, j <> k -> Has (t_labels s) (t_refs s) u j -> Has ls (t_refs s) u j) as M.
  { intros u j NE [x [E H]]. exists x. rewrite LS. destruct (Nat.eqb_spec j k); [contradiction|auto]. }
  assert (Has (t_labels s) (t_refs s) t k) as HT.
  { apply owns_iff in OW as [y [E O]]. exists y. auto. }
  assert (Has ls (t_refs s) b k) as HB.
  { exists l'. rewrite LS, Nat.eqb_refl. split; [reflexivity|left; reflexivity]. }
  assert (forall j x, Prot ls j x -> Prot (t_labels s) j x) as PB.
  { intros j x [y [E P]]. destruct (BACK j y E) as [z [Z [_ [_ [O _]]]]]. exists z. split; [exact Z|]. rewrite <- O. exact P. }
  split; cbn [t_heap t_labels t_refs t_busy t_seen t_accs set_labels tell].
  - destruct ST as [A B D E F G]. constructor; try assumption.
    + intros j x X. destruct (BACK j x X) as [y [Y [E1 [E2 [E3 [E4 [E5 E6]]]]]]]. destruct (A j y Y) as [GF GP GS].
      constructor; rewrite ?E1, ?E2, ?E3, ?E4, ?E5; try assumption.
      intros i FI. destruct (GF i FI) as [LT [NO [[p [Lp [PP PM]]] HH]]].
      assert (i <> k) as NE by (intros ->; exact (no_borrows_iff _ _ BO j y Y FI)).
      split; [exact LT|]. split; [exact NO|]. split.
      * destruct (FORTH i p Lp) as [q [Q [Q1 [_ [Q3 _]]]]]. exists q. split; [exact Q|]. split; congruence.
      * intros u H. destruct (N u j H) as [[_ H']|[-> ->]]; [apply M; [exact NE|apply HH, H']|].
        apply M; [exact NE|]. destruct RO as [->|RO]; [apply HH; exact HT|].
        unfold reaches_origin, tlab in RO. fold (lab (t_labels s) k) in RO. rewrite Y, FI in RO. apply has_iff. exact RO.
    + intros j j' x x' id n n' X X' O O'. destruct (BACK j x X) as [y [Y [_ [_ [E3 _]]]]]. destruct (BACK j' x' X') as [y' [Y' [_ [_ [E3' _]]]]].
      rewrite E3 in O. rewrite E3' in O'. eapply B; eassumption.
    + intros id x X. destruct (D id x X) as [j [y [n [Y O]]]]. destruct (FORTH j y Y) as [q [Q [_ [Q2 _]]]].
      exists j, q, n. split; [exact Q|congruence].
    + intros u j I. destruct (E u j I) as [y Y]. destruct (FORTH j y Y) as [q [Q _]]. eauto.
    + intros u j p us x X. destruct (F _ _ _ _ _ X) as [H [y [Y [P [r R]]]]].
      assert (j <> k) as NE. { intros ->. rewrite (alone _ _ _ OW RF u H) in X. congruence. }
      split; [apply M; assumption|]. destruct (FORTH j y Y) as [q [Q [Q1 [_ [Q3 _]]]]]. exists q. split; [exact Q|]. split; [congruence|].
      exists r. congruence.
  - destruct SQ as [A B D]. set (s' := set_labels ls s). constructor.
    + intros a I. pose proof (A a I) as OLD. destruct (a_loc a); cbn in *; [unfold ls; rewrite set_nth_length|]; exact OLD.
    + intros a j I P W u H. destruct (N u j H) as [[_ H']|[-> ->]].
      * apply (know_tell t b s'). eapply B; eauto.
      * apply (know_told t b s'). eapply B; eauto.
    + intros a j I P. destruct (D a j I (PB _ _ P)) as [u [H K]]. destruct (Nat.eq_dec j k) as [->|NE].
      * exists b. split; [exact HB|]. apply (know_told t b s'). rewrite <- (alone _ _ _ OW RF u H). exact K.
      * exists u. split; [apply M; assumption|]. apply (know_tell t b s'). exact K.
Qed.

(** No label in its place, and no box of its. *)
Lemma inv_remove s t k l h :
  Inv s -> t_busy s t = None -> lab (t_labels s) k = Some l ->
  owns s t k = true -> no_refs s k = true -> no_borrows s k = true ->
  match l_owned l with Some (id, _) => free (t_heap s) id = Some h | None => h = t_heap s end ->
  Inv (set_labels (set_nth (t_labels s) k None) (set_heap h s)).
Proof.
  intros [ST SQ] NB L OW RF BO FR. set (ls := set_nth _ _ _).
  assert (forall j, lab ls j = if Nat.eqb j k then None else lab (t_labels s) j) as LS by (intros j; apply lab_set; eapply lab_lt; exact L).
  assert (forall j x, lab ls j = Some x -> j <> k /\ lab (t_labels s) j = Some x) as BACK.
  { intros j x E. rewrite LS in E. destruct (Nat.eqb_spec j k); [discriminate|auto]. }
  assert (forall j x, j <> k -> lab (t_labels s) j = Some x -> lab ls j = Some x) as FORTH.
  { intros j x NE E. rewrite LS. destruct (Nat.eqb_spec j k); [contradiction|exact E]. }
  assert (forall u j, Has ls (t_refs s) u j -> j <> k /\ Has (t_labels s) (t_refs s) u j) as N.
  { intros u j [x [E H]]. apply BACK in E as [NE E]. split; [exact NE|exists x; auto]. }
  assert (forall u j, j <> k -> Has (t_labels s) (t_refs s) u j -> Has ls (t_refs s) u j) as M.
  { intros u j NE [x [E H]]. exists x. auto. }
  assert (forall j x, Prot ls j x -> j <> k /\ Prot (t_labels s) j x) as PB.
  { intros j x [y [E P]]. apply BACK in E as [NE E]. split; [exact NE|exists y; auto]. }
  assert (length h = length (t_heap s)) as LH.
  { destruct (l_owned l) as [[id n]|]; [|subst; reflexivity]. unfold free in FR. destruct (nth_error (t_heap s) id) as [[?|]|]; try discriminate.
    injection FR as <-. apply set_nth_length. }
  split; cbn [t_heap t_labels t_refs t_busy t_seen t_accs t_know set_labels set_heap].
  - destruct ST as [A B D E F G]. constructor; try assumption.
    + intros j x X. apply BACK in X as [NE X]. destruct (A j x X) as [GF GP GS]. constructor; [|intros FN|exact GS].
      * intros i FI. destruct (GF i FI) as [LT [NO [[p [Lp PP]] HH]]].
        assert (i <> k) as NI by (intros ->; exact (no_borrows_iff _ _ BO j x X FI)).
        split; [exact LT|]. split; [exact NO|]. split; [exists p; auto|]. intros u H. apply N in H as [_ H]. auto.
      * destruct (GP FN) as [C|[id [O [P C]]]]; [left; exact C|right]. exists id. split; [exact O|]. split; [exact P|].
        destruct (l_owned l) as [[i n]|] eqn:OL; [|subst; exact C]. unfold free in FR.
        destruct (nth_error (t_heap s) i) as [[?|]|]; try discriminate. injection FR as <-.
        rewrite nth_set_nth_neq; [exact C|]. intros ->. apply NE. eapply B; eassumption.
    + intros j j' x x' id n n' X X'. apply BACK in X as [_ X]. apply BACK in X' as [_ X']. eapply B; eassumption.
    + intros id x X. assert (nth_error (t_heap s) id = Some (Some x) /\ forall n, l_owned l <> Some (id, n)) as [X' NO].
      { destruct (l_owned l) as [[i n]|]; [|subst; split; [exact X|discriminate]]. unfold free in FR.
        destruct (nth_error (t_heap s) i) as [[?|]|] eqn:Q; try discriminate. injection FR as <-.
        destruct (Nat.eq_dec i id) as [->|NE].
        - rewrite nth_set_nth_eq in X; [discriminate|]. apply nth_error_Some. congruence.
        - rewrite nth_set_nth_neq in X by exact NE. split; [exact X|congruence]. }
      destruct (D id x X') as [j [y [n [Y O]]]]. exists j, y, n. split; [|exact O]. apply FORTH; [|exact Y].
      intros ->. apply (NO n). congruence.
    + intros u j I. destruct (E u j I) as [y Y]. exists y. apply FORTH; [|exact Y]. intros ->. exact (no_refs_iff _ _ RF _ I).
    + intros u j p us x X. destruct (F _ _ _ _ _ X) as [H [y [Y R]]].
      assert (j <> k) as NE. { intros ->. rewrite (alone _ _ _ OW RF u H) in X. congruence. }
      split; [apply M; assumption|]. exists y. auto.
  - destruct SQ as [A B D]. constructor.
    + intros a I. pose proof (A a I) as OLD. destruct (a_loc a); cbn in *; [unfold ls; rewrite set_nth_length|rewrite LH]; exact OLD.
    + intros a j I P W u H. apply N in H as [_ H]. apply PB in P as [_ P]. eapply B; eauto.
    + intros a j I P. apply PB in P as [NE P]. destruct (D a j I P) as [u [H K]]. exists u. auto.
Qed.

(** ** One step *)
Lemma step_inv s t a : Inv s -> may s t a = true -> exists s', tstep s t a = Some s' /\ Inv s'.
Proof.
  intros I MAY. unfold may in MAY. destruct (t_busy s t) as [[[[k p] u] x]|] eqn:NB.
  { destruct a; try discriminate. unfold tstep. rewrite NB. pose proof I as [ST _].
    destruct (s_busy _ _ _ _ _ ST _ _ _ _ _ NB) as [H [l [L [-> [r R]]]]]. unfold tlab. fold (lab (t_labels s) k). rewrite L.
    destruct (Nat.ltb_spec (length x) (text_len (l_ptr l))) as [LT|GE].
    - assert (exists c r', r = c :: r') as [c [r' ->]].
      { destruct r as [|c r']; [|eauto]. exfalso. rewrite app_nil_r in R.
        destruct (reach _ _ _ _ _ ST k l t L H) as [P|[id [q [P _]]]]; rewrite P, R in LT; cbn in LT; lia. }
      assert (nth_error (l_made l) (length x) = Some c) as NC by (rewrite R, nth_error_app2, Nat.sub_diag by lia; reflexivity).
      assert (forall s1, Inv s1 -> t_labels s1 = t_labels s -> t_refs s1 = t_refs s ->
                Inv (set_busy t (Some (k, l_ptr l, u, x ++ [c])) s1)) as FIN.
      { intros s1 I1 EL ER. apply inv_busy; [exact I1|]. intros k' p' u' x' Q. injection Q as <- <- <- <-. rewrite EL, ER.
        split; [exact H|]. exists l. split; [exact L|]. split; [reflexivity|]. exists r'. rewrite R, <- app_assoc. reflexivity. }
      unfold read_byte. destruct (reach _ _ _ _ _ ST k l t L H) as [P|[id [q [P [B [PR HR]]]]]]; rewrite P.
      + rewrite NC. eexists. split; [reflexivity|]. rewrite <- P. apply FIN; auto.
      + rewrite B, NC. destruct (touch_prot t (AtBox id) false q s I PR HR ltac:(discriminate)) as [T I1]. rewrite T.
        eexists. split; [reflexivity|]. rewrite <- P. apply FIN; auto.
    - assert (x = l_made l) as ->.
      { assert (r = []) as ->; [|rewrite app_nil_r in R; congruence]. apply length_zero_iff_nil.
        assert (length (l_made l) = length x + length r) as E by (rewrite R; apply app_length).
        destruct (reach _ _ _ _ _ ST k l t L H) as [P|[id [q [P _]]]]; rewrite P in GE; cbn in GE; lia. }
      assert (Inv (add_seen (l_made l, l_made l) (set_busy t None s))) as I1.
      { assert (Inv (set_busy t None s)) as [ST1 SQ1] by (apply inv_busy; [exact I|discriminate]).
        split; [|exact SQ1]. destruct ST1 as [A B C D E F]. constructor; try assumption.
        intros e [<-|IN]; [reflexivity|apply F; exact IN]. }
      destruct u; [eauto|]. apply add_owned_inv. exact I1. }
  assert (forall k l, has s t k = true -> lab (t_labels s) k = Some l ->
            touch t (AtLabel k) false s = Some (touched t (AtLabel k) false s) /\ Inv (touched t (AtLabel k) false s)) as RD.
  { intros k l H L. apply has_iff in H. apply (touch_prot t (AtLabel k) false k s I); [exists l; auto|exact H|discriminate]. }
  assert (forall k l, owns s t k = true -> no_refs s k = true -> lab (t_labels s) k = Some l ->
            touch t (AtLabel k) true s = Some (touched t (AtLabel k) true s) /\ Inv (touched t (AtLabel k) true s)) as WR.
  { intros k l O R L. apply (touch_prot t (AtLabel k) true k s I); [exists l; auto| |intros _; apply (alone s t k O R)].
    apply owns_iff in O as [y [Y E]]. exists y. auto. }
  assert (forall k l b, has s t k = true -> lab (t_labels s) k = Some l -> (b = l_ptr l) -> forall u,
            Inv (set_busy t (Some (k, b, u, [])) (touched t (AtLabel k) false s))) as ST0.
  { intros k l b H L -> u. apply inv_busy; [apply (RD k l H L)|]. intros k' p' u' x' Q. injection Q as <- <- <- <-.
    split; [apply has_iff; exact H|]. exists l. split; [exact L|]. split; [reflexivity|]. exists (l_made l). reflexivity. }
  destruct a; unfold tstep; try discriminate MAY.
  - apply add_label_inv; cbn; try reflexivity; try discriminate; auto. intros y Q. congruence.
  - apply add_label_inv; cbn; try reflexivity; try discriminate; auto.
  - apply add_owned_inv. exact I.
  - unfold tlab. fold (lab (t_labels s) k). destruct (lab (t_labels s) k) as [l|] eqn:L; [|eauto].
    destruct (RD k l MAY L) as [T I1]. rewrite T. apply add_label_inv; cbn [l_owner l_from l_static l_owned l_ptr l_made]; try reflexivity; try discriminate; [exact I1|].
    intros k' Q. injection Q as <-. split; [reflexivity|]. split; [apply has_iff; exact MAY|]. exists l. auto.
  - unfold tlab. fold (lab (t_labels s) k). destruct (lab (t_labels s) k) as [l|] eqn:L; [|eauto].
    apply andb_prop in MAY as [MAY BO]. apply andb_prop in MAY as [OW RF].
    destruct (WR k l OW RF L) as [T I1]. rewrite T. eexists. split; [reflexivity|].
    assert (l_owner l = t) as <- by (apply owns_iff in OW as [y [Y E]]; congruence).
    pose proof (inv_replace (touched (l_owner l) (AtLabel k) true s) (l_owner l) (l_owner l) k l (Some g) I1 NB L OW RF BO (or_introl eq_refl)) as R.
    destruct R as [R1 R2]. split; [exact R1|]. cbn [t_heap t_labels t_refs t_accs t_know set_labels tell] in R2 |- *.
    destruct R2 as [A B C]. constructor; [exact A| |].
    + intros a j IN P W u H. specialize (B a j IN P W u H). destruct (Nat.eq_dec u (l_owner l)) as [->|NE].
      * rewrite upd_same in B. destruct (t_know (touched (l_owner l) (AtLabel k) true s) (l_owner l) (a_time a)); [reflexivity|discriminate B].
      * rewrite upd_other in B by exact NE. exact B.
    + intros a j IN P. destruct (C a j IN P) as [u [H K]]. exists u. split; [exact H|]. destruct (Nat.eq_dec u (l_owner l)) as [->|NE].
      * rewrite upd_same in K. destruct (t_know (touched (l_owner l) (AtLabel k) true s) (l_owner l) (a_time a)); [reflexivity|discriminate K].
      * rewrite upd_other in K by exact NE. exact K.
  - unfold tlab. fold (lab (t_labels s) k). destruct (lab (t_labels s) k) as [l|] eqn:L; [|eauto].
    destruct (RD k l MAY L) as [T I1]. rewrite T. eexists. split; [reflexivity|]. eapply ST0; eauto.
  - unfold tlab. fold (lab (t_labels s) k). destruct (lab (t_labels s) k) as [l|] eqn:L; [|eauto].
    destruct (RD k l MAY L) as [T I1]. rewrite T. pose proof I as [ST _]. destruct (s_good _ _ _ _ _ ST _ _ L) as [GF GP GS].
    destruct (l_owned l) as [[id n]|] eqn:O.
    + eexists. split; [reflexivity|]. eapply ST0; eauto. destruct (l_from l) as [j|]; [destruct (GF j eq_refl) as [_ [N _]]; discriminate|].
      destruct (GP eq_refl) as [[N _]|[i [N [P _]]]]; [discriminate|]. injection N as <- ->. congruence.
    + apply add_label_inv; cbn [l_owner l_from l_static l_owned l_ptr l_made]; try reflexivity; [exact I1| |exact GS|].
      * intros j F. destruct (GF j F) as [_ [_ [[p [Lp [P M]]] HH]]]. split; [reflexivity|]. split; [apply HH, has_iff, MAY|]. exists p. auto.
      * intros F. destruct (GP F) as [[_ P]|[i [N _]]]; [exact P|discriminate].
  - unfold tlab. fold (lab (t_labels s) k). destruct (lab (t_labels s) k) as [l|] eqn:L; [|eauto].
    destruct (RD k l MAY L) as [T I1]. rewrite T. pose proof I as [ST _]. destruct (s_good _ _ _ _ _ ST _ _ L) as [GF GP GS].
    destruct (l_static l) as [y|] eqn:O.
    + pose proof (GS y eq_refl) as ->. apply add_label_inv; cbn [l_owner l_from l_static l_owned l_ptr l_made]; try reflexivity; try discriminate; [exact I1|].
      intros z Q. congruence.
    + eexists. split; [reflexivity|]. eapply ST0; eauto.
  - unfold tlab. fold (lab (t_labels s) k). destruct (lab (t_labels s) k) as [l|] eqn:L; [|eauto].
    apply andb_prop in MAY as [MAY BO]. apply andb_prop in MAY as [OW RF].
    destruct (WR k l OW RF L) as [T I1]. rewrite T. destruct (l_owned l) as [[id n]|] eqn:O.
    + destruct (touch_prot t (AtBox id) true k (touched t (AtLabel k) true s) I1) as [T2 I2].
      * exists l. split; [exact L|]. right. eauto.
      * apply owns_iff in OW as [y [Y E]]. exists y. auto.
      * intros _ u. apply (alone s t k OW RF).
      * rewrite T2. set (s2 := touched t (AtBox id) true (touched t (AtLabel k) true s)) in *.
        assert (exists h, free (t_heap s2) id = Some h) as [h FH].
        { pose proof I as [ST _]. destruct (s_good _ _ _ _ _ ST _ _ L) as [GF GP GS]. unfold free. cbn [s2 touched t_heap].
          destruct (l_from l) as [j|]; [destruct (GF j eq_refl) as [_ [N _]]; congruence|].
          destruct (GP eq_refl) as [[N _]|[i [N [P B]]]]; [congruence|]. rewrite O in N. injection N as <- _. rewrite B. eauto. }
        rewrite FH. eexists. split; [reflexivity|]. apply (inv_remove s2 t k l h I2 NB L OW RF BO). rewrite O. exact FH.
    + eexists. split; [reflexivity|]. apply (inv_remove (touched t (AtLabel k) true s) t k l (t_heap s) I1 NB L OW RF BO). rewrite O. reflexivity.
  - unfold tlab. fold (lab (t_labels s) k). destruct (lab (t_labels s) k) as [l|] eqn:L; [|eauto].
    apply andb_prop in MAY as [MAY RO]. apply andb_prop in MAY as [MAY BO]. apply andb_prop in MAY as [OW RF].
    destruct (WR k l OW RF L) as [T I1]. rewrite T. eexists. split; [reflexivity|].
    apply (inv_replace (touched t (AtLabel k) true s) t b k l (l_tag l) I1 NB L OW RF BO). right. exact RO.
  - unfold tlab. fold (lab (t_labels s) k). apply andb_prop in MAY as [H RO]. destruct (lab (t_labels s) k) as [l|] eqn:L; [|eauto].
    eexists. split; [reflexivity|]. apply inv_lend; [exact I|apply has_iff; exact H|exact RO].
  - apply andb_prop in MAY as [_ C]. eexists. split; [reflexivity|]. apply inv_return; assumption.
  - eexists. split; [reflexivity|]. apply inv_tell. exact I.
Qed.

Lemma run_inv sched : forall s, Inv s -> exists s', trun s sched = Some s' /\ Inv s'.
Proof.
  induction sched as [|[t a] sched IH]; intros s I; cbn [trun]; [eauto|].
  destruct (may s t a) eqn:M; [|apply IH; exact I]. destruct (step_inv s t a I M) as [s' [E I']]. rewrite E. apply IH. exact I'.
Qed.
