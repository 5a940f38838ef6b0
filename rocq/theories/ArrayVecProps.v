(** * ArrayVecProps: C57 *)

From Coq Require Import Permutation.
From Verif Require Import Base ArrayVecModel ArrayVecSpec.

Section Proofs.
  Context {A : Type}.
  Implicit Types (l r d : list A) (v : avec A).

  (** The slots up to the length hold [l], and there are [cap] slots. *)
  Definition holds (cap : nat) v l : Prop :=
    av_len v = List.length l /\ List.length (av_buf v) = cap /\
    exists rest, av_buf v = map Bits l ++ rest.

  Lemma assume_init_bits l : assume_init_all (map Bits l) = MOk l.
  Proof. induction l as [|x l IH]; [reflexivity|]. cbn. rewrite IH. reflexivity. Qed.
  Lemma holds_default cap : holds cap (av_default cap) [].
  Proof.
    split; [reflexivity|]. split; [apply repeat_length|]. exists (repeat Uninit cap). reflexivity.
  Qed.
  Lemma holds_deref cap v l : holds cap v l -> av_deref v = MOk l.
  Proof.
    intros (L & C & r & B). unfold av_deref. rewrite B, app_length, map_length, L.
    replace (Nat.leb _ _) with true by (symmetry; apply Nat.leb_le; lia).
    replace (List.length l) with (List.length (map (@Bits A) l)) by apply map_length.
    rewrite firstn_app, firstn_all, Nat.sub_diag, firstn_O, app_nil_r. apply assume_init_bits.
  Qed.
  Lemma set_slot_app (p q : list (slot A)) s x :
    set_slot (p ++ s :: q) (List.length p) x = p ++ x :: q.
  Proof. induction p as [|y p IH]; [reflexivity|]. cbn. f_equal. exact IH. Qed.
  Lemma holds_bound cap v l : holds cap v l -> List.length l <= cap.
  Proof.
    intros (L & C & r & B). rewrite <- C, B, app_length, map_length. lia.
  Qed.
  Lemma holds_push cap v l x : holds cap v l ->
    if Nat.ltb (List.length l) cap
    then exists v', av_push cap v x = MOk (v', None) /\ holds cap v' (l ++ [x])
    else av_push cap v x = MOk (v, Some x).
  Proof.
    intros H. pose proof (holds_bound _ _ _ H) as Bd. destruct H as (L & C & r & B).
    unfold av_push. rewrite L, C. destruct (Nat.ltb_spec (List.length l) cap) as [Lt|Ge].
    - replace (Nat.eqb _ _) with false by (symmetry; apply Nat.eqb_neq; lia).
      destruct r as [|s r].
      { exfalso. rewrite <- C, B, app_nil_r, map_length in Lt. lia. }
      eexists. split; [reflexivity|]. cbn [av_buf av_len].
      assert (E : set_slot (av_buf v) (List.length l) (Bits x) = map Bits l ++ Bits x :: r).
      { rewrite B. replace (List.length l) with (List.length (map (@Bits A) l)) by apply map_length. apply set_slot_app. }
      repeat split.
      + cbn. rewrite app_length. cbn. lia.
      + cbn. rewrite E, <- C, B, !app_length. reflexivity.
      + exists r. cbn. rewrite E, map_app, <- app_assoc. reflexivity.
    - replace (Nat.eqb _ _) with true by (symmetry; apply Nat.eqb_eq; lia). reflexivity.
  Qed.
  Lemma nth_error_bits l i (r : list (slot A)) :
    i < List.length l -> nth_error (map Bits l ++ r) i = option_map Bits (nth_error l i).
  Proof.
    intros H. rewrite nth_error_app1 by (rewrite map_length; exact H). apply nth_error_map.
  Qed.
  Lemma holds_pop cap v l : holds cap v l ->
    match rev l with
    | [] => av_pop v = MOk (v, None)
    | x :: r => exists v', av_pop v = MOk (v', Some x) /\ holds cap v' (rev r)
    end.
  Proof.
    intros (L & C & r & B). unfold av_pop. destruct (rev l) as [|x k] eqn:R.
    - replace l with (@nil A) in L by (rewrite <- (rev_involutive l), R; reflexivity). rewrite L. reflexivity.
    - assert (E : l = rev k ++ [x]) by (rewrite <- (rev_involutive l), R; reflexivity).
      rewrite L, E, app_length, Nat.add_1_r, B, nth_error_bits by (rewrite E, app_length; cbn; lia).
      rewrite E, nth_error_app2, Nat.sub_diag by lia. cbn. eexists. split; [reflexivity|].
      repeat split.
      + cbn. rewrite <- C, B, E. reflexivity.
      + exists (Bits x :: r). cbn. rewrite map_app, <- app_assoc. reflexivity.
  Qed.
  Lemma nth_error_parts l i x : nth_error l i = Some x ->
    l = firstn i l ++ x :: skipn (S i) l /\ List.length (firstn i l) = i.
  Proof.
    revert i. induction l as [|y l IH]; intros [|i] H; cbn in *; try discriminate.
    - injection H as ->. auto.
    - destruct (IH i H) as [E Q]. split; [f_equal; exact E|rewrite Q; reflexivity].
  Qed.
  Lemma holds_set cap v l i x : holds cap v l ->
    match nth_error l i with
    | None => av_set v i x = MOk (v, None)
    | Some old => exists v', av_set v i x = MOk (v', Some old) /\ holds cap v' (firstn i l ++ x :: skipn (S i) l)
    end.
  Proof.
    intros H. unfold av_set. rewrite (holds_deref _ _ _ H). cbn [mbind]. destruct (nth_error l i) as [old|] eqn:E; [|reflexivity].
    destruct H as (L & C & r & B). eexists. split; [reflexivity|].
    destruct (nth_error_parts _ _ _ E) as [El Ei].
    assert (Es : set_slot (av_buf v) i (Bits x) = map Bits (firstn i l ++ x :: skipn (S i) l) ++ r).
    { rewrite B. rewrite El at 1. rewrite !map_app, <- !app_assoc. cbn [map app].
      pose proof (set_slot_app (map Bits (firstn i l)) (map Bits (skipn (S i) l) ++ r) (Bits old) (Bits x)) as Q.
      rewrite map_length, Ei in Q. exact Q. }
    repeat split.
    - cbn [av_len]. rewrite L. apply (f_equal (@List.length A)) in El. rewrite El, !app_length. reflexivity.
    - cbn [av_buf]. rewrite Es, <- C, B, !app_length, !map_length. f_equal.
      apply (f_equal (@List.length A)) in El. rewrite El, !app_length. reflexivity.
    - exists r. exact Es.
  Qed.
  Lemma holds_op cap v l o : holds cap v l ->
    exists v', av_op cap v o = MOk (v', snd (fst (bounded cap l o)), snd (bounded cap l o)) /\
      holds cap v' (fst (fst (bounded cap l o))).
  Proof.
    intros H. destruct o as [x| | |i x]; cbn [av_op bounded].
    - pose proof (holds_push cap v l x H) as P. destruct (Nat.ltb _ _).
      + destruct P as (v' & E & Hv). rewrite E. cbn. eauto.
      + rewrite P. cbn. eauto.
    - pose proof (holds_pop cap v l H) as P. destruct (rev l) as [|x r] eqn:R.
      + rewrite P. cbn. replace l with (@nil A) in H by (rewrite <- (rev_involutive l), R; reflexivity). eauto.
      + destruct P as (v' & E & Hv). rewrite E. cbn. eauto.
    - unfold av_clear, av_drop. rewrite (holds_deref _ _ _ H). cbn. eexists. split; [reflexivity|]. apply holds_default.
    - pose proof (holds_set cap v l i x H) as P. destruct (nth_error l i).
      + destruct P as (v' & E & Hv). rewrite E. cbn. eauto.
      + rewrite P. cbn. eauto.
  Qed.
  Lemma holds_ops cap os : forall v l, holds cap v l ->
    exists v', av_ops cap v os = MOk (v', snd (fst (bounded_all cap l os)), snd (bounded_all cap l os)) /\
      holds cap v' (fst (fst (bounded_all cap l os))).
  Proof.
    induction os as [|o os IH]; intros v l H; cbn [av_ops bounded_all].
    - cbn. eauto.
    - destruct (holds_op cap v l o H) as (v1 & E & H1). rewrite E. cbn [mbind].
      destruct (bounded cap l o) as [[l1 g1] d1]. cbn [fst snd] in *.
      destruct (IH v1 l1 H1) as (v2 & E2 & H2). rewrite E2. cbn [mbind].
      destruct (bounded_all cap l1 os) as [[l2 g2] d2]. cbn [fst snd] in *. eauto.
  Qed.

  (** The bounded list loses and duplicates nothing. *)
  Lemma bounded_once cap l o : forall l' g d, bounded cap l o = (l', g, d) ->
    Permutation (l ++ given [o]) (g ++ d ++ l').
  Proof.
    intros l' g d. destruct o as [x| | |i x]; cbn [bounded given flat_map app]; intros H.
    - destruct (Nat.ltb _ _); injection H as <- <- <-; cbn; [reflexivity|]. symmetry. apply Permutation_cons_append.
    - rewrite app_nil_r. destruct (rev l) as [|x r] eqn:R; injection H as <- <- <-; cbn.
      + replace l with (@nil A) by (rewrite <- (rev_involutive l), R; reflexivity). constructor.
      + replace l with (rev r ++ [x]) by (rewrite <- (rev_involutive l), R; reflexivity).
        symmetry. apply Permutation_cons_append.
    - injection H as <- <- <-. rewrite !app_nil_r. reflexivity.
    - destruct (nth_error l i) as [old|] eqn:E; injection H as <- <- <-; cbn.
      + destruct (nth_error_parts _ _ _ E) as [El _]. rewrite El at 1. rewrite <- app_assoc. cbn.
        rewrite <- Permutation_middle. apply perm_skip. apply Permutation_app_head.
        symmetry. apply Permutation_cons_append.
      + symmetry. apply Permutation_cons_append.
  Qed.
  Lemma bounded_all_once cap os : forall l l' g d, bounded_all cap l os = (l', g, d) ->
    Permutation (l ++ given os) (g ++ d ++ l').
  Proof.
    induction os as [|o os IH]; intros l l' g d H; cbn [bounded_all] in H.
    - injection H as <- <- <-. cbn. rewrite app_nil_r. reflexivity.
    - destruct (bounded cap l o) as [[l1 g1] d1] eqn:B. destruct (bounded_all cap l1 os) as [[l2 g2] d2] eqn:Bs.
      injection H as <- <- <-. pose proof (bounded_once _ _ _ _ _ _ B) as P1. pose proof (IH _ _ _ _ Bs) as P2.
      replace (given (o :: os)) with (given [o] ++ given os)
        by (cbn; rewrite app_nil_r; reflexivity).
      rewrite app_assoc, P1, <- !app_assoc. rewrite P2. apply Permutation_app_head.
      rewrite !app_assoc. apply Permutation_app_tail. apply Permutation_app_tail. apply Permutation_app_comm.
  Qed.
  Lemma bounded_all_length cap os : forall l, List.length l <= cap ->
    List.length (fst (fst (bounded_all cap l os))) <= cap.
  Proof.
    intros l H. pose proof (holds_ops cap os) as Q.
    (* every list within the capacity is held by some vector *)
    assert (Hv : exists v, holds cap v l).
    { exists (MkAV (map Bits l ++ repeat Uninit (cap - List.length l)) (List.length l)).
      repeat split.
      - cbn. rewrite app_length, map_length, repeat_length. lia.
      - cbn. eauto. }
    destruct Hv as (v & Hv). destruct (Q v l Hv) as (v' & _ & H'). exact (holds_bound _ _ _ H').
  Qed.

  Lemma extend_clone cap l : forall v l0, holds cap v l0 -> List.length (l0 ++ l) <= cap ->
    exists v', av_extend cap v l = MOk v' /\ holds cap v' (l0 ++ l).
  Proof.
    induction l as [|x l IH]; intros v l0 H B; cbn [av_extend].
    - rewrite app_nil_r. eauto.
    - pose proof (holds_push cap v l0 x H) as P. rewrite app_length in B. cbn in B.
      replace (Nat.ltb _ _) with true in P by (symmetry; apply Nat.ltb_lt; lia).
      destruct P as (v' & E & Hv). rewrite E. cbn [mbind snd fst].
      destruct (IH v' (l0 ++ [x]) Hv) as (v2 & E2 & H2).
      { rewrite !app_length. cbn. lia. }
      rewrite <- app_assoc in H2. cbn in H2. eauto.
  Qed.
End Proofs.

(** ** C57 *)

(** Every history on a fresh vector goes as on a bounded list: no uninitialised
    slot is read, nothing panics, and the elements seen through the slice are
    those of the list. *)
Theorem C57_behaves_as_a_bounded_list :
  forall (A : Type) (cap : nat) (os : list vop),
    exists v : avec A,
      av_ops cap (av_default cap) os =
        MOk (v, snd (fst (bounded_all cap [] os)), snd (bounded_all cap [] os)) /\
      av_deref v = MOk (fst (fst (bounded_all cap [] os))) /\
      List.length (fst (fst (bounded_all cap [] os))) <= cap.
Proof.
  intros A cap os. destruct (holds_ops cap os (av_default cap) (@nil A) (holds_default cap)) as (v & E & H).
  exists v. split; [exact E|]. split; [exact (holds_deref _ _ _ H)|exact (holds_bound _ _ _ H)].
Qed.

(** Every value handed in is handed back or dropped exactly once by the time the
    vector itself is dropped. *)
Theorem C57_every_value_dropped_once :
  forall (A : Type) (cap : nat) (os : list vop), exists (v : avec A) got dropped last,
    av_ops cap (av_default cap) os = MOk (v, got, dropped) /\
    av_drop v = MOk last /\
    Permutation (given os) (got ++ dropped ++ last).
Proof.
  intros A cap os. destruct (C57_behaves_as_a_bounded_list A cap os) as (v & E & D & _).
  destruct (bounded_all cap [] os) as [[l g] d] eqn:B. cbn [fst snd] in *.
  exists v, g, d, l. split; [exact E|]. split; [exact D|].
  exact (bounded_all_once cap os [] l g d B).
Qed.

(** A clone never panics, holds the clones in order and, like the original, can
    be used and dropped on its own. *)
Theorem C57_clone :
  forall (A : Type) (cap : nat) (os more : list vop) (clone : A -> A), exists (v w x : avec A) got dropped last,
    av_ops cap (av_default cap) os = MOk (v, snd (fst (bounded_all cap [] os)), snd (bounded_all cap [] os)) /\
    av_clone cap clone v = MOk w /\
    av_deref w = MOk (map clone (fst (fst (bounded_all cap [] os)))) /\
    av_ops cap w more = MOk (x, got, dropped) /\
    av_drop x = MOk last /\
    Permutation (map clone (fst (fst (bounded_all cap [] os))) ++ given more) (got ++ dropped ++ last).
Proof.
  intros A cap os more clone. destruct (holds_ops cap os (av_default cap) (@nil A) (holds_default cap)) as (v & E & H).
  destruct (extend_clone cap (map clone (fst (fst (bounded_all cap [] os)))) (av_default cap) [] (holds_default cap)) as (w & Ew & Hw).
  { cbn. rewrite map_length. exact (holds_bound _ _ _ H). }
  cbn [app] in Hw. destruct (holds_ops cap more w _ Hw) as (x & Ex & Hx).
  destruct (bounded_all cap (map clone (fst (fst (bounded_all cap [] os)))) more) as [[l g] d] eqn:B. cbn [fst snd] in *.
  exists v, w, x, g, d, l. split; [exact E|]. split.
  { unfold av_clone. rewrite (holds_deref _ _ _ H). exact Ew. }
  split; [exact (holds_deref _ _ _ Hw)|]. split; [exact Ex|]. split; [exact (holds_deref _ _ _ Hx)|].
  exact (bounded_all_once cap more _ l g d B).
Qed.

(** A push is refused exactly when [cap] values are held, and then changes
    nothing. *)
Theorem C57_push_refused_exactly_when_full :
  forall (A : Type) (cap : nat) (os : list vop) (x : A), exists (v w : avec A) got dropped refused,
    av_ops cap (av_default cap) os = MOk (v, got, dropped) /\
    av_push cap v x = MOk (w, refused) /\
    (refused = None <-> List.length (fst (fst (bounded_all cap [] os))) < cap) /\
    (refused <> None -> refused = Some x /\ w = v) /\
    av_deref w = MOk (fst (fst (bounded_all cap [] os)) ++ match refused with None => [x] | Some _ => [] end).
Proof.
  intros A cap os x. destruct (holds_ops cap os (av_default cap) (@nil A) (holds_default cap)) as (v & E & H).
  pose proof (holds_push cap v _ x H) as P.
  destruct (Nat.ltb_spec (List.length (fst (fst (bounded_all cap [] os)))) cap) as [L|L].
  - destruct P as (w & Ew & Hw). exists v, w. do 2 eexists. exists None.
    split; [exact E|]. split; [exact Ew|]. split; [tauto|]. split; [congruence|]. exact (holds_deref _ _ _ Hw).
  - exists v, v. do 2 eexists. exists (Some x).
    split; [exact E|]. split; [exact P|]. split; [split; [discriminate|lia]|]. split; [auto|].
    rewrite app_nil_r. exact (holds_deref _ _ _ H).
Qed.

Definition av_sample : list (@vop nat) := [OPush 1; OPush 2; OPush 3; OSet 0 7; OPop; OPush 4; OClear; OPush 5; OPop; OPop; OPush 6].
Example C57_sample :
  bounded_all 2 [] av_sample = ([6], [2; 5], [3; 1; 7; 4]) /\
  exists v, av_ops 2 (av_default 2) av_sample = MOk (v, [2; 5], [3; 1; 7; 4]) /\
    av_drop v = MOk [6] /\ av_buf v = [Bits 6; Uninit].
Proof. split; [reflexivity|]. eexists. repeat split; reflexivity. Qed.

Print Assumptions C57_behaves_as_a_bounded_list.
Print Assumptions C57_every_value_dropped_once.
Print Assumptions C57_clone.
Print Assumptions C57_push_refused_exactly_when_full.
