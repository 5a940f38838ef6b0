(** * LabelHeapProofs *)

From Verif Require Import Base LabelHeapModel LabelHeapSpec.

Lemma nth_set_nth_eq {A} (l : list A) n x : n < List.length l -> nth_error (set_nth l n x) n = Some x.
Proof. revert n; induction l as [|y l IH]; intros [|n] H; simpl in *; try lia; auto. apply IH; lia. Qed.
Lemma nth_set_nth_neq {A} (l : list A) n m x : n <> m -> nth_error (set_nth l n x) m = nth_error l m.
Proof. revert n m; induction l as [|y l IH]; intros [|n] [|m] H; simpl in *; try congruence; auto. Qed.
Lemma set_nth_length {A} (l : list A) n x : List.length (set_nth l n x) = List.length l.
Proof. revert n; induction l as [|y l IH]; intros [|n]; simpl; auto. Qed.
Lemma set_nth_none {A} (l : list (option A)) n :
  (match nth_error l n with Some (Some x) => Some x | _ => None end) = None -> set_nth l n None = l.
Proof. revert n; induction l as [|y l IH]; intros [|n] H; simpl in *; auto; [destruct y; congruence|rewrite IH; auto]. Qed.

Definition look {A} (l : list (option A)) (k : nat) : option A :=
  match nth_error l k with Some (Some x) => Some x | _ => None end.

Lemma look_lt {A} (l : list (option A)) k x : look l k = Some x -> k < List.length l.
Proof. unfold look. intros H. destruct (nth_error l k) eqn:E; [|discriminate].
       apply nth_error_Some. congruence. Qed.
Lemma look_snoc {A} (l : list (option A)) x k :
  look (l ++ [x]) k = if Nat.eqb k (List.length l) then x else look l k.
Proof.
  unfold look. destruct (Nat.eqb_spec k (List.length l)) as [->|N].
  - rewrite nth_error_app2, Nat.sub_diag by lia. simpl. destruct x; reflexivity.
  - destruct (Nat.lt_ge_cases k (List.length l)).
    + rewrite nth_error_app1 by lia. reflexivity.
    + rewrite nth_error_app2 by lia.
      replace (nth_error [x] (k - List.length l)) with (@None (option A)).
      * replace (nth_error l k) with (@None (option A)); [reflexivity|]. symmetry; apply nth_error_None; lia.
      * symmetry; apply nth_error_None; simpl; lia.
Qed.
Lemma look_set {A} (l : list (option A)) n x k : n < List.length l ->
  look (set_nth l n x) k = if Nat.eqb k n then x else look l k.
Proof.
  intros H. unfold look. destruct (Nat.eqb_spec k n) as [->|N].
  - rewrite nth_set_nth_eq by exact H. destruct x; reflexivity.
  - rewrite nth_set_nth_neq by congruence. reflexivity.
Qed.

Lemma slot_look s k : slot s k = look (hs_slots s) k. Proof. reflexivity. Qed.
Lemma vslot_look s k : vslot s k = look s k. Proof. reflexivity. Qed.
Lemma deref_box h id : deref h (PBox id) = look h id. Proof. reflexivity. Qed.

Definition kind_of (l : hlabel) : vkind :=
  match h_static l, h_owned l, h_from l with
  | Some _, _, _ => VStatic
  | None, Some _, _ => VOwned
  | None, None, Some j => VFrom j
  | None, None, None => VOutside
  end.

Record inv (s : hstate) (v : list (option vlabel)) : Prop := {
  i_len : List.length (hs_slots s) = List.length v;
  i_sim : forall k, match slot s k with
                    | Some l => exists t, deref (hs_heap s) (h_ptr l) = Some t /\
                                          vslot v k = Some (MkVL t (kind_of l) (h_tag l))
                    | None => vslot v k = None
                    end;
  i_ptr : forall k l, slot s k = Some l ->
     match h_static l, h_owned l, h_from l with
     | Some t, None, None => h_ptr l = PText t
     | None, Some id, None => h_ptr l = PBox id
     | None, None, Some j => j < k /\ exists lj, slot s j = Some lj /\ h_ptr lj = h_ptr l
     | None, None, None => exists t, h_ptr l = PText t
     | _, _, _ => False
     end;
  i_uniq : forall k k' l l' id, slot s k = Some l -> slot s k' = Some l' ->
     h_owned l = Some id -> h_owned l' = Some id -> k = k';
  i_leak : forall id t, look (hs_heap s) id = Some t ->
     exists k l, slot s k = Some l /\ h_owned l = Some id
}.

Lemma inv_init : inv hinit [].
Proof.
  constructor; intros; unfold slot, look in *; simpl in *; try (destruct k; simpl in *; congruence).
  - reflexivity.
  - destruct k; reflexivity.
  - destruct id; discriminate.
Qed.

(** Adding a label that owns nothing new. *)
Lemma inv_push s v l t : inv s v ->
  deref (hs_heap s) (h_ptr l) = Some t ->
  h_owned l = None ->
  match h_static l, h_from l with
  | Some t, None => h_ptr l = PText t
  | None, Some j => j < List.length (hs_slots s) /\ exists lj, slot s j = Some lj /\ h_ptr lj = h_ptr l
  | None, None => exists t, h_ptr l = PText t
  | Some _, Some _ => False
  end ->
  inv (push_slot s l) (v ++ [Some (MkVL t (kind_of l) (h_tag l))]).
Proof.
  intros I D O P. destruct I as [IL IS IP IU IK].
  assert (SL : forall k, slot (push_slot s l) k =
     if Nat.eqb k (List.length (hs_slots s)) then Some l else slot s k)
    by (intros k; rewrite slot_look; apply look_snoc).
  constructor.
  - simpl. rewrite !app_length, IL. reflexivity.
  - intros k. rewrite SL, vslot_look, look_snoc, <- IL. destruct (Nat.eqb k _) eqn:E.
    + exists t. split; [exact D|reflexivity].
    + apply IS.
  - intros k l0. rewrite SL. destruct (Nat.eqb_spec k (List.length (hs_slots s))) as [->|N].
    + intros [= <-]. rewrite O.
      destruct (h_static l); destruct (h_from l) as [j|]; try exact P.
      destruct P as [J (lj & S & E)]. split; [exact J|]. exists lj. split; [|exact E].
      rewrite SL. destruct (Nat.eqb_spec j (List.length (hs_slots s))); [lia|exact S].
    + intros H. specialize (IP k l0 H).
      destruct (h_static l0), (h_owned l0), (h_from l0) as [j|]; try exact IP.
      destruct IP as [J (lj & S & E)]. split; [exact J|]. exists lj. split; [|exact E].
      rewrite SL. destruct (Nat.eqb_spec j (List.length (hs_slots s))) as [->|]; [|exact S].
      apply look_lt in S. lia.
  - intros k k' l1 l2 id. rewrite !SL.
    destruct (Nat.eqb k _); destruct (Nat.eqb k' _); intros H1 H2 O1 O2; try congruence.
    eapply IU; eauto.
  - intros id x H. destruct (IK id x H) as (k & l1 & S & O1). exists k, l1.
    split; [|exact O1]. rewrite SL. destruct (Nat.eqb_spec k (List.length (hs_slots s))) as [->|]; [|exact S].
    apply look_lt in S. lia.
Qed.

(** Adding a label that owns a new box. *)
Lemma deref_alloc h x p t : deref h p = Some t -> deref (h ++ [Some x]) p = Some t.
Proof.
  destruct p as [s|id]; [auto|]. rewrite !deref_box, look_snoc. intros H.
  destruct (Nat.eqb_spec id (List.length h)) as [->|]; [|exact H]. apply look_lt in H. lia.
Qed.

Lemma inv_alloc s v t : inv s v -> inv (alloc_label s t) (v ++ [Some (MkVL t VOwned None)]).
Proof.
  intros [IL IS IP IU IK].
  set (id0 := List.length (hs_heap s)).
  set (l := MkHL (PBox id0) None (Some id0) None None).
  assert (SL : forall k, slot (alloc_label s t) k =
     if Nat.eqb k (List.length (hs_slots s)) then Some l else slot s k)
    by (intros k; rewrite slot_look; apply look_snoc).
  assert (LIVE : forall k l1, slot s k = Some l1 -> h_owned l1 <> Some id0).
  { intros k l1 S O. specialize (IP k l1 S). specialize (IS k). rewrite S in IS.
    destruct IS as (x & D & _). rewrite O in IP.
    destruct (h_static l1), (h_from l1); try contradiction.
    rewrite IP, deref_box in D. apply look_lt in D. unfold id0 in D. lia. }
  constructor.
  - simpl. rewrite !app_length, IL. reflexivity.
  - intros k. rewrite SL, vslot_look, look_snoc, <- IL. destruct (Nat.eqb k _) eqn:E.
    + exists t. split; [|reflexivity]. cbn [alloc_label hs_heap l h_ptr]. rewrite deref_box, look_snoc.
      unfold id0. rewrite Nat.eqb_refl. reflexivity.
    + specialize (IS k). destruct (slot s k) as [l1|]; [|exact IS].
      destruct IS as (x & D & V). exists x. split; [|exact V].
      cbn [alloc_label hs_heap]. apply deref_alloc, D.
  - intros k l0. rewrite SL. destruct (Nat.eqb_spec k (List.length (hs_slots s))) as [->|N].
    + intros [= <-]. reflexivity.
    + intros H. specialize (IP k l0 H).
      destruct (h_static l0), (h_owned l0), (h_from l0) as [j|]; try exact IP.
      destruct IP as [J (lj & S & E)]. split; [exact J|]. exists lj. split; [|exact E].
      rewrite SL. destruct (Nat.eqb_spec j (List.length (hs_slots s))) as [->|]; [|exact S].
      apply look_lt in S. lia.
  - intros k k' l1 l2 id. rewrite !SL.
    destruct (Nat.eqb_spec k (List.length (hs_slots s))); destruct (Nat.eqb_spec k' (List.length (hs_slots s)));
      intros H1 H2 O1 O2; try congruence.
    + injection H1 as <-. cbn in O1. injection O1 as <-. exfalso; eapply LIVE; eauto.
    + injection H2 as <-. cbn in O2. injection O2 as <-. exfalso; eapply LIVE; eauto.
    + eapply IU; eauto.
  - intros id x H. cbn [alloc_label hs_heap] in H. rewrite look_snoc in H.
    destruct (Nat.eqb_spec id (List.length (hs_heap s))) as [->|N].
    + exists (List.length (hs_slots s)), l. rewrite SL, Nat.eqb_refl. split; reflexivity.
    + destruct (IK id x H) as (k & l1 & S & O1). exists k, l1. split; [|exact O1].
      rewrite SL. destruct (Nat.eqb_spec k (List.length (hs_slots s))) as [->|]; [|exact S].
      apply look_lt in S. lia.
Qed.

Lemma existsb_look {A} (f : A -> bool) (l : list (option A)) :
  existsb (fun o => match o with Some x => f x | None => false end) l = true <->
  exists k x, look l k = Some x /\ f x = true.
Proof.
  rewrite existsb_exists. split.
  - intros ([x|] & I & F); [|discriminate]. apply In_nth_error in I as [k E].
    exists k, x. unfold look. rewrite E. auto.
  - intros (k & x & L & F). unfold look in L. destruct (nth_error l k) as [[y|]|] eqn:E; try discriminate.
    injection L as ->. exists (Some x). split; [eapply nth_error_In; eauto|exact F].
Qed.

Lemma borrowed_sim s v k : inv s v -> borrowed_from s k = vborrowed v k.
Proof.
  intros [IL IS IP IU IK].
  assert (B : borrowed_from s k = true <-> vborrowed v k = true).
  { unfold borrowed_from, vborrowed.
    change (existsb (fun o => match o with Some (MkVL _ (VFrom j) _) => Nat.eqb j k | _ => false end) v)
      with (existsb (fun o => match o with Some x => (fun y => match y with MkVL _ (VFrom j) _ => Nat.eqb j k | _ => false end) x | None => false end) v).
    change (existsb (fun o => match o with
                    | Some l => match h_from l with Some j => Nat.eqb j k | None => false end
                    | None => false
                    end) (hs_slots s)) with
     (existsb (fun o => match o with
                    | Some l => (fun l => match h_from l with Some j => Nat.eqb j k | None => false end) l
                    | None => false
                    end) (hs_slots s)).
    rewrite !existsb_look. split.
    - intros (m & l & L & F). specialize (IS m). rewrite slot_look, L in IS.
      destruct IS as (t & D & V). exists m. eexists. split; [rewrite <- vslot_look; exact V|].
      specialize (IP m l L). unfold kind_of.
      destruct (h_static l), (h_owned l), (h_from l); try contradiction; try discriminate; exact F.
    - intros (m & l & L & F). specialize (IS m). rewrite slot_look in IS.
      destruct (look (hs_slots s) m) as [hl|] eqn:E; [|rewrite vslot_look in IS; congruence].
      destruct IS as (t & D & V). rewrite vslot_look, L in V. injection V as ->. cbn in F.
      exists m, hl. split; [exact E|]. unfold kind_of in F.
      destruct (h_static hl), (h_owned hl), (h_from hl); try discriminate; exact F. }
  destruct (borrowed_from s k), (vborrowed v k); try reflexivity; destruct B as [B1 B2];
    [discriminate B1 | discriminate B2]; reflexivity.
Qed.

Lemma not_borrowed s k : borrowed_from s k = false ->
  forall m l, slot s m = Some l -> h_from l <> Some k.
Proof.
  intros H m l S F.
  assert (T : borrowed_from s k = true).
  { unfold borrowed_from. apply existsb_exists. exists (Some l). split.
    - rewrite slot_look in S. unfold look in S. destruct (nth_error (hs_slots s) m) as [[y|]|] eqn:E; try discriminate.
      injection S as ->. eapply nth_error_In; eauto.
    - rewrite F. apply Nat.eqb_refl. }
  congruence.
Qed.

(** Replacing the tag of a label. *)
Lemma inv_with_tag s v k l t : inv s v -> slot s k = Some l ->
  forall vl, vslot v k = Some vl ->
  inv (MkHS (hs_heap s) (set_nth (hs_slots s) k
        (Some (MkHL (h_ptr l) (h_static l) (h_owned l) (Some t) (h_from l)))))
      (set_nth v k (Some (MkVL (v_text vl) (v_kind vl) (Some t)))).
Proof.
  intros [IL IS IP IU IK] S vl V.
  assert (Lt : k < List.length (hs_slots s)) by (eapply look_lt; exact S).
  set (l' := MkHL _ _ _ _ _). set (s' := MkHS _ _).
  assert (SL : forall m, slot s' m = if Nat.eqb m k then Some l' else slot s m)
    by (intros m; rewrite slot_look; apply look_set, Lt).
  assert (PT : forall m lm, slot s m = Some lm -> exists lm', slot s' m = Some lm' /\ h_ptr lm' = h_ptr lm /\
      h_owned lm' = h_owned lm).
  { intros m lm Sm. rewrite SL. destruct (Nat.eqb_spec m k) as [->|]; [|eauto].
    exists l'. rewrite S in Sm. injection Sm as <-. auto. }
  constructor.
  - simpl. rewrite !set_nth_length. exact IL.
  - intros m. rewrite SL, vslot_look, look_set by (rewrite <- IL; exact Lt).
    specialize (IS m). destruct (Nat.eqb_spec m k) as [->|]; [|exact IS].
    rewrite S in IS. destruct IS as (x & D & V'). rewrite V in V'. injection V' as ->.
    exists x. split; [exact D|reflexivity].
  - intros m lm. rewrite SL. destruct (Nat.eqb_spec m k) as [->|N].
    + intros [= <-]. specialize (IP k l S). cbn.
      destruct (h_static l), (h_owned l), (h_from l) as [j|]; try exact IP.
      destruct IP as [J (lj & Sj & E)]. split; [exact J|].
      destruct (PT j lj Sj) as (lj' & A & B & _). exists lj'. split; [exact A|congruence].
    + intros Sm. specialize (IP m lm Sm).
      destruct (h_static lm), (h_owned lm), (h_from lm) as [j|]; try exact IP.
      destruct IP as [J (lj & Sj & E)]. split; [exact J|].
      destruct (PT j lj Sj) as (lj' & A & B & _). exists lj'. split; [exact A|congruence].
  - intros m m' l1 l2 id. rewrite !SL. intros H1 H2 O1 O2.
    assert (G1 : exists l1', slot s m = Some l1' /\ h_owned l1' = Some id).
    { destruct (Nat.eqb_spec m k) as [->|]; [|eauto]. injection H1 as <-. eauto. }
    assert (G2 : exists l2', slot s m' = Some l2' /\ h_owned l2' = Some id).
    { destruct (Nat.eqb_spec m' k) as [->|]; [|eauto]. injection H2 as <-. eauto. }
    destruct G1 as (? & ? & ?), G2 as (? & ? & ?). eapply IU; eauto.
  - intros id x H. destruct (IK id x H) as (m & lm & Sm & O).
    destruct (PT m lm Sm) as (lm' & A & _ & C). exists m, lm'. split; [exact A|congruence].
Qed.

(** Dropping a label. *)
Lemma inv_drop s v k l : inv s v -> slot s k = Some l -> borrowed_from s k = false ->
  exists s', hstep s (HDrop k) = Some s' /\ inv s' (set_nth v k None).
Proof.
  intros I S NB. pose proof (not_borrowed s k NB) as NBF.
  destruct I as [IL IS IP IU IK].
  assert (Lt : k < List.length (hs_slots s)) by (eapply look_lt; exact S).
  pose proof (IS k) as Sk. rewrite S in Sk. destruct Sk as (tx & Dk & Vk).
  pose proof (IP k l S) as Pk.
  set (h' := match h_owned l with Some id => set_nth (hs_heap s) id None | None => hs_heap s end).
  set (s' := MkHS h' (set_nth (hs_slots s) k None)).
  assert (ST : hstep s (HDrop k) = Some s').
  { cbn [hstep]. rewrite S. unfold s', h'. destruct (h_owned l) as [id|] eqn:O; [|reflexivity].
    destruct (h_static l), (h_from l); try contradiction.
    rewrite Pk, deref_box in Dk. unfold look in Dk. unfold free.
    destruct (nth_error (hs_heap s) id) as [[y|]|]; try discriminate. reflexivity. }
  exists s'. split; [exact ST|].
  assert (SL : forall m, slot s' m = if Nat.eqb m k then None else slot s m)
    by (intros m; rewrite slot_look; apply look_set, Lt).
  (* the chain of borrows from a live label never reaches the dropped one *)
  assert (KEEP : forall m lm t, m <> k -> slot s m = Some lm -> deref (hs_heap s) (h_ptr lm) = Some t ->
                 deref h' (h_ptr lm) = Some t).
  { unfold h'. destruct (h_owned l) as [id|] eqn:O; [|auto].
    destruct (h_static l), (h_from l); try contradiction.
    induction m as [m IHm] using lt_wf_ind. intros lm t N Sm D.
    specialize (IP m lm Sm).
    destruct (h_static lm), (h_owned lm) as [id'|] eqn:O', (h_from lm) as [j|] eqn:F; try contradiction.
    - rewrite IP in *. exact D.
    - rewrite IP in *. rewrite deref_box in *.
      assert (NE : id' <> id) by (intros ->; apply N; eapply IU; eauto).
      rewrite look_set.
      + destruct (Nat.eqb_spec id' id); [congruence|exact D].
      + rewrite Pk, deref_box in Dk. eapply look_lt; eauto.
    - destruct IP as [J (lj & Sj & E)]. rewrite <- E in *.
      apply (IHm j J lj t); auto. intros ->. eapply NBF; eauto.
    - destruct IP as [x IP]. rewrite IP in *. exact D. }
  constructor.
  - simpl. rewrite !set_nth_length. exact IL.
  - intros m. rewrite SL, vslot_look, look_set by (rewrite <- IL; exact Lt).
    specialize (IS m). destruct (Nat.eqb_spec m k) as [->|N]; [reflexivity|].
    destruct (slot s m) as [lm|] eqn:Sm; [|exact IS].
    destruct IS as (x & D & V). exists x. split; [|exact V]. cbn. eapply KEEP; eauto.
  - intros m lm. rewrite SL. destruct (Nat.eqb_spec m k) as [->|N]; [discriminate|].
    intros Sm. pose proof (IP m lm Sm) as P. pose proof (NBF m lm Sm) as NF.
    destruct (h_static lm), (h_owned lm), (h_from lm) as [j|]; try exact P.
    destruct P as [J (lj & Sj & E)]. split; [exact J|]. exists lj. split; [|exact E].
    rewrite SL. destruct (Nat.eqb_spec j k) as [->|]; [congruence|exact Sj].
  - intros m m' l1 l2 id. rewrite !SL. destruct (Nat.eqb m k), (Nat.eqb m' k); try discriminate.
    apply IU.
  - intros id x H. cbn in H.
    assert (H' : look (hs_heap s) id = Some x /\ h_owned l <> Some id).
    { unfold h' in H. destruct (h_owned l) as [id0|] eqn:O.
      - destruct (h_static l), (h_from l); try contradiction.
        rewrite Pk, deref_box in Dk. pose proof (look_lt _ _ _ Dk) as Lid.
        rewrite look_set in H by exact Lid. destruct (Nat.eqb_spec id id0) as [->|]; [discriminate|].
        split; [exact H|congruence].
      - split; [exact H|discriminate]. }
    destruct H' as [H' NO]. destruct (IK id x H') as (m & lm & Sm & O).
    exists m, lm. split; [|exact O]. rewrite SL.
    destruct (Nat.eqb_spec m k) as [->|]; [|exact Sm]. rewrite S in Sm. congruence.
Qed.

Lemma hstep_inv s v o : inv s v -> allowed s o = true ->
  exists s', hstep s o = Some s' /\ inv s' (vstep v o).
Proof.
  intros I A. pose proof I as [IL IS IP IU IK].
  destruct o as [t|t|t|k|k t|k|k|k]; cbn [hstep vstep].
  - eexists; split; [reflexivity|]. apply (inv_push s v (MkHL (PText t) (Some t) None None None) t); [exact I|reflexivity|reflexivity|reflexivity].
  - eexists; split; [reflexivity|]. apply (inv_push s v (MkHL (PText t) None None None None) t);
      [exact I|reflexivity|reflexivity|exists t; reflexivity].
  - eexists; split; [reflexivity|]. apply inv_alloc, I.
  - specialize (IS k). destruct (slot s k) as [l|] eqn:S.
    + destruct IS as (t & D & V). rewrite D, V. cbn [v_text].
      eexists; split; [reflexivity|].
      apply (inv_push s v (MkHL (h_ptr l) None None None (Some k)) t); cbn; auto.
      split; [eapply look_lt; exact S|eauto].
    + rewrite IS. eexists; split; [reflexivity|exact I].
  - cbn [allowed] in A. apply negb_true_iff in A.
    specialize (IS k). destruct (slot s k) as [l|] eqn:S.
    + destruct IS as (x & D & V). rewrite V, <- (borrowed_sim s v k I), A.
      eexists; split; [reflexivity|].
      apply (inv_with_tag s v k l t I S _ V).
    + rewrite IS. eexists; split; [reflexivity|exact I].
  - specialize (IS k). destruct (slot s k) as [l|] eqn:S.
    + destruct IS as (t & D & V). rewrite V. specialize (IP k l S). unfold clone_of, kind_of. cbn [v_kind v_text].
      destruct (h_static l) as [st|] eqn:E1, (h_owned l) as [id|] eqn:E2, (h_from l) as [j|] eqn:E3;
        try contradiction.
      * eexists; split; [reflexivity|].
        pose proof (inv_push s v (MkHL (h_ptr l) (Some st) None (h_tag l) None) t I) as P. cbn in P. auto.
      * rewrite <- IP, D. eexists; split; [reflexivity|]. apply inv_alloc, I.
      * eexists; split; [reflexivity|].
        pose proof (inv_push s v (MkHL (h_ptr l) None None (h_tag l) (Some j)) t I) as P. cbn in P.
        apply P; auto. destruct IP as [J (lj & Sj & E)]. split; [|eauto]. eapply look_lt; exact Sj.
      * eexists; split; [reflexivity|].
        pose proof (inv_push s v (MkHL (h_ptr l) None None (h_tag l) None) t I) as P. cbn in P. auto.
    + rewrite IS. eexists; split; [reflexivity|exact I].
  - specialize (IS k). destruct (slot s k) as [l|] eqn:S.
    + destruct IS as (t & D & V). rewrite V. specialize (IP k l S). unfold owned_of, kind_of. cbn [v_kind v_text].
      destruct (h_static l) as [st|] eqn:E1, (h_owned l) as [id|] eqn:E2, (h_from l) as [j|] eqn:E3;
        try contradiction.
      * rewrite IP in D. cbn in D. injection D as ->.
        eexists; split; [reflexivity|].
        pose proof (inv_push s v (MkHL (PText t) (Some t) None None None) t I) as P. cbn in P. auto.
      * rewrite D. eexists; split; [reflexivity|]. apply inv_alloc, I.
      * rewrite D. eexists; split; [reflexivity|]. apply inv_alloc, I.
      * rewrite D. eexists; split; [reflexivity|]. apply inv_alloc, I.
    + rewrite IS. eexists; split; [reflexivity|exact I].
  - cbn [allowed] in A. apply negb_true_iff in A. rewrite <- (borrowed_sim s v k I), A.
    destruct (slot s k) as [l|] eqn:S.
    + destruct (inv_drop s v k l I S A) as (s' & E & I'). cbn [hstep] in E. rewrite S in E. eauto.
    + eexists; split; [reflexivity|]. specialize (IS k). rewrite S in IS.
      rewrite set_nth_none by exact IS. exact I.
Qed.

Lemma hrun_inv os : forall s v, inv s v -> exists s', hrun s os = Some s' /\ inv s' (fold_left vstep os v).
Proof.
  induction os as [|o os IH]; intros s v I; cbn [hrun fold_left]; [eauto|].
  destruct (allowed s o) eqn:A.
  - destruct (hstep_inv s v o I A) as (s' & -> & I'). apply IH, I'.
  - assert (E : vstep v o = v).
    { destruct o as [| | |k|k t|k|k|k]; try discriminate; cbn [allowed] in A; apply negb_false_iff in A;
        rewrite (borrowed_sim s v k I) in A; cbn [vstep].
      - destruct (vslot v k); [rewrite A|]; reflexivity.
      - rewrite A. reflexivity. }
    rewrite E. apply IH, I.
Qed.
