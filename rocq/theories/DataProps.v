(** * DataProps: C10, C11, C12, C42, C46 *)

From Verif Require Import Base DataModel DataProofs LabelHeapModel LabelHeapSpec LabelHeapProofs.

(** ** C10: labels and indexes compare by content only *)

(** Labels are equal exactly when their texts are, whatever their kind and tag;
    so equality is an equivalence. *)
Theorem C10_label_equality_is_text_equality :
  forall a b, label_eqb a b = true <-> l_text a = l_text b.
Proof. intros a b. apply bytes_eqb_eq. Qed.

(** Equal labels feed a hasher the same bytes, and the same bytes as the [str]
    they borrow as, so lookups by [str] in a map keyed by labels find them. *)
Theorem C10_label_hash_agrees :
  forall a b, label_eqb a b = true <-> label_hash_input a = label_hash_input b.
Proof.
  intros a b. unfold label_hash_input. rewrite C10_label_equality_is_text_equality. split.
  - intros ->; reflexivity.
  - intros H. apply app_inj_tail in H. tauto.
Qed.
Theorem C10_label_borrow_agrees :
  forall a b, label_hash_input a = str_hash_input (label_borrow a) /\
              (label_eqb a b = true <-> label_borrow a = label_borrow b).
Proof. intros a b. split; [reflexivity|apply C10_label_equality_is_text_equality]. Qed.

(** Indexes: equality, order and hash are those of the number. *)
Theorem C10_index_equality_is_number_equality :
  forall a b, index_eqb a b = true <-> i_val a = i_val b.
Proof. intros a b. apply Z.eqb_eq. Qed.
Theorem C10_index_order_total_and_consistent :
  forall a b,
    index_partial_cmp a b = Some (index_cmp a b) /\
    (index_cmp a b = Eq <-> index_eqb a b = true) /\
    (index_cmp a b = Lt <-> (i_val a < i_val b)%Z) /\
    (index_cmp a b = Gt <-> (i_val b < i_val a)%Z) /\
    index_cmp b a = CompOpp (index_cmp a b).
Proof.
  intros a b. split; [reflexivity|]. split.
  - unfold index_cmp, index_eqb. rewrite Z.compare_eq_iff, Z.eqb_eq. tauto.
  - split; [apply Z.compare_lt_iff|]. split; [apply Z.compare_gt_iff|]. apply index_cmp_antisym.
Qed.
Theorem C10_index_order_transitive :
  forall a b c o, index_cmp a b = o -> index_cmp b c = o -> index_cmp a c = o.
Proof.
  unfold index_cmp. intros a b c [| |].
  - rewrite !Z.compare_eq_iff. congruence.
  - rewrite !Z.compare_lt_iff. lia.
  - rewrite !Z.compare_gt_iff. lia.
Qed.
Theorem C10_index_hash_agrees :
  forall a b, index_eqb a b = true <-> index_hash_input a = index_hash_input b.
Proof. exact C10_index_equality_is_number_equality. Qed.

Example C10_sample :
  label_eqb (label_with_tag (label_new (bs "id")) VALUE_IDENT) (label_new_computed (bs "id")) = true /\
  label_eqb (label_new (bs "id")) (label_new (bs "ids")) = false /\
  index_cmp (index_new (-3)) (index_with_tag (index_new 2) VALUE_OFFSET) = Lt /\
  index_eqb (index_new 2) (index_with_tag (index_new 2) VALUE_OFFSET) = true.
Proof. repeat split; vm_compute; reflexivity. Qed.

(** ** C11: index conversions are exact *)

(** The types an index converts to and from ([usize] and [isize] are the 64-bit ones). *)
Definition index_type (t : ity) : Prop := In t [U32; U64; I32; I64; usize; isize].

Theorem C11_to_exact :
  forall t i n, index_type t ->
    (index_to t i = Some n <-> (n = i_val i /\ (ity_min t <= i_val i <= ity_max t)%Z)).
Proof.
  intros t i n T. rewrite index_to_spec by (intros ->; cbn in T; intuition discriminate).
  unfold fits. destruct (andb_true_iff (ity_min t <=? i_val i)%Z (i_val i <=? ity_max t)%Z) as [A B].
  rewrite !Z.leb_le in *. destruct (_ && _) eqn:E; split.
  - intros [= <-]. split; [reflexivity|]. tauto.
  - intros [-> _]. reflexivity.
  - discriminate.
  - intros [_ H]. discriminate (B H).
Qed.

Theorem C11_round_trip :
  forall t n, index_type t -> (ity_min t <= n <= ity_max t)%Z ->
    i_val (index_from t n) = n /\ i_tag (index_from t n) = None /\
    index_to t (index_from t n) = Some n.
Proof.
  intros t n T R.
  assert (F : fits t n = true) by (unfold fits; rewrite andb_true_iff, !Z.leb_le; exact R).
  assert (N : t <> U128) by (intros ->; cbn in T; intuition discriminate).
  rewrite index_from_spec by assumption. cbn [index_new i_val i_tag].
  repeat split. apply C11_to_exact; [exact T|]. cbn [index_new i_val]. split; [reflexivity|exact R].
Qed.

(** Across types: reading as another type works exactly when the number is in its range. *)
Theorem C11_across_types :
  forall t u n, index_type t -> index_type u -> (ity_min t <= n <= ity_max t)%Z ->
    index_to u (index_from t n) = if fits u n then Some n else None.
Proof.
  intros t u n T U R.
  assert (F : fits t n = true) by (unfold fits; rewrite andb_true_iff, !Z.leb_le; exact R).
  assert (N : t <> U128) by (intros ->; cbn in T; intuition discriminate).
  assert (M : u <> U128) by (intros ->; cbn in U; intuition discriminate).
  rewrite index_from_spec, index_to_spec by assumption. reflexivity.
Qed.

(** Distinct numbers give distinct indexes. *)
Theorem C11_injective :
  forall t u m n, index_type t -> index_type u ->
    (ity_min t <= m <= ity_max t)%Z -> (ity_min u <= n <= ity_max u)%Z ->
    (index_eqb (index_from t m) (index_from u n) = true <-> m = n).
Proof.
  intros t u m n T U R S. rewrite C10_index_equality_is_number_equality.
  destruct (C11_round_trip t m T R) as [-> _]. destruct (C11_round_trip u n U S) as [-> _]. tauto.
Qed.

Example C11_sample :
  index_to U32 (index_from I64 4294967295) = Some 4294967295%Z /\
  index_to U32 (index_from I64 4294967296) = None /\
  index_to U64 (index_from I64 (-1)) = None /\
  index_to I64 (index_from U64 18446744073709551615) = None /\
  index_to U64 (index_from U64 18446744073709551615) = Some 18446744073709551615%Z.
Proof. repeat split; vm_compute; reflexivity. Qed.

(** ** C12: owned copies of a label *)

(** Text, equality, static text. *)
Theorem C12_copies_keep_text :
  forall l, l_text (label_clone l) = l_text l /\
            l_text (label_to_owned l) = l_text l /\
            (forall l', label_try_to_owned l = Some l' -> l_text l' = l_text l) /\
            (forall l', label_try_to_owned_noalloc l = Some l' -> l_text l' = l_text l) /\
            label_eqb (label_clone l) l = true /\ label_eqb (label_to_owned l) l = true.
Proof.
  intros [t k g]. unfold label_try_to_owned, label_try_to_owned_noalloc, label_eqb.
  destruct k; cbn; repeat split; try (intros l' [= <-]; reflexivity); try apply bytes_eqb_refl; discriminate.
Qed.
Theorem C12_copies_keep_static_text :
  forall l, as_static_str (label_clone l) = as_static_str l /\
            as_static_str (label_to_owned l) = as_static_str l.
Proof. intros [t k g]. destruct k; split; reflexivity. Qed.

(** The full claim, with the tag, fails for each kind of copy. *)
Definition C12_clone_keeps_tag : Prop := forall l, l_tag (label_clone l) = l_tag l.
Definition C12_to_owned_keeps_tag : Prop := forall l, l_tag (label_to_owned l) = l_tag l.
Theorem C12_clone_keeps_tag_refuted : ~ C12_clone_keeps_tag.
Proof.
  intros H. specialize (H (label_with_tag (label_new_owned (bs "a")) VALUE_IDENT)). discriminate H.
Qed.
Theorem C12_to_owned_keeps_tag_refuted : ~ C12_to_owned_keeps_tag.
Proof.
  intros H. specialize (H (label_with_tag (label_new (bs "a")) VALUE_IDENT)). discriminate H.
Qed.
(** What holds: exactly when the tag survives. *)
Theorem C12_clone_keeps_tag_partial :
  forall l, l_tag (label_clone l) = l_tag l <-> (l_kind l <> LOwned \/ l_tag l = None).
Proof.
  intros [t k g]. destruct k, g; cbn; split; try tauto; try (intros; left; discriminate);
    try discriminate; intros [H|H]; congruence.
Qed.
Theorem C12_to_owned_keeps_tag_partial :
  forall l, l_tag (label_to_owned l) = l_tag l <-> l_tag l = None.
Proof. intros [t k g]. destruct k, g; cbn; split; congruence. Qed.

Example C12_sample :
  l_text (label_to_owned (label_new_computed (bs "computed"))) = bs "computed" /\
  label_clone (label_with_tag (label_new (bs "a")) VALUE_IDENT) = label_with_tag (label_new (bs "a")) VALUE_IDENT.
Proof. split; reflexivity. Qed.

(** ** C42: tags *)

(** [Tag::new] never panics: every index into the name is in bounds, for either byte order. *)
Theorem C42_new_never_panics : forall be name, exists t, tag_new be name = Some t /\ t_data t = name.
Proof.
  intros be name. unfold tag_new. destruct (compute_id_some be name) as [h ->]. eexists; split; reflexivity.
Qed.
(** Tags are equal exactly when their names are, even if two names hash alike;
    copies made through [cloned] or [clone] stay equal. *)
Theorem C42_equality_is_name_equality :
  forall be a b ta tb, tag_new be a = Some ta -> tag_new be b = Some tb ->
    (rtag_eqb ta tb = true <-> a = b) /\
    (rtag_eqb (tag_cloned ta) tb = true <-> a = b).
Proof.
  intros be a b ta tb A B. rewrite (rtag_eqb_data be a b ta tb A B).
  split; [apply bytes_eqb_eq|].
  unfold rtag_eqb, tag_cloned in *. cbn [t_id t_data].
  change (rtag_eqb ta tb = true <-> a = b). rewrite (rtag_eqb_data be a b ta tb A B). apply bytes_eqb_eq.
Qed.
(** Every byte of the name reaches the hash: the position after the last step is the length. *)
Theorem C42_hash_covers_name :
  forall be name, exists h,
    hash_tail be name 1 (hash_tail be name 2 (hash_tail be name 4
          (hash8 be (S (List.length name)) name 0 0))) = Some (h, List.length name).
Proof.
  intros be name.
  destruct (hash8_some be name (S (List.length name)) 0 0) as (h & b & E); [lia|].
  pose proof (hash8_rest _ _ _ _ _ _ _ E ltac:(lia)) as R8. rewrite E.
  destruct (hash_tail_some be name 4 h b) as (h4 & b4 & E4).
  pose proof (hash_tail_rest _ _ _ _ _ _ _ E4 ltac:(lia)) as R4. rewrite E4.
  destruct (hash_tail_some be name 2 h4 b4) as (h2 & b2 & E2).
  pose proof (hash_tail_rest _ _ _ _ _ _ _ E2 ltac:(lia)) as R2. rewrite E2.
  destruct (hash_tail_some be name 1 h2 b2) as (h1 & b1 & E1).
  pose proof (hash_tail_rest _ _ _ _ _ _ _ E1 ltac:(lia)) as R1. rewrite E1.
  exists h1. f_equal. f_equal. lia.
Qed.

Definition builtin_tags : list tag :=
  [RUST_OPTION_SOME; RUST_OPTION_NONE; RUST_UNIT; NUMBER; CONSTANT_SIZE; VALUE_IDENT; VALUE_OFFSET].
Theorem C42_builtin_tags_distinct :
  forall be i j a b ta tb, nth_error builtin_tags i = Some a -> nth_error builtin_tags j = Some b ->
    tag_new be a = Some ta -> tag_new be b = Some tb ->
    (rtag_eqb ta tb = true <-> i = j).
Proof.
  intros be i j a b ta tb A B TA TB.
  rewrite (proj1 (C42_equality_is_name_equality be a b ta tb TA TB)).
  assert (ND : NoDup builtin_tags) by (repeat constructor; vm_compute; intuition discriminate).
  split.
  - intros ->. apply (proj1 (NoDup_nth_error builtin_tags) ND); [|congruence].
    apply nth_error_Some. congruence.
  - intros ->. congruence.
Qed.
Example C42_sample :
  exists t u, tag_new false RUST_OPTION_SOME = Some t /\ tag_new false RUST_OPTION_NONE = Some u /\
              rtag_eqb t u = false /\ t_id t <> t_id u.
Proof. eexists. eexists. repeat split; try (vm_compute; reflexivity). vm_compute. discriminate. Qed.

(** ** C46: labels never read or free dead text, and never leak it

    For every history of label operations that the borrow checker accepts
    (others are skipped on both sides): no undefined behaviour, and every live
    label reads the text the plain-value specification gives it. *)
Theorem C46_labels_memory_safe :
  forall os, exists s, hrun hinit os = Some s /\
    forall k, hread s k = option_map v_text (vslot (vrun os) k).
Proof.
  intros os. destruct (hrun_inv os hinit [] inv_init) as (s & E & I).
  exists s. split; [exact E|]. intros k. destruct I as [_ IS _ _ _]. specialize (IS k).
  unfold hread, vrun. destruct (slot s k) as [l|].
  - destruct IS as (t & D & V). rewrite V, D. reflexivity.
  - rewrite IS. reflexivity.
Qed.

(** Tags and static texts read back as specified too. *)
Theorem C46_labels_keep_tags :
  forall os s, hrun hinit os = Some s ->
    forall k l, slot s k = Some l ->
      exists v, vslot (vrun os) k = Some v /\ h_tag l = v_tag v /\
                (h_static l <> None <-> v_kind v = VStatic) /\
                (h_owned l <> None <-> v_kind v = VOwned).
Proof.
  intros os s H k l S. destruct (hrun_inv os hinit [] inv_init) as (s' & E & I).
  rewrite E in H. injection H as ->. destruct I as [_ IS IP _ _]. specialize (IS k). specialize (IP k l S).
  rewrite S in IS. destruct IS as (t & D & V). eexists. split; [exact V|]. cbn. split; [reflexivity|].
  unfold kind_of. destruct (h_static l), (h_owned l), (h_from l); try contradiction; split; split; congruence.
Qed.

(** Every box is owned by a live label, so once every label is dropped nothing
    stays allocated. *)
Theorem C46_no_leak :
  forall os s, hrun hinit os = Some s ->
    (forall k, slot s k = None) -> forall id, nth_error (hs_heap s) id <> None -> nth_error (hs_heap s) id = Some None.
Proof.
  intros os s H D id N. destruct (hrun_inv os hinit [] inv_init) as (s' & E & I).
  rewrite E in H. injection H as ->. destruct I as [_ _ _ _ IK].
  destruct (nth_error (hs_heap s) id) as [[t|]|] eqn:X; [|reflexivity|congruence].
  destruct (IK id t) as (k & l & S & _).
  - unfold look. rewrite X. reflexivity.
  - rewrite D in S. discriminate.
Qed.

(** Two live labels never own the same box. *)
Theorem C46_no_sharing :
  forall os s, hrun hinit os = Some s ->
    forall k k' l l' id, slot s k = Some l -> slot s k' = Some l' ->
      h_owned l = Some id -> h_owned l' = Some id -> k = k'.
Proof.
  intros os s H. destruct (hrun_inv os hinit [] inv_init) as (s' & E & I).
  rewrite E in H. injection H as ->. destruct I as [_ _ _ IU _]. exact IU.
Qed.

(** An owned label is borrowed, cloned and dropped; the clone is read after. *)
Definition sample_history : list hop :=
  [HNewOwned (bs "key"); HWithTag 0 VALUE_IDENT; HClone 0; HBorrow 0; HDrop 0; HToOwned 2; HDrop 2; HDrop 0].
Example C46_sample :
  exists s, hrun hinit sample_history = Some s /\
    hread s 0 = None /\ hread s 1 = Some (bs "key") /\ hread s 2 = None /\ hread s 3 = Some (bs "key") /\
    hs_heap s = [None; Some (bs "key"); Some (bs "key")].
Proof. eexists. repeat split; vm_compute; reflexivity. Qed.
Example C46_sample_all_dropped :
  exists s, hrun hinit (sample_history ++ [HDrop 1; HDrop 3]) = Some s /\
    (forall k, slot s k = None) /\ hs_heap s = [None; None; None].
Proof.
  eexists. split; [vm_compute; reflexivity|]. split; [|reflexivity].
  intros [|[|[|[|[|k]]]]]; reflexivity.
Qed.

Print Assumptions C10_label_equality_is_text_equality.
Print Assumptions C10_label_hash_agrees.
Print Assumptions C10_label_borrow_agrees.
Print Assumptions C10_index_equality_is_number_equality.
Print Assumptions C10_index_order_total_and_consistent.
Print Assumptions C10_index_order_transitive.
Print Assumptions C10_index_hash_agrees.
Print Assumptions C11_to_exact.
Print Assumptions C11_round_trip.
Print Assumptions C11_across_types.
Print Assumptions C11_injective.
Print Assumptions C12_copies_keep_text.
Print Assumptions C12_copies_keep_static_text.
Print Assumptions C12_clone_keeps_tag_refuted.
Print Assumptions C12_to_owned_keeps_tag_refuted.
Print Assumptions C12_clone_keeps_tag_partial.
Print Assumptions C12_to_owned_keeps_tag_partial.
Print Assumptions C42_new_never_panics.
Print Assumptions C42_equality_is_name_equality.
Print Assumptions C42_hash_covers_name.
Print Assumptions C42_builtin_tags_distinct.
Print Assumptions C46_labels_memory_safe.
Print Assumptions C46_labels_keep_tags.
Print Assumptions C46_no_leak.
Print Assumptions C46_no_sharing.
