(** * TagIdProps: the id computed for a tag depends on every byte of its name (C42) *)

From Verif Require Import Base DataModel DataProofs.

Lemma u64_pow : u64_max1 = (2 ^ 64)%N.
Proof. reflexivity. Qed.
Lemma mask a : (a mod u64_max1)%N = N.land a (N.ones 64).
Proof. rewrite N.land_ones. reflexivity. Qed.
Lemma small_bits x n : (x < u64_max1)%N -> (64 <= n)%N -> N.testbit x n = false.
Proof.
  intros H L. destruct (N.eq_dec x 0) as [->|Z]; [apply N.bits_0|]. apply N.bits_above_log2.
  apply N.lt_le_trans with 64%N; [|exact L]. apply N.log2_lt_pow2; [lia|]. rewrite u64_pow in H. exact H.
Qed.
(** A rotation by 5 moves bit [n] to bit [n + 5], and the top five to the bottom. *)
Lemma rotate_bits x n : (x < u64_max1)%N -> (n < 64)%N ->
  N.testbit (rotate_left x 5) n = N.testbit x (if (n <? 5)%N then n + 59 else n - 5).
Proof.
  intros H L. unfold rotate_left. rewrite mask, N.lor_spec, N.land_spec, N.ones_spec_low, andb_true_r by exact L.
  rewrite N.shiftr_spec by lia. change (64 - 5)%N with 59%N. destruct (N.ltb_spec n 5) as [K|K].
  - rewrite N.shiftl_spec_low by exact K. reflexivity.
  - rewrite N.shiftl_spec_high' by exact K. rewrite (small_bits x (n + 59)) by (assumption || lia). apply orb_false_r.
Qed.
Lemma rotate_inj x y : (x < u64_max1)%N -> (y < u64_max1)%N -> rotate_left x 5 = rotate_left y 5 -> x = y.
Proof.
  intros X Y E. apply N.bits_inj. intros n. destruct (N.ltb_spec n 64) as [L|L].
  - destruct (N.ltb_spec n 59) as [K|K].
    + pose proof (rotate_bits x (n + 5) X ltac:(lia)) as A. pose proof (rotate_bits y (n + 5) Y ltac:(lia)) as B.
      rewrite E in A. rewrite A in B. destruct (N.ltb_spec (n + 5) 5) as [C|C]; [lia|]. replace (n + 5 - 5)%N with n in B by lia. exact B.
    + pose proof (rotate_bits x (n - 59) X ltac:(lia)) as A. pose proof (rotate_bits y (n - 59) Y ltac:(lia)) as B.
      rewrite E in A. rewrite A in B. destruct (N.ltb_spec (n - 59) 5) as [C|C]; [|lia]. replace (n - 59 + 59)%N with n in B by lia. exact B.
  - rewrite !small_bits by assumption. reflexivity.
Qed.
Lemma bits_small x : (forall n, (64 <= n)%N -> N.testbit x n = false) -> (x < u64_max1)%N.
Proof.
  intros H. rewrite u64_pow. destruct (N.eq_dec x 0) as [->|Z]; [reflexivity|]. apply N.log2_lt_pow2; [lia|].
  destruct (N.lt_ge_cases (N.log2 x) 64) as [L|L]; [exact L|]. specialize (H _ L). rewrite N.bit_log2 in H by exact Z. discriminate.
Qed.
Lemma rotate_small x : (x < u64_max1)%N -> (rotate_left x 5 < u64_max1)%N.
Proof.
  intros H. apply bits_small. intros n L. unfold rotate_left. rewrite mask, N.lor_spec, N.land_spec, N.ones_spec_high, andb_false_r by exact L.
  rewrite N.shiftr_spec by lia. change (64 - 5)%N with 59%N. apply small_bits; [exact H|lia].
Qed.
Lemma xor_small x y : (x < u64_max1)%N -> (y < u64_max1)%N -> (N.lxor x y < u64_max1)%N.
Proof. intros X Y. apply bits_small. intros n L. rewrite N.lxor_spec, !small_bits by assumption. reflexivity. Qed.
(** The multiplier is odd, so it has an inverse. *)
Definition K_inverse : N := 2323857671730065597.
Lemma K_inv : ((K * K_inverse) mod u64_max1 = 1)%N.
Proof. vm_compute. reflexivity. Qed.
Lemma mul_inj x y : (x < u64_max1)%N -> (y < u64_max1)%N -> wrapping_mul x K = wrapping_mul y K -> x = y.
Proof.
  unfold wrapping_mul. intros X Y E.
  assert (U : u64_max1 <> 0%N) by discriminate.
  assert (B : forall z, (z < u64_max1)%N -> (((z * K) mod u64_max1) * K_inverse mod u64_max1 = z)%N).
  { intros z Z. rewrite N.mul_mod_idemp_l by exact U. rewrite <- N.mul_assoc.
    rewrite <- N.mul_mod_idemp_r by exact U. rewrite K_inv, N.mul_1_r. apply N.mod_small, Z. }
  rewrite <- (B x X), <- (B y Y), E. reflexivity.
Qed.
Lemma mix_small h i : (mix h i < u64_max1)%N.
Proof. unfold mix, wrapping_mul. apply N.mod_lt. discriminate. Qed.
Lemma mix_inj h h' i i' : (h < u64_max1)%N -> (h' < u64_max1)%N -> (i < u64_max1)%N -> (i' < u64_max1)%N ->
  mix h i = mix h' i' -> N.lxor (rotate_left h 5) i = N.lxor (rotate_left h' 5) i'.
Proof. intros A B C D E. apply mul_inj; [apply xor_small; [apply rotate_small|]; assumption..|exact E]. Qed.
Lemma xor_cancel a b c : N.lxor a b = N.lxor a c -> b = c.
Proof. intros E. rewrite <- (N.lxor_0_l b), <- (N.lxor_0_l c), <- (N.lxor_nilpotent a), !N.lxor_assoc, E. reflexivity. Qed.
Lemma mix_hash h h' i : (h < u64_max1)%N -> (h' < u64_max1)%N -> (i < u64_max1)%N -> h <> h' -> mix h i <> mix h' i.
Proof.
  intros A B C N E. apply N. apply mix_inj in E; try assumption. rewrite (N.lxor_comm _ i), (N.lxor_comm (rotate_left h' 5) i) in E.
  apply xor_cancel in E. apply rotate_inj; assumption.
Qed.
Lemma mix_data h i i' : (h < u64_max1)%N -> (i < u64_max1)%N -> (i' < u64_max1)%N -> i <> i' -> mix h i <> mix h i'.
Proof. intros A B C N E. apply N. apply mix_inj in E; try assumption. apply xor_cancel in E. exact E. Qed.

(** Bytes as a number, in either order. *)
Lemma le_inj x : forall y, List.length x = List.length y -> from_le_bytes x = from_le_bytes y -> x = y.
Proof.
  induction x as [|a x IH]; intros [|b y] L E; try discriminate; [reflexivity|]. cbn [from_le_bytes] in E.
  pose proof (N_ascii_bounded a). pose proof (N_ascii_bounded b).
  assert (N_of_ascii a = N_of_ascii b /\ from_le_bytes x = from_le_bytes y) as (E1 & E2) by lia.
  f_equal; [|apply IH; [injection L; auto|exact E2]]. rewrite <- (ascii_N_embedding a), <- (ascii_N_embedding b), E1. reflexivity.
Qed.
Lemma ne_inj be x y : List.length x = List.length y -> from_ne_bytes be x = from_ne_bytes be y -> x = y.
Proof.
  unfold from_ne_bytes. destruct be; intros L E; apply le_inj in E; rewrite ?rev_length; try exact L; [|exact E].
  rewrite <- (rev_involutive x), <- (rev_involutive y), E. reflexivity.
Qed.
Lemma le_bound x : (from_le_bytes x < 256 ^ N.of_nat (List.length x))%N.
Proof.
  induction x as [|a x IH]; [reflexivity|]. cbn [from_le_bytes List.length]. pose proof (N_ascii_bounded a).
  rewrite Nat2N.inj_succ, N.pow_succ_r'. lia.
Qed.
Lemma ne_small be x : List.length x <= 8 -> (from_ne_bytes be x < u64_max1)%N.
Proof.
  intros L. unfold from_ne_bytes. eapply N.lt_le_trans; [apply le_bound|].
  assert (E : List.length (if be then rev x else x) = List.length x) by (destruct be; [apply rev_length|reflexivity]). rewrite E.
  change u64_max1 with (256 ^ 8)%N. apply N.pow_le_mono_r; lia.
Qed.

(** Two names of the same length that differ in one byte, side by side. *)
Section Two.
  Variables (p s : bytes) (a b : byte).
  Hypothesis D : a <> b.
  Let x := p ++ a :: s.
  Let y := p ++ b :: s.
  Variable be : bool.

  Lemma same_length : List.length x = List.length y.
  Proof. unfold x, y. rewrite !app_length. reflexivity. Qed.
  Lemma nth_same k : k <> List.length p -> nth_error x k = nth_error y k.
  Proof.
    intros N. unfold x, y. destruct (Nat.lt_ge_cases k (List.length p)) as [L|L].
    - rewrite !nth_error_app1 by exact L. reflexivity.
    - rewrite !nth_error_app2 by exact L. destruct (k - List.length p) eqn:E; [lia|]. reflexivity.
  Qed.
  Lemma take_same n : forall k, (List.length p < k \/ k + n <= List.length p) -> take_at x k n = take_at y k n.
  Proof.
    induction n as [|n IH]; intros k H; [reflexivity|]. cbn [take_at]. rewrite nth_same by lia. rewrite IH by lia. reflexivity.
  Qed.
  Lemma take_length z n : forall k r, take_at z k n = Some r -> List.length r = n.
  Proof.
    induction n as [|n IH]; intros k r E; cbn [take_at] in E; [injection E as <-; reflexivity|].
    destruct (nth_error z k); [|discriminate]. destruct (take_at z (Datatypes.S k) n) eqn:T; [|discriminate]. injection E as <-. cbn. f_equal. eapply IH, T.
  Qed.
  Lemma take_differ n : forall k u v, k <= List.length p < k + n -> take_at x k n = Some u -> take_at y k n = Some v -> u <> v.
  Proof.
    induction n as [|n IH]; intros k u v H U V; [lia|]. cbn [take_at] in U, V.
    destruct (nth_error x k) as [cx|] eqn:NX; [|discriminate]. destruct (take_at x (Datatypes.S k) n) as [u'|] eqn:TX; [|discriminate].
    destruct (nth_error y k) as [cy|] eqn:NY; [|discriminate]. destruct (take_at y (Datatypes.S k) n) as [v'|] eqn:TY; [|discriminate].
    injection U as <-. injection V as <-. intros E. injection E as Ec Eu. destruct (Nat.eq_dec k (List.length p)) as [->|N].
    - unfold x, y in NX, NY. rewrite nth_error_app2, Nat.sub_diag in NX, NY by lia. injection NX as <-. injection NY as <-. contradiction.
    - apply (IH (Datatypes.S k) u' v'); [lia|exact TX|exact TY|exact Eu].
  Qed.

  (** The hashes are the same before the byte, and different after it. *)
  Definition apart (k : nat) (h h' : N) : Prop :=
    (h < u64_max1)%N /\ (h' < u64_max1)%N /\ (if Nat.leb k (List.length p) then h = h' else h <> h').
  Lemma step n k h h' u v : n <= 8 -> apart k h h' -> take_at x k n = Some u -> take_at y k n = Some v ->
    apart (k + n) (mix h (from_ne_bytes be u)) (mix h' (from_ne_bytes be v)).
  Proof.
    intros L8 (A & B & C) U V. split; [apply mix_small|split; [apply mix_small|]].
    pose proof (take_length _ _ _ _ U) as LU. pose proof (take_length _ _ _ _ V) as LV.
    assert (Su : (from_ne_bytes be u < u64_max1)%N) by (apply ne_small; lia).
    assert (Sv : (from_ne_bytes be v < u64_max1)%N) by (apply ne_small; lia).
    destruct (Nat.leb_spec (k + n) (List.length p)) as [L1|L1].
    - rewrite (proj2 (Nat.leb_le k (List.length p))) in C by lia. subst h'.
      rewrite take_same in U by lia. rewrite U in V. injection V as <-. reflexivity.
    - destruct (Nat.leb_spec k (List.length p)) as [L2|L2].
      + subst h'. apply mix_data; try assumption. intros E. apply (take_differ n k u v ltac:(lia) U V). apply (ne_inj be); [congruence|exact E].
      + rewrite take_same in U by lia. rewrite U in V. injection V as <-. apply mix_hash; assumption.
  Qed.
  Lemma take_some z n : forall k, k + n <= List.length z -> exists r, take_at z k n = Some r.
  Proof.
    induction n as [|n IH]; intros k H; cbn [take_at]; [eauto|]. destruct (nth_error z k) eqn:N; [|apply nth_error_None in N; lia].
    destruct (IH (Datatypes.S k)) as (r & ->); [lia|]. eauto.
  Qed.
  Lemma hash8_apart fuel : forall k h h' r k1 r' k2, apart k h h' -> hash8 be fuel x h k = Some (r, k1) -> hash8 be fuel y h' k = Some (r', k2) ->
    k1 = k2 /\ apart k1 r r'.
  Proof.
    induction fuel as [|fuel IH]; intros k h h' r k1 r' k2 A E E'; cbn [hash8] in E, E'; [discriminate|].
    rewrite <- same_length in E'. destruct (Nat.leb (k + 8) (List.length x)) eqn:L.
    - destruct (take_at x k 8) as [u|] eqn:U; [|discriminate]. destruct (take_at y k 8) as [v|] eqn:V; [|discriminate].
      eapply IH; [|exact E|exact E']. apply (step 8 k h h' u v (le_n 8) A U V).
    - injection E as <- <-. injection E' as <- <-. auto.
  Qed.
  Lemma tail_apart n k h h' r k1 r' k2 : n <= 8 -> apart k h h' -> hash_tail be x n (Some (h, k)) = Some (r, k1) -> hash_tail be y n (Some (h', k)) = Some (r', k2) ->
    k1 = k2 /\ apart k1 r r'.
  Proof.
    intros L8 A E E'. cbn [hash_tail] in E, E'. rewrite <- same_length in E'. destruct (Nat.leb (k + n) (List.length x)).
    - destruct (take_at x k n) as [u|] eqn:U; [|discriminate]. destruct (take_at y k n) as [v|] eqn:V; [|discriminate].
      injection E as <- <-. injection E' as <- <-. split; [reflexivity|]. apply (step n k h h' u v L8 A U V).
    - injection E as <- <-. injection E' as <- <-. auto.
  Qed.
  Lemma ids_differ i j : compute_id be x = Some i -> compute_id be y = Some j -> i <> j.
  Proof.
    unfold compute_id. intros X Y.
    destruct (hash8_some be x (Datatypes.S (List.length x)) 0 0 ltac:(lia)) as (h & k & E).
    destruct (hash8_some be y (Datatypes.S (List.length y)) 0 0 ltac:(lia)) as (h' & k' & E').
    pose proof (hash8_rest _ _ _ _ _ _ _ E ltac:(lia)) as R8. rewrite E in X. rewrite E' in Y. rewrite <- same_length in E'.
    destruct (hash8_apart _ 0 0 0 _ _ _ _ ltac:(split; [reflexivity|split; [reflexivity|reflexivity]]) E E') as (<- & A).
    destruct (hash_tail_some be x 4 h k) as (h4 & k4 & E4). destruct (hash_tail_some be y 4 h' k) as (h4' & k4' & E4').
    pose proof (hash_tail_rest _ _ _ _ _ _ _ E4 ltac:(lia)) as R4. rewrite E4 in X. rewrite E4' in Y.
    destruct (tail_apart 4 _ _ _ _ _ _ _ ltac:(lia) A E4 E4') as (<- & A4).
    destruct (hash_tail_some be x 2 h4 k4) as (h2 & k2 & E2). destruct (hash_tail_some be y 2 h4' k4) as (h2' & k2' & E2').
    pose proof (hash_tail_rest _ _ _ _ _ _ _ E2 ltac:(lia)) as R2. rewrite E2 in X. rewrite E2' in Y.
    destruct (tail_apart 2 _ _ _ _ _ _ _ ltac:(lia) A4 E2 E2') as (<- & A2).
    destruct (hash_tail_some be x 1 h2 k2) as (h1 & k1 & E1). destruct (hash_tail_some be y 1 h2' k2) as (h1' & k1' & E1').
    pose proof (hash_tail_rest _ _ _ _ _ _ _ E1 ltac:(lia)) as R1. rewrite E1 in X. rewrite E1' in Y.
    destruct (tail_apart 1 _ _ _ _ _ _ _ ltac:(lia) A2 E1 E1') as (_ & (_ & _ & A1)).
    injection X as <-. injection Y as <-.
    assert (Lx : List.length x = List.length p + Datatypes.S (List.length s)) by (unfold x; rewrite app_length; reflexivity).
    destruct (Nat.leb_spec k1 (List.length p)); [lia|exact A1].
  Qed.
End Two.

(** Changing one byte of a tag's name always changes its id, so such tags are told
    apart by the id alone. *)
Theorem C42_id_depends_on_every_byte :
  forall be p a b s ta tb, a <> b -> tag_new be (p ++ a :: s) = Some ta -> tag_new be (p ++ b :: s) = Some tb -> t_id ta <> t_id tb.
Proof.
  intros be p a b s ta tb D A B. unfold tag_new in A, B.
  destruct (compute_id be (p ++ a :: s)) as [i|] eqn:X; [|discriminate]. destruct (compute_id be (p ++ b :: s)) as [j|] eqn:Y; [|discriminate].
  injection A as <-. injection B as <-. exact (ids_differ p s a b D be i j X Y).
Qed.
(** Ids of two names that differ in their ninth byte. *)
Example C42_id_sample : option_map t_id (tag_new false (bs "rust::opt")) <> option_map t_id (tag_new false (bs "rust::opu")).
Proof. vm_compute. discriminate. Qed.
(** Ids alone do not tell all tags apart; equality of tags does. *)
Example C42_ids_can_collide :
  option_map t_id (tag_new false (bs "^Nkj]aw>!!!!$@!!")) = option_map t_id (tag_new false (bs "9[WfPnOPErb~'|y2")) /\
  match tag_new false (bs "^Nkj]aw>!!!!$@!!"), tag_new false (bs "9[WfPnOPErb~'|y2") with
  | Some a, Some b => rtag_eqb a b = false
  | _, _ => False
  end.
Proof. split; vm_compute; reflexivity. Qed.

Print Assumptions C42_id_depends_on_every_byte.
