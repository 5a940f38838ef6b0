(** * DataProofs *)

From Verif Require Import Base DataModel.

(** A cast wraps around: it lands in the range, a whole number of ranges away. *)
Lemma cast_wraps t z : fits t (cast t z) = true /\ exists k, cast t z = (z + k * (ity_max t - ity_min t + 1))%Z.
Proof.
  assert (W : (2 ^ width t = ity_max t - ity_min t + 1)%Z) by (destruct t; reflexivity).
  unfold fits, cast. rewrite W. pose proof (Z.mod_pos_bound (z - ity_min t) (ity_max t - ity_min t + 1)) as B.
  assert (P : (0 < ity_max t - ity_min t + 1)%Z) by (destruct t; reflexivity). specialize (B P). split.
  - rewrite andb_true_iff, !Z.leb_le. lia.
  - exists (- ((z - ity_min t) / (ity_max t - ity_min t + 1)))%Z. rewrite Z.mod_eq by lia. ring.
Qed.
Lemma cast_fits t z : fits t z = true -> cast t z = z.
Proof.
  unfold fits, cast. rewrite andb_true_iff, !Z.leb_le. intros [A B].
  rewrite Z.mod_small; [lia|]. destruct t; cbn [ity_min ity_max width] in *; lia.
Qed.

Lemma fits_i128 t z : fits t z = true -> t <> U128 -> fits I128 z = true.
Proof.
  unfold fits. rewrite !andb_true_iff, !Z.leb_le. intros [A B] H.
  destruct t; try congruence; cbn [ity_min ity_max] in *; lia.
Qed.

Lemma index_to_spec t i : t <> U128 ->
  index_to t i = if fits t (i_val i) then Some (i_val i) else None.
Proof.
  intros H. unfold index_to.
  assert (F1 : fits t (ity_min t) = true) by (destruct t; reflexivity).
  assert (F2 : fits t (ity_max t) = true) by (destruct t; reflexivity).
  rewrite (cast_fits I128 (ity_min t)) by (eapply fits_i128; eauto).
  rewrite (cast_fits I128 (ity_max t)) by (eapply fits_i128; eauto).
  fold (fits t (i_val i)). destruct (fits t (i_val i)) eqn:F; [|reflexivity].
  rewrite cast_fits by exact F. reflexivity.
Qed.

Lemma index_from_spec t z : fits t z = true -> t <> U128 -> index_from t z = index_new z.
Proof.
  intros F H. unfold index_from, index_new. rewrite cast_fits; [reflexivity|].
  eapply fits_i128; eauto.
Qed.

Lemma take_at_some bytes n : forall b, b + n <= List.length bytes -> exists r, take_at bytes b n = Some r.
Proof.
  induction n as [|n IH]; intros b H; [eexists; reflexivity|]. cbn [take_at].
  destruct (nth_error bytes b) eqn:E; [|apply nth_error_None in E; lia].
  destruct (IH (S b)) as [r ->]; [lia|]. eexists; reflexivity.
Qed.

Lemma hash8_some be bytes : forall fuel hash b, List.length bytes - b < fuel ->
  exists h b', hash8 be fuel bytes hash b = Some (h, b').
Proof.
  induction fuel as [|fuel IH]; intros hash b H; [lia|]. cbn [hash8].
  destruct (Nat.leb (b + 8) (List.length bytes)) eqn:E; [|eauto].
  apply Nat.leb_le in E. destruct (take_at_some bytes 8 b E) as [r ->].
  apply IH. lia.
Qed.

Lemma hash_tail_some be bytes n h b : exists h' b', hash_tail be bytes n (Some (h, b)) = Some (h', b').
Proof.
  cbn [hash_tail]. destruct (Nat.leb (b + n) (List.length bytes)) eqn:E; [|eauto].
  apply Nat.leb_le in E. destruct (take_at_some bytes n b E) as [r ->]. eauto.
Qed.

Lemma compute_id_some be bytes : exists h, compute_id be bytes = Some h.
Proof.
  unfold compute_id. destruct (hash8_some be bytes (S (List.length bytes)) 0 0) as (h & b & ->); [lia|].
  destruct (hash_tail_some be bytes 4 h b) as (h4 & b4 & ->).
  destruct (hash_tail_some be bytes 2 h4 b4) as (h2 & b2 & ->).
  destruct (hash_tail_some be bytes 1 h2 b2) as (h1 & b1 & ->). eauto.
Qed.

(** Every byte is hashed: the loop leaves fewer than eight bytes, and the
    three tails take exactly the rest. *)
Lemma hash8_rest be bytes : forall fuel hash b h b',
  hash8 be fuel bytes hash b = Some (h, b') -> b <= List.length bytes ->
  b' <= List.length bytes < b' + 8.
Proof.
  induction fuel as [|fuel IH]; intros hash b h b' H Hb; [discriminate|]. cbn [hash8] in H.
  destruct (Nat.leb (b + 8) (List.length bytes)) eqn:E.
  - destruct (take_at bytes b 8); [|discriminate]. apply Nat.leb_le in E. eapply IH; eauto.
  - apply Nat.leb_gt in E. injection H as <- <-. lia.
Qed.
Lemma hash_tail_rest be bytes n h b h' b' :
  hash_tail be bytes n (Some (h, b)) = Some (h', b') ->
  b <= List.length bytes < b + 2 * n -> b' <= List.length bytes < b' + n.
Proof.
  cbn [hash_tail]. intros H R. destruct (Nat.leb (b + n) (List.length bytes)) eqn:E.
  - destruct (take_at bytes b n); [|discriminate]. injection H as <- <-. apply Nat.leb_le in E. lia.
  - injection H as <- <-. apply Nat.leb_gt in E. lia.
Qed.

Lemma rtag_eqb_data be a b ta tb : tag_new be a = Some ta -> tag_new be b = Some tb ->
  rtag_eqb ta tb = bytes_eqb a b.
Proof.
  unfold tag_new. destruct (compute_id be a) as [ia|] eqn:A; [|discriminate].
  destruct (compute_id be b) as [ib|] eqn:B; [|discriminate].
  cbn [option_map]. intros [= <-] [= <-]. unfold rtag_eqb. cbn [t_id t_data].
  destruct (bytes_eqb a b) eqn:E; [|apply andb_false_r].
  apply bytes_eqb_eq in E. subst b. rewrite A in B. injection B as <-.
  rewrite N.eqb_refl. reflexivity.
Qed.

Lemma index_cmp_antisym a b : index_cmp b a = CompOpp (index_cmp a b).
Proof. unfold index_cmp. apply Z.compare_antisym. Qed.
