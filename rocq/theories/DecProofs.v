(** * DecProofs: decimal numerals *)

From Verif Require Import Base LowerSpec.
From Coq Require Decimal DecimalFacts DecimalN.

Lemma digits_val_app acc a b :
  digits_val acc (a ++ b) = match digits_val acc a with Some v => digits_val v b | None => None end.
Proof.
  revert acc; induction a as [|x a IH]; intros acc; simpl; [reflexivity|].
  destruct (is_digit x); auto.
Qed.

Lemma digits_val_acc d : forall p,
  digits_val (Zpos p) (bytes_of_uint d) = Some (Zpos (Pos.of_uint_acc d p)).
Proof.
  induction d; intros p; cbn [bytes_of_uint digits_val Pos.of_uint_acc]; [reflexivity|..];
    match goal with |- context [is_digit ?c] => change (is_digit c) with true end; cbv iota;
    rewrite <- IHd; f_equal; unfold byte_val; simpl N_of_ascii; lia.
Qed.

Lemma digits_val_uint d :
  digits_val 0 (bytes_of_uint d) = Some (Z.of_N (N.of_uint d)).
Proof.
  unfold N.of_uint.
  induction d; cbn [bytes_of_uint digits_val Pos.of_uint]; [reflexivity|..];
    match goal with |- context [is_digit ?c] => change (is_digit c) with true end; cbv iota.
  1: exact IHd.
  all: cbn [Z.of_N]; rewrite <- digits_val_acc; reflexivity.
Qed.

Lemma digits_val_dec_N n : digits_val 0 (dec_N n) = Some (Z.of_N n).
Proof. unfold dec_N. rewrite digits_val_uint, DecimalN.Unsigned.of_to. reflexivity. Qed.

Lemma bytes_of_uint_digits d : forallb is_digit (bytes_of_uint d) = true.
Proof. induction d; simpl; auto. Qed.

Lemma to_uint_norm n : Decimal.unorm (N.to_uint n) = N.to_uint n.
Proof. rewrite <- DecimalN.Unsigned.to_of, DecimalN.Unsigned.of_to. reflexivity. Qed.

(** The numeral of a natural number is "0" or starts with a nonzero digit. *)
Definition canonical_nat (s : bytes) : Prop :=
  s = bs "0" \/ exists c r, s = c :: r /\ is_digit c = true /\ c <> "0"%char /\ forallb is_digit r = true.

Lemma unorm_canonical d : canonical_nat (bytes_of_uint (Decimal.unorm d)).
Proof.
  unfold canonical_nat.
  induction d; simpl; auto; right; eexists _, _; (split; [reflexivity|]); repeat split;
    try discriminate; apply bytes_of_uint_digits.
Qed.

Lemma dec_N_canonical n : canonical_nat (dec_N n).
Proof. unfold dec_N. rewrite <- to_uint_norm. apply unorm_canonical. Qed.

Lemma dec_N_digits1 n : digits1 (dec_N n).
Proof.
  split; [|apply bytes_of_uint_digits].
  destruct (dec_N_canonical n) as [H|(c & r & H & _)]; rewrite H; discriminate.
Qed.

Lemma dec_N_head n c r : dec_N n = c :: r -> is_digit c = true.
Proof.
  intros H. destruct (dec_N_digits1 n) as [_ D]. rewrite H in D. simpl in D.
  apply andb_true_iff in D as [D _]. exact D.
Qed.

Lemma numeral_val_dec z : numeral_val (dec z) = Some z.
Proof.
  unfold dec. destruct (Z.ltb_spec z 0).
  - unfold numeral_val. rewrite Ascii.eqb_refl.
    destruct (dec_N (Z.abs_N z)) as [|c r] eqn:E.
    + destruct (dec_N_digits1 (Z.abs_N z)) as [D _]. congruence.
    + rewrite <- E, digits_val_dec_N. simpl. f_equal. lia.
  - destruct (dec_N (Z.abs_N z)) as [|c r] eqn:E.
    + destruct (dec_N_digits1 (Z.abs_N z)) as [D _]. congruence.
    + pose proof (dec_N_head _ _ _ E) as D.
      unfold numeral_val. destruct (Ascii.eqb_spec c "-"%char) as [->|_]; [discriminate D|].
      rewrite <- E, digits_val_dec_N. f_equal. lia.
Qed.

Lemma dec_number_text z : number_text (dec z).
Proof.
  unfold number_text, dec. destruct (z <? 0)%Z.
  - exists (bs "-"), (dec_N (Z.abs_N z)), [], []. rewrite !app_nil_r. repeat split.
    + right; right; reflexivity.
    + apply dec_N_digits1.
    + apply dec_N_digits1.
    + left; reflexivity.
    + left; reflexivity.
  - exists [], (dec_N (Z.abs_N z)), [], []. rewrite !app_nil_r. repeat split.
    + left; reflexivity.
    + apply dec_N_digits1.
    + apply dec_N_digits1.
    + left; reflexivity.
    + left; reflexivity.
Qed.

Lemma dec_inj a b : dec a = dec b -> a = b.
Proof. intros H. apply (f_equal numeral_val) in H. rewrite !numeral_val_dec in H. congruence. Qed.
