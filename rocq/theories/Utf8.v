(** * Utf8: well-formed UTF-8 (Unicode, Table 3-7), the invariant of Rust's [str] *)

From Verif Require Import Base.

Definition between (lo hi : N) (c : byte) : bool := ((lo <=? N_of_ascii c) && (N_of_ascii c <=? hi))%N.
Definition tail_byte : byte -> bool := between 128 191.

(** One encoded scalar value. *)
Definition utf8_char (s : bytes) : bool :=
  match s with
  | [a] => between 0 127 a
  | [a; b] => between 194 223 a && tail_byte b
  | [a; b; c] =>
      ((between 224 224 a && between 160 191 b) || (between 225 236 a && tail_byte b) ||
       (between 237 237 a && between 128 159 b) || (between 238 239 a && tail_byte b)) && tail_byte c
  | [a; b; c; d] =>
      ((between 240 240 a && between 144 191 b) || (between 241 243 a && tail_byte b) ||
       (between 244 244 a && between 128 143 b)) && tail_byte c && tail_byte d
  | _ => false
  end.

(** A sequence of encoded scalar values. *)
Fixpoint utf8 (s : bytes) : bool :=
  match s with
  | [] => true
  | a :: s1 => (utf8_char [a] && utf8 s1) ||
      match s1 with
      | [] => false
      | b :: s2 => (utf8_char [a; b] && utf8 s2) ||
          match s2 with
          | [] => false
          | c :: s3 => (utf8_char [a; b; c] && utf8 s3) ||
              match s3 with
              | [] => false
              | d :: s4 => utf8_char [a; b; c; d] && utf8 s4
              end
          end
      end
  end.

Inductive utf8P : bytes -> Prop :=
| U_nil : utf8P []
| U_char c s : utf8_char c = true -> utf8P s -> utf8P (c ++ s).

Lemma utf8_unfold a s : utf8 (a :: s) = (utf8_char [a] && utf8 s) ||
      match s with
      | [] => false
      | b :: s2 => (utf8_char [a; b] && utf8 s2) ||
          match s2 with
          | [] => false
          | c :: s3 => (utf8_char [a; b; c] && utf8 s3) ||
              match s3 with
              | [] => false
              | d :: s4 => utf8_char [a; b; c; d] && utf8 s4
              end
          end
      end.
Proof. destruct s as [|? [|? [|? ?]]]; reflexivity. Qed.
Lemma char_cases c : utf8_char c = true ->
  (exists a, c = [a]) \/ (exists a b, c = [a; b]) \/ (exists a b d, c = [a; b; d]) \/ (exists a b d e, c = [a; b; d; e]).
Proof. destruct c as [|a [|b [|d [|e [|? ?]]]]]; cbn; try discriminate; eauto 10. Qed.
Lemma utf8P_iff s : utf8 s = true <-> utf8P s.
Proof.
  split.
  - remember (List.length s) as n eqn:E. revert s E. induction n as [n IH] using (well_founded_induction lt_wf). intros s -> H.
    destruct s as [|a s1]; [constructor|]. rewrite utf8_unfold in H. apply orb_true_iff in H as [H|H].
    { apply andb_true_iff in H as (H1 & H2). apply (U_char [a]); [exact H1|]. eapply IH; [|reflexivity|exact H2]. cbn; lia. }
    destruct s1 as [|b s2]; [discriminate|]. apply orb_true_iff in H as [H|H].
    { apply andb_true_iff in H as (H1 & H2). apply (U_char [a; b]); [exact H1|]. eapply IH; [|reflexivity|exact H2]. cbn; lia. }
    destruct s2 as [|c s3]; [discriminate|]. apply orb_true_iff in H as [H|H].
    { apply andb_true_iff in H as (H1 & H2). apply (U_char [a; b; c]); [exact H1|]. eapply IH; [|reflexivity|exact H2]. cbn; lia. }
    destruct s3 as [|d s4]; [discriminate|].
    apply andb_true_iff in H as (H1 & H2). apply (U_char [a; b; c; d]); [exact H1|]. eapply IH; [|reflexivity|exact H2]. cbn; lia.
  - induction 1 as [|c s C H IH]; [reflexivity|].
    destruct (char_cases c C) as [(a & ->)|[(a & b & ->)|[(a & b & d & ->)|(a & b & d & e & ->)]]]; cbn [app]; rewrite utf8_unfold, C, IH; rewrite ?orb_true_r; reflexivity.
Qed.

Lemma utf8_app a b : utf8 a = true -> utf8 b = true -> utf8 (a ++ b) = true.
Proof. rewrite !utf8P_iff. induction 1; intros H'; [exact H'|]. rewrite <- app_assoc. constructor; auto. Qed.
Lemma utf8_cons c s : (N_of_ascii c <? 128)%N = true -> utf8 s = true -> utf8 (c :: s) = true.
Proof.
  intros H. apply (utf8_app [c]). rewrite utf8_unfold. cbn [utf8_char]. unfold between.
  destruct (N.leb_spec (N_of_ascii c) 127); [|apply N.ltb_lt in H; lia]. destruct (N.leb_spec 0 (N_of_ascii c)); [reflexivity|lia].
Qed.
Lemma utf8_ascii s : forallb (fun c => N_of_ascii c <? 128)%N s = true -> utf8 s = true.
Proof. induction s as [|c s IH]; cbn [forallb]; [reflexivity|]. intros H. apply andb_true_iff in H as (H1 & H2). apply utf8_cons; auto. Qed.

Lemma char_tail a c s : utf8_char (a :: c) = true -> In s c -> tail_byte s = true.
Proof.
  assert (T : forall lo hi b, (128 <=? lo)%N = true -> (hi <=? 191)%N = true -> between lo hi b = true -> tail_byte b = true).
  { intros lo hi b A B. unfold tail_byte, between. intros C. apply andb_true_iff in C as (C & D).
    apply N.leb_le in A, B, C, D. apply andb_true_iff; split; apply N.leb_le; lia. }
  destruct c as [|b [|d [|e [|? ?]]]]; cbn [utf8_char In]; try discriminate; intros H I; try contradiction.
  - apply andb_true_iff in H as (_ & H). destruct I as [->|[]]; exact H.
  - apply andb_true_iff in H as (H & H').
    assert (B : tail_byte b = true).
    { repeat (apply orb_true_iff in H as [H|H]); apply andb_true_iff in H as (_ & H); try exact H; (eapply T; [| |exact H]; reflexivity). }
    destruct I as [->|[->|[]]]; assumption.
  - apply andb_true_iff in H as (H & H''). apply andb_true_iff in H as (H & H').
    assert (B : tail_byte b = true).
    { repeat (apply orb_true_iff in H as [H|H]); apply andb_true_iff in H as (_ & H); try exact H; (eapply T; [| |exact H]; reflexivity). }
    destruct I as [->|[->|[->|[]]]]; assumption.
Qed.

(** Cutting before a byte that is not a continuation byte. *)
Lemma utf8_split a b : utf8 (a ++ b) = true -> match b with [] => True | c :: _ => tail_byte c = false end ->
  utf8 a = true /\ utf8 b = true.
Proof.
  rewrite !utf8P_iff. intros H. remember (a ++ b) as s eqn:E. revert a E. induction H as [|c s C H IH]; intros a E Hb.
  - symmetry in E. apply app_eq_nil in E as (-> & ->). repeat constructor.
  - destruct a as [|x a].
    { cbn in E. subst b. split; constructor; assumption. }
    assert (X : exists y c', c = y :: c') by (destruct c; [discriminate C|eauto]). destruct X as (y & c' & ->).
    cbn in E. injection E as <- E.
    assert (P : (exists a', a = c' ++ a' /\ s = a' ++ b) \/ (exists z c'' , c' = a ++ z :: c'' /\ b = z :: c'' ++ s)).
    { clear -E. revert a E. induction c' as [|z c' IH]; intros a E; cbn in E; [left; exists a; auto|].
      destruct a as [|w a]; [right; exists z, c'; split; [reflexivity|cbn in E; congruence]|].
      cbn in E. injection E as <- E. destruct (IH _ E) as [(a' & -> & F)|(w & c'' & -> & F)]; [left; exists a'; auto|right; exists w, c''; auto]. }
    destruct P as [(a' & -> & F)|(z & c'' & -> & ->)].
    + destruct (IH a' F Hb) as (I1 & I2). split; [|exact I2]. rewrite app_comm_cons. constructor; assumption.
    + exfalso. cbv beta iota in Hb. rewrite (char_tail y (a ++ z :: c'') z C) in Hb; [discriminate|]. apply in_or_app. right. left. reflexivity.
Qed.
Lemma utf8_split_ascii a c b : utf8 (a ++ c :: b) = true -> (N_of_ascii c <? 128)%N = true -> utf8 a = true /\ utf8 b = true.
Proof.
  intros H C. assert (T : tail_byte c = false).
  { unfold tail_byte, between. apply N.ltb_lt in C. destruct (N.leb_spec 128 (N_of_ascii c)); [lia|reflexivity]. }
  destruct (utf8_split a (c :: b) H T) as (Ha & Hb). split; [exact Ha|].
  rewrite utf8P_iff in *. inversion Hb as [|x s X Y E]; subst.
  destruct (char_cases x X) as [(p & ->)|[(p & q & ->)|[(p & q & r & ->)|(p & q & r & t & ->)]]]; cbn in E; injection E as -> E.
  - subst. exact Y.
  - exfalso. subst. cbn in X. apply N.ltb_lt in C. apply andb_true_iff in X as (X & _). unfold between in X. apply andb_true_iff in X as (X & _). apply N.leb_le in X. lia.
  - exfalso. subst. cbn in X. apply N.ltb_lt in C. apply andb_true_iff in X as (X & _).
    repeat (apply orb_true_iff in X as [X|X]); apply andb_true_iff in X as (X & _); unfold between in X; apply andb_true_iff in X as (X & _); apply N.leb_le in X; lia.
  - exfalso. subst. cbn in X. apply N.ltb_lt in C. apply andb_true_iff in X as (X & _). apply andb_true_iff in X as (X & _).
    repeat (apply orb_true_iff in X as [X|X]); apply andb_true_iff in X as (X & _); unfold between in X; apply andb_true_iff in X as (X & _); apply N.leb_le in X; lia.
Qed.
