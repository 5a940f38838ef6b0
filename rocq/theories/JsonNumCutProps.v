(** * JsonNumCutProps: which number texts may be cut anywhere (C22) *)

From Verif Require Import Base Event Tree LowerModel LowerSpec FlatProofs LowerProofs MethProofs DataModel
  JsonModel JsonGrammar JsonSpec JsonMethProofs JsonProofs JsonProps Utf8 JsonNumExactSpec JsonNumExactProps.

(** ** Specification *)

(** Bytes that do not belong to a number. *)
Definition stray (b : byte) : bool := negb (dropped b) && negb (begins b) && negb (wordy b).
Definition minus_sign (b : byte) : bool := (N_of_ascii b =? 45)%N.
Definition point (b : byte) : bool := (N_of_ascii b =? 46)%N.

(** The texts under [NUMBER] whose JSON does not depend on how they are cut.  Either zeroes
    and signs, then a letter of [snan] or [inf]: always [null].  Or no such letter: zeroes
    and signs, then stray bytes, then a digit or point and anything; if there are both stray
    bytes and a digit or point, then no minus sign before and no point. *)
Definition cut_free (s : bytes) : Prop :=
  (exists d c r, s = d ++ c :: r /\ forallb dropped d = true /\ wordy c = true)
  \/ (exists d j r, s = d ++ j ++ r /\ existsb wordy s = false /\
        forallb dropped d = true /\ forallb stray j = true /\
        match r with
        | [] => True
        | c :: _ => begins c = true /\ (j = [] \/ existsb minus_sign d = false /\ point c = false)
        end).

(** ** Proofs *)

Lemma dropped_ascii b : dropped b = true -> (N_of_ascii b <? 128)%N = true.
Proof. unfold dropped. cbv zeta. intros H. apply N.ltb_lt. repeat (apply orb_true_iff in H as [H|H]); apply N.eqb_eq in H; lia. Qed.
Lemma begins_ascii b : begins b = true -> (N_of_ascii b <? 128)%N = true.
Proof.
  unfold begins. cbv zeta. intros H. apply N.ltb_lt. apply orb_true_iff in H as [H|H]; [apply andb_true_iff in H as (_ & H); apply N.leb_le in H; lia|].
  apply N.eqb_eq in H; lia.
Qed.
Lemma wordy_ascii b : wordy b = true -> (N_of_ascii b <? 128)%N = true.
Proof. unfold wordy. cbv zeta. intros H. apply N.ltb_lt. repeat (apply orb_true_iff in H as [H|H]); apply N.eqb_eq in H; lia. Qed.
Lemma dropped_only b : dropped b = true -> begins b = false /\ wordy b = false /\ stray b = false.
Proof.
  intros H. unfold stray. rewrite H. cbn [negb andb].
  unfold dropped in H. cbv zeta in H. unfold begins, wordy. cbv zeta.
  repeat (apply orb_true_iff in H as [H|H]); apply N.eqb_eq in H; rewrite H; repeat split.
Qed.
Lemma begins_only b : begins b = true -> dropped b = false /\ wordy b = false.
Proof.
  intros H. split.
  - destruct (dropped b) eqn:D; [|reflexivity]. apply dropped_only in D as (D & _). congruence.
  - unfold begins in H. cbv zeta in H. unfold wordy. cbv zeta. apply orb_true_iff in H as [H|H].
    + apply andb_true_iff in H as (_ & H). apply N.leb_le in H. repeat (apply orb_false_iff; split); apply N.eqb_neq; lia.
    + apply N.eqb_eq in H. rewrite H. reflexivity.
Qed.
Lemma wordy_only b : wordy b = true -> dropped b = false /\ begins b = false.
Proof.
  intros H. split.
  - destruct (dropped b) eqn:D; [|reflexivity]. apply dropped_only in D as (_ & D & _). congruence.
  - destruct (begins b) eqn:D; [|reflexivity]. apply begins_only in D as (_ & D). congruence.
Qed.
Lemma stray_not b : stray b = true -> dropped b = false /\ begins b = false /\ wordy b = false.
Proof. unfold stray. destruct (dropped b), (begins b), (wordy b); try discriminate; auto. Qed.

Lemma none_of (p q : byte -> bool) s : (forall b, p b = true -> q b = false) -> forallb p s = true -> existsb q s = false.
Proof.
  intros H. induction s as [|b s IH]; [reflexivity|]. cbn [forallb existsb]. intros F. apply andb_true_iff in F as (F1 & F2).
  rewrite (H b F1), (IH F2). reflexivity.
Qed.
Lemma before_app p a c r : existsb p a = false -> p c = true -> before p (a ++ c :: r) = a.
Proof.
  induction a as [|x a IH]; cbn [existsb before app]; intros H C; [rewrite C; reflexivity|].
  apply orb_false_iff in H as (H1 & H2). rewrite H1, (IH H2 C). reflexivity.
Qed.
Lemma from_app p a c r : existsb p a = false -> p c = true -> from p (a ++ c :: r) = c :: r.
Proof.
  induction a as [|x a IH]; cbn [existsb from app]; intros H C; [rewrite C; reflexivity|].
  apply orb_false_iff in H as (H1 & H2). rewrite H1, (IH H2 C). reflexivity.
Qed.
Lemma filter_all {A} (p : A -> bool) s : forallb p s = true -> filter p s = s.
Proof. induction s as [|b s IH]; [reflexivity|]. cbn. intros F. apply andb_true_iff in F as (F1 & F2). rewrite F1, (IH F2). reflexivity. Qed.
Lemma filter_none {A} (p : A -> bool) s : existsb p s = false -> filter p s = [].
Proof. induction s as [|b s IH]; [reflexivity|]. cbn. intros F. apply orb_false_iff in F as (F1 & F2). rewrite F1, (IH F2). reflexivity. Qed.
Lemma filter_nil {A} (p : A -> bool) s : filter (fun x => negb (p x)) s = [] -> forallb p s = true.
Proof. induction s as [|b s IH]; [reflexivity|]. cbn. destruct (p b); cbn; [exact IH|discriminate]. Qed.

Definition head_of (m : bool) (r : bytes) : bytes :=
  match r with [] => [] | c :: _ => (if m then bs "-" else []) ++ (if point c then bs "0" else []) end.
Definition reached (m : bool) (r : bytes) : progress := match r with [] => Waiting m | _ => Reading end.

Lemma boundary_after d s : forallb dropped d = true -> utf8 (d ++ s) = true -> char_boundary (d ++ s) (List.length d) = true.
Proof.
  intros D U. unfold char_boundary. destruct d as [|x d]; [reflexivity|]. cbn [List.length].
  change (S (List.length d)) with (List.length (x :: d)).
  destruct s as [|c s].
  - rewrite app_nil_r. destruct (nth_error _ _) eqn:E; [|apply Nat.eqb_refl].
    assert (X : nth_error (x :: d) (List.length (x :: d)) = None) by (apply nth_error_None; lia). congruence.
  - rewrite nth_error_app2, Nat.sub_diag by lia. cbn [nth_error].
    assert (T : tail_byte c = false).
    { assert (U' : utf8 (c :: s) = true).
      { revert D U. generalize (x :: d) as e. intros e. induction e as [|y e IH]; [intros _ U; exact U|]. cbn [forallb app]. intros D U.
        apply andb_true_iff in D as (D1 & D2). apply IH; [exact D2|].
        apply (utf8_split_ascii [] y (e ++ c :: s) U (dropped_ascii y D1)). }
      apply utf8P_iff in U'. inversion U' as [|k t K T E]; subst.
      destruct k as [|y k]; [discriminate K|]. cbn in E. injection E as <- E.
      unfold tail_byte, between. destruct (char_cases _ K) as [(a & [= -> ->])|[(a & b & [= -> ->])|[(a & b & e & [= -> ->])|(a & b & e & f & [= -> ->])]]];
        cbn [utf8_char] in K; unfold between in K; apply andb_false_iff.
      - apply andb_true_iff in K as (_ & K). apply N.leb_le in K. left. apply N.leb_gt. lia.
      - apply andb_true_iff in K as (K & _). apply andb_true_iff in K as (K & _). apply N.leb_le in K. right. apply N.leb_gt. lia.
      - apply andb_true_iff in K as (K & _). right. apply N.leb_gt.
        repeat (apply orb_true_iff in K as [K|K]); apply andb_true_iff in K as (K & _); apply andb_true_iff in K as (K & _); apply N.leb_le in K; lia.
      - apply andb_true_iff in K as (K & _). apply andb_true_iff in K as (K & _). right. apply N.leb_gt.
        repeat (apply orb_true_iff in K as [K|K]); apply andb_true_iff in K as (K & _); apply andb_true_iff in K as (K & _); apply N.leb_le in K; lia. }
    unfold is_cont. cbv zeta. unfold tail_byte, between in T. apply negb_true_iff.
    destruct (N.leb_spec 128 (N_of_ascii c)); [|reflexivity]. cbn [andb] in *. apply N.leb_gt in T. apply N.ltb_ge. lia.
Qed.

Lemma piece_word m d c r : forallb dropped d = true -> wordy c = true -> piece (Waiting m) (d ++ c :: r) = Some (bs "null", Over).
Proof.
  intros D C. unfold piece. cbv zeta.
  assert (Wd : existsb wordy d = false) by (eapply none_of; [|exact D]; intros b B; apply dropped_only, B).
  assert (Bd : existsb begins d = false) by (eapply none_of; [|exact D]; intros b B; apply dropped_only, B).
  rewrite existsb_app. cbn [existsb]. rewrite C, orb_true_r. rewrite before_app by assumption.
  assert (F : from begins d = []) by (apply from_nil; exact Bd). rewrite F. reflexivity.
Qed.

Definition starts (r : bytes) : Prop := match r with [] => True | c :: _ => begins c = true end.
Lemma split_begins z r : existsb begins z = false -> starts r -> before begins (z ++ r) = z /\ from begins (z ++ r) = r.
Proof.
  intros Z R. destruct r as [|c r].
  - rewrite app_nil_r. split; [apply before_all, Z|apply from_nil, Z].
  - split; [apply before_app; assumption|apply from_app; assumption].
Qed.
(** A text with no word, in general. *)
Lemma piece_plain m z r : existsb wordy (z ++ r) = false -> existsb begins z = false -> starts r ->
  piece (Waiting m) (z ++ r) =
  (let a := List.length (filter dropped z) in
   if char_boundary (z ++ r) a
   then Some (head_of (m || existsb minus_sign z) r ++ skipn a (z ++ r), reached (m || existsb minus_sign z) r) else None).
Proof.
  intros Wd Z R. unfold piece. cbv zeta. rewrite Wd, (before_all _ _ Wd).
  destruct (split_begins z r Z R) as (E1 & E2). rewrite E1, E2. unfold minus_sign, head_of, reached, point.
  destruct r; reflexivity.
Qed.
Lemma piece_tidy m d j r : existsb wordy (d ++ j ++ r) = false -> forallb dropped d = true -> forallb stray j = true -> starts r ->
  utf8 (d ++ j ++ r) = true ->
  piece (Waiting m) (d ++ j ++ r) =
  Some (head_of (m || existsb minus_sign d) r ++ j ++ r, reached (m || existsb minus_sign d) r).
Proof.
  intros Wd D J R U.
  assert (Bd : existsb begins d = false) by (eapply none_of; [|exact D]; intros b B; apply dropped_only, B).
  assert (Bj : existsb begins j = false) by (eapply none_of; [|exact J]; intros b B; apply stray_not, B).
  assert (Dj : existsb dropped j = false) by (eapply none_of; [|exact J]; intros b B; apply stray_not, B).
  assert (Mj : existsb minus_sign j = false).
  { eapply none_of; [|exact J]. intros b B. apply stray_not in B as (B & _). unfold dropped in B. cbv zeta in B. unfold minus_sign.
    apply orb_false_iff in B as (B & _). apply orb_false_iff in B as (_ & B). exact B. }
  pose proof (piece_plain m (d ++ j) r) as P. rewrite <- app_assoc in P. rewrite P; [|exact Wd|rewrite existsb_app, Bd, Bj; reflexivity|exact R]. clear P.
  cbv zeta. rewrite filter_app, (filter_all _ _ D), (filter_none _ _ Dj), app_nil_r, existsb_app, Mj, orb_false_r.
  rewrite boundary_after by assumption. rewrite skipn_app, skipn_all, Nat.sub_diag. reflexivity.
Qed.

(** What has been read, and what may come. *)
Definition free_at (p : progress) (s : bytes) : Prop :=
  match p with
  | Over => True
  | Reading => existsb wordy s = false
  | Waiting m =>
      (exists d c r, s = d ++ c :: r /\ forallb dropped d = true /\ wordy c = true)
      \/ (exists d j r, s = d ++ j ++ r /\ existsb wordy s = false /\
            forallb dropped d = true /\ forallb stray j = true /\
            match r with
            | [] => True
            | c :: _ => begins c = true /\ (j = [] \/ (m || existsb minus_sign d) = false /\ point c = false)
            end)
  end.

Lemma app_cases {A} (x y a b : list A) : x ++ y = a ++ b ->
  (exists l, a = x ++ l /\ y = l ++ b) \/ (exists c l, x = a ++ c :: l /\ b = c :: l ++ y).
Proof.
  revert a. induction x as [|z x IH]; intros a E; [left; exists a; split; [reflexivity|exact E]|].
  destruct a as [|w a]; cbn in E; [right; exists z, x; split; [reflexivity|symmetry; exact E]|].
  injection E as -> E. destruct (IH a E) as [(l & -> & ->)|(c & l & -> & ->)]; [left; exists l; split; reflexivity|right; exists c, l; split; reflexivity].
Qed.
Lemma existsb_false_app {A} (p : A -> bool) a b : existsb p (a ++ b) = false -> existsb p a = false /\ existsb p b = false.
Proof. rewrite existsb_app. apply orb_false_iff. Qed.
Lemma forallb_true_app {A} (p : A -> bool) a b : forallb p (a ++ b) = true -> forallb p a = true /\ forallb p b = true.
Proof. rewrite forallb_app. apply andb_true_iff. Qed.

Lemma piece_split p x y : free_at p (x ++ y) -> utf8 x = true -> utf8 y = true ->
  exists o p', piece p x = Some (o, p') /\ free_at p' y /\
    piece p (x ++ y) = match piece p' y with Some (o', p'') => Some (o ++ o', p'') | None => None end.
Proof.
  intros F Ux Uy. destruct p as [m| |]; cbn [free_at] in F.
  - destruct F as [(d & c & r & E & D & C)|(d & j & r & E & Wd & D & J & R)].
    + rewrite E, piece_word by assumption. apply app_cases in E as [(l & -> & ->)|(c' & l & -> & E)].
      * apply forallb_true_app in D as (D1 & D2). exists [], (Waiting (m || existsb minus_sign x)).
        pose proof (piece_tidy m x [] []) as P. rewrite !app_nil_r in P.
        assert (Wx : existsb wordy x = false) by (eapply none_of; [|exact D1]; intros b B; apply dropped_only, B).
        split; [|split].
        { rewrite (P Wx D1 eq_refl I Ux). reflexivity. }
        { left. exists l, c, r. auto. }
        rewrite piece_word by assumption. reflexivity.
      * injection E as -> E. exists (bs "null"), Over. split; [apply piece_word; assumption|]. split; [exact I|]. reflexivity.
    + assert (Rs : starts r) by (destruct r; [exact I|exact (proj1 R)]).
      assert (U : utf8 (d ++ j ++ r) = true) by (rewrite <- E; apply utf8_app; assumption).
      assert (W' : existsb wordy (d ++ j ++ r) = false) by (rewrite <- E; exact Wd).
      rewrite E, piece_tidy by assumption.
      apply existsb_false_app in Wd as (Wx & Wy).
      assert (E0 := E). apply app_cases in E as [(l & -> & ->)|(c & l & -> & E)].
      * apply forallb_true_app in D as (D1 & D2). exists [], (Waiting (m || existsb minus_sign x)). split; [|split].
        -- pose proof (piece_tidy m x [] []) as P. rewrite !app_nil_r in P. rewrite (P Wx D1 eq_refl I Ux). reflexivity.
        -- right. exists l, j, r. repeat (split; [assumption || reflexivity|]). rewrite existsb_app, orb_assoc in R. exact R.
        -- rewrite piece_tidy by assumption. rewrite existsb_app, orb_assoc. reflexivity.
      * clear E0. assert (E1 : (c :: l) ++ y = j ++ r) by (symmetry; exact E). apply app_cases in E1 as [(k & -> & ->)|(c' & k & E1 & ->)].
        -- apply forallb_true_app in J as (J1 & J2). exists (c :: l), (Waiting (m || existsb minus_sign d)). split; [|split].
           ++ pose proof (piece_tidy m d (c :: l) []) as P. rewrite !app_nil_r in P. rewrite P by (assumption || exact I). reflexivity.
           ++ right. exists [], k, r. split; [reflexivity|]. split; [assumption|]. split; [reflexivity|]. split; [assumption|].
              destruct r as [|b r]; [exact I|]. destruct R as (R1 & R2). split; [exact R1|]. right. destruct R2 as [R2|R2]; [discriminate R2|].
              cbn [existsb]. rewrite orb_false_r. exact R2.
           ++ change (k ++ r) with ([] ++ k ++ r). rewrite piece_tidy by (assumption || reflexivity). cbn [existsb]. rewrite orb_false_r.
              destruct r as [|b r]; [cbn [head_of app]; rewrite <- !app_assoc; reflexivity|]. destruct R as (R1 & [R2|(R2 & R3)]); [discriminate R2|].
              cbn [head_of]. rewrite R2, R3. cbn [app]. rewrite <- !app_assoc. reflexivity.
        -- destruct R as (R1 & R2). exists (head_of (m || existsb minus_sign d) (c' :: k) ++ j ++ c' :: k), Reading. rewrite E1. split; [|split].
           ++ rewrite piece_tidy; try assumption; [reflexivity|rewrite <- E1; exact Wx|rewrite <- E1; exact Ux].
           ++ exact Wy.
           ++ cbn [piece]. rewrite Wy. cbn [reached head_of]. rewrite <- !app_assoc. reflexivity.
  - apply existsb_false_app in F as F'. destruct F' as (Fx & Fy). exists x, Reading. cbn [piece free_at]. rewrite F, Fx, Fy. auto.
  - exists [], Over. cbn. auto.
Qed.

Lemma piece_nil p : piece p [] = Some ([], p).
Proof. destruct p as [m| |]; [|reflexivity..]. unfold piece. cbn. rewrite orb_false_r. reflexivity. Qed.
Lemma utf8_parts fs : forallb utf8 fs = true -> utf8 (List.concat fs) = true.
Proof. induction fs as [|s fs IH]; [reflexivity|]. cbn [forallb List.concat]. intros H. apply andb_true_iff in H as (H1 & H2). apply utf8_app; auto. Qed.
Lemma pieces_whole fs : forall p, free_at p (List.concat fs) -> forallb utf8 fs = true -> pieces p fs = piece p (List.concat fs).
Proof.
  induction fs as [|s fs IH]; intros p F U; cbn [pieces List.concat forallb] in *; [symmetry; apply piece_nil|].
  apply andb_true_iff in U as (U1 & U2). destruct (piece_split p s (List.concat fs) F U1 (utf8_parts fs U2)) as (o & p' & -> & F' & ->).
  rewrite (IH p' F' U2). destruct (piece p' (List.concat fs)) as [[? ?]|]; reflexivity.
Qed.

(** One character at a time. *)
Definition kept (s : bytes) : bytes := filter (fun b => negb (dropped b)) s.
Lemma high_bytes c : utf8_char c = true -> (exists a, c = [a] /\ (N_of_ascii a <? 128)%N = true) \/ (c <> [] /\ forallb stray c = true).
Proof.
  assert (T : forall b, (128 <=? N_of_ascii b)%N = true -> stray b = true).
  { intros b B. apply N.leb_le in B. unfold stray.
    destruct (dropped b) eqn:E1; [apply dropped_ascii, N.ltb_lt in E1; lia|].
    destruct (begins b) eqn:E2; [apply begins_ascii, N.ltb_lt in E2; lia|].
    destruct (wordy b) eqn:E3; [apply wordy_ascii, N.ltb_lt in E3; lia|]. reflexivity. }
  intros C. destruct c as [|a c]; [discriminate C|]. destruct c as [|b c].
  - left. exists a. split; [reflexivity|]. cbn [utf8_char] in C. unfold between in C. apply andb_true_iff in C as (_ & C). apply N.leb_le in C. apply N.ltb_lt. lia.
  - right. split; [discriminate|].
    assert (H : forall x, In x (b :: c) -> stray x = true).
    { intros x X. apply T. pose proof (char_tail a (b :: c) x C X) as Y. unfold tail_byte, between in Y. apply andb_true_iff in Y. apply Y. }
    cbn [forallb]. assert (A : stray a = true).
    { apply T. clear H. apply N.leb_le. destruct (char_cases _ C) as [(p & E)|[(p & q & [= -> -> ->])|[(p & q & r & [= -> -> ->])|(p & q & r & s & [= -> -> ->])]]]; [discriminate E|..];
        cbn [utf8_char] in C; unfold between in C; apply andb_true_iff in C as (C & _); try (apply andb_true_iff in C as (C & _)); try (apply N.leb_le in C; lia);
        repeat (apply orb_true_iff in C as [C|C]); apply andb_true_iff in C as (C & _); apply andb_true_iff in C as (C & _); apply N.leb_le in C; lia. }
    rewrite A. change (forallb stray (b :: c) = true). apply forallb_forall. exact H.
Qed.

Definition one_char (s : bytes) : Prop := utf8_char s = true.
Lemma chars_of s : utf8 s = true -> exists cs, List.concat cs = s /\ Forall one_char cs.
Proof.
  rewrite utf8P_iff. induction 1 as [|c s C _ (cs & <- & IH)]; [exists []; split; constructor|].
  exists (c :: cs). split; [reflexivity|constructor; assumption].
Qed.
Lemma char_utf8 c : one_char c -> utf8 c = true.
Proof. intros C. apply utf8P_iff. rewrite <- (app_nil_r c). constructor; [exact C|constructor]. Qed.
Lemma chars_utf8 cs : Forall one_char cs -> forallb utf8 cs = true.
Proof. induction 1 as [|c cs C _ IH]; [reflexivity|]. cbn [forallb]. rewrite (char_utf8 c C). exact IH. Qed.

(** What comes of it, byte by byte. *)
Definition fine1 (p : progress) (b : byte) : bytes * progress :=
  match p with
  | Over => ([], Over)
  | Reading => if wordy b then (bs "null", Over) else ([b], Reading)
  | Waiting m =>
      if wordy b then (bs "null", Over)
      else if begins b then (head_of m [b] ++ [b], Reading)
      else if dropped b then ([], Waiting (m || minus_sign b))
      else ([b], Waiting m)
  end.
Fixpoint fine (p : progress) (s : bytes) : bytes * progress :=
  match s with
  | [] => ([], p)
  | b :: s => let '(o, p) := fine1 p b in let '(o', p) := fine p s in (o ++ o', p)
  end.
Lemma fine_app a : forall p b, fine p (a ++ b) = let '(o, p) := fine p a in let '(o', p) := fine p b in (o ++ o', p).
Proof.
  induction a as [|x a IH]; intros p b; cbn [app fine]; [destruct (fine p b); reflexivity|].
  destruct (fine1 p x) as [o p']. rewrite IH. destruct (fine p' a) as [o' p'']. destruct (fine p'' b). rewrite app_assoc. reflexivity.
Qed.
Lemma fine_reading s : existsb wordy s = false -> fine Reading s = (s, Reading).
Proof.
  induction s as [|b s IH]; [reflexivity|]. cbn [existsb fine fine1]. intros H. apply orb_false_iff in H as (-> & H). rewrite (IH H). reflexivity.
Qed.
Lemma fine_over s : fine Over s = ([], Over).
Proof. induction s as [|b s IH]; [reflexivity|]. cbn [fine fine1]. rewrite IH. reflexivity. Qed.
Lemma fine_waiting s : existsb wordy s = false -> existsb begins s = false -> forall m,
  fine (Waiting m) s = (kept s, Waiting (m || existsb minus_sign s)).
Proof.
  induction s as [|b s IH]; intros W B m; [cbn; rewrite orb_false_r; reflexivity|]. cbn [existsb] in W, B. cbn [existsb fine fine1 kept filter].
  apply orb_false_iff in W as (W1 & W2). apply orb_false_iff in B as (B1 & B2). rewrite W1, B1. unfold kept in *. cbn [filter].
  destruct (dropped b) eqn:D; cbn [negb].
  - rewrite (IH W2 B2), orb_assoc. reflexivity.
  - rewrite (IH W2 B2). unfold dropped in D. cbv zeta in D. apply orb_false_iff in D as (D & _). apply orb_false_iff in D as (_ & D).
    unfold minus_sign at 2. rewrite D. reflexivity.
Qed.
Lemma piece_fine c : one_char c -> forall p, piece p c = Some (fine p c).
Proof.
  intros C p. destruct (high_bytes c C) as [(a & -> & _)|(Cn & St)].
  - destruct p as [m| |]; cbn [fine fine1]; [|cbn [piece existsb]; rewrite orb_false_r; destruct (wordy a); reflexivity|reflexivity].
    destruct (wordy a) eqn:Wa.
    { pose proof (piece_word m [] a [] eq_refl Wa) as P. cbn [app] in P. rewrite P. reflexivity. }
    destruct (begins a) eqn:Ba.
    { pose proof (piece_tidy m [] [] [a]) as P. cbn [app existsb forallb] in P. rewrite P; try reflexivity; [|rewrite Wa; reflexivity|exact Ba|apply char_utf8, C].
      rewrite orb_false_r, app_nil_r. reflexivity. }
    destruct (dropped a) eqn:Da.
    { pose proof (piece_tidy m [a] [] []) as P. cbn [app existsb forallb] in P. rewrite P; try reflexivity; [|rewrite Wa; reflexivity|rewrite Da; reflexivity|apply char_utf8, C].
      rewrite orb_false_r. reflexivity. }
    pose proof (piece_tidy m [] [a] []) as P. cbn [app existsb forallb] in P. rewrite P; try reflexivity; [|rewrite Wa; reflexivity|unfold stray; rewrite Da, Ba, Wa; reflexivity|apply char_utf8, C].
    rewrite orb_false_r. reflexivity.
  - assert (Wd : existsb wordy c = false) by (eapply none_of; [|exact St]; intros b B; apply stray_not, B).
    assert (Bg : existsb begins c = false) by (eapply none_of; [|exact St]; intros b B; apply stray_not, B).
    assert (Dr : existsb dropped c = false) by (eapply none_of; [|exact St]; intros b B; apply stray_not, B).
    destruct p as [m| |].
    + rewrite fine_waiting by assumption. pose proof (piece_tidy m [] c []) as P. rewrite !app_nil_r in P. cbn [app existsb forallb] in P.
      rewrite P; try assumption; try reflexivity; [|apply char_utf8, C].
      assert (K : kept c = c).
      { unfold kept. apply filter_all. apply forallb_forall. intros b B. rewrite forallb_forall in St. apply St, stray_not in B as (B & _). rewrite B. reflexivity. }
      assert (Mn : existsb minus_sign c = false).
      { eapply none_of; [|exact St]. intros b B. apply stray_not in B as (B & _). unfold dropped in B. cbv zeta in B. unfold minus_sign.
        apply orb_false_iff in B as (B & _). apply orb_false_iff in B as (_ & B). exact B. }
      rewrite K, Mn. reflexivity.
    + cbn [piece]. rewrite Wd, fine_reading by exact Wd. reflexivity.
    + rewrite fine_over. reflexivity.
Qed.
Lemma pieces_fine cs : Forall one_char cs -> forall p, pieces p cs = Some (fine p (List.concat cs)).
Proof.
  induction 1 as [|c cs C _ IH]; intros p; [reflexivity|]. cbn [pieces List.concat]. rewrite (piece_fine c C), fine_app.
  destruct (fine p c) as [o p']. rewrite IH. destruct (fine p' (List.concat cs)); reflexivity.
Qed.

(** Where the two agree. *)
Lemma kept_nil s : kept s = [] -> forallb dropped s = true.
Proof. apply filter_nil. Qed.
Lemma first_of (p : byte -> bool) s : existsb p s = true -> exists a c r, s = a ++ c :: r /\ existsb p a = false /\ p c = true.
Proof.
  induction s as [|b s IH]; [discriminate|]. cbn [existsb]. destruct (p b) eqn:E; [intros _; exists [], b, s; auto|].
  cbn [orb]. intros H. destruct (IH H) as (a & c & r & -> & A & C). exists (b :: a), c, r. cbn. rewrite E. auto.
Qed.
Lemma at_begin s : exists z r, s = z ++ r /\ existsb begins z = false /\ starts r.
Proof.
  exists (before begins s), (from begins s). split; [symmetry; apply before_from|]. split; [apply before_none|].
  destruct (from begins s) eqn:E; [exact I|]. exact (from_head _ _ _ _ E).
Qed.
Lemma kept_stray z : existsb begins z = false -> existsb wordy z = false -> forallb stray (kept z) = true.
Proof.
  intros B W. apply forallb_forall. intros b I. apply filter_In in I as (I & D).
  assert (X : forall p : byte -> bool, existsb p z = false -> p b = false).
  { intros p H. destruct (p b) eqn:E; [|reflexivity]. assert (Y : existsb p z = true) by (apply existsb_exists; exists b; auto). congruence. }
  unfold stray. rewrite D, (X begins B), (X wordy W). reflexivity.
Qed.

Lemma same_free s : utf8 s = true ->
  (forall cs, List.concat cs = s -> Forall one_char cs -> number_becomes cs = number_becomes [s]) -> cut_free s.
Proof.
  intros U H. destruct (chars_of s U) as (cs & Ec & Fc). specialize (H cs Ec Fc). unfold number_becomes in H.
  rewrite (pieces_fine cs Fc), Ec in H. cbn [pieces] in H. destruct (existsb wordy s) eqn:Wd.
  - left. destruct (first_of wordy s Wd) as (q & c & t & -> & Q & C). exists q, c, t. split; [reflexivity|]. split; [|exact C].
    destruct (at_begin q) as (z & r & -> & Z & R). apply existsb_false_app in Q as (Qz & Qr).
    rewrite <- app_assoc in H. rewrite fine_app, (fine_waiting z Qz Z) in H.
    assert (P : piece (Waiting false) (z ++ r ++ c :: t) = Some (head_of (existsb minus_sign z) r ++ bs "null", Over)).
    { rewrite app_assoc. unfold piece. cbv zeta. rewrite existsb_app. cbn [existsb]. rewrite C, orb_true_r.
      rewrite before_app by (rewrite ?existsb_app, ?Qz, ?Qr; auto). destruct (split_begins z r Z R) as (-> & ->). unfold head_of, minus_sign, point.
      destruct r; reflexivity. }
    rewrite P in H. cbn [orb] in H.
    assert (Fr : exists o, fine (Waiting (existsb minus_sign z)) (r ++ c :: t) = (o ++ bs "null", Over) /\ (o = [] -> r = []) /\ o = head_of (existsb minus_sign z) r ++ r).
    { destruct r as [|b r].
      - exists []. cbn [app fine fine1]. rewrite C, fine_over. repeat split.
      - exists (head_of (existsb minus_sign z) (b :: r) ++ b :: r). cbn [starts] in R. apply begins_only in R as R'. destruct R' as (_ & Wb).
        cbn [app fine fine1]. rewrite Wb, R, fine_app. cbn [existsb] in Qr. apply orb_false_iff in Qr as (_ & Qr). rewrite (fine_reading r Qr).
        cbn [fine fine1]. rewrite C, fine_over. cbn [head_of]. rewrite app_nil_r, <- !app_assoc. split; [reflexivity|]. split; [|reflexivity].
        intros E. destruct (if existsb minus_sign z then _ else _); [destruct (if point b then _ else _)|]; discriminate E. }
    destruct Fr as (o & Fo & On & Eo). rewrite Fo in H. cbn [pieces] in H. rewrite app_nil_r in H. injection H as H.
    rewrite app_assoc in H. apply app_inv_tail in H. subst o.
    assert (L : List.length (kept z) + List.length r = 0).
    { apply (f_equal (@List.length byte)) in H. rewrite !app_length in H. lia. }
    destruct r; [|cbn in L; lia]. rewrite app_nil_r. apply kept_nil. destruct (kept z); [reflexivity|cbn in L; lia].
  - right. destruct (at_begin s) as (z & r & -> & Z & R). apply existsb_false_app in Wd as W'. destruct W' as (Wz & Wr).
    rewrite fine_app, (fine_waiting z Wz Z) in H. rewrite (piece_plain false z r Wd Z R) in H. cbv zeta in H. cbn [orb] in H.
    set (a := List.length (filter dropped z)) in *. set (m := existsb minus_sign z) in *.
    destruct (char_boundary (z ++ r) a); [|destruct (fine (Waiting m) r) as [? [| |]]; discriminate H]. cbn [pieces] in H. rewrite app_nil_r in H.
    assert (La : a <= List.length z) by apply filter_length_le.
    assert (E : kept z ++ head_of m r = head_of m r ++ skipn a z).
    { rewrite skipn_app in H. replace (a - List.length z) with 0 in H by lia. rewrite skipn_O in H. destruct r as [|b r].
      - cbn [fine reached head_of app] in *. rewrite !app_nil_r in *. injection H as H. apply app_inv_tail in H. rewrite ?app_nil_r. exact H.
      - cbn [starts] in R. apply begins_only in R as R'. destruct R' as (_ & Wb). cbn [fine fine1 reached] in H. rewrite Wb, R in H.
        cbn [existsb] in Wr. apply orb_false_iff in Wr as (_ & Wr). rewrite (fine_reading r Wr) in H. cbn [app] in H. injection H as H.
        rewrite <- (app_assoc _ [b] r) in H. cbn [app] in H. rewrite !app_assoc in H. apply app_inv_tail in H. cbn [head_of]. rewrite app_assoc. exact H. }
    destruct (kept z) as [|k0 ks] eqn:K.
    { apply kept_nil in K. exists z, [], r. cbn [app]. split; [reflexivity|]. split; [exact Wd|]. split; [exact K|]. split; [reflexivity|].
      destruct r as [|b r]; [exact I|]. split; [exact R|left; reflexivity]. }
    assert (Dk : dropped k0 = false).
    { assert (I : In k0 (kept z)) by (rewrite K; left; reflexivity). apply filter_In in I as (_ & I). apply negb_true_iff in I. exact I. }
    assert (Hd : head_of m r = []).
    { destruct (head_of m r) as [|h hs] eqn:Hh; [reflexivity|]. cbn [app] in E. injection E as -> _. exfalso.
      destruct r as [|b r]; [discriminate Hh|]. cbn [head_of] in Hh. destruct m; [|destruct (point b)]; cbn [app bs] in Hh;
        try discriminate Hh; injection Hh as <- _; discriminate Dk. }
    rewrite Hd, app_nil_r in E. cbn [app] in E.
    exists (firstn a z), (skipn a z), r. rewrite app_assoc, firstn_skipn. split; [reflexivity|]. split; [exact Wd|].
    assert (St : forallb stray (skipn a z) = true) by (rewrite <- E, <- K; apply kept_stray; assumption).
    assert (Ke : kept (skipn a z) = skipn a z).
    { unfold kept. apply filter_all, forallb_forall. intros b I. rewrite forallb_forall in St. apply St, stray_not in I as (I & _). rewrite I. reflexivity. }
    assert (Kf : kept (firstn a z) = []).
    { rewrite <- (firstn_skipn a z) in K at 1. unfold kept in *. rewrite filter_app, Ke, E in K. apply (app_inv_tail (skipn a z)). exact K. }
    split; [apply kept_nil, Kf|]. split; [exact St|]. destruct r as [|b r]; [exact I|]. split; [exact R|]. right.
    cbn [head_of] in Hd. apply app_eq_nil in Hd as (H1 & H2). split.
    + assert (Mz : m = false) by (destruct m; [discriminate H1|reflexivity]). unfold m in Mz. rewrite <- (firstn_skipn a z), existsb_app in Mz.
      apply orb_false_iff in Mz. apply Mz.
    + destruct (point b); [discriminate H2|reflexivity].
Qed.

(** ** C22: number texts *)

(** Exactly the number texts that may be cut anywhere (between characters). *)
Theorem C22_number_any_cut_exactly :
  forall r32 r64 l i s, utf8 s = true ->
  ((forall v v' n n' fs fs',
      streams v (TTagged (Some NUMBER) l i (TText n fs)) -> streams v' (TTagged (Some NUMBER) l i (TText n' fs')) ->
      forallb utf8 (map snd fs) = true -> forallb utf8 (map snd fs') = true ->
      frags_text fs = s -> frags_text fs' = s ->
      json_to_string r32 r64 v = json_to_string r32 r64 v') <->
   cut_free s).
Proof.
  intros r32 r64 l i s U. split.
  - intros H. apply same_free; [exact U|]. intros cs Ec Fc.
    assert (M : forall xs : list bytes, map snd (map (fun x => (true, x)) xs) = xs) by (intros xs; rewrite map_map; apply map_id).
    pose (fs := map (fun x : bytes => (true, x)) cs).
    specialize (H (map CE (emit (TTagged (Some NUMBER) l i (TText None fs)))) (map CE (emit (TTagged (Some NUMBER) l i (TText None [(true, s)]))))
                  None None fs [(true, s)] (flat_CE_false _) (flat_CE_false _)).
    rewrite (C24_any_text_exactly _ _ _ l i None fs (flat_CE_false _)), (C24_any_text_exactly _ _ _ l i None [(true, s)] (flat_CE_false _)) in H.
    unfold frags_text, fs in H. rewrite M in H. cbn [map snd forallb List.concat] in H. rewrite U, app_nil_r in H.
    specialize (H (chars_utf8 cs Fc) eq_refl Ec eq_refl).
    destruct (number_becomes cs), (number_becomes [s]); congruence.
  - intros F v v' n n' fs fs' Hv Hv' Uf Uf' E E'.
    rewrite (C24_any_text_exactly _ _ _ _ _ _ _ Hv), (C24_any_text_exactly _ _ _ _ _ _ _ Hv'). unfold number_becomes.
    assert (Fr : free_at (Waiting false) s) by exact F.
    unfold frags_text in E, E'. rewrite !pieces_whole by (rewrite ?E, ?E'; assumption). rewrite E, E'. reflexivity.
Qed.

(** [-0x] and [0 5] may be cut, [-x1], [x0] and [1nan] not. *)
Example C22_number_samples :
  cut_free (bs "-0x") /\ cut_free (bs "0 5") /\ cut_free (bs "+-nan") /\ cut_free (bs "-0.5e1") /\
  (number_of ["-x1"]%string <> number_of ["-x"; "1"]%string) /\ (number_of ["x0"]%string <> number_of ["x"; "0"]%string) /\
  (number_of ["1nan"]%string <> number_of ["1"; "nan"]%string).
Proof.
  split; [right; exists (bs "-0"), (bs "x"), []; vm_compute; intuition|].
  split; [right; exists (bs "0"), (bs " "), (bs "5"); vm_compute; intuition|].
  split; [left; exists (bs "+-"), "n"%char, (bs "an"); vm_compute; intuition|].
  split; [right; exists (bs "-0"), [], (bs ".5e1"); vm_compute; intuition|].
  repeat split; vm_compute; discriminate.
Qed.

Print Assumptions C22_number_any_cut_exactly.
