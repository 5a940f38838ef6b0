(** * JsonNumProofs: decimal literals, and texts under the [NUMBER] tag *)

From Verif Require Import Base LowerSpec DecProofs JsonModel JsonGrammar JsonSpec.

Lemma is_digit_byte b : is_digit b = true -> exists k, (k <= 9)%N /\ b = ascii_of_N (48 + k).
Proof.
  unfold is_digit. intros H. apply andb_true_iff in H as [A B].
  apply N.leb_le in A. apply N.leb_le in B. exists (N_of_ascii b - 48)%N. split; [lia|].
  rewrite <- (ascii_N_embedding b) at 1. f_equal. lia.
Qed.

(** ** Values of digit strings *)
Lemma dval_acc s : forall acc,
  fold_left (fun a b => (10 * a + (byte_val b - 48))%Z) s acc =
  (acc * 10 ^ Z.of_nat (List.length s) + dval s)%Z.
Proof.
  unfold dval. induction s as [|b s IH]; intros acc; cbn [fold_left List.length].
  - change (Z.of_nat 0) with 0%Z. rewrite Z.pow_0_r. lia.
  - rewrite IH, (IH (10 * 0 + _)%Z), Nat2Z.inj_succ, Z.pow_succ_r by lia. lia.
Qed.
Lemma dval_app a b : dval (a ++ b) = (dval a * 10 ^ Z.of_nat (List.length b) + dval b)%Z.
Proof. unfold dval at 1. rewrite fold_left_app. fold (dval a). apply dval_acc. Qed.
Lemma digits_val_dval s : forall acc, forallb is_digit s = true ->
  digits_val acc s = Some (fold_left (fun a b => (10 * a + (byte_val b - 48))%Z) s acc).
Proof.
  induction s as [|b s IH]; intros acc; cbn [forallb digits_val fold_left]; [reflexivity|].
  intros H. apply andb_true_iff in H as [H1 H2]. rewrite H1. apply IH, H2.
Qed.
Lemma dval_dec_N n : dval (dec_N n) = Z.of_N n.
Proof.
  pose proof (digits_val_dec_N n) as H.
  rewrite digits_val_dval in H by apply dec_N_digits1. unfold dval. congruence.
Qed.

Lemma dec_eq_refl m e : dec_eq m e m e.
Proof. unfold dec_eq. reflexivity. Qed.
Lemma dec_eq_sym m e m' e' : dec_eq m e m' e' -> dec_eq m' e' m e.
Proof. unfold dec_eq. intros H. rewrite Z.min_comm. auto. Qed.
Lemma dec_eq_le m e m' e' k : (k <= e)%Z -> (k <= e')%Z ->
  (m * 10 ^ (e - k) = m' * 10 ^ (e' - k))%Z -> dec_eq m e m' e'.
Proof.
  unfold dec_eq. intros A B H.
  replace (e - k)%Z with ((e - Z.min e e') + (Z.min e e' - k))%Z in H by lia.
  replace (e' - k)%Z with ((e' - Z.min e e') + (Z.min e e' - k))%Z in H by lia.
  rewrite !Z.pow_add_r, !Z.mul_assoc in H by lia.
  apply Z.mul_reg_r in H; [assumption|]. assert (0 < 10 ^ (Z.min e e' - k))%Z by (apply Z.pow_pos_nonneg; lia). lia.
Qed.
Lemma dec_eq_ge m e m' e' k : (k <= e)%Z -> (k <= e')%Z -> dec_eq m e m' e' ->
  (m * 10 ^ (e - k) = m' * 10 ^ (e' - k))%Z.
Proof.
  unfold dec_eq. intros A B H.
  replace (e - k)%Z with ((e - Z.min e e') + (Z.min e e' - k))%Z by lia.
  replace (e' - k)%Z with ((e' - Z.min e e') + (Z.min e e' - k))%Z by lia.
  rewrite !Z.pow_add_r, !Z.mul_assoc by lia. congruence.
Qed.
Lemma dec_eq_trans m e m' e' m'' e'' : dec_eq m e m' e' -> dec_eq m' e' m'' e'' -> dec_eq m e m'' e''.
Proof.
  intros A B. set (k := Z.min e (Z.min e' e'')).
  assert (K1 : (k <= e)%Z) by (unfold k; lia). assert (K2 : (k <= e')%Z) by (unfold k; lia).
  assert (K3 : (k <= e'')%Z) by (unfold k; lia). clearbody k.
  apply (dec_eq_le _ _ _ _ k); try assumption.
  rewrite (dec_eq_ge _ _ _ _ k K1 K2 A). apply dec_eq_ge; assumption.
Qed.

Lemma canonical_json s : canonical_nat s ->
  s = bs "0" \/ match s with b :: _ => b <> "0"%char | [] => False end.
Proof. intros [->|(c & r & -> & _ & N & _)]; [left; reflexivity|right; exact N]. Qed.

Lemma json_number_dec z : json_number (dec z) z 0.
Proof.
  unfold dec. exists (MkLit (if (z <? 0)%Z then Minus else NoSign) (dec_N (Z.abs_N z)) None None).
  split; [|split].
  - split; [|split].
    + split; [apply dec_N_digits1|split; exact I].
    + simpl. destruct (z <? 0)%Z; discriminate.
    + apply canonical_json, dec_N_canonical.
  - unfold lit_text. cbn [lt_sign lt_int lt_frac lt_exp]. rewrite !app_nil_r.
    destruct (z <? 0)%Z; reflexivity.
  - unfold lit_m, lit_e, lit_frac_digits. cbn [lt_sign lt_int lt_frac lt_exp List.length].
    rewrite app_nil_r, dval_dec_N. change (0 - Z.of_nat 0)%Z with 0%Z.
    destruct (Z.ltb_spec z 0); cbn [sgn_apply]; unfold dec_eq; f_equal; lia.
Qed.

(** The NUMBER grammar of LowerSpec.v, read as literals. *)
Lemma number_text_lit s : number_text s <-> exists l, lit_ok l /\ s = lit_text l.
Proof.
  split.
  - intros (sg & ip & fp & ep & -> & Hs & Hi & Hf & He).
    assert (Es : exists x, sg = sgn_text x) by (destruct Hs as [->|[->| ->]]; [exists NoSign|exists Plus|exists Minus]; reflexivity).
    assert (Ef : exists x, fp = frac_text x /\ match x with None => True | Some d => digits1 d end).
    { destruct Hf as [->|(d & -> & D)]; [exists None|exists (Some d)]; auto. }
    assert (Ee : exists x, ep = exp_text x /\
                 match x with None => True | Some (e, _, d) => (e = "e"%char \/ e = "E"%char) /\ digits1 d end).
    { destruct He as [->|(e & sg' & d & -> & E & S & D)]; [exists None; auto|].
      assert (Es' : exists x, sg' = sgn_text x) by (destruct S as [->|[->| ->]]; [exists NoSign|exists Plus|exists Minus]; reflexivity).
      destruct Es' as (y & ->).
      destruct E as [->| ->]; [exists (Some ("e"%char, y, d))|exists (Some ("E"%char, y, d))]; auto. }
    destruct Es as (x & ->), Ef as (f & -> & F), Ee as (e & -> & E).
    exists (MkLit x ip f e). split; [repeat split; try apply Hi; assumption|reflexivity].
  - intros ([sg ip fp ep] & (Hi & Hf & He) & ->). cbn in Hi, Hf, He.
    exists (sgn_text sg), ip, (frac_text fp), (exp_text ep).
    split; [reflexivity|split; [|split; [exact Hi|split]]].
    + destruct sg; [left|right; left|right; right]; reflexivity.
    + destruct fp as [d|]; [right; exists d; auto|left; reflexivity].
    + destruct ep as [[[e s] d]|]; [|left; reflexivity].
      destruct He as [E D]. right. exists [e], (sgn_text s), d. split; [reflexivity|].
      split; [|split; [|exact D]].
      * destruct E as [->| ->]; [left|right]; reflexivity.
      * destruct s; [left|right; left|right; right]; reflexivity.
Qed.

(** ** The NUMBER text handler as an automaton over bytes *)
Definition numeral_byte (c : byte) : bool :=
  let n := N_of_ascii c in
  is_digit c || (n =? 46)%N || (n =? 45)%N || (n =? 43)%N || (n =? 101)%N || (n =? 69)%N.

Definition stop (h : num) : num := MkNum false (n_neg h) (n_zeroes h) (n_nan h).
Definition minus_out (h : num) : bytes := if n_neg h then bs "-" else [].
(** Handler state and text written, while nothing but zeroes and signs was seen. *)
Definition nb (h : num) (c : byte) : option (num * bytes) :=
  let n := N_of_ascii c in
  if n_start h then
    if (n =? 48)%N then Some (MkNum true (n_neg h) (n_zeroes h + 1) (n_nan h), [])
    else if is_digit c then Some (stop h, minus_out h ++ [c])
    else if (n =? 46)%N then Some (stop h, minus_out h ++ bs "0" ++ [c])
    else if (n =? 45)%N then Some (MkNum true true (n_zeroes h) (n_nan h), [])
    else if (n =? 43)%N then Some (h, [])
    else None
  else if is_digit c || (n =? 46)%N then Some (stop h, [c])
  else if numeral_byte c then Some (h, [c]) else None.

Fixpoint nbs (h : num) (s : bytes) : option (num * bytes) :=
  match s with
  | [] => Some (h, [])
  | c :: s' => match nb h c with
               | None => None
               | Some (h', o) => match nbs h' s' with None => None | Some (h'', o') => Some (h'', o ++ o') end
               end
  end.
Lemma nbs_app h a b : nbs h (a ++ b) =
  match nbs h a with
  | None => None
  | Some (h', o) => match nbs h' b with None => None | Some (h'', o') => Some (h'', o ++ o') end
  end.
Proof.
  revert h; induction a as [|c a IH]; intros h; cbn [nbs app].
  - destruct (nbs h b) as [[? ?]|]; reflexivity.
  - destruct (nb h c) as [[h1 o1]|]; [|reflexivity]. rewrite IH.
    destruct (nbs h1 a) as [[h2 o2]|]; [|reflexivity].
    destruct (nbs h2 b) as [[h3 o3]|]; [|reflexivity]. rewrite app_assoc. reflexivity.
Qed.

Lemma nb_ascii h c x : nb h c = Some x -> is_cont c = false.
Proof.
  unfold nb, numeral_byte, is_cont. intros H.
  destruct ((128 <=? N_of_ascii c)%N) eqn:E; [|reflexivity]. exfalso. apply N.leb_le in E.
  assert (D : is_digit c = false) by (unfold is_digit; apply andb_false_iff; right; apply N.leb_gt; lia).
  rewrite D in H. cbn [orb] in H.
  repeat match type of H with context [(N_of_ascii c =? ?k)%N] =>
    destruct (N.eqb_spec (N_of_ascii c) k) as [X|_]; [rewrite X in E; lia|] end.
  cbn in H. destruct (n_start h); discriminate.
Qed.
Lemma nbs_ascii s : forall h x, nbs h s = Some x -> forallb (fun c => negb (is_cont c)) s = true.
Proof.
  induction s as [|c s IH]; intros h x H; [reflexivity|]. cbn [nbs forallb] in *.
  destruct (nb h c) as [[h1 o1]|] eqn:E; [|discriminate]. rewrite (nb_ascii _ _ _ E). simpl.
  destruct (nbs h1 s) eqn:E'; [|discriminate]. eapply IH; eassumption.
Qed.
Lemma nb_nan h c h' o : nb h c = Some (h', o) -> n_nan h' = n_nan h.
Proof.
  unfold nb. intros H.
  repeat match type of H with context [if ?b then _ else _] => destruct b end;
    try discriminate; inversion H; reflexivity.
Qed.
Lemma nbs_nan s : forall h h' o, nbs h s = Some (h', o) -> n_nan h' = n_nan h.
Proof.
  induction s as [|c s IH]; intros h h' o H; cbn [nbs] in H.
  - inversion H; reflexivity.
  - destruct (nb h c) as [[h1 o1]|] eqn:E; [|discriminate].
    destruct (nbs h1 s) as [[h2 o2]|] eqn:E'; [|discriminate]. inversion H; subst.
    rewrite (IH _ _ _ E'). eapply nb_nan; eassumption.
Qed.

Definition slice (v : bytes) (a b : nat) : bytes := firstn (b - a) (skipn a v).
Lemma slice_self v a : slice v a a = [].
Proof. unfold slice. rewrite Nat.sub_diag. reflexivity. Qed.
Lemma slice_snoc v pre c rest a : v = pre ++ c :: rest -> a <= List.length pre ->
  slice v a (S (List.length pre)) = slice v a (List.length pre) ++ [c].
Proof.
  intros -> L. unfold slice.
  rewrite !skipn_app.
  replace (a - List.length pre) with 0 by lia.
  rewrite skipn_O. replace (S (List.length pre) - a) with (S (List.length pre - a)) by lia.
  assert (Hl : List.length (skipn a pre) = List.length pre - a) by apply skipn_length.
  rewrite !firstn_app, Hl.
  replace (S (List.length pre - a) - (List.length pre - a)) with 1 by lia.
  rewrite Nat.sub_diag. rewrite (firstn_all2 (skipn a pre)) by lia.
  rewrite (firstn_all2 (skipn a pre)) by lia. cbn [firstn]. rewrite app_nil_r. reflexivity.
Qed.

Lemma N_ascii_neq c (k : byte) : c <> k -> (N_of_ascii c =? N_of_ascii k)%N = false.
Proof.
  intros H. apply N.eqb_neq. intros E. apply H.
  rewrite <- (ascii_N_embedding c), <- (ascii_N_embedding k). congruence.
Qed.

Lemma num_loop_nb v rest : forall pre h a w h' o,
  v = pre ++ rest -> a <= List.length pre -> (n_start h = true -> a = List.length pre) ->
  nbs h rest = Some (h', o) ->
  exists a' w', num_loop bytes string_write rest h a (List.length pre) w = Ok (h', a', List.length v, w') /\
    a' <= List.length v /\ w' ++ slice v a' (List.length v) = (w ++ slice v a (List.length pre)) ++ o.
Proof.
  induction rest as [|c rest IH]; intros pre h a w h' o Hv La Hst Hn.
  - cbn [nbs] in Hn. inversion Hn; subst. exists a, w. cbn [num_loop].
    rewrite !app_nil_r. auto.
  - cbn [nbs] in Hn. destruct (nb h c) as [[h1 o1]|] eqn:E; [|discriminate].
    destruct (nbs h1 rest) as [[h2 o2]|] eqn:E'; [|discriminate]. inversion Hn; subst h' o.
    assert (Hv' : v = (pre ++ [c]) ++ rest) by (rewrite <- app_assoc; exact Hv).
    assert (Hlen : List.length (pre ++ [c]) = S (List.length pre)) by (rewrite app_length; simpl; lia).
    pose proof (slice_snoc v pre c rest a Hv La) as Hsl.
    unfold nb in E. cbn [num_loop].
    destruct h as [st ng zs nn]; cbn [n_start n_neg n_zeroes n_nan minus_out stop] in *.
    destruct st.
    + specialize (Hst eq_refl). subst a. rewrite slice_self in *. rewrite app_nil_r in *. cbn [app] in Hsl.
      rewrite !andb_true_r. cbn [andb].
      destruct (N_of_ascii c =? 48)%N.
      { inversion E; subst. rewrite <- Hlen.
        destruct (IH (pre ++ [c]) _ (List.length (pre ++ [c])) w _ _ Hv' (le_n _) (fun _ => eq_refl) E') as (a' & w' & R & L & S').
        exists a', w'. rewrite R. split; [reflexivity|]. split; [exact L|]. rewrite S', slice_self, app_nil_r. reflexivity. }
      unfold is_digit in E. destruct ((48 <=? N_of_ascii c)%N && (N_of_ascii c <=? 57)%N).
      { inversion E; subst. unfold string_write at 1. rewrite <- Hlen.
        destruct (IH (pre ++ [c]) (MkNum false ng zs nn) (List.length pre) (w ++ minus_out (MkNum true ng zs nn)) _ _ Hv' ltac:(lia) ltac:(discriminate) E') as (a' & w' & R & L & S').
        exists a', w'. unfold minus_out in R, S' |- *; cbn [n_neg] in R, S' |- *.
        destruct ng; (split; [solve [exact R | rewrite app_nil_r in R; exact R]|]); (split; [exact L|]);
          rewrite S', Hlen, Hsl, <- !app_assoc; reflexivity. }
      destruct (N_of_ascii c =? 46)%N.
      { inversion E; subst. unfold string_write at 1 2. rewrite <- Hlen.
        destruct (IH (pre ++ [c]) (MkNum false ng zs nn) (List.length pre) ((w ++ minus_out (MkNum true ng zs nn)) ++ bs "0") _ _ Hv' ltac:(lia) ltac:(discriminate) E') as (a' & w' & R & L & S').
        exists a', w'. unfold minus_out in R, S' |- *; cbn [n_neg] in R, S' |- *.
        destruct ng; cbn [bind]; (split; [solve [exact R | rewrite app_nil_r in R; exact R]|]); (split; [exact L|]);
          rewrite S', Hlen, Hsl, <- !app_assoc; reflexivity. }
      destruct (N_of_ascii c =? 45)%N.
      { inversion E; subst. rewrite <- Hlen.
        destruct (IH (pre ++ [c]) _ (List.length (pre ++ [c])) w _ _ Hv' (le_n _) (fun _ => eq_refl) E') as (a' & w' & R & L & S').
        exists a', w'. rewrite R. split; [reflexivity|]. split; [exact L|]. rewrite S', slice_self, app_nil_r. reflexivity. }
      destruct (N_of_ascii c =? 43)%N; [|discriminate].
      inversion E; subst. rewrite <- Hlen.
      destruct (IH (pre ++ [c]) _ (List.length (pre ++ [c])) w _ _ Hv' (le_n _) (fun _ => eq_refl) E') as (a' & w' & R & L & S').
      exists a', w'. rewrite R. split; [reflexivity|]. split; [exact L|]. rewrite S', slice_self, app_nil_r. reflexivity.
    + rewrite !andb_false_r. cbn [andb].
      assert (G : forall hh, h1 = hh -> n_start hh = false -> o1 = [c] ->
        exists a' w', num_loop bytes string_write rest hh a (S (List.length pre)) w = Ok (h2, a', List.length v, w') /\
          a' <= List.length v /\ w' ++ slice v a' (List.length v) = (w ++ slice v a (List.length pre)) ++ o1 ++ o2).
      { intros hh <- St ->. rewrite <- Hlen.
        destruct (IH (pre ++ [c]) h1 a w _ _ Hv' ltac:(lia) ltac:(congruence) E') as (a' & w' & R & L & S').
        exists a', w'. rewrite R. split; [reflexivity|]. split; [exact L|].
        rewrite S', Hlen, Hsl, <- !app_assoc. reflexivity. }
      unfold is_digit in E. destruct ((48 <=? N_of_ascii c)%N && (N_of_ascii c <=? 57)%N) eqn:D.
      { cbn [orb] in E. inversion E; subst. apply G; reflexivity. }
      cbn [orb] in E. destruct (N_of_ascii c =? 46)%N eqn:Dot.
      { inversion E; subst. apply G; reflexivity. }
      destruct (numeral_byte c) eqn:Nb; [|discriminate]. inversion E; subst.
      unfold numeral_byte, is_digit in Nb. rewrite D, Dot in Nb. cbn [orb] in Nb.
      assert (X : ((N_of_ascii c =? 115)%N || (N_of_ascii c =? 110)%N || (N_of_ascii c =? 105)%N ||
                   (N_of_ascii c =? 83)%N || (N_of_ascii c =? 78)%N || (N_of_ascii c =? 73)%N) = false).
      { clear - Nb.
        repeat match type of Nb with context [(N_of_ascii c =? ?k)%N] =>
          destruct (N.eqb_spec (N_of_ascii c) k) as [Y|_]; [rewrite Y; reflexivity|cbn [orb] in Nb] end.
        discriminate. }
      rewrite X. apply G; reflexivity.
Qed.

Lemma num_fragment_nb v h w h' o : n_nan h = false -> nbs h v = Some (h', o) ->
  num_fragment bytes string_write v h w = Ok (h', w ++ o).
Proof.
  intros Hn H. unfold num_fragment. rewrite Hn.
  destruct (num_loop_nb v v [] h 0 w h' o eq_refl (le_n _) (fun _ => eq_refl) H) as (a' & w' & R & L & S').
  cbn [List.length] in R. rewrite R.
  assert (Bd : forall i, i <= List.length v -> char_boundary v i = true).
  { intros i Li. unfold char_boundary. destruct i; [reflexivity|].
    pose proof (nbs_ascii _ _ _ H) as A. rewrite forallb_forall in A.
    destruct (nth_error v (S i)) eqn:E.
    - apply A. eapply nth_error_In; eassumption.
    - apply nth_error_None in E. apply Nat.eqb_eq. lia. }
  unfold str_slice. rewrite (Bd a' L), (Bd _ (le_n _)).
  replace (Nat.leb a' (List.length v)) with true by (symmetry; apply Nat.leb_le; exact L).
  cbn [andb]. unfold string_write. fold (slice v a' (List.length v)).
  rewrite S'. unfold slice at 1. cbn. rewrite app_nil_r. reflexivity.
Qed.

(** ** What the automaton writes for a literal *)
Fixpoint strip0 (s : bytes) : bytes :=
  match s with
  | c :: s' => if (N_of_ascii c =? 48)%N then strip0 s' else s
  | [] => []
  end.
Lemma strip0_dval s : dval (strip0 s) = dval s.
Proof.
  induction s as [|c s IH]; [reflexivity|]. cbn [strip0]. destruct (N.eqb_spec (N_of_ascii c) 48); [|reflexivity].
  rewrite IH. change (c :: s) with ([c] ++ s). rewrite dval_app.
  assert (dval [c] = 0)%Z as -> by (unfold dval, byte_val; cbn [fold_left]; rewrite e; reflexivity). lia.
Qed.
Lemma strip0_digits s : forallb is_digit s = true -> forallb is_digit (strip0 s) = true.
Proof.
  induction s as [|c s IH]; [reflexivity|]. cbn [strip0]. destruct (N_of_ascii c =? 48)%N; [|auto].
  cbn [forallb]. intros H. apply andb_true_iff in H as [_ H]. auto.
Qed.
Lemma strip0_head s c r : strip0 s = c :: r -> c <> "0"%char.
Proof.
  induction s as [|d s IH]; [discriminate|]. cbn [strip0]. destruct (N.eqb_spec (N_of_ascii d) 48); [auto|].
  intros H. inversion H; subst. intros ->. apply n. reflexivity.
Qed.
Lemma strip0_nil s : strip0 s = [] -> dval s = 0%Z.
Proof. intros H. rewrite <- strip0_dval, H. reflexivity. Qed.

Lemma nbs_digits s : forall ng zs nn, forallb is_digit s = true ->
  nbs (MkNum false ng zs nn) s = Some (MkNum false ng zs nn, s).
Proof.
  induction s as [|c s IH]; intros ng zs nn H; [reflexivity|]. cbn [forallb] in H.
  apply andb_true_iff in H as [H1 H2]. cbn [nbs]. unfold nb. cbn [n_start]. rewrite H1. cbn [orb].
  unfold stop; cbn [n_neg n_zeroes n_nan]. rewrite (IH _ _ _ H2). reflexivity.
Qed.
Lemma nbs_int s : forall ng zs, forallb is_digit s = true ->
  exists zs', nbs (MkNum true ng zs false) s =
    match strip0 s with
    | [] => Some (MkNum true ng zs' false, [])
    | d => Some (MkNum false ng zs' false, (if ng then bs "-" else []) ++ d)
    end.
Proof.
  induction s as [|c s IH]; intros ng zs H; [exists zs; reflexivity|]. cbn [forallb] in H.
  apply andb_true_iff in H as [H1 H2]. cbn [nbs strip0]. unfold nb. cbn [n_start n_neg n_zeroes n_nan].
  destruct (N_of_ascii c =? 48)%N.
  - destruct (IH ng (zs + 1)%N H2) as (zs' & R). exists zs'. rewrite R. destruct (strip0 s); reflexivity.
  - rewrite H1. exists zs. unfold stop, minus_out; cbn [n_neg n_zeroes n_nan]. rewrite (nbs_digits _ _ _ _ H2).
    destruct ng; reflexivity.
Qed.

(** The literal that is written. *)
Definition norm_lit (l : literal) : literal :=
  match strip0 (lt_int l) with
  | [] => MkLit (match lt_frac l with None => NoSign | Some _ => match lt_sign l with Minus => Minus | _ => NoSign end end)
                (bs "0") (lt_frac l) (lt_exp l)
  | d => MkLit (match lt_sign l with Minus => Minus | _ => NoSign end) d (lt_frac l) (lt_exp l)
  end.

Lemma norm_lit_json l : lit_ok l -> json_lit (norm_lit l).
Proof.
  intros (A & B & C). unfold norm_lit. destruct (strip0 (lt_int l)) as [|c r] eqn:E.
  - split; [|split].
    + split; [split; [discriminate|reflexivity]|split; assumption].
    + cbn. destruct (lt_frac l), (lt_sign l); discriminate.
    + left; reflexivity.
  - split; [|split].
    + split; [|split; assumption]. cbn. split; [discriminate|]. rewrite <- E. apply strip0_digits, A.
    + cbn. destruct (lt_sign l); discriminate.
    + right. cbn. eapply strip0_head; eassumption.
Qed.
Lemma norm_lit_val l : lit_ok l -> ~ zero_exp (lit_text l) -> dec_eq (lit_m (norm_lit l)) (lit_e (norm_lit l)) (lit_m l) (lit_e l).
Proof.
  intros Ok _. unfold norm_lit, lit_m, lit_e, lit_frac_digits.
  destruct (strip0 (lt_int l)) as [|c r] eqn:E; cbn [lt_sign lt_int lt_frac lt_exp].
  - pose proof (strip0_nil _ E) as Z0. unfold dec_eq. rewrite !dval_app, Z0.
    change (dval (bs "0")) with 0%Z.
    destruct (lt_frac l) as [d|]; destruct (lt_sign l); cbn [sgn_apply]; reflexivity.
  - rewrite <- E. unfold dec_eq. rewrite !dval_app, strip0_dval.
    destruct (lt_sign l); cbn [sgn_apply]; reflexivity.
Qed.

Lemma nbs_lit l zs : lit_ok l -> ~ zero_exp (lit_text l) ->
  exists h o, nbs (MkNum true false zs false) (lit_text l) = Some (h, o) /\
    o ++ (if n_start h then bs "0" else []) = lit_text (norm_lit l).
Proof.
  intros Hl Hz. pose proof Hl as ((Ni & Di) & Hf & He).
  assert (Sg : exists zs0, nbs (MkNum true false zs false) (sgn_text (lt_sign l)) =
               Some (MkNum true (match lt_sign l with Minus => true | _ => false end) zs0 false, [])).
  { exists zs. destruct (lt_sign l); reflexivity. }
  destruct Sg as (zs0 & Sg).
  set (ng := match lt_sign l with Minus => true | _ => false end) in *.
  destruct (nbs_int (lt_int l) ng zs0 Di) as (zs1 & Hi).
  set (tl := frac_text (lt_frac l) ++
             exp_text (lt_exp l)).
    assert (Ex : forall g z, nbs (MkNum false g z false) (exp_text (lt_exp l)) =
                Some (MkNum false g z false, exp_text (lt_exp l))).
    { intros g z. destruct (lt_exp l) as [[[e s] d]|]; [|reflexivity]. destruct He as [E D]. cbn [exp_text].
      change (e :: sgn_text s ++ d) with ((e :: sgn_text s) ++ d). rewrite nbs_app.
      assert (Y : nbs (MkNum false g z false) (e :: sgn_text s) = Some (MkNum false g z false, e :: sgn_text s))
        by (destruct E as [->| ->]; destruct s; reflexivity).
      rewrite Y, nbs_digits by apply D. reflexivity. }
  assert (Tl : forall ng zs, nbs (MkNum false ng zs false) tl = Some (MkNum false ng zs false, tl)).
  { intros g z. unfold tl. rewrite nbs_app.
    assert (F : nbs (MkNum false g z false) (frac_text (lt_frac l)) =
                Some (MkNum false g z false, frac_text (lt_frac l))).
    { destruct (lt_frac l) as [d|]; [|reflexivity]. cbn [frac_text]. rewrite nbs_app.
      change (nbs (MkNum false g z false) (bs ".")) with (Some (MkNum false g z false, bs ".")). cbv iota.
      rewrite nbs_digits by apply Hf. reflexivity. }
    rewrite F.
    rewrite Ex. reflexivity. }
  assert (LT : lit_text l = sgn_text (lt_sign l) ++ lt_int l ++ tl) by reflexivity.
  rewrite LT, nbs_app, Sg, nbs_app, Hi.
  unfold norm_lit. destruct (strip0 (lt_int l)) as [|c r] eqn:E.
  - (* zero integer part *)
    unfold tl. destruct (lt_frac l) as [d|] eqn:F; cbn [frac_text].
    + change ((bs "." ++ d) ++ ?x) with ("."%char :: d ++ x). cbn [nbs].
      change (nb (MkNum true ng zs1 false) "."%char) with (Some (stop (MkNum true ng zs1 false), minus_out (MkNum true ng zs1 false) ++ bs "0" ++ ["."%char])).
      cbv iota. unfold stop, minus_out; cbn [n_neg n_zeroes n_nan].
      assert (T2 : nbs (MkNum false ng zs1 false) (d ++ exp_text (lt_exp l)) =
              Some (MkNum false ng zs1 false, d ++ exp_text (lt_exp l))).
      { rewrite nbs_app, nbs_digits by apply Hf. rewrite Ex. reflexivity. }
      rewrite T2. eexists _, _. split; [reflexivity|]. cbn [n_start]. rewrite app_nil_r.
      unfold lit_text. cbn [lt_sign lt_int lt_frac lt_exp]. unfold ng. destruct (lt_sign l); reflexivity.
    + cbn [app]. destruct (lt_exp l) as [x|] eqn:X.
      * exfalso. apply Hz. exists l. repeat split; try assumption.
        -- rewrite F; exact I.
        -- rewrite X; exact He.
        -- apply strip0_nil, E.
        -- congruence.
      * cbn [nbs app]. eexists _, _. split; [reflexivity|]. reflexivity.
  - rewrite Tl. eexists _, _. split; [reflexivity|]. cbn [n_start]. rewrite app_nil_r.
    unfold lit_text. cbn [lt_sign lt_int lt_frac lt_exp]. fold tl.
    unfold ng. destruct (lt_sign l); rewrite <- ?app_assoc; reflexivity.
Qed.
