(** * JsonSimProofs: the JSON formatter over two related writers

    The formatter makes the same writes whatever writer it has.  [R] relates two
    writers in step; [F w1 w2] says that writer 1 has failed and remains true
    while writer 2 goes on. *)

From Verif Require Import Base Event Tree LowerModel FlatProofs LowerProofs MethProofs DataModel JsonModel.

Section Sim.
  Variable W1 W2 : Type.
  Variable wr1 : W1 -> bytes -> res W1.
  Variable wr2 : W2 -> bytes -> res W2.
  Variable ryu32 ryu64 : float -> bytes.
  Variable R F : W1 -> W2 -> Prop.
  (** Is writer 1 allowed to panic? *)
  Variable Pn : Prop.
  (** What holds of writer 1 when it failed and with writer 2 the formatter went on to a panic. *)
  Variable Pf : W1 -> Prop.

  Definition fres {A B} (G : A -> B -> Prop) (a : A) (r : res B) : Prop :=
    match r with Ok b | Err b => G a b | Panic => True end.
  Definition sim {A B} (Q G : A -> B -> Prop) (K : A -> Prop) (r1 : res A) (r2 : res B) : Prop :=
    match r1 with
    | Ok a => match r2 with Ok b => Q a b | _ => False end
    | Err a => match r2 with Err b => Q a b \/ G a b | Ok b => G a b | Panic => K a end
    | Panic => r2 = Panic \/ Pn
    end.

  Hypothesis Hwr : forall w1 w2 s, R w1 w2 -> sim R F Pf (wr1 w1 s) (wr2 w2 s).
  Hypothesis HP : forall w1 w2, F w1 w2 -> Pf w1.
  Hypothesis HF : forall w1 w2 s, F w1 w2 -> fres F w1 (wr2 w2 s).


  Lemma sim_bind {A1 A2} (Q G : A1 -> A2 -> Prop) (P : A1 -> Prop) r1 r2 k1 k2 :
    (forall a b, G a b -> P a) -> sim Q G P r1 r2 -> (forall a b, Q a b -> sim Q G P (k1 a) (k2 b)) -> (forall a b, G a b -> fres G a (k2 b)) ->
    sim Q G P (r1 >>= k1) (r2 >>= k2).
  Proof.
    unfold sim, fres. intros HG H K M. destruct r1 as [a|a|], r2 as [b|b|]; cbn [bind] in *; try contradiction; auto.
    - apply K, H.
    - specialize (M _ _ H). specialize (HG _ _ H). destruct (k2 b); auto.
    - destruct H; [discriminate|auto].
  Qed.
  Lemma fres_bind {A1 A2} (G : A1 -> A2 -> Prop) a r2 k2 :
    fres G a r2 -> (forall b, G a b -> fres G a (k2 b)) -> fres G a (r2 >>= k2).
  Proof. destruct r2; cbn [bind]; intros A B; [apply B, A|exact A|exact I]. Qed.

  (** On formatters. *)
  Definition fR (f1 : fm W1) (f2 : fm W2) : Prop :=
    f_it f1 = f_it f2 /\ f_cde f1 = f_cde f2 /\ f_tq f1 = f_tq f2 /\ f_th f1 = f_th f2 /\ f_err f1 = f_err f2 /\
    R (f_out f1) (f_out f2).
  Definition fF (f1 : fm W1) (f2 : fm W2) : Prop := F (f_out f1) (f_out f2).

  Definition fP (f1 : fm W1) : Prop := Pf (f_out f1).
  Definition op (o1 : fm W1 -> res (fm W1)) (o2 : fm W2 -> res (fm W2)) : Prop :=
    (forall f1 f2, fR f1 f2 -> sim fR fF fP (o1 f1) (o2 f2)) /\ (forall f1 f2, fF f1 f2 -> fres fF f1 (o2 f2)).

  Lemma op_bind o1 o2 p1 p2 : op o1 o2 -> op p1 p2 -> op (fun f => o1 f >>= p1) (fun f => o2 f >>= p2).
  Proof.
    intros (A & B) (C & D). split; intros f1 f2 H.
    - apply sim_bind; auto. unfold fF, fP. eauto.
    - apply fres_bind; auto.
  Qed.
  Lemma op_put s : op (put W1 wr1 s) (put W2 wr2 s).
  Proof.
    split; intros f1 f2 H.
    - destruct H as (E1 & E2 & E3 & E4 & E5 & H). specialize (Hwr _ _ s H). unfold put, lift, sim in *.
      destruct (wr1 (f_out f1) s), (wr2 (f_out f2) s); try contradiction; auto.
      + repeat split; assumption.
      + destruct Hwr; [left|right]; [repeat split; assumption|assumption].
      + destruct Hwr; [discriminate|auto].
      + destruct Hwr; [discriminate|auto].
    - unfold fF in H. specialize (HF _ _ s H). unfold put, lift, fres in *. destruct (wr2 (f_out f2) s); auto.
  Qed.
  Lemma op_set g1 g2 o1 o2 :
    (forall f1 f2, fR f1 f2 -> fR (g1 f1) (g2 f2)) -> (forall f2, f_out (g2 f2) = f_out f2) -> (forall f1, f_out (g1 f1) = f_out f1) ->
    op o1 o2 -> op (fun f => o1 (g1 f)) (fun f => o2 (g2 f)).
  Proof.
    intros A B B1 (C & D). split; intros f1 f2 H; [auto|].
    specialize (D f1 (g2 f2)). unfold fF in *. rewrite B in D. auto.
  Qed.
  Lemma op_ok : op (fun f => Ok f) (fun f => Ok f).
  Proof. split; intros f1 f2 H; exact H. Qed.
  Lemma op_err : op (fun f => Err f) (fun f => Err f).
  Proof. split; intros f1 f2 H; [left; exact H|exact H]. Qed.
  Lemma op_if (t1 : fm W1 -> bool) (t2 : fm W2 -> bool) o1 o2 p1 p2 : (forall f1 f2, fR f1 f2 -> t1 f1 = t2 f2) ->
    op o1 o2 -> op p1 p2 -> op (fun f => if t1 f then o1 f else p1 f) (fun f => if t2 f then o2 f else p2 f).
  Proof.
    intros T (A & B) (C & D). split; intros f1 f2 H.
    - rewrite (T _ _ H). destruct (t2 f2); auto.
    - destruct (t2 f2); auto.
  Qed.

  Ltac flags := intros [? ? ? ? ? ?] [? ? ? ? ? ?] (? & ? & ? & ? & ? & ?); cbn in *; repeat split; cbn; congruence || assumption.
  Lemma op_set_it x o1 o2 : op o1 o2 -> op (fun f => o1 (set_it W1 x f)) (fun f => o2 (set_it W2 x f)).
  Proof. apply op_set; try reflexivity. flags. Qed.
  Lemma op_set_cde x o1 o2 : op o1 o2 -> op (fun f => o1 (set_cde W1 x f)) (fun f => o2 (set_cde W2 x f)).
  Proof. apply op_set; try reflexivity. flags. Qed.
  Lemma op_set_tq x o1 o2 : op o1 o2 -> op (fun f => o1 (set_tq W1 x f)) (fun f => o2 (set_tq W2 x f)).
  Proof. apply op_set; try reflexivity. flags. Qed.
  Lemma op_set_th x o1 o2 : op o1 o2 -> op (fun f => o1 (set_th W1 x f)) (fun f => o2 (set_th W2 x f)).
  Proof. apply op_set; try reflexivity. flags. Qed.
  Lemma op_set_err x o1 o2 : op o1 o2 -> op (fun f => o1 (set_err W1 x f)) (fun f => o2 (set_err W2 x f)).
  Proof. apply op_set; try reflexivity. flags. Qed.
  Lemma op_tq o1 o2 p1 p2 : op o1 o2 -> op p1 p2 ->
    op (fun f => if f_tq f then o1 f else p1 f) (fun f => if f_tq f then o2 f else p2 f).
  Proof. apply op_if. flags. Qed.
  Lemma op_cde o1 o2 p1 p2 : op o1 o2 -> op p1 p2 ->
    op (fun f => if f_cde f then o1 f else p1 f) (fun f => if f_cde f then o2 f else p2 f).
  Proof. apply op_if. flags. Qed.
  Lemma op_it o1 o2 p1 p2 : op o1 o2 -> op p1 p2 ->
    op (fun f => if f_it f then o1 f else p1 f) (fun f => if f_it f then o2 f else p2 f).
  Proof. apply op_if. flags. Qed.

  (** On bare writers. *)
  Definition wop (o1 : W1 -> res W1) (o2 : W2 -> res W2) : Prop :=
    (forall f1 f2, R f1 f2 -> sim R F Pf (o1 f1) (o2 f2)) /\ (forall f1 f2, F f1 f2 -> fres F f1 (o2 f2)).
  Lemma wop_bind o1 o2 p1 p2 : wop o1 o2 -> wop p1 p2 -> wop (fun f => o1 f >>= p1) (fun f => o2 f >>= p2).
  Proof.
    intros (A & B) (C & D). split; intros f1 f2 H.
    - apply sim_bind; eauto.
    - apply fres_bind; auto.
  Qed.
  Lemma wop_ok : wop (fun w => Ok w) (fun w => Ok w).
  Proof. split; intros; assumption. Qed.
  Lemma wop_wr s : wop (fun w => wr1 w s) (fun w => wr2 w s).
  Proof. split; auto. Qed.
  Lemma op_lift o1 o2 : wop o1 o2 -> op (fun f => lift W1 f (o1 (f_out f))) (fun f => lift W2 f (o2 (f_out f))).
  Proof.
    intros (A & B). split; intros f1 f2 H.
    - destruct H as (E1 & E2 & E3 & E4 & E5 & H). specialize (A _ _ H). unfold lift, sim in *.
      destruct (o1 (f_out f1)), (o2 (f_out f2)); try contradiction; auto.
      + repeat split; assumption.
      + destruct A; [left|right]; [repeat split; assumption|assumption].
      + destruct A; [discriminate|auto].
      + destruct A; [discriminate|auto].
    - unfold fF in H. specialize (B _ _ H). unfold lift, fres in *. destruct (o2 (f_out f2)); auto.
  Qed.

  Lemma wop_writes ss : wop (fun w => writes W1 wr1 w ss) (fun w => writes W2 wr2 w ss).
  Proof. induction ss as [|s ss IH]; cbn [writes]; [apply wop_ok|]. apply wop_bind; [apply wop_wr|exact IH]. Qed.
  Lemma wop_pending (p : bytes) :
    wop (fun w => match p with [] => Ok w | _ => wr1 w p end) (fun w => match p with [] => Ok w | _ => wr2 w p end).
  Proof. destruct p; [apply wop_ok|apply wop_wr]. Qed.
  Lemma wop_escape rest : forall p, wop (escape_loop W1 wr1 rest p) (escape_loop W2 wr2 rest p).
  Proof.
    induction rest as [|b rest IH]; intros p.
    - apply (wop_pending p).
    - assert (E : (exists es, escape_of b = Some es) \/ escape_of b = None) by (destruct (escape_of b); eauto).
      destruct E as [(es & E)|E].
      + assert (X : wop
          (fun w => (match p with [] => Ok w | _ => wr1 w p end) >>= fun w => writes W1 wr1 w es >>= fun w => escape_loop W1 wr1 rest [] w)
          (fun w => (match p with [] => Ok w | _ => wr2 w p end) >>= fun w => writes W2 wr2 w es >>= fun w => escape_loop W2 wr2 rest [] w)).
        { apply wop_bind; [apply wop_pending|]. apply wop_bind; [apply wop_writes|apply IH]. }
        destruct X as (X1 & X2). split; intros w1 w2 H; cbn [escape_loop]; rewrite E; auto.
      + destruct (IH (p ++ [b])) as (X1 & X2). split; intros w1 w2 H; cbn [escape_loop]; rewrite E; auto.
  Qed.

  (** Number texts. *)
  Definition nR (a : nstate W1) (b : nstate W2) : Prop := fst a = fst b /\ R (snd a) (snd b).
  Definition nF (a : nstate W1) (b : nstate W2) : Prop := F (snd a) (snd b).
  Definition nP (a : nstate W1) : Prop := Pf (snd a).
  Lemma num_loop_sim rest : forall h a b,
    (forall w1 w2, R w1 w2 -> sim nR nF nP (num_loop W1 wr1 rest h a b w1) (num_loop W2 wr2 rest h a b w2)) /\
    (forall x w2, F (snd x) w2 -> fres nF x (num_loop W2 wr2 rest h a b w2)).
  Proof.
    induction rest as [|c rest IH]; intros h a b.
    - split; [intros w1 w2 H; split; [reflexivity|exact H]|intros x w2 H; exact H].
    - assert (St : forall h o1 o2 (k1 : W1 -> res (nstate W1)) (k2 : W2 -> res (nstate W2)),
        wop o1 o2 ->
        (forall w1 w2, R w1 w2 -> sim nR nF nP (k1 w1) (k2 w2)) ->
        (forall x w2, F (snd x) w2 -> fres nF x (k2 w2)) ->
        (forall w1 w2, R w1 w2 -> sim nR nF nP
          (match o1 w1 with Ok w => k1 w | Err w => Err (h, a, b, w) | Panic => Panic end)
          (match o2 w2 with Ok w => k2 w | Err w => Err (h, a, b, w) | Panic => Panic end)) /\
        (forall x w2, F (snd x) w2 -> fres nF x (match o2 w2 with Ok w => k2 w | Err w => Err (h, a, b, w) | Panic => Panic end))).
      { clear h. intros h o1 o2 k1 k2 (A & B) K1 K2. split.
        - intros w1 w2 H. specialize (A _ _ H). unfold sim in A.
          destruct (o1 w1) as [x|x|] eqn:E1, (o2 w2) as [y|y|] eqn:E2; try contradiction; auto.
          + specialize (K2 (h, a, b, x) y A). pose proof (HP _ _ A). unfold sim, fres in *. destruct (k2 y); auto.
          + unfold sim. destruct A as [A|A]; [left; split; [reflexivity|exact A]|right; exact A].
          + unfold sim. destruct A as [A|A]; [discriminate|auto].
          + unfold sim. destruct A as [A|A]; [discriminate|auto].
          + left; reflexivity.
        - intros x w2 H. specialize (B (snd x) w2 H). unfold fres in B. destruct (o2 w2); [apply K2, B|exact B|exact I]. }
      cbn [num_loop]. cbv zeta.
      destruct ((N_of_ascii c =? 48)%N && n_start h); [apply IH|].
      destruct ((48 <=? N_of_ascii c)%N && (N_of_ascii c <=? 57)%N).
      { apply (St h (fun w => if n_start h && n_neg h then wr1 w ["-"%char] else Ok w)
                  (fun w => if n_start h && n_neg h then wr2 w ["-"%char] else Ok w)).
        - destruct (n_start h && n_neg h); [apply wop_wr|apply wop_ok].
        - apply IH.
        - apply IH. }
      destruct (N_of_ascii c =? 46)%N.
      { apply (St h (fun w => if n_start h then (if n_neg h then wr1 w ["-"%char] else Ok w) >>= fun w => wr1 w ["0"%char] else Ok w)
                  (fun w => if n_start h then (if n_neg h then wr2 w ["-"%char] else Ok w) >>= fun w => wr2 w ["0"%char] else Ok w)).
        - destruct (n_start h); [|apply wop_ok]. destruct (n_neg h).
          + apply (wop_bind (fun w => wr1 w ["-"%char]) (fun w => wr2 w ["-"%char])); apply wop_wr.
          + apply (wop_bind (fun w => Ok w) (fun w => Ok w)); [apply wop_ok|apply wop_wr].
        - apply IH.
        - apply IH. }
      destruct ((N_of_ascii c =? 45)%N && n_start h); [apply IH|].
      destruct ((N_of_ascii c =? 43)%N && n_start h); [apply IH|].
      match goal with |- context [if ?x then _ else _] => destruct x end; [|apply IH].
      apply (St (MkNum false (n_neg h) (n_zeroes h) true) (fun w => wr1 w (bs "null")) (fun w => wr2 w (bs "null"))).
      + apply wop_wr.
      + intros w1 w2 H; split; [reflexivity|exact H].
      + intros x w2 H; exact H.
  Qed.

  Definition hR (a : num * W1) (b : num * W2) : Prop := fst a = fst b /\ R (snd a) (snd b).
  Definition hF (a : num * W1) (b : num * W2) : Prop := F (snd a) (snd b).
  Definition hP (a : num * W1) : Prop := Pf (snd a).
  Lemma num_fragment_sim v h :
    (forall w1 w2, R w1 w2 -> sim hR hF hP (num_fragment W1 wr1 v h w1) (num_fragment W2 wr2 v h w2)) /\
    (forall x w2, F (snd x) w2 -> fres hF x (num_fragment W2 wr2 v h w2)).
  Proof.
    destruct (num_loop_sim v h 0 0) as (A & B). unfold num_fragment. destruct (n_nan h).
    { split; [intros w1 w2 H; split; [reflexivity|exact H]|intros x w2 H; exact H]. }
    split.
    - intros w1 w2 H. specialize (A _ _ H). unfold sim in A.
      destruct (num_loop W1 wr1 v h 0 0 w1) as [[[[h1 a1] b1] x1]|[[[h1 a1] b1] x1]|],
               (num_loop W2 wr2 v h 0 0 w2) as [[[[h2 a2] b2] x2]|[[[h2 a2] b2] x2]|]; try contradiction; auto.
      + destruct A as (E & A). cbn [fst snd] in E, A. injection E as -> -> ->.
        destruct (str_slice v a2 b2) as [s|]; [|left; reflexivity].
        destruct (wop_wr s) as (C & _). specialize (C _ _ A). unfold sim in *.
        destruct (wr1 x1 s), (wr2 x2 s); try contradiction; auto.
        * split; [reflexivity|exact C].
        * destruct C; [left; split; [reflexivity|assumption]|right; assumption].
        * destruct C; [discriminate|auto].
        * destruct C; [discriminate|auto].
      + cbn in A. unfold nF in A. cbn [snd] in A. destruct (str_slice v a2 b2) as [s|]; [|exact (HP _ _ A)].
        pose proof (HP _ _ A). specialize (HF _ _ s A). unfold sim, fres in *. destruct (wr2 x2 s); auto.
      + unfold sim. destruct A as [(E & A)|A]; [left|right; exact A]. cbn [fst snd] in E, A. split; [cbn; congruence|exact A].
      + unfold sim. destruct A as [A|A]; [discriminate|auto].
      + unfold sim. destruct A as [A|A]; [discriminate|auto].
      + left; reflexivity.
    - intros x w2 H. specialize (B (h, 0, 0, snd x) w2 H). unfold fres in B.
      destruct (num_loop W2 wr2 v h 0 0 w2) as [[[[h2 a2] b2] x2]|[[[h2 a2] b2] x2]|]; [|exact B|exact I].
      destruct (str_slice v a2 b2) as [s|]; [|exact I].
      specialize (HF _ _ s B). unfold fres in *. cbn [snd] in HF. destruct (wr2 x2 s); exact HF.
  Qed.

  Lemma op_text s : op (text_fragment_computed W1 wr1 s) (text_fragment_computed W2 wr2 s).
  Proof.
    destruct (op_lift _ _ (wop_escape s [])) as (A & B). destruct (op_put s) as (C & D).
    split.
    - intros f1 f2 H. unfold text_fragment_computed. pose proof H as (E1 & E2 & E3 & E4 & E5 & Ho). rewrite E4.
      destruct (f_th f2) as [[|n]|]; [apply C, H| |apply A, H].
      destruct (num_fragment_sim s n) as (X & _). specialize (X _ _ Ho). unfold sim in X.
      destruct (num_fragment W1 wr1 s n (f_out f1)) as [[n1 w1]|[n1 w1]|],
               (num_fragment W2 wr2 s n (f_out f2)) as [[n2 w2]|[n2 w2]|]; try contradiction; auto.
      + destruct X as (E & X). cbn in E, X. subst. repeat split; assumption.
      + cbn. unfold hF in X. destruct X as [(E & X)|X]; [left|right; exact X]. cbn in E, X. subst. repeat split; assumption.
      + destruct X; [discriminate|right; assumption].
      + destruct X; [discriminate|right; assumption].
      + left; reflexivity.
    - intros f1 f2 H. unfold text_fragment_computed.
      destruct (f_th f2) as [[|n]|]; [apply D, H| |apply B, H].
      destruct (num_fragment_sim s n) as (_ & X). specialize (X (n, f_out f1) (f_out f2) H). unfold fres in X.
      destruct (num_fragment W2 wr2 s n (f_out f2)) as [[n2 w2]|[n2 w2]|]; [exact X|exact X|exact I].
  Qed.

  (** The methods. *)
  Ltac fold_op := apply op_put || apply op_text || apply op_ok || apply op_err.
  Lemma op_null : op (j_null W1 wr1) (j_null W2 wr2).
  Proof. apply (op_set_cde false (put W1 wr1 _) (put W2 wr2 _)), op_put. Qed.
  Lemma op_bool b : op (j_bool W1 wr1 b) (j_bool W2 wr2 b).
  Proof. apply (op_set_cde false (put W1 wr1 _) (put W2 wr2 _)), op_put. Qed.
  Lemma op_int z : op (j_int W1 wr1 z) (j_int W2 wr2 z).
  Proof. apply (op_set_cde false (put W1 wr1 _) (put W2 wr2 _)), op_put. Qed.
  Lemma op_text_begin : op (j_text_begin W1 wr1) (j_text_begin W2 wr2).
  Proof.
    apply (op_set_cde false (fun f => if f_tq f then put W1 wr1 [dquote] f else Ok f)
                            (fun f => if f_tq f then put W2 wr2 [dquote] f else Ok f)).
    apply op_tq; [apply op_put|apply op_ok].
  Qed.
  Lemma op_text_end : op (j_text_end W1 wr1) (j_text_end W2 wr2).
  Proof. apply op_tq; [apply op_put|apply op_ok]. Qed.
  Lemma op_float r x : op (j_float W1 wr1 r x) (j_float W2 wr2 r x).
  Proof.
    unfold j_float. cbv zeta.
    apply (op_set_cde false (fun f => if is_nan x || is_infinite x then j_null W1 wr1 f else put W1 wr1 (r x) f)
                            (fun f => if is_nan x || is_infinite x then j_null W2 wr2 f else put W2 wr2 (r x) f)).
    destruct (is_nan x || is_infinite x); [apply op_null|apply op_put].
  Qed.
  Lemma op_invalid : op (invalid_key W1) (invalid_key W2).
  Proof. apply (op_set_err _ (fun f => Err f) (fun f => Err f)), op_err. Qed.
  Lemma op_map_begin : op (j_map_begin W1 wr1) (j_map_begin W2 wr2).
  Proof.
    apply op_tq; [|apply op_invalid]. apply (op_set_cde true (put W1 wr1 _) (put W2 wr2 _)), op_put.
  Qed.
  Lemma op_seq_begin : op (j_seq_begin W1 wr1) (j_seq_begin W2 wr2).
  Proof.
    apply op_tq; [|apply op_invalid]. apply (op_set_cde true (put W1 wr1 _) (put W2 wr2 _)), op_put.
  Qed.
  Lemma op_key_begin : op (j_map_key_begin W1 wr1) (j_map_key_begin W2 wr2).
  Proof.
    unfold j_map_key_begin. cbv zeta.
    apply (op_set_tq false (fun f => if f_cde (set_it W1 false f) then put W1 wr1 [dquote] (set_it W1 false f) else put W1 wr1 [","%char; dquote] (set_it W1 false f))
      (fun f => if f_cde (set_it W2 false f) then put W2 wr2 [dquote] (set_it W2 false f) else put W2 wr2 [","%char; dquote] (set_it W2 false f))).
    apply (op_set_it false (fun f => if f_cde f then put W1 wr1 [dquote] f else put W1 wr1 [","%char; dquote] f)
      (fun f => if f_cde f then put W2 wr2 [dquote] f else put W2 wr2 [","%char; dquote] f)).
    apply op_cde; apply op_put.
  Qed.
  Lemma op_key_end : op (j_map_key_end W1 wr1) (j_map_key_end W2 wr2).
  Proof.
    unfold j_map_key_end. apply (op_bind (put W1 wr1 _) (put W2 wr2 _)); [apply op_put|].
    apply (op_set_tq true (fun f => Ok f) (fun f => Ok f)), op_ok.
  Qed.
  Lemma op_map_end : op (j_map_end W1 wr1) (j_map_end W2 wr2).
  Proof. apply (op_set_cde false (put W1 wr1 _) (put W2 wr2 _)), op_put. Qed.
  Lemma op_seq_end : op (j_seq_end W1 wr1) (j_seq_end W2 wr2).
  Proof. apply (op_set_cde false (put W1 wr1 _) (put W2 wr2 _)), op_put. Qed.
  Lemma op_seq_val : op (j_seq_value_begin W1 wr1) (j_seq_value_begin W2 wr2).
  Proof.
    unfold j_seq_value_begin. cbv zeta.
    apply (op_set_it false (fun f => if f_cde f then Ok f else put W1 wr1 (bs ",") f)
      (fun f => if f_cde f then Ok f else put W2 wr2 (bs ",") f)).
    apply op_cde; [apply op_ok|apply op_put].
  Qed.
  Lemma op_itb l i : op (internally_tagged_begin W1 wr1 l i) (internally_tagged_begin W2 wr2 l i).
  Proof.
    unfold internally_tagged_begin. apply op_it; [|apply op_ok]. cbv zeta.
    destruct l as [l|].
    - apply (op_set_it false (tagged_map_begin_label W1 wr1 (l_text l)) (tagged_map_begin_label W2 wr2 (l_text l))).
      unfold tagged_map_begin_label.
      apply (op_bind (fun f => j_map_begin W1 wr1 f >>= j_map_key_begin W1 wr1 >>= (fun f => lift W1 f (escape_str W1 wr1 (l_text l) (f_out f))))
                     (fun f => j_map_begin W2 wr2 f >>= j_map_key_begin W2 wr2 >>= (fun f => lift W2 f (escape_str W2 wr2 (l_text l) (f_out f)))));
        [|apply op_key_end].
      apply (op_bind (fun f => j_map_begin W1 wr1 f >>= j_map_key_begin W1 wr1) (fun f => j_map_begin W2 wr2 f >>= j_map_key_begin W2 wr2));
        [apply op_bind; [apply op_map_begin|apply op_key_begin]|].
      apply (op_lift _ _ (wop_escape (l_text l) [])).
    - destruct (index_i64 i) as [z|]; [|apply (op_set_it false (fun f => Ok f) (fun f => Ok f)), op_ok].
      apply (op_set_it false (tagged_map_begin_index W1 wr1 z) (tagged_map_begin_index W2 wr2 z)).
      unfold tagged_map_begin_index.
      apply (op_bind (fun f => j_map_begin W1 wr1 f >>= j_map_key_begin W1 wr1 >>= j_int W1 wr1 z)
                     (fun f => j_map_begin W2 wr2 f >>= j_map_key_begin W2 wr2 >>= j_int W2 wr2 z));
        [|apply op_key_end].
      apply (op_bind (fun f => j_map_begin W1 wr1 f >>= j_map_key_begin W1 wr1) (fun f => j_map_begin W2 wr2 f >>= j_map_key_begin W2 wr2));
        [apply op_bind; [apply op_map_begin|apply op_key_begin]|apply op_int].
  Qed.
  Lemma op_ite l i : op (internally_tagged_end W1 l i) (internally_tagged_end W2 l i).
  Proof. apply (op_set_it _ (fun f => Ok f) (fun f => Ok f)), op_ok. Qed.
  Lemma op_tag t l i : op (j_tag W1 wr1 t l i) (j_tag W2 wr2 t l i).
  Proof.
    unfold j_tag. cbv zeta.
    pose (g1 := fun f => if otag_is t RUST_OPTION_NONE then j_null W1 wr1 f
       else match l with Some l => j_str W1 wr1 (l_text l) f
         | None => match index_i64 i with Some z => j_int W1 wr1 z f | None => j_null W1 wr1 f end end).
    pose (g2 := fun f => if otag_is t RUST_OPTION_NONE then j_null W2 wr2 f
       else match l with Some l => j_str W2 wr2 (l_text l) f
         | None => match index_i64 i with Some z => j_int W2 wr2 z f | None => j_null W2 wr2 f end end).
    assert (X : op g1 g2).
    { unfold g1, g2. destruct (otag_is t RUST_OPTION_NONE); [apply op_null|]. destruct l as [l|].
      - unfold j_str. apply (op_bind (fun f => j_text_begin W1 wr1 f >>= text_fragment_computed W1 wr1 (l_text l))
          (fun f => j_text_begin W2 wr2 f >>= text_fragment_computed W2 wr2 (l_text l))); [|apply op_text_end].
        apply op_bind; [apply op_text_begin|apply op_text].
      - destruct (index_i64 i); [apply op_int|apply op_null]. }
    apply (op_set_it false (fun f => g1 (set_cde W1 false f)) (fun f => g2 (set_cde W2 false f))).
    apply (op_set_cde false g1 g2), X.
  Qed.
  Lemma op_enum_begin l i : op (j_enum_begin W1 wr1 l i) (j_enum_begin W2 wr2 l i).
  Proof.
    unfold j_enum_begin. apply op_bind; [apply op_itb|].
    apply (op_set_it true (fun f => Ok (set_cde W1 true f)) (fun f => Ok (set_cde W2 true f))).
    apply (op_set_cde true (fun f => Ok f) (fun f => Ok f)), op_ok.
  Qed.
  Lemma op_tag_if t l i :
    op (fun f => if f_cde f then j_tag W1 wr1 t l i f else Ok f) (fun f => if f_cde f then j_tag W2 wr2 t l i f else Ok f).
  Proof. apply op_cde; [apply op_tag|apply op_ok]. Qed.
  Lemma op_enum_end t l i : op (j_enum_end W1 wr1 t l i) (j_enum_end W2 wr2 t l i).
  Proof.
    unfold j_enum_end. apply (op_bind _ _ _ _ (op_tag_if t l i)). apply op_it; [apply op_map_end|apply op_ite].
  Qed.
  Lemma op_tagged_begin t l i : op (j_tagged_begin W1 wr1 t l i) (j_tagged_begin W2 wr2 t l i).
  Proof.
    assert (X : op (fun f => internally_tagged_begin W1 wr1 l i f >>= fun f => Ok (set_cde W1 true f))
                   (fun f => internally_tagged_begin W2 wr2 l i f >>= fun f => Ok (set_cde W2 true f))).
    { apply op_bind; [apply op_itb|]. apply (op_set_cde true (fun f => Ok f) (fun f => Ok f)), op_ok. }
    unfold j_tagged_begin. cbv zeta.
    destruct (otag_is t JSON_TEXT); [apply (op_set_th _ _ _ X)|].
    destruct (otag_is t JSON_VALUE).
    { apply (op_set_tq false _ _ (op_set_th (Some HNative) _ _ X)). }
    destruct (otag_is t NUMBER).
    { split; intros f1 f2 H.
      - pose proof H as (E1 & E2 & E3 & E4 & E5 & Ho). cbn [f_th set_tq]. rewrite E4.
        destruct (f_th f2); [apply (proj1 (op_set_tq false _ _ X) _ _ H)|apply (proj1 (op_set_tq false _ _ (op_set_th (Some handler_number) _ _ X)) _ _ H)].
      - cbn [f_th set_tq]. destruct (f_th f2); [apply (proj2 (op_set_tq false _ _ X) _ _ H)|apply (proj2 (op_set_tq false _ _ (op_set_th (Some handler_number) _ _ X)) _ _ H)]. }
    destruct (otag_is t JSON_NUMBER).
    { apply (op_set_tq false _ _ (op_set_th (Some HNative) _ _ X)). }
    exact X.
  Qed.
  Lemma op_tagged_end t l i : op (j_tagged_end W1 wr1 t l i) (j_tagged_end W2 wr2 t l i).
  Proof.
    unfold j_tagged_end.
    pose (g1 := fun f => (if f_cde f then j_tag W1 wr1 t l i f else Ok f) >>= internally_tagged_end W1 l i).
    pose (g2 := fun f => (if f_cde f then j_tag W2 wr2 t l i f else Ok f) >>= internally_tagged_end W2 l i).
    assert (X : op g1 g2) by (apply (op_bind _ _ _ _ (op_tag_if t l i)), op_ite).
    pose proof op_ok as O.
    destruct (otag_is t JSON_TEXT); [apply (op_bind _ _ g1 g2 (op_set_th None _ _ O) X)|].
    destruct (otag_is t JSON_VALUE); [apply (op_bind _ _ g1 g2 (op_set_tq true _ _ (op_set_th None _ _ O)) X)|].
    destruct (otag_is t NUMBER); [|destruct (otag_is t JSON_NUMBER); [apply (op_bind _ _ g1 g2 (op_set_tq true _ _ (op_set_th None _ _ O)) X)|apply (op_bind _ _ g1 g2 O X)]].
    apply (op_bind _ _ g1 g2); [|exact X].
    cbv zeta. split.
    - intros f1 f2 H. pose proof H as (E1 & E2 & E3 & E4 & E5 & Ho). cbn [f_th set_tq]. rewrite E4.
      destruct (f_th f2) as [[|n]|]; try apply (proj1 (op_set_tq true _ _ (op_set_th None _ _ O)) _ _ H).
      assert (Y : op (fun f => lift W1 f (num_end W1 wr1 n (f_out f))) (fun f => lift W2 f (num_end W2 wr2 n (f_out f)))).
      { apply op_lift. unfold num_end. destruct (n_start n); [apply wop_wr|apply wop_ok]. }
      apply (proj1 (op_set_tq true _ _ (op_set_th None _ _ Y)) _ _ H).
    - intros f1 f2 H. cbn [f_th set_tq].
      destruct (f_th f2) as [[|n]|]; try apply (proj2 (op_set_tq true _ _ (op_set_th None _ _ O)) _ _ H).
      assert (Y : op (fun f => lift W1 f (num_end W1 wr1 n (f_out f))) (fun f => lift W2 f (num_end W2 wr2 n (f_out f)))).
      { apply op_lift. unfold num_end. destruct (n_start n); [apply wop_wr|apply wop_ok]. }
      apply (proj2 (op_set_tq true _ _ (op_set_th None _ _ Y)) _ _ H).
  Qed.
  Lemma op_record_val l : op (j_record_value_begin W1 wr1 l) (j_record_value_begin W2 wr2 l).
  Proof.
    unfold j_record_value_begin. cbv zeta.
    pose (g1 := fun f => (if f_cde f then put W1 wr1 [dquote] f else put W1 wr1 [","%char; dquote] f) >>= fun f =>
      (if otag_is (l_tag l) VALUE_IDENT then put W1 wr1 (l_text l) f else lift W1 f (escape_str W1 wr1 (l_text l) (f_out f))) >>= fun f =>
      put W1 wr1 [dquote; ":"%char] f).
    pose (g2 := fun f => (if f_cde f then put W2 wr2 [dquote] f else put W2 wr2 [","%char; dquote] f) >>= fun f =>
      (if otag_is (l_tag l) VALUE_IDENT then put W2 wr2 (l_text l) f else lift W2 f (escape_str W2 wr2 (l_text l) (f_out f))) >>= fun f =>
      put W2 wr2 [dquote; ":"%char] f).
    apply (op_set_it false g1 g2). unfold g1, g2.
    apply (op_bind (fun f => if f_cde f then put W1 wr1 [dquote] f else put W1 wr1 [","%char; dquote] f)
      (fun f => if f_cde f then put W2 wr2 [dquote] f else put W2 wr2 [","%char; dquote] f)); [apply op_cde; apply op_put|].
    apply (op_bind (fun f => if otag_is (l_tag l) VALUE_IDENT then put W1 wr1 (l_text l) f else lift W1 f (escape_str W1 wr1 (l_text l) (f_out f)))
      (fun f => if otag_is (l_tag l) VALUE_IDENT then put W2 wr2 (l_text l) f else lift W2 f (escape_str W2 wr2 (l_text l) (f_out f)))); [|apply op_put].
    destruct (otag_is (l_tag l) VALUE_IDENT); [apply op_put|apply (op_lift _ _ (wop_escape (l_text l) []))].
  Qed.

  Lemma op_step e : op (fun f => json_step W1 wr1 ryu32 ryu64 f e) (fun f => json_step W2 wr2 ryu32 ryu64 f e).
  Proof.
    destruct e; cbn [json_step];
      first [apply op_err | apply op_ok | apply op_null | apply op_bool | apply op_text_begin | apply op_text | apply op_text_end
            | apply op_int | apply op_float | apply op_map_begin | apply op_key_begin | apply op_key_end | apply op_map_end
            | apply op_seq_begin | apply op_seq_val | apply op_seq_end | apply op_enum_begin | apply op_enum_end
            | apply op_tagged_begin | apply op_tagged_end | apply op_tag | apply op_record_val | idtac].
    - unfold j_record_begin. apply op_bind; [apply op_itb|apply op_map_begin].
    - unfold j_record_end. apply op_bind; [apply op_map_end|apply op_ite].
    - unfold j_tuple_begin. apply op_bind; [apply op_itb|apply op_seq_begin].
    - unfold j_tuple_end. apply op_bind; [apply op_seq_end|apply op_ite].
  Qed.
  Lemma op_run es : op (fun f => run (json_step W1 wr1 ryu32 ryu64) f es) (fun f => run (json_step W2 wr2 ryu32 ryu64) f es).
  Proof.
    induction es as [|e es IH]; cbn [run]; [apply op_ok|]. apply (op_bind _ _ _ _ (op_step e) IH).
  Qed.
  Lemma op_meth e : op (fun f => meth json_over (json_step W1 wr1 ryu32 ryu64) f e) (fun f => meth json_over (json_step W2 wr2 ryu32 ryu64) f e).
  Proof. apply op_run. Qed.
  Lemma op_meths es : op (fun f => run (meth json_over (json_step W1 wr1 ryu32 ryu64)) f es) (fun f => run (meth json_over (json_step W2 wr2 ryu32 ryu64)) f es).
  Proof.
    induction es as [|e es IH]; cbn [run]; [apply op_ok|]. apply (op_bind _ _ _ _ (op_meth e) IH).
  Qed.
  Lemma op_value v : op (fun f => run_impl json_over (json_step W1 wr1 ryu32 ryu64) f v) (fun f => run_impl json_over (json_step W2 wr2 ryu32 ryu64) f v).
  Proof.
    unfold run_impl. destruct (flat v false) as [es ok].
    apply (op_bind _ _ _ _ (op_run _)). destruct ok; [apply op_ok|apply op_err].
  Qed.
End Sim.
