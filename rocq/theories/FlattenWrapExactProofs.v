(** * FlattenWrapExactProofs: flattening where positions wrap around (C84)

    As the last part of FlattenProofs.v, for the flattener without overflow
    checks, whose positions always exist. *)

From Verif Require Import Base Event Tree LowerModel MethProofs DataModel FlattenModel FlattenSpec FlattenProofs FlattenWrapModel FlattenWrapSpec FlattenWrapProofs.

Lemma wrap_around z : wrap_isize z = around z.
Proof. unfold wrap_isize, around. rewrite Z.mod_eq by discriminate. lia. Qed.

Section Wrapped.
  Variable W : Type.
  Variable out : W -> ev -> res W.
  Variable r64 : float -> bytes.
  Variable kind : fkind.
  Variable top : nat.
  Variable offset : Z.
  Hypothesis calm : forall w e, out w e <> Panic.
  Notation st := (fst_t W).
  Notation step := (f_step_w W out r64 kind top).
  Notation sd := (f_set_depth W).
  Notation body := (fun v => map key_end_as_begin (emit v)).
  Notation klabel := (fun k => kept [] false (key_parts r64 k)).
  Notation does := (FlattenProofs.does W).
  Notation ready := (FlattenProofs.ready W offset).
  Notation below := (FlattenProofs.below W out kind).
  Notation at_depth := (FlattenProofs.at_depth W).
  Notation upto_seen := (FlattenProofs.upto_seen W).
  Notation does_bind := (FlattenProofs.does_bind W out).
  Notation does_weaken := (FlattenProofs.does_weaken W out).
  Notation does_send := (FlattenProofs.does_send W out).
  Notation does_at := (FlattenProofs.does_at W).
  Notation does_cont := (FlattenProofs.does_cont W).
  Notation does_stream := (FlattenProofs.does_stream W out kind).
  Notation field_begin_does := (FlattenProofs.field_begin_does W out kind).
  Notation field_end_does := (FlattenProofs.field_end_does W out kind).
  Notation run_map_key := (FlattenProofs.run_map_key W out kind).
  Notation run_no_key := (FlattenProofs.run_no_key W out kind).
  Notation run_label_key := (FlattenProofs.run_label_key W out kind).
  Notation field_plain := (FlattenProofs.field_plain r64 kind).
  Notation field_entry := (FlattenProofs.field_entry r64 kind).

  Lemma next_begin_place g i next : f_initial W g = offset -> f_current g = next ->
    next_begin_w W g i = place_around offset next i.
  Proof.
    intros I C. unfold next_begin_w, place_around. destruct i as [i|]; [|rewrite C; reflexivity].
    rewrite index_to_isize, I. destruct (otag_is (i_tag i) VALUE_OFFSET); cbn [andb]; [|reflexivity].
    destruct (fits I64 (i_val i)); [|reflexivity]. rewrite wrap_around. reflexivity.
  Qed.
  Lemma next_end_place g i next : f_initial W g = offset -> f_current g = next ->
    next_end_w W g i = (place_around offset next i, f_set_current W (next_around next (place_around offset next i)) g).
  Proof.
    intros I C. unfold next_end_w. rewrite (next_begin_place _ _ _ I C), index_to_isize, C, wrap_around.
    unfold next_around. destruct (fits I64 (i_val (place_around offset next i))); reflexivity.
  Qed.
  Lemma does_run_app g a b P es fs Q :
    does (run step g a) P (run out (f_w g) es) ->
    (forall g', P g' -> does (run step g' b) Q (run out (f_w g') fs)) ->
    does (run step g (a ++ b)) Q (run out (f_w g) (es ++ fs)).
  Proof. intros H K. rewrite !run_app. eapply does_bind; [exact H|exact K]. Qed.
  Lemma does_calm r P w es : does r P (run out w es) -> r <> Panic.
  Proof.
    intros D ->. pose proof (calm_run W out calm es w) as N.
    destruct (run out w es); cbn in D; [destruct D as (g & D & _); discriminate D|destruct D as (g & D & _); discriminate D|congruence].
  Qed.
  Lemma child_through v g d : f_depth W g = S d -> f_inkey W g = false -> f_seen W g = false ->
    does (run step g (emit v)) (fun g' => g' = f_set_w W (f_w g') g)
         (run out (f_w g) (map key_end_as_begin (emit v))).
  Proof.
    intros D K S. pose proof (FlattenProofs.child_through W out r64 kind v g d D K S) as C.
    rewrite run_same; [exact C|]. eapply does_calm. exact C.
  Qed.
  Lemma key_calm k g : run (below true) g (emit k) <> Panic.
  Proof.
    destruct (kind_cases kind) as [Kd|[Kd|Kd]].
    - eapply does_calm. apply run_map_key. exact Kd.
    - rewrite run_no_key by exact Kd. discriminate.
    - rewrite run_label_key by exact Kd. destruct (lb_emit r64 (f_label W g) k) as (b & -> & _). discriminate.
  Qed.
  Lemma key_at k g : f_depth W g = 1 -> f_inkey W g = true ->
    at_depth 1 (run step g (emit k)) (run (below true) g (emit k)).
  Proof.
    intros D0 K0. pose proof (emit_at W out r64 kind true k 0 g K0) as A.
    replace (sd 1 g) with g in A by (destruct g; cbn in *; subst; reflexivity).
    rewrite run_same; [exact A|]. intros Q. rewrite Q in A. pose proof (key_calm k g) as N.
    destruct (run (below true) g (emit k)); cbn in A; [discriminate A|destruct A as (g' & A & _); discriminate A|congruence].
  Qed.

  (** From the end of the opening to the end of the closing. *)
  Lemma tail_does t l i v d b next g g' :
    ready (S d) b next g -> g' = f_set_w W (f_w g') g ->
    does (run step g' (emit v) >>= close_field_w W out r64 kind t l i)
         (ready (S d) b (next_around next (place_around offset next i)))
         (run out (f_w g') (body v ++
            [end_ev kind t (index_label r64 (place_around offset next i) l) (place_around offset next i)])).
  Proof.
    intros (D & K & S & L & I & C & E) G.
    rewrite run_app. eapply does_bind.
    - eapply child_through; rewrite G; [exact D|exact K|exact S].
    - cbn beta. intros g2 G2. unfold close_field_w.
      rewrite (next_end_place g2 i next); [|rewrite G2, G; exact I|rewrite G2, G; exact C].
      set (nx := next_around next (place_around offset next i)).
      eapply does_weaken; [apply (field_end_does t _ _ (f_set_current W nx g2)); rewrite G2, G; exact S|].
      intros g3 G3. rewrite G3, G2, G. repeat split; try assumption.
  Qed.

  Lemma field_does n t i v d b next g :
    (forall k, n <> NKey k) ->
    ready (S d) b next g ->
    does (open_field_w W out r64 kind t (match n with NLabel l => Some l | _ => None end) i g
          >>= (fun g => run step g (emit v))
          >>= close_field_w W out r64 kind t (match n with NLabel l => Some l | _ => None end) i)
         (ready (S d) b (next_around next (place_around offset next i)))
         (run out (f_w g) (field klabel kind body (MkChild t n i v, place_around offset next i))).
  Proof.
    intros NK R. pose proof R as (D & K & S & L & I & C & E).
    rewrite (field_plain _ _ _ _ _ NK).
    replace (label_for klabel n (place_around offset next i))
      with (index_label r64 (place_around offset next i) (match n with NLabel l => Some l | _ => None end))
      by (destruct n as [l| |k]; cbn [label_for]; [reflexivity|apply index_label_text|exfalso; exact (NK k eq_refl)]).
    unfold open_field_w. rewrite (next_begin_place _ _ _ I C).
    rewrite run_app, bind_assoc. eapply does_bind; [apply field_begin_does; exact S|].
    cbn beta. intros g' G. eapply tail_does; eassumption.
  Qed.

  (** A map entry: its key, and the opening of its value. *)

  Lemma key_does k b next g : ready 1 b next g ->
    does (run step g (EMapKeyBegin :: emit k ++ [EMapKeyEnd; EMapValBegin])) (keyed W r64 kind k g)
         (run out (f_w g) (entry_begin r64 kind k (place_around offset next None))).
  Proof.
    intros (D & K & S & L & I & C & E).
    assert (Hb : forall g, f_depth W g = 1 ->
      step g EMapKeyBegin = (f_labels W out kind EMapKeyBegin g >>= fun g => Ok (f_set_inkey W true g))).
    { intros g0 D0. cbn. unfold flattenable_value. rewrite D0. reflexivity. }
    assert (He : forall g, f_depth W g = 1 ->
      step g EMapKeyEnd = (f_labels W out kind EMapKeyEnd g >>= fun g => Ok (f_set_inkey W false g))).
    { intros g0 D0. cbn. unfold flattenable_value. rewrite D0. reflexivity. }
    assert (Hv : forall g, f_depth W g = 1 ->
      step g EMapValBegin = (let (b, g) := f_take W kind g in
          let g := f_set_key W b g in open_field_w W out r64 kind None (Some (lb_label r64 (f_key W g))) None g)).
    { intros g0 D0. cbn. unfold flattenable_value. rewrite D0. reflexivity. }
    assert (Hk : forall g, f_depth W g = 1 -> f_inkey W g = true ->
      at_depth 1 (run step g (emit k)) (run (below true) g (emit k))).
    { apply key_at. }

    rewrite run_cons, (Hb g D). unfold entry_begin.
    destruct (kind_cases kind) as [Kd|[Kd|Kd]].
    - (* onto a map *)
      replace (match kind with FMap => _ | _ => _ end)
        with ([EMapKeyBegin] ++ emit k ++ [EMapKeyEnd] ++ [EMapValBegin]) by (rewrite Kd; reflexivity).
      rewrite run_app, bind_assoc. eapply does_bind.
      { unfold f_labels. rewrite Kd. rewrite <- Kd. apply does_stream; [exact Kd|discriminate|exact S]. }
      cbn beta. intros g1 G1. cbn [bind]. rewrite !run_app.
      eapply does_bind with (P := fun g' => exists s, g' = f_set_seen W s (f_set_inkey W true (f_set_w W (f_w g') g))).
      { eapply does_weaken.
        - eapply does_at; [apply (Hk (f_set_inkey W true g1)); rewrite G1; [exact D|reflexivity]|].
          exact (run_map_key (emit k) Kd (f_set_inkey W true g1)).
        - cbn beta. intros g' (g2 & -> & G2). unfold upto_seen in G2. exists (f_seen W g2).
          rewrite G2, G1. destruct g; cbn in *; subst; reflexivity. }
      intros g2 (s & G2). change ([EMapKeyEnd; EMapValBegin]) with ([EMapKeyEnd] ++ [EMapValBegin]).
      rewrite (run_app step), (run_one step), He by (rewrite G2; exact D). rewrite bind_assoc.
      eapply does_bind with (P := fun g' => g' = f_set_seen W true (f_set_inkey W true (f_set_w W (f_w g') g))).
      { unfold f_labels, f_stream. rewrite Kd, <- (run_one out).
        eapply does_weaken; [exact (does_send EMapKeyEnd (f_set_seen W true g2))|].
        intros g3 G3. rewrite G3, G2. reflexivity. }
      intros g3 G3. cbn [bind]. rewrite (run_one step), Hv by (rewrite G3; exact D).
      unfold f_take. rewrite Kd. unfold open_field_w, next_begin_w, field_begin.
      replace (f_seen W (f_set_key W LBEmpty (f_set_inkey W false g3))) with true by (rewrite G3; reflexivity).
      cbn [bind f_stream].
      eapply does_weaken; [exact (does_send EMapValBegin (f_set_seen W false (f_set_key W LBEmpty (f_set_inkey W false g3))))|].
      intros g4 G4. exists LBEmpty. split; [|intros [H|H]; discriminate H].
      rewrite G4, G3. destruct g; cbn in *; subst; reflexivity.
    - (* keys are dropped *)
      assert (Hl : forall e g, f_labels W out kind e g = Ok g)
        by (intros; unfold f_labels; destruct Kd as [-> | ->]; reflexivity).
      rewrite Hl. cbn [bind]. rewrite run_app.
      pose proof (Hk (f_set_inkey W true g) D eq_refl) as A.
      rewrite (run_no_key (emit k) Kd) in A. cbn in A. rewrite A. cbn [bind].
      rewrite run_cons, He by reflexivity. rewrite Hl. cbn [bind].
      rewrite run_one, Hv by reflexivity.
      assert (Ht : forall g, f_take W kind g = (LBEmpty, g))
        by (intros; unfold f_take; destruct Kd as [-> | ->]; reflexivity).
      rewrite Ht. cbn zeta. unfold open_field_w.
      set (g2 := f_set_key W LBEmpty _).
      rewrite (next_begin_place g2 None next I C).
      cbn [index_label].
      replace (match kind with FMap => _ | _ => _ end) with (begin_evs kind None (lb_label r64 (f_key W g2)) (place_around offset next None))
        by (unfold begin_evs; destruct Kd as [-> | ->]; reflexivity).
      eapply does_weaken; [exact (field_begin_does None _ _ g2 S)|].
      intros g3 G3. exists LBEmpty. split; [|intros H; destruct Kd as [Kd|Kd]; rewrite Kd in H; destruct H as [H|H]; discriminate H].
      rewrite G3. unfold g2. destruct g; cbn in *; subst; reflexivity.
    - (* keys become labels *)
      assert (Hl : forall e g, f_labels W out kind e g =
        match lbm (f_label W g) e with
        | Ok b => Ok (f_set_label W b g) | Err b => Err (f_set_label W b g) | Panic => Panic end)
        by (intros; unfold f_labels; destruct Kd as [-> | ->]; reflexivity).
      destruct (lb_event r64 9 (f_label W g) EMapKeyBegin) as (b1 & E1 & S1); [cbn; lia|].
      rewrite Hl, E1. cbn [bind]. rewrite run_app.
      set (g1 := f_set_inkey W true (f_set_label W b1 g)).
      pose proof (Hk g1 D eq_refl) as A.
      rewrite (run_label_key (emit k) Kd) in A.
      destruct (lb_emit r64 (f_label W g1) k) as (b2 & E2 & S2). rewrite E2 in A. cbn [at_depth] in A.
      rewrite A. cbn [bind]. rewrite run_cons, He by reflexivity. rewrite Hl.
      cbn [f_set_depth f_set_label f_label].
      destruct (lb_event r64 9 b2 EMapKeyEnd) as (b3 & E3 & S3); [cbn; lia|].
      rewrite E3. cbn [bind]. rewrite run_one, Hv by reflexivity.
      assert (Ht : forall g, f_take W kind g = (f_label W g, f_set_label W LBEmpty g))
        by (intros; unfold f_take; destruct Kd as [-> | ->]; reflexivity).
      rewrite Ht. cbn zeta. unfold open_field_w.
      set (g2 := f_set_key W _ _).
      rewrite (next_begin_place g2 None next I C).
      cbn [index_label].
      assert (Hb3 : lb_label r64 b3 = label_new_computed (klabel k)).
      { rewrite lb_label_text, S3. cbn [fold_left ev_parts]. rewrite S2.
        change (f_label W g1) with b1. rewrite S1. cbn [fold_left ev_parts]. rewrite L.
        rewrite kept_fold. reflexivity. }
      change (f_key W g2) with b3. rewrite Hb3.
      replace (match kind with FMap => _ | _ => _ end) with (begin_evs kind None (label_for klabel (NKey k) (place_around offset next None)) (place_around offset next None))
        by (destruct Kd as [-> | ->]; reflexivity).
      eapply does_weaken; [exact (field_begin_does None _ _ g2 S)|].
      intros g3 G3. exists b3. split; [|intros _; exact Hb3].
      rewrite G3. unfold g2. destruct g; cbn in *; subst; reflexivity.
  Qed.

  Lemma entry_does k v b next g :
    ready 1 b next g ->
    does (run step g (EMapKeyBegin :: emit k ++ EMapKeyEnd :: EMapValBegin :: emit v ++ [EMapValEnd]))
         (ready 1 b (next_around next (place_around offset next None)))
         (run out (f_w g) (field klabel kind body (MkChild None (NKey k) None v, place_around offset next None))).
  Proof.
    intros R.
    replace (EMapKeyBegin :: emit k ++ EMapKeyEnd :: EMapValBegin :: emit v ++ [EMapValEnd])
      with ((EMapKeyBegin :: emit k ++ [EMapKeyEnd; EMapValBegin]) ++ emit v ++ [EMapValEnd])
      by (cbn [app]; rewrite <- app_assoc; reflexivity).
    rewrite field_entry, run_app, (run_app out). eapply does_bind; [eapply key_does; exact R|].
    intros g1 (b1 & G1 & B1). rewrite run_app.
    replace (run step g1 (emit v) >>= (fun s' => run step s' [EMapValEnd]))
      with (run step g1 (emit v) >>= close_field_w W out r64 kind None (Some (lb_label r64 b1)) None).
    - eapply does_weaken.
      + pose proof (tail_does None (Some (lb_label r64 b1)) None v 0 b next (f_set_key W b1 g) g1) as T.
        cbn [index_label] in T.
        replace (end_ev kind None (label_for klabel (NKey k) (place_around offset next None)) (place_around offset next None))
          with (end_ev kind None (lb_label r64 b1) (place_around offset next None)).
        * apply T; [destruct R as (D & K & S & L & I & C & E); repeat split; assumption|].
          rewrite G1. reflexivity.
        * unfold end_ev. destruct kind; try reflexivity; rewrite B1 by (auto); reflexivity.
      + intros g2 G2. exact G2.
    - pose proof R as (D & K & S & L & I & C & E).
      assert (Hc : does (run step g1 (emit v)) (fun g' => g' = f_set_w W (f_w g') g1)
                     (run out (f_w g1) (map key_end_as_begin (emit v)))).
      { eapply child_through with (d := 0); rewrite G1; [exact D|exact K|exact S]. }
      destruct (run step g1 (emit v)) as [g2|g2|] eqn:ER; cbn [bind]; try reflexivity.
      destruct (run out (f_w g1) (map key_end_as_begin (emit v))); cbn in Hc.
      + destruct Hc as (g3 & G3 & _ & G4). inversion G3; subst g3. rewrite run_one. cbn [f_step_w].
        unfold flattenable_value.
        replace (f_depth W g2) with 1 by (rewrite G4, G1; symmetry; exact D). cbn [Nat.eqb].
        replace (f_key W g2) with b1 by (rewrite G4, G1; reflexivity). reflexivity.
      + destruct Hc as (g3 & G3 & _). discriminate G3.
      + discriminate Hc.
  Qed.

  Lemma after_value t l i v d b next g k1 k2 :
    ready (S d) b next g ->
    (forall g2, g2 = f_set_w W (f_w g2) g -> k1 g2 = k2 g2) ->
    open_field_w W out r64 kind t l i g >>= (fun g => run step g (emit v)) >>= k1 =
    open_field_w W out r64 kind t l i g >>= (fun g => run step g (emit v)) >>= k2.
  Proof.
    intros (D & K & S & L & I & C & E) H. unfold open_field_w.
    rewrite (next_begin_place _ _ _ I C), !bind_assoc.
    eapply does_cont; [apply field_begin_does; exact S|]. cbn beta. intros g1 G1.
    eapply does_cont; [eapply child_through; rewrite G1; [exact D|exact K|exact S]|].
    cbn beta. intros g2 G2. apply H. rewrite G2, G1. reflexivity.
  Qed.

  (** One child of a container at the root. *)
  Lemma plain_does n t i v b next g eb ee :
    (forall k, n <> NKey k) ->
    (forall g, f_depth W g = 1 ->
       step g eb = open_field_w W out r64 kind t (match n with NLabel l => Some l | _ => None end) i g) ->
    (forall g, f_depth W g = 1 ->
       step g ee = close_field_w W out r64 kind t (match n with NLabel l => Some l | _ => None end) i g) ->
    ready 1 b next g ->
    does (run step g (eb :: emit v ++ [ee]))
         (ready 1 b (next_around next (place_around offset next i)))
         (run out (f_w g) (field klabel kind body (MkChild t n i v, place_around offset next i))).
  Proof.
    intros NK HB HE R. pose proof R as (D & _).
    rewrite run_cons, (HB g D).
    replace (open_field_w W out r64 kind t _ i g >>= (fun s' => run step s' (emit v ++ [ee])))
      with (open_field_w W out r64 kind t (match n with NLabel l => Some l | _ => None end) i g
            >>= (fun g => run step g (emit v))
            >>= close_field_w W out r64 kind t (match n with NLabel l => Some l | _ => None end) i).
    - apply field_does; assumption.
    - rewrite (after_value _ _ _ _ 0 b next _ _ (fun g => run step g [ee]) R).
      + rewrite bind_assoc. destruct (open_field_w _ _ _ _ _ _ _ _); cbn [bind]; try reflexivity.
        rewrite run_app. reflexivity.
      + intros g2 G2. rewrite run_one. symmetry. apply HE. rewrite G2. exact D.
  Qed.

  Lemma fields_does {A} (f : A -> list ev) (c : A -> child) b vs :
    (forall v next g, ready 1 b next g ->
       does (run step g (f v)) (ready 1 b (next_around next (place_around offset next (c_index (c v)))))
            (run out (f_w g) (field klabel kind body (c v, place_around offset next (c_index (c v)))))) ->
    forall next g, ready 1 b next g ->
    does (run step g (flat_map f vs)) (ready 1 b (end_around offset next (map c vs)))
         (run out (f_w g) (flat_map (field klabel kind body) (placed_around offset next (map c vs)))).
  Proof.
    intros H. induction vs as [|v vs IH]; intros next g R.
    - cbn. exists g. repeat split; apply R.
    - cbn [map flat_map placed_around end_around] in *.

      eapply does_run_app; [apply H; assumption|]. cbn beta. intros g1 R1. apply IH; assumption.
  Qed.

  Lemma block_does {A} b (f : A -> list ev) (c : A -> child) vs o e next g :
    opens o = true -> closes e = true ->
    (forall v next g, ready 1 b next g ->
       does (run step g (f v)) (ready 1 b (next_around next (place_around offset next (c_index (c v)))))
            (run out (f_w g) (field klabel kind body (c v, place_around offset next (c_index (c v)))))) ->
    ready 0 b next g ->
    does (run step g (o :: flat_map f vs ++ [e])) (ready 0 b (end_around offset next (map c vs)))
         (run out (f_w g) (flat_map (field klabel kind body) (placed_around offset next (map c vs)))).
  Proof.
    intros O C H (D & K & S & L & I & Cu & E).
    assert (EO : step g o = Ok (sd 1 g)).
    { destruct o; try discriminate O; cbn; unfold flattenable_begin; cbn; rewrite K, D; reflexivity. }
    rewrite run_cons, EO. cbn [bind].
    rewrite <- (app_nil_r (flat_map (field klabel kind body) _)).
    eapply (does_run_app (sd 1 g)).
    - apply (fields_does f c b vs H next (sd 1 g)); repeat split; assumption.
    - intros g1 (D1 & K1 & S1 & L1 & I1 & C1 & E1). rewrite run_one.
      assert (EC : step g1 e = Ok (sd 0 g1)).
      { destruct e; try discriminate C; cbn; unfold flattenable_end_w; cbn; rewrite K1, D1; cbn; rewrite D1; reflexivity. }
      rewrite EC. cbn. exists (sd 0 g1). repeat split; assumption.
  Qed.

  Definition rooted (b : bool) (t : tree) (next : Z) (g : st) : Prop :=
    ready 0 (b || enum_below t) (end_around offset next (children b t)) g.

  Lemma leaf_root es g : forallb leaf es = true -> f_depth W g = 0 ->
    (forall e, In e es -> match e with EEnumBegin _ _ _ | EEnumEnd _ _ _ => False | _ => True end) ->
    run step g es = Ok g.
  Proof.
    intros L D. induction es as [|e es IH]; intros NE; [reflexivity|].
    cbn in L. apply andb_prop in L as [L1 L2]. rewrite run_cons.
    replace (step g e) with (Ok g).
    - cbn [bind]. apply IH; [exact L2|]. intros e' I. apply NE. right; exact I.
    - pose proof (NE e (or_introl eq_refl)) as N.
      destruct e; try discriminate L1; try contradiction; cbn; unfold f_value, value_at_root; rewrite D; reflexivity.
  Qed.
  Lemma leaf_does es t b next g : forallb leaf es = true ->
    (forall e, In e es -> match e with EEnumBegin _ _ _ | EEnumEnd _ _ _ => False | _ => True end) ->
    children b t = [] -> enum_below t = false -> ready 0 b next g ->
    does (run step g es) (rooted b t next)
         (run out (f_w g) (flat_map (field klabel kind body) (placed_around offset next (children b t)))).
  Proof.
    intros L N C B R. rewrite leaf_root by (try assumption; apply R). unfold rooted. rewrite C, B, orb_false_r. cbn.
    exists g. repeat split; apply R.
  Qed.

  Lemma block_rooted r b t next rw : enum_below t = false ->
    does r (ready 0 b (end_around offset next (children b t))) rw -> does r (rooted b t next) rw.
  Proof. intros B H. eapply does_weaken; [exact H|]. intros g G. unfold rooted. rewrite B, orb_false_r. exact G. Qed.

  Lemma root_does t : forall b next g,
    b || negb (tagged_enum t) = true ->
    ready 0 b next g ->
    does (run step g (emit t)) (rooted b t next)
         (run out (f_w g) (flat_map (field klabel kind body) (placed_around offset next (children b t)))).
  Proof.
    induction t using tree_ind'; intros b' next g T R; pose proof R as (D & K & S & L & I & C & E);
      try (apply leaf_does; [reflexivity| |reflexivity|reflexivity|exact R];
           intros e0 [<-|[]]; exact Logic.I).
    - apply leaf_does; [| |reflexivity|reflexivity|exact R].
      + cbn. rewrite forallb_app. cbn. rewrite andb_true_r. clear. induction fs as [|[[|] s] fs IH]; cbn; auto.
      + intros e0 I0. cbn in I0. rewrite in_app_iff, in_map_iff in I0.
        destruct I0 as [<-|[([[|] s] & <- & _)|[<-|[]]]]; exact Logic.I.
    - apply leaf_does; [| |reflexivity|reflexivity|exact R].
      + cbn. rewrite forallb_app. cbn. rewrite andb_true_r. clear. induction fs as [|[[|] s] fs IH]; cbn; auto.
      + intros e0 I0. cbn in I0. rewrite in_app_iff, in_map_iff in I0.
        destruct I0 as [<-|[([[|] s] & <- & _)|[<-|[]]]]; exact Logic.I.
    - (* hint *)
      cbn [emit children] in *. rewrite run_cons.
      replace (step g (ETagHint t)) with (Ok g)
        by (cbn; unfold f_value, value_at_root; rewrite D; reflexivity).
      cbn [bind]. apply IHt; assumption.
    - (* tagged *)
      cbn [emit]. destruct b'.
      + (* the child of an enum *)
        cbn [children placed_around end_around flat_map] in *. rewrite app_nil_r.
        set (n := match l with Some l => NLabel l | None => NIndex end) in *.
        assert (EN : l = match n with NLabel l => Some l | _ => None end) by (destruct l; reflexivity).
        cbn [c_index] in *.
        assert (R1 : ready 1 true next (sd 1 g)) by (repeat split; assumption).
        rewrite run_cons.
        replace (step g (ETaggedBegin t l i)) with (open_field_w W out r64 kind None l i (sd 1 g))
          by (cbn; rewrite E; unfold flattenable_begin; cbn; rewrite K, D; reflexivity).
        replace (open_field_w W out r64 kind None l i (sd 1 g) >>= (fun s' => run step s' (emit t0 ++ [ETaggedEnd t l i])))
          with ((open_field_w W out r64 kind None l i (sd 1 g)
                 >>= (fun g => run step g (emit t0))
                 >>= close_field_w W out r64 kind None l i)
                >>= fun g => Ok (sd (match f_depth W g with O => top | Datatypes.S d => d end) g)).
        * rewrite EN.
          assert (NK : forall k, n <> NKey k) by (intros k; unfold n; destruct l; discriminate).
          pose proof (field_does n None i t0 0 true next (sd 1 g) NK R1) as FD.
          change (f_w (sd 1 g)) with (f_w g) in FD.
          destruct (run out (f_w g) _) as [w|w|]; cbn in FD |- *.
          -- destruct FD as (g1 & -> & W1 & R2). cbn [bind]. pose proof R2 as (D2 & K2 & S2 & L2 & I2 & C2 & E2).
             rewrite D2. exists (sd 0 g1). repeat split; try assumption.
          -- destruct FD as (g1 & -> & W1). exists g1. split; [reflexivity|exact W1].
          -- rewrite FD. reflexivity.
        * rewrite bind_assoc.
          rewrite (after_value None l i t0 0 true next (sd 1 g) _ (fun g => run step g [ETaggedEnd t l i]) R1).
          -- rewrite bind_assoc. destruct (open_field_w _ _ _ _ _ _ _ _); cbn [bind]; try reflexivity.
             rewrite run_app. reflexivity.
          -- intros g2 G2. rewrite run_one.
             cbn [f_step_w]. replace (f_enum W g2) with true by (rewrite G2; symmetry; exact E).
             unfold flattenable_end_w. replace (f_inkey W g2) with false by (rewrite G2; symmetry; exact K).
             replace (f_depth W g2) with 1 by (rewrite G2; reflexivity). reflexivity.
      + (* looked through *)
        cbn [orb tagged_enum] in T. apply negb_true_iff in T.
        cbn [children] in *. rewrite run_cons.
        replace (step g (ETaggedBegin t l i)) with (Ok g) by (cbn; rewrite E, D; reflexivity).
        cbn [bind]. rewrite <- (app_nil_r (flat_map _ _)).
        eapply does_run_app.
        * apply IHt; [|exact R]. cbn. rewrite enum_below_tagged by exact T. reflexivity.
        * intros g1 R1. unfold rooted in R1. rewrite T in R1. cbn [orb] in R1. rewrite run_one.
          pose proof R1 as (D1 & K1 & S1 & L1 & I1 & C1 & E1).
          replace (step g1 (ETaggedEnd t l i)) with (Ok g1) by (cbn; rewrite E1, D1; reflexivity).
          cbn. exists g1. split; [reflexivity|]. split; [reflexivity|]. unfold rooted. cbn. rewrite T. exact R1.
    - (* enum *)
      cbn [emit children] in *. rewrite run_cons.
      replace (step g (EEnumBegin t l i)) with (Ok (f_set_enum W true g))
        by (cbn; unfold value_at_root; rewrite D; reflexivity).
      cbn [bind]. rewrite <- (app_nil_r (flat_map _ _)).
      eapply (does_run_app (f_set_enum W true g)).
      + apply IHt; [reflexivity|repeat split; assumption].
      + intros g1 R1. rewrite run_one.
        pose proof R1 as (D1 & K1 & S1 & L1 & I1 & C1 & E1).
        replace (step g1 (EEnumEnd t l i)) with (Ok g1)
          by (cbn; unfold value_at_root; rewrite D1; reflexivity).
        cbn. exists g1. split; [reflexivity|]. split; [reflexivity|].
        unfold rooted. cbn [children enum_below]. rewrite orb_true_r. exact R1.
    - apply block_rooted; [reflexivity|]. cbn [emit children] in *.
      apply block_does; try reflexivity; try assumption.
      intros v nx g1 R1. apply (plain_does NIndex); try assumption; try discriminate;
        intros g0 D0; cbn; unfold flattenable_value; rewrite D0; reflexivity.
    - apply block_rooted; [reflexivity|]. cbn [emit children] in *.
      apply block_does; try reflexivity; try assumption.
      intros [k v] nx g1 R1. apply entry_does; assumption.
    - apply block_rooted; [reflexivity|]. cbn [emit children] in *.
      apply block_does; try reflexivity; try assumption.
      intros [[ft fl] v] nx g1 R1. apply (plain_does (NLabel fl)); try assumption; try discriminate;
        intros g0 D0; cbn; unfold flattenable_value; rewrite D0; reflexivity.
    - apply block_rooted; [reflexivity|]. cbn [emit children] in *.
      apply block_does; try reflexivity; try assumption.
      intros [[ft fi] v] nx g1 R1. apply (plain_does NIndex); try assumption; try discriminate;
        intros g0 D0; cbn; unfold flattenable_value; rewrite D0; reflexivity.
    - apply block_rooted; [reflexivity|]. cbn [emit children] in *.
      apply block_does; try reflexivity; try assumption.
      intros [[[ft fl] fi] v] nx g1 R1. apply (plain_does (NLabel fl)); try assumption; try discriminate;
        intros g0 D0; cbn; unfold flattenable_value; rewrite D0; reflexivity.
  Qed.


  (** Where the counter is after [n] stray ends. *)
  Definition after (n : nat) : nat := match n with O => O | S n => top - n end.
  Notation hoisted next t := (flat_map (field klabel kind body) (placed_around offset next (children false t))).
  Lemma strays_around u : forall next g, length (stray_ends u) < top -> ready 0 false next g ->
    does (run step g (emit u))
      (ready (after (length (stray_ends u))) (enum_below u) (end_around offset next (children false u)))
      (run out (f_w g) (hoisted next u ++ stray_ends u)).
  Proof.
    assert (Plain : forall t next g, tagged_enum t = false -> stray_ends t = [] -> ready 0 false next g ->
      does (run step g (emit t)) (ready (after (length (stray_ends t))) (enum_below t) (end_around offset next (children false t)))
        (run out (f_w g) (hoisted next t ++ stray_ends t))).
    { intros t next g T Z R. rewrite Z, app_nil_r. exact (root_does t false next g ltac:(rewrite T; reflexivity) R). }
    induction u using tree_ind'; intros next g Len R; try (apply Plain; [reflexivity|reflexivity|exact R]);
      pose proof R as (D & K & S & L & I & C & E); cbn [emit children stray_ends enum_below] in *.
    - rewrite run_cons. replace (step g (ETagHint t)) with (Ok g) by (cbn; unfold f_value, value_at_root; rewrite D; reflexivity).
      cbn [bind]. apply IHu; assumption.
    - destruct (enum_below u) eqn:B.
      + rewrite run_cons. replace (step g (ETaggedBegin t l i)) with (Ok g) by (cbn; rewrite E, D; reflexivity). cbn [bind].
        rewrite app_length in *. cbn [length] in *. rewrite Nat.add_1_r in *. rewrite app_assoc, !run_app.
        specialize (IHu next g ltac:(lia) R). rewrite run_app in IHu. eapply does_bind; [exact IHu|]. cbn beta. intros g1 (D1 & K1 & S1 & L1 & I1 & C1 & E1).
        rewrite !run_cons. cbn [f_step_w run]. rewrite E1. unfold flattenable_end_w. rewrite K1, D1.
        assert (N : Nat.eqb (after (length (stray_ends u))) 1 = false).
        { apply Nat.eqb_neq. unfold after. destruct (length (stray_ends u)); lia. }
        rewrite N. clear N.
        assert (F : f_stream W out kind (ETaggedEnd t l i) g1 = f_send W out (ETaggedEnd t l i) g1) by (unfold f_stream; destruct kind; reflexivity).
        rewrite F. unfold f_send, f_lift. destruct (out (f_w g1) (ETaggedEnd t l i)) as [w|w|]; cbn [bind FlattenProofs.does].
        * eexists. split; [reflexivity|]. split; [reflexivity|]. repeat split; try assumption.
          cbn [f_depth f_set_depth f_set_w]. rewrite D1. unfold after. destruct (length (stray_ends u)) as [|n]; [lia|].
          destruct (top - n) eqn:Tn; lia.
        * eexists. split; reflexivity.
        * reflexivity.
      + pose proof (Plain (TTagged t l i u) next g) as P. cbn [emit children stray_ends enum_below tagged_enum] in P. rewrite B in P. apply P; [reflexivity|reflexivity|exact R].
  Qed.
End Wrapped.
