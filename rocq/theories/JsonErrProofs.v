(** * JsonErrProofs: where a value cannot be written as JSON, proofs (C77) *)

From Verif Require Import Base Event Tree LowerModel LowerSpec FlatProofs LowerProofs MethProofs DataModel
  JsonModel JsonGrammar JsonSpec JsonMethProofs JsonProofs JsonImageProofs JsonSimProofs JsonProps JsonLocalProofs JsonLocalProps JsonErrSpec.

Section Err.
  Variable r32 r64 : float -> bytes.
  Notation step := (json_step bytes string_write r32 r64).
  Notation jm := (meth json_over step).
  Notation J := (run jm).

  (** The outcome of writing something that fails if [bad]. *)
  Definition fares (bad : bool) (K : fm bytes -> Prop) (r : res (fm bytes)) : Prop :=
    match r with
    | Ok g => bad = false /\ K g
    | Err g => bad = true /\ f_err g = Some EInvalidKey
    | Panic => True
    end.
  Lemma fares_bind b1 b2 K1 K2 r k : fares b1 K1 r -> (forall g, r = Ok g -> K1 g -> fares b2 K2 (k g)) -> fares (b1 || b2) K2 (r >>= k).
  Proof.
    intros H M. destruct r as [g|g|]; cbn [fares bind] in *; auto.
    - destruct H as (-> & H). exact (M g eq_refl H).
    - destruct H as (-> & H). auto.
  Qed.
  Lemma fares_then b K1 K2 r k : fares b K1 r -> (forall g, r = Ok g -> K1 g -> fares false K2 (k g)) -> fares b K2 (r >>= k).
  Proof. intros H M. rewrite <- (orb_false_r b). eapply fares_bind; eauto. Qed.
  Lemma fares_weak b (K1 K2 : _ -> Prop) r : fares b K1 r -> (forall g, r = Ok g -> K1 g -> K2 g) -> fares b K2 r.
  Proof. destruct r; cbn; intuition. Qed.

  Lemma text_fares s f : fares false (fun g => f_it g = f_it f) (text_fragment_computed bytes string_write s f).
  Proof.
    unfold text_fragment_computed. destruct (f_th f) as [[|n]|].
    - cbn. auto.
    - assert (X : forall n w, match num_fragment bytes string_write s n w with Err _ => False | _ => True end).
      { intros m w. unfold num_fragment. destruct (n_nan m); [exact I|].
        assert (Y : forall rest h a b w, match num_loop bytes string_write rest h a b w with Err _ => False | _ => True end).
        { induction rest as [|c rest IH]; intros h a b w0; cbn [num_loop]; [exact I|]. cbv zeta.
          repeat match goal with
          | |- match (if ?b then _ else _) with _ => _ end => destruct b
          | |- match num_loop _ _ rest _ _ _ _ with _ => _ end => apply IH
          | |- context [string_write ?w ?s] => change (string_write w s) with (@Ok bytes (w ++ s)); cbv iota beta
          | |- context [(if ?b then _ else Ok _) >>= _] => destruct b; cbn [bind]
          | |- context [match (if ?b then _ else Ok _) with _ => _ end] => destruct b; cbn [bind]
          end; try exact I; try apply IH. }
        specialize (Y s m 0 0 w). destruct (num_loop bytes string_write s m 0 0 w) as [[[[h a] b] w']|[[[h a] b] w']|]; try contradiction; [|exact I].
        destruct (str_slice s a b); exact I. }
      specialize (X n (f_out f)). destruct (num_fragment bytes string_write s n (f_out f)) as [[? ?]|[? ?]|]; cbn; auto; contradiction.
    - rewrite escape_str_pure. cbn. auto.
  Qed.

  Lemma str_fares s f : fares false (fun g => f_it g = f_it f) (j_str bytes string_write s f).
  Proof.
    unfold j_str. eapply (fares_then _ (fun g => f_it g = f_it f)); [eapply (fares_then _ (fun g => f_it g = f_it f))|].
    - unfold j_text_begin. cbv zeta. cbn [f_tq set_cde]. destruct (f_tq f); cbn; auto.
    - intros g _ E. eapply fares_weak; [apply text_fares|]. cbn. congruence.
    - intros g _ E. unfold j_text_end. destruct (f_tq g); cbn; auto.
  Qed.
  Lemma tag_fares t l i f : fares false (fun g => f_it g = false) (j_tag bytes string_write t l i f).
  Proof.
    unfold j_tag. cbv zeta. destruct (otag_is t RUST_OPTION_NONE); [cbn; auto|]. destruct l as [l|].
    - eapply fares_weak; [apply str_fares|]. cbn. auto.
    - destruct (index_i64 i); cbn; auto.
  Qed.
  Lemma itb_fares l i f : fares (negb (f_tq f) && f_it f && is_named l i) (fun g => f_it g = false /\ f_tq g = f_tq f) (internally_tagged_begin bytes string_write l i f).
  Proof.
    destruct (f_tq f) eqn:Q.
    - cbn [negb andb]. unfold internally_tagged_begin. destruct (f_it f) eqn:I; [|cbn; auto]. cbv zeta. destruct l as [l|].
      + unfold tagged_map_begin_label, j_map_begin. cbn [f_tq set_it]. rewrite Q. rewrite put_pure. cbn [bind].
        unfold j_map_key_begin. cbv zeta. cbn [f_cde set_cde set_it set_tq set_out]. rewrite put_pure. cbn [bind].
        rewrite escape_str_pure. cbn [lift bind]. unfold j_map_key_end. rewrite put_pure. cbn. auto.
      + destruct (index_i64 i); [|cbn; auto].
        unfold tagged_map_begin_index, j_map_begin. cbn [f_tq set_it]. rewrite Q. rewrite put_pure. cbn [bind].
        unfold j_map_key_begin. cbv zeta. cbn [f_cde set_cde set_it set_tq set_out]. rewrite put_pure. cbn [bind].
        unfold j_int. rewrite put_pure. cbn [bind]. unfold j_map_key_end. rewrite put_pure. cbn. auto.
    - destruct (itb_key l i f Q) as [(A & B & g & R & E)|(A & R)]; rewrite R; cbn [fares negb andb].
      + rewrite A, B. auto.
      + rewrite A. auto.
  Qed.

  Definition told (t : tree) : Prop := forall f,
    fares (misplaced (negb (f_tq f)) (f_it f) t) (fun g => f_tq f = false -> f_it g = lingers (f_it f) t) (J f (emit t)).

  (** Members of a container: each is opened by [o], which leaves the formatter outside
      enums and keys. *)
  Lemma blocks_fare {A} (block : A -> list ev) (bad : A -> bool) xs :
    (forall x, In x xs -> forall f, f_tq f = true -> fares (bad x) (fun g => f_tq g = true) (J f (block x))) ->
    forall f, f_tq f = true -> fares (existsb bad xs) (fun g => f_tq g = true) (J f (flat_map block xs)).
  Proof.
    induction xs as [|x xs IH]; intros H f Q; cbn [flat_map existsb]; [cbn; auto|].
    rewrite run_app. eapply fares_bind; [apply H; [left; reflexivity|exact Q]|].
    intros g _ Qg. apply IH; [|exact Qg]. intros y I. apply H. right. exact I.
  Qed.
  (** A value between two calls. *)
  Lemma member_fares t b e : told t ->
    (forall f, f_tq f = true -> fares false (fun g => f_tq g = true /\ f_it g = false) (jm f b)) ->
    (forall f, jm f e = Ok f) ->
    forall f, f_tq f = true -> fares (misplaced false false t) (fun g => f_tq g = true) (J f (b :: emit t ++ [e])).
  Proof.
    intros T B E f Q. rewrite run_cons. rewrite <- (orb_false_l (misplaced _ _ _)). eapply fares_bind; [apply B, Q|].
    intros g _ (Qg & I). rewrite run_app. eapply fares_then.
    - specialize (T g). rewrite Qg, I in T. exact T.
    - intros h R _. apply all_settle in R as ((_ & K & _) & _). rewrite run_one, E. cbn. auto.
  Qed.
  Lemma svb_fares f : f_tq f = true -> fares false (fun g => f_tq g = true /\ f_it g = false) (j_seq_value_begin bytes string_write f).
  Proof. intros Q. unfold j_seq_value_begin. cbv zeta. cbn [f_cde set_it]. destruct (f_cde f); cbn; auto. Qed.
  Lemma rvb_fares l f : f_tq f = true -> fares false (fun g => f_tq g = true /\ f_it g = false) (j_record_value_begin bytes string_write l f).
  Proof.
    intros Q. unfold j_record_value_begin. cbv zeta. cbn [f_cde set_it].
    destruct (f_cde f); rewrite put_pure; cbn [bind]; (destruct (otag_is (l_tag l) VALUE_IDENT); [rewrite put_pure|rewrite escape_str_pure]; cbn; auto).
  Qed.
  Lemma mb_fares f : fares (negb (f_tq f)) (fun g => f_tq g = true /\ f_tq f = true) (j_map_begin bytes string_write f).
  Proof. unfold j_map_begin. destruct (f_tq f) eqn:Q; cbn; auto. Qed.
  Lemma sb_fares f : fares (negb (f_tq f)) (fun g => f_tq g = true /\ f_tq f = true) (j_seq_begin bytes string_write f).
  Proof. unfold j_seq_begin. destruct (f_tq f) eqn:Q; cbn; auto. Qed.
  (** Structs and tuples. *)
  Lemma named_fares l i f (o : fm bytes -> res (fm bytes)) :
    (forall f, fares (negb (f_tq f)) (fun g => f_tq g = true /\ f_tq f = true) (o f)) ->
    fares (negb (f_tq f)) (fun g => f_tq g = true /\ f_tq f = true) (internally_tagged_begin bytes string_write l i f >>= o).
  Proof.
    intros O. pose proof (itb_fares l i f) as H. destruct (internally_tagged_begin bytes string_write l i f) as [g|g|]; cbn [fares bind] in *; auto.
    - destruct H as (_ & _ & E). specialize (O g). rewrite E in O. exact O.
    - destruct H as (H & E). split; [|exact E]. destruct (f_tq f); [discriminate|reflexivity].
  Qed.
  (** Containers: fail in a scalar position, otherwise as their members do. *)
  Lemma container_fares b bad (body : list ev) e f it :
    fares (negb (f_tq f)) (fun g => f_tq g = true /\ f_tq f = true) (jm f b) ->
    (forall g, f_tq g = true -> fares bad (fun h => f_tq h = true) (J g body)) ->
    (forall g, exists h, jm g e = Ok h) ->
    fares (negb (f_tq f) || bad) (fun g => f_tq f = false -> f_it g = it) (J f (b :: body ++ [e])).
  Proof.
    intros B M E. rewrite run_cons. eapply fares_bind; [exact B|]. intros g _ (Q & Qf). rewrite run_app.
    eapply fares_then; [apply M, Q|]. intros h _ _. rewrite run_one. destruct (E h) as (k & ->). cbn. split; [reflexivity|]. congruence.
  Qed.

  Lemma ite_named l i f : internally_tagged_end bytes l i f = Ok (set_it bytes (is_named l i) f).
  Proof. unfold internally_tagged_end, is_named. rewrite index_i64_named. destruct l; [reflexivity|]. destruct (index_i64 i); reflexivity. Qed.
  Lemma tagged_begin_fares t l i f :
    fares ((negb (f_tq f) || unquoted t) && f_it f && is_named l i) (fun g => f_it g = false /\ negb (f_tq g) = negb (f_tq f) || unquoted t)
      (j_tagged_begin bytes string_write t l i f).
  Proof.
    unfold j_tagged_begin. cbv zeta.
    match goal with |- context [internally_tagged_begin bytes string_write l i ?g] =>
      assert (X : f_it g = f_it f /\ negb (f_tq g) = negb (f_tq f) || unquoted t); [|destruct X as (X1 & X2); set (f' := g) in *] end.
    { unfold unquoted. destruct (otag_is t JSON_TEXT) eqn:E.
      - destruct t as [t|]; [|discriminate]. apply bytes_eqb_eq in E. subst t. split; [reflexivity|]. cbn [f_tq set_th]. symmetry. apply orb_false_r.
      - destruct (otag_is t JSON_VALUE); [cbn; rewrite orb_true_r; auto|].
        destruct (otag_is t NUMBER); [cbn [f_th set_tq]; destruct (f_th f); cbn; rewrite orb_true_r; auto|].
        destruct (otag_is t JSON_NUMBER); cbn; [rewrite orb_true_r|rewrite orb_false_r]; auto. }
    rewrite <- X1, <- X2. eapply fares_then; [apply itb_fares|]. intros g _ (A & B). cbn. rewrite B. auto.
  Qed.
  Lemma tagged_end_fares t l i f : fares false (fun g => f_it g = is_named l i) (j_tagged_end bytes string_write t l i f).
  Proof.
    unfold j_tagged_end. eapply (fares_then _ (fun _ => True)).
    - destruct (otag_is t JSON_TEXT); [cbn; auto|]. destruct (otag_is t JSON_VALUE); [cbn; auto|].
      destruct (otag_is t NUMBER).
      + cbv zeta. cbn [f_th set_tq]. destruct (f_th f) as [[|n]|]; [cbn; auto| |cbn; auto].
        unfold num_end. destruct (n_start n); cbn; auto.
      + destruct (otag_is t JSON_NUMBER); cbn; auto.
    - intros g _ _. eapply (fares_then _ (fun _ => True)).
      + destruct (f_cde g); [|cbn; auto]. eapply fares_weak; [apply tag_fares|]. auto.
      + intros h _ _. rewrite ite_named. cbn. auto.
  Qed.

  Lemma all_told t : told t.
  Proof.
    induction t using tree_ind'; intros g; cbn [emit misplaced lingers].
    1-5: rewrite run_one, jm_over by reflexivity; cbn [json_step]; unfold j_float; cbv zeta;
         try match goal with |- context [if ?b then j_null _ _ _ else _] => destruct b end; cbn; auto.
    - rewrite run_cons, jm_over by reflexivity. cbn [json_step].
      eapply (fares_then _ (fun h => f_it h = f_it g)); [|intros h _ Eh].
      + unfold j_text_begin. cbv zeta. cbn [f_tq set_cde]. destruct (f_tq g); cbn; auto.
      + rewrite run_app. eapply (fares_then _ (fun h => f_it h = f_it g)).
        * revert h Eh. induction fs as [|[b s] fs IH]; intros h Eh; cbn [map]; [cbn; auto|]. rewrite run_cons.
          eapply (fares_then _ (fun h => f_it h = f_it g)); [|intros k _; apply IH].
          assert (Y : jm h (text_frag (b, s)) = text_fragment_computed bytes string_write s h)
            by (unfold text_frag; destruct b; cbn [fst snd]; [apply jm_text_frag|rewrite jm_over by reflexivity; reflexivity]).
          rewrite Y. eapply fares_weak; [apply text_fares|]. cbn. congruence.
        * intros k _ Ek. rewrite run_one, jm_over by reflexivity. cbn [json_step]. unfold j_text_end. destruct (f_tq k); cbn; auto.
    - rewrite <- (orb_false_r (negb (f_tq g))). apply container_fares.
      + rewrite jm_bin_begin. apply sb_fares.
      + intros h Q. rewrite bin_blocks, <- flat_map_concat_map.
        replace false with (existsb (fun _ : byte => false) (frags_text fs)) by (induction (frags_text fs); auto).
        apply blocks_fare; [|exact Q]. intros b _ f Qf.
        apply (member_fares (TInt U8 (byte_val b)) ESeqValBegin ESeqValEnd); [| | |exact Qf].
        * intros f'. cbn [emit misplaced lingers]. rewrite run_one, jm_over by reflexivity. cbn. auto.
        * intros f'. rewrite jm_over by reflexivity. apply svb_fares.
        * intros f'. rewrite jm_over by reflexivity. reflexivity.
      + intros h. rewrite jm_bin_end. eexists. reflexivity.
    - rewrite run_one, jm_over by reflexivity. cbn [json_step]. eapply fares_weak; [apply tag_fares|]. cbn. auto.
    - rewrite run_cons, jm_hint. cbn [bind]. apply IHt.
    - rewrite run_cons, jm_over by reflexivity. cbn [json_step]. eapply fares_bind; [apply tagged_begin_fares|].
      intros h _ (A & B). rewrite run_app. rewrite <- B. eapply fares_then.
      + specialize (IHt h). rewrite A in IHt. exact IHt.
      + intros k _ _. rewrite run_one, jm_over by reflexivity. cbn [json_step]. eapply fares_weak; [apply tagged_end_fares|]. cbn. auto.
    - rewrite run_cons, jm_over by reflexivity. cbn [json_step]. unfold j_enum_begin.
      eapply (fares_bind _ _ (fun h => f_it h = true /\ f_tq h = f_tq g)).
      + eapply fares_then; [apply itb_fares|]. intros h _ (_ & B). cbn. auto.
      + intros h _ (A & B). rewrite run_app. rewrite <- B. eapply fares_then.
        * specialize (IHt h). rewrite A in IHt. exact IHt.
        * intros k R E. apply all_settle in R as (_ & C). rewrite run_one, jm_over by reflexivity. cbn [json_step]. unfold j_enum_end.
          rewrite C. cbn [bind]. destruct (f_it k) eqn:Ik.
          -- cbn. split; [reflexivity|]. intros Q. rewrite <- (E Q), Ik. reflexivity.
          -- rewrite ite_named. cbn. split; [reflexivity|]. intros Q. rewrite <- (E Q), Ik. reflexivity.
    - apply container_fares.
      + rewrite jm_over by reflexivity. apply sb_fares.
      + intros h Q. apply blocks_fare; [|exact Q]. intros v I f Qf. rewrite Forall_forall in H.
        apply (member_fares v ESeqValBegin ESeqValEnd); [apply H, I| | |exact Qf].
        * intros f'. rewrite jm_over by reflexivity. apply svb_fares.
        * intros f'. rewrite jm_over by reflexivity. reflexivity.
      + intros h. rewrite jm_over by reflexivity. eexists. reflexivity.
    - apply container_fares.
      + rewrite jm_over by reflexivity. apply mb_fares.
      + intros h Q. rewrite Forall_forall in H.
        apply (blocks_fare (fun kv => match kv with (k, v) => EMapKeyBegin :: emit k ++ EMapKeyEnd :: EMapValBegin :: emit v ++ [EMapValEnd] end)
          (fun e => misplaced true false (fst e) || misplaced false (lingers false (fst e)) (snd e))); [|exact Q].
        intros [k v] I f Qf. destruct (H _ I) as (Hk & Hv). cbn [fst snd] in *.
        rewrite run_cons, jm_over by reflexivity. cbn [json_step].
        rewrite <- (orb_false_l (_ || _)). eapply (fares_bind _ _ (fun a => f_tq a = false /\ f_it a = false)).
        * unfold j_map_key_begin. cbv zeta. cbn [f_cde set_it set_tq]. destruct (f_cde f); cbn; auto.
        * intros a _ (Qa & Ia). rewrite run_app. eapply (fares_bind _ _ (fun b => f_it b = lingers false k)).
          -- specialize (Hk a). rewrite Qa, Ia in Hk. eapply fares_weak; [exact Hk|]. cbn. auto.
          -- intros b _ Eb. rewrite run_cons, jm_over by reflexivity. cbn [json_step]. unfold j_map_key_end. rewrite put_pure. cbn [bind].
             rewrite run_cons, jm_over by reflexivity. cbn [json_step bind]. rewrite run_app. eapply fares_then.
             ++ match goal with |- fares _ _ (J ?x _) => specialize (Hv x) end. cbn [f_tq f_it set_tq set_out negb] in Hv. rewrite Eb in Hv. exact Hv.
             ++ intros c R _. apply all_settle in R as ((_ & K & _) & _). rewrite run_one, jm_over by reflexivity. cbn. auto.
      + intros h. rewrite jm_over by reflexivity. eexists. reflexivity.
    - apply container_fares.
      + rewrite jm_over by reflexivity. apply named_fares, mb_fares.
      + intros h Q. rewrite Forall_forall in H.
        apply (blocks_fare (fun f => match f with (ft, fl, v) => ERecordValBegin ft fl :: emit v ++ [ERecordValEnd ft fl] end)
          (fun f => misplaced false false (snd f))); [|exact Q].
        intros [[ft fl] v] I f Qf. apply (member_fares v (ERecordValBegin ft fl) (ERecordValEnd ft fl)); [apply (H _ I)| | |exact Qf].
        * intros f'. rewrite jm_over by reflexivity. apply rvb_fares.
        * intros f'. apply jm_record_val_end.
      + intros h. rewrite jm_over by reflexivity. cbn [json_step]. unfold j_record_end, j_map_end. rewrite put_pure. cbn [bind]. rewrite ite_named. eauto.
    - apply container_fares.
      + rewrite jm_over by reflexivity. apply named_fares, sb_fares.
      + intros h Q. rewrite Forall_forall in H.
        apply (blocks_fare (fun f => match f with (ft, fi, v) => ETupleValBegin ft fi :: emit v ++ [ETupleValEnd ft fi] end)
          (fun f => misplaced false false (snd f))); [|exact Q].
        intros [[ft fi] v] I f Qf. apply (member_fares v (ETupleValBegin ft fi) (ETupleValEnd ft fi)); [apply (H _ I)| | |exact Qf].
        * intros f'. rewrite jm_tuple_val_begin. apply svb_fares.
        * intros f'. apply jm_tuple_val_end.
      + intros h. rewrite jm_over by reflexivity. cbn [json_step]. unfold j_tuple_end, j_seq_end. rewrite put_pure. cbn [bind]. rewrite ite_named. eauto.
    - apply container_fares.
      + rewrite jm_rectup_begin. apply named_fares, mb_fares.
      + intros h Q. rewrite Forall_forall in H.
        apply (blocks_fare (fun f => match f with (ft, fl, fi, v) => ERecTupValBegin ft fl fi :: emit v ++ [ERecTupValEnd ft fl fi] end)
          (fun f => misplaced false false (snd f))); [|exact Q].
        intros [[[ft fl] fi] v] I f Qf. apply (member_fares v (ERecTupValBegin ft fl fi) (ERecTupValEnd ft fl fi)); [apply (H _ I)| | |exact Qf].
        * intros f'. rewrite jm_rectup_val_begin. apply rvb_fares.
        * intros f'. apply jm_rectup_val_end.
      + intros h. rewrite jm_rectup_end. unfold j_record_end, j_map_end. rewrite put_pure. cbn [bind]. rewrite ite_named. eauto.
  Qed.
End Err.
