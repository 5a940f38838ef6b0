(** * PreencodeProofs: the text does not change *)

From Verif Require Import Base Event Tree LowerModel LowerSpec FlatProofs LowerProofs MethProofs DataModel
  JsonModel JsonGrammar JsonSpec JsonMethProofs JsonProofs JsonImageProofs JsonSimProofs JsonProps JsonLocalProofs JsonLocalProps
  AdapterModel AdapterProps PreencodeSpec.

Section Pre.
  Variable r32 r64 : float -> bytes.
  Notation step := (json_step bytes string_write r32 r64).
  Notation jm := (meth json_over step).
  Notation J := (run jm).

  (** Equal but for what a failed formatter holds. *)
  Definition alike (r1 r2 : res (fm bytes)) : Prop :=
    match r1, r2 with
    | Ok a, Ok b => a = b
    | Err a, Err b => err_of a = err_of b
    | Panic, Panic => True
    | _, _ => False
    end.
  Lemma alike_refl r : alike r r. Proof. destruct r; cbn; auto. Qed.
  Lemma alike_bind r1 r2 k : alike r1 r2 -> alike (r1 >>= k) (r2 >>= k).
  Proof. destruct r1, r2; cbn; try contradiction; auto. intros ->. apply alike_refl. Qed.
  Lemma alike_sres r1 r2 : alike r1 r2 -> sres r1 = sres r2.
  Proof. destruct r1, r2; cbn; try contradiction; congruence. Qed.

  (** Two runs with the same outcome, up to the flag, before an event that sets it. *)
  Lemma yields_end f es es' p r e : yields r32 r64 f es p r -> yields r32 r64 f es' p r ->
    (forall it it' cde out, jm (st it cde out) e = jm (st it' cde out) e) ->
    alike (J f (es ++ [e])) (J f (es' ++ [e])).
  Proof.
    intros A B E. rewrite !run_app. unfold yields in *. destruct r.
    - destruct A as (x & ->), B as (y & ->). cbn [bind]. rewrite !run_one, (E x y). apply alike_refl.
    - destruct A as (x & -> & <-), B as (y & -> & Y). cbn. congruence.
    - rewrite A, B. exact I.
  Qed.
  Lemma itb_st l i x cde out : exists cde' out', internally_tagged_begin bytes string_write l i (st x cde out) = Ok (st false cde' out').
  Proof.
    unfold internally_tagged_begin. cbn [f_it st]. destruct x; [|eauto]. cbv zeta.
    destruct l as [l|].
    - unfold tagged_map_begin_label, j_map_begin. cbn [f_tq set_it st]. rewrite put_pure. cbn [bind].
      unfold j_map_key_begin. cbv zeta. cbn [f_cde set_it set_tq set_out set_cde]. rewrite put_pure. cbn [bind f_out set_out].
      rewrite escape_str_pure. cbn [lift bind]. unfold j_map_key_end. rewrite put_pure. cbn [bind]. eexists _, _. reflexivity.
    - destruct (index_i64 i) as [z|]; [|eexists _, _; reflexivity].
      unfold tagged_map_begin_index, j_map_begin. cbn [f_tq set_it st]. rewrite put_pure. cbn [bind].
      unfold j_map_key_begin. cbv zeta. cbn [f_cde set_it set_tq set_out set_cde]. rewrite put_pure. cbn [bind f_out set_out].
      unfold j_int. rewrite put_pure. cbn [bind]. unfold j_map_key_end. rewrite put_pure. cbn [bind]. eexists _, _. reflexivity.
  Qed.

  (** Containers: the elements, then an event that sets both flags. *)
  Lemma blocks_end blocks blocks' rs e it cde out :
    Forall2 (writes_as r32 r64) blocks rs -> Forall2 (writes_as r32 r64) blocks' rs ->
    (forall it it' cde cde' out, jm (st it cde out) e = jm (st it' cde' out) e) ->
    alike (J (st it cde out) (List.concat blocks ++ [e])) (J (st it cde out) (List.concat blocks' ++ [e])).
  Proof.
    intros A B E. pose proof (blocks_run r32 r64 _ _ A it cde out) as A'. pose proof (blocks_run r32 r64 _ _ B it cde out) as B'.
    rewrite !run_app. destruct (gather rs) as [ss|r].
    - destruct A' as (x & c & ->), B' as (y & d & ->). cbn [bind]. rewrite !run_one, (E x y c d). apply alike_refl.
    - destruct A' as (A' & N), B' as (B' & _). unfold yields in *. destruct r; [destruct (N s eq_refl)| |].
      + destruct A' as (x & -> & <-), B' as (y & -> & Y). cbn. congruence.
      + rewrite A', B'. exact I.
  Qed.
  Lemma container A (blk : A -> list ev) (val : A -> sresult) a x y b e it cde out :
    (forall z, writes_as r32 r64 (blk z) (val z)) -> val x = val y ->
    (forall it it' cde cde' out, jm (st it cde out) e = jm (st it' cde' out) e) ->
    alike (J (st it cde out) (flat_map blk (a ++ x :: b) ++ [e])) (J (st it cde out) (flat_map blk (a ++ y :: b) ++ [e])).
  Proof.
    intros W V E. rewrite !flat_map_concat_map. apply (blocks_end _ _ (map val (a ++ x :: b))); [| |exact E].
    - apply Forall2_map. exact W.
    - replace (map val (a ++ x :: b)) with (map val (a ++ y :: b)) by (rewrite !map_app; cbn; rewrite V; reflexivity).
      apply Forall2_map. exact W.
  Qed.

  Hypothesis P32 : json_printer r32.
  Hypothesis P64 : json_printer r64.

  Lemma takes_name_kept b t t' : preencode r32 r64 b t t' -> takes_name t = false -> takes_name t' = false.
  Proof. induction 1; cbn [takes_name json_tree]; auto. Qed.

  Lemma entry_kept k v v' : proper_key k = true -> key_leaks k && takes_name v = false -> key_leaks k && takes_name v' = false ->
    alone r32 r64 v = alone r32 r64 v' ->
    sres (J (st false true []) (entry_evs (k, v))) = sres (J (st false true []) (entry_evs (k, v'))).
  Proof.
    intros K N N' E. destruct (key_text r32 r64 false k) as [s|] eqn:T.
    - pose proof (C27_values_do_not_depend_on_keys_partial r32 r64 P32 P64 k v s T N) as A.
      pose proof (C27_values_do_not_depend_on_keys_partial r32 r64 P32 P64 k v' s T N') as B.
      apply entry_alone_is in A, B. congruence.
    - assert (X : forall v, entry_alone r32 r64 (k, v) (SErr EInvalidKey)).
      { intros w. apply fails_entry. intros f Q I. apply (other_key_fails r32 r64 k K false T); [discriminate|exact Q|exact I]. }
      pose proof (X v) as A. pose proof (X v') as B. apply entry_alone_is in A, B. congruence.
  Qed.

  Lemma preencode_run inside t t' : preencode r32 r64 inside t t' ->
    (forall x cde out, inside = true -> alike (J (st x cde out) (emit t)) (J (st x cde out) (emit t'))) /\
    (inside = false -> alone r32 r64 t = alone r32 r64 t').
  Proof.
    assert (Alone : forall t t', (forall x cde out, alike (J (st x cde out) (emit t)) (J (st x cde out) (emit t'))) -> alone r32 r64 t = alone r32 r64 t').
    { intros u u' H. rewrite !alone_run. apply alike_sres, H. }
    assert (Both : forall inside t t', (forall x cde out, alike (J (st x cde out) (emit t)) (J (st x cde out) (emit t'))) ->
      (forall x cde out, inside = true -> alike (J (st x cde out) (emit t)) (J (st x cde out) (emit t'))) /\
      (inside = false -> alone r32 r64 t = alone r32 r64 t')).
    { intros b u u' H. split; [intros x cde out _; apply H|intros _; apply Alone, H]. }
    induction 1 as [t s n fs A C|h t t' H IH|inside g l i t t' R H IH|inside g l i t t' V H IH|n a t t' b H IH
      |inside g l i n a ft fi t t' b H IH|inside g l i n a ft fl t t' b H IH|inside g l i n a ft fl fi t t' b H IH|n a k t t' b K N H IH].
    - split; [discriminate|]. intros _. unfold json_tree. rewrite A, raw_text.
      rewrite <- C. reflexivity.
    - split; [discriminate|]. intros _. rewrite !alone_run. cbn [emit]. rewrite !run_cons, !jm_hint. cbn [bind]. rewrite <- !alone_run.
      apply IH, eq_refl.
    - apply Both. intros x cde out. cbn [emit]. rewrite !run_cons, !jm_over by reflexivity. cbn [json_step]. unfold j_tagged_begin. cbv zeta.
      unfold is_raw in R. apply orb_false_iff in R as (R & R4). apply orb_false_iff in R as (R & R3). apply orb_false_iff in R as (R1 & R2).
      rewrite ?R1, ?R2, ?R3, ?R4. destruct (itb_st l i x cde out) as (c & o & ->). cbn [bind].
      change (set_cde bytes true (st false c o)) with (st false true o).
      apply yields_end with (p := o) (r := alone r32 r64 t); [apply local| |].
      + rewrite (proj2 IH eq_refl). apply local.
      + intros it it' c' o'. rewrite !jm_over by reflexivity. cbn [json_step]. unfold j_tagged_end. rewrite ?R1, ?R2, ?R3, ?R4. cbn [bind f_cde st].
        destruct c'; [|reflexivity]. unfold j_tag. reflexivity.
    - apply Both. intros x cde out. cbn [emit]. rewrite !run_cons, !jm_over by reflexivity. cbn [json_step]. unfold j_enum_begin.
      destruct (itb_st l i x cde out) as (c & o & ->). cbn [bind].
      change (set_cde bytes true (set_it bytes true (st false c o))) with (st true true o).
      rewrite !run_app. apply alike_bind. apply (proj1 IH). reflexivity.
    - split; [discriminate|]. intros _. unfold alone at 1 2. rewrite !(C27_seq r32 r64 _ n _ (flat_CE_false _)).
      rewrite !map_app. cbn [map]. rewrite (proj2 IH eq_refl). reflexivity.
    - apply Both. intros x cde out. cbn [emit]. rewrite !run_cons, !jm_over by reflexivity. cbn [json_step]. unfold j_tuple_begin.
      destruct (itb_st l i x cde out) as (c & o & ->). cbn [bind].
      change (j_seq_begin bytes string_write (st false c o)) with (Ok (st false true (o ++ ["["%char]))). cbn [bind].
      apply container with (val := fun f => alone r32 r64 (snd f)).
      + intros [[zt zi] z]. cbn [snd]. rewrite <- (after_nil (alone r32 r64 z)). apply elem_writes.
        * intros it c' o'. rewrite jm_tuple_val_begin. apply seq_val_st.
        * intros f. apply jm_tuple_val_end.
      + apply IH, eq_refl.
      + intros. rewrite !jm_over by reflexivity. reflexivity.
    - apply Both. intros x cde out. cbn [emit]. rewrite !run_cons, !jm_over by reflexivity. cbn [json_step]. unfold j_record_begin.
      destruct (itb_st l i x cde out) as (c & o & ->). cbn [bind].
      change (j_map_begin bytes string_write (st false c o)) with (Ok (st false true (o ++ ["{"%char]))). cbn [bind].
      apply container with (val := fun f => after (label_text (snd (fst f))) (alone r32 r64 (snd f))).
      + intros [[zt zl] z]. cbn [snd fst]. apply elem_writes.
        * intros it c' o'. rewrite jm_over by reflexivity. apply record_val_st.
        * intros f. apply jm_record_val_end.
      + cbn [snd fst]. rewrite (proj2 IH eq_refl). reflexivity.
      + intros. rewrite !jm_over by reflexivity. reflexivity.
    - apply Both. intros x cde out. cbn [emit]. rewrite !run_cons, !jm_rectup_begin. unfold j_record_begin.
      destruct (itb_st l i x cde out) as (c & o & ->). cbn [bind].
      change (j_map_begin bytes string_write (st false c o)) with (Ok (st false true (o ++ ["{"%char]))). cbn [bind].
      apply container with (val := fun f => after (label_text (snd (fst (fst f)))) (alone r32 r64 (snd f))).
      + intros [[[zt zl] zi] z]. cbn [snd fst]. apply elem_writes.
        * intros it c' o'. rewrite jm_rectup_val_begin. apply record_val_st.
        * intros f. apply jm_rectup_val_end.
      + cbn [snd fst]. rewrite (proj2 IH eq_refl). reflexivity.
      + intros. rewrite !jm_rectup_end. reflexivity.
    - split; [discriminate|]. intros _. rewrite !map_alone, !map_app. cbn [map]. do 3 f_equal.
      apply entry_kept; [exact K|exact N| |apply IH, eq_refl].
      destruct (key_leaks k); [|reflexivity]. cbn [andb] in *. exact (takes_name_kept _ _ _ H N).
  Qed.
End Pre.
