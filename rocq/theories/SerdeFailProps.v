(** * SerdeFailProps: C37 for values that give up *)

From Verif Require Import Base Event FlatProofs Tree LowerModel DataModel DataProofs FragModel BufferSpec StdModel NestedModel NestedSpec NestedProofs SerdeModel SerdeSpec SerdeProofs SerdeProps SerdeFailModel SerdeFailSpec SerdeFailProofs.

(** ** The full claim

    Serializing [x] as a [sval] value drives every serializer as serializing [x]
    directly does, whether or not [x] gives up. *)
Definition C37_same_failures : Prop := forall S x,
  opaque_children S -> small_indexes x = true -> strings x = x ->
  exists n, forall m, n <= m -> forall k, to_serialize S m (streamed x) k = ser S x k.

(** What is true of every value: the serializer is driven as by [given x]. *)
Theorem C37_giving_up_exact : forall S x,
  opaque_children S -> small_indexes x = true ->
  exists n, forall m, n <= m -> forall k, to_serialize S m (streamed x) k = ser S (given x) k.
Proof. intros S x OC H. destruct (all_settle S x OC H) as (n & E). exists n. intros m L k. apply E, L. Qed.

(** So the claim holds for values in which no [Some] gives up. *)
Lemma given_strings x : some_gives_up x = false -> given x = strings x.
Proof.
  assert (M : forall vs, Forall (fun x => some_gives_up x = false -> given x = strings x) vs -> existsb some_gives_up vs = false -> map given vs = map strings vs).
  { induction 1 as [|v vs Hv _ IH]; [reflexivity|]. cbn. intros E. apply orb_false_iff in E as [E1 E2]. rewrite (Hv E1), (IH E2). reflexivity. }
  assert (F : forall fs : list (bytes * sdata), Forall (fun f => some_gives_up (snd f) = false -> given (snd f) = strings (snd f)) fs ->
    existsb (fun f => match f with (_, v) => some_gives_up v end) fs = false ->
    map (fun f : bytes * sdata => match f with (a, b) => (a, given b) end) fs = map (fun f : bytes * sdata => match f with (a, b) => (a, strings b) end) fs).
  { induction 1 as [|[l v] fs Hv _ IH]; [reflexivity|]. cbn in *. intros E. apply orb_false_iff in E as [E1 E2]. rewrite (Hv E1), (IH E2). reflexivity. }
  induction x using sdata_ind'; cbn [some_gives_up]; intros Hs; try reflexivity.
  - apply orb_false_iff in Hs as [E _]. exact (given_sound (DSome x) E).
  - cbn. rewrite (IHx Hs). reflexivity.
  - cbn. rewrite (IHx Hs). reflexivity.
  - cbn. rewrite (M _ H Hs). reflexivity.
  - cbn. rewrite (M _ H Hs). reflexivity.
  - cbn. rewrite (M _ H Hs). reflexivity.
  - cbn. rewrite (M _ H Hs). reflexivity.
  - cbn. f_equal. induction H as [|[a b] es [Ha Hb] _ IH]; [reflexivity|]. cbn [existsb] in Hs. apply orb_false_iff in Hs as [E1 E2]. apply orb_false_iff in E1 as [Ea Eb].
    cbn [map fst snd] in *. rewrite (IH E2), (Ha Ea), (Hb Eb). reflexivity.
  - cbn. rewrite (F _ H Hs). reflexivity.
  - cbn. rewrite (F _ H Hs). reflexivity.
Qed.
Theorem C37_same_failures_partial : forall S x,
  opaque_children S -> small_indexes x = true -> strings x = x -> some_gives_up x = false ->
  exists n, forall m, n <= m -> forall k, to_serialize S m (streamed x) k = ser S x k.
Proof.
  intros S x OC H E G. destruct (C37_giving_up_exact S x OC H) as (n & X). exists n. intros m L k.
  rewrite (X m L k), (given_strings x G), E. reflexivity.
Qed.

(** ** A serializer that minds errors fails in both cases *)
Lemma each_stops {St A} (f : St -> A -> outcome St) l : (exists x, In x l /\ forall s y, f s x <> OOk y) -> forall s y, each f s l <> OOk y.
Proof.
  induction l as [|a l IH]; intros (x & I & H) s y; [destruct I|]. cbn [each]. destruct (f s a) as [s'| |] eqn:E; cbn [obind]; try discriminate.
  destruct I as [<-|I]; [destruct (H s s' E)|]. apply IH. exists x. auto.
Qed.
Lemma existsb_in {A} (f : A -> bool) l : existsb f l = true -> exists x, In x l /\ f x = true.
Proof. apply existsb_exists. Qed.
Lemma bind_fails {A B} (o : outcome A) (f : A -> outcome B) y : (forall x, f x <> OOk y) -> obind o f <> OOk y.
Proof. intros H. destruct o; cbn; auto; discriminate. Qed.
Lemma bind_fails_l {A B} (o : outcome A) (f : A -> outcome B) y : (forall x, o <> OOk x) -> obind o f <> OOk y.
Proof. intros H. destruct o; cbn; try discriminate. destruct (H a eq_refl). Qed.
Lemma gives_up_fails S x : minds_errors S -> gives_up x = true -> fails (ser S x).
Proof.
  intros ME. induction x using sdata_ind'; cbn [gives_up]; intros Hs; try discriminate Hs; intros k y.
  - apply (me_some S ME), IHx, Hs.
  - apply (me_newtype_struct S ME), IHx, Hs.
  - apply (me_newtype_variant S ME), IHx, Hs.
  - apply existsb_in in Hs as (v & I & E). rewrite Forall_forall in H. cbn [ser]. apply bind_fails. intros s. apply bind_fails_l. intros s'.
    apply each_stops. exists v. split; [exact I|]. intros. apply (me_seq S ME), (H v I E).
  - apply existsb_in in Hs as (v & I & E). rewrite Forall_forall in H. cbn [ser]. apply bind_fails. intros s. apply bind_fails_l. intros s'.
    apply each_stops. exists v. split; [exact I|]. intros. apply (me_tuple S ME), (H v I E).
  - apply existsb_in in Hs as (v & I & E). rewrite Forall_forall in H. cbn [ser]. apply bind_fails. intros s. apply bind_fails_l. intros s'.
    apply each_stops. exists v. split; [exact I|]. intros. apply (me_tstruct S ME), (H v I E).
  - apply existsb_in in Hs as (v & I & E). rewrite Forall_forall in H. cbn [ser]. apply bind_fails. intros s. apply bind_fails_l. intros s'.
    apply each_stops. exists v. split; [exact I|]. intros. apply (me_tvariant S ME), (H v I E).
  - apply existsb_in in Hs as ([a b] & I & E). rewrite Forall_forall in H. cbn [ser]. apply bind_fails. intros s. apply bind_fails_l. intros s'.
    apply each_stops. exists (a, b). split; [exact I|]. intros s1 y1. destruct (H _ I) as [Ha Hb]. cbn [fst snd] in *.
    apply orb_true_iff in E as [E|E]; [apply bind_fails_l; intros; apply (me_map_key S ME), (Ha E)|apply bind_fails; intros; apply (me_map_value S ME), (Hb E)].
  - cbn [ser]. apply bind_fails. intros s. apply orb_true_iff in Hs as [Hs|Hs].
    + apply existsb_in in Hs as ([l' v] & I & E). rewrite Forall_forall in H. apply bind_fails_l. intros s'.
      apply each_stops. exists (l', v). split; [exact I|]. intros. apply (me_struct S ME), (H _ I E).
    + apply negb_true_iff in Hs. subst ok. apply bind_fails. discriminate.
  - cbn [ser]. apply bind_fails. intros s. apply orb_true_iff in Hs as [Hs|Hs].
    + apply existsb_in in Hs as ([l' v] & I & E). rewrite Forall_forall in H. apply bind_fails_l. intros s'.
      apply each_stops. exists (l', v). split; [exact I|]. intros. apply (me_svariant S ME), (H _ I E).
    + apply negb_true_iff in Hs. subst ok. apply bind_fails. discriminate.
  - discriminate.
Qed.
Lemma existsb_map' {A B} (f : A -> B) (g : B -> bool) l : existsb g (map f l) = existsb (fun x => g (f x)) l.
Proof. induction l as [|x l IH]; cbn; rewrite ?IH; reflexivity. Qed.
Lemma existsb_same {A} (f g : A -> bool) l : Forall (fun x => f x = g x) l -> existsb f l = existsb g l.
Proof. induction 1 as [|x l E _ IH]; cbn; rewrite ?E, ?IH; reflexivity. Qed.
Lemma given_gives_up x : gives_up (given x) = gives_up x.
Proof.
  enough (H : gives_up (given x) = gives_up x /\ forall w, x = DSome w -> gives_up (given w) = gives_up w) by exact (proj1 H).
  induction x using sdata_ind'; (split; [|try discriminate]); try reflexivity.
  - destruct IHx as [I1 I2]. rewrite given_some. cbn [gives_up].
    destruct x; try (cbn [gives_up] in *; match goal with |- gives_up (if ?b then _ else _) = _ => destruct b eqn:E; [reflexivity|cbn [gives_up]; rewrite I1; reflexivity] end);
    try reflexivity. cbn [gives_up]. apply I2. reflexivity.
  - intros w [= <-]. exact (proj1 IHx).
  - exact (proj1 IHx).
  - exact (proj1 IHx).
  - cbn [given gives_up]. rewrite existsb_map'. apply existsb_same. eapply Forall_impl; [|exact H]. intros v [E _]. exact E.
  - cbn [given gives_up]. rewrite existsb_map'. apply existsb_same. eapply Forall_impl; [|exact H]. intros v [E _]. exact E.
  - cbn [given gives_up]. rewrite existsb_map'. apply existsb_same. eapply Forall_impl; [|exact H]. intros v [E _]. exact E.
  - cbn [given gives_up]. rewrite existsb_map'. apply existsb_same. eapply Forall_impl; [|exact H]. intros v [E _]. exact E.
  - cbn [given gives_up]. rewrite existsb_map'. apply existsb_same. eapply Forall_impl; [|exact H]. intros [a b] [[Ea _] [Eb _]]. cbn [fst snd] in *. rewrite Ea, Eb. reflexivity.
  - cbn [given gives_up]. f_equal. rewrite existsb_map'. apply existsb_same. eapply Forall_impl; [|exact H]. intros [a b] [Eb _]. exact Eb.
  - cbn [given gives_up]. f_equal. rewrite existsb_map'. apply existsb_same. eapply Forall_impl; [|exact H]. intros [a b] [Eb _]. exact Eb.
Qed.
Theorem C37_giving_up_fails : forall S x,
  opaque_children S -> minds_errors S -> small_indexes x = true -> gives_up x = true ->
  (forall k y, ser S x k <> OOk y) /\
  exists n, forall m, n <= m -> forall k y, to_serialize S m (streamed x) k <> OOk y.
Proof.
  intros S x OC ME H G. split; [exact (gives_up_fails S x ME G)|]. destruct (C37_giving_up_exact S x OC H) as (n & X).
  exists n. intros m L k y. rewrite (X m L k). apply gives_up_fails; [exact ME|]. rewrite given_gives_up. exact G.
Qed.

(** ** The calls and [to_value]

    [to_value] is told of the failure, and only of that; a stream is told of it
    after the calls before it. *)
Lemma each_err {St A} (f : St -> A -> outcome St) l : (forall x, In x l -> (forall s, exists s', f s x = OOk s') \/ (forall s, f s x = OErr)) ->
  (exists x, In x l /\ forall s, f s x = OErr) -> forall s, each f s l = OErr.
Proof.
  induction l as [|a l IH]; intros O (x & I & H) s; [destruct I|]. cbn [each].
  destruct (O a (or_introl eq_refl)) as [W|W]; [|rewrite W; reflexivity]. destruct (W s) as (s' & E). rewrite E. cbn [obind].
  apply IH; [intros y J; apply O; right; exact J|]. exists x. split; [|exact H]. destruct I as [<-|I]; [|exact I]. rewrite H in E. discriminate E.
Qed.
Lemma to_value_gives_up x : small_indexes x = true -> gives_up x = true -> to_value x = OErr.
Proof.
  unfold to_value. intros Hi Hs.
  assert (Sd : forall v, small_indexes v = true -> gives_up v = false -> exists cs, ser stream_ser v tt = OOk cs).
  { intros v A B. exists (acalls (valued v)). apply to_value_valued. rewrite sound_parts, A, B. reflexivity. }
  revert Hi Hs. induction x using sdata_ind'; cbn [gives_up small_indexes]; intros Hi Hs; try discriminate Hs.
  - cbn. rewrite (IHx Hi Hs). reflexivity.
  - cbn. unfold child_value. rewrite (IHx Hi Hs). reflexivity.
  - apply andb_true_iff in Hi as [_ Hi]. cbn. unfold child_value. rewrite (IHx Hi Hs). reflexivity.
  - rewrite Forall_forall in H. rewrite forallb_forall in Hi. cbn [ser stream_ser s_seq obind]. erewrite each_err; [reflexivity| |].
    + intros v I. cbn. unfold child_value. destruct (gives_up v) eqn:E; [right; intros s; rewrite (H v I (Hi v I) E); reflexivity|left].
      intros s. destruct (Sd v (Hi v I) E) as (cs & Ec). rewrite Ec. eexists. reflexivity.
    + apply existsb_in in Hs as (v & I & E). exists v. split; [exact I|]. intros s. cbn. unfold child_value. rewrite (H v I (Hi v I) E). reflexivity.
  - rewrite Forall_forall in H. rewrite forallb_forall in Hi. cbn [ser stream_ser s_tuple obind]. erewrite each_err; [reflexivity| |].
    + intros v I. cbn. unfold tuple_field, child_value. destruct (gives_up v) eqn:E; [right; intros [[s l] i]; rewrite (H v I (Hi v I) E); reflexivity|left].
      intros [[s l] i]. destruct (Sd v (Hi v I) E) as (cs & Ec). rewrite Ec. eexists. reflexivity.
    + apply existsb_in in Hs as (v & I & E). exists v. split; [exact I|]. intros [[s l] i]. cbn. unfold tuple_field, child_value. rewrite (H v I (Hi v I) E). reflexivity.
  - rewrite Forall_forall in H. rewrite forallb_forall in Hi. cbn [ser stream_ser s_tuple_struct obind]. erewrite each_err; [reflexivity| |].
    + intros v I. cbn. unfold tuple_field, child_value. destruct (gives_up v) eqn:E; [right; intros [[s l'] i]; rewrite (H v I (Hi v I) E); reflexivity|left].
      intros [[s l'] i]. destruct (Sd v (Hi v I) E) as (cs & Ec). rewrite Ec. eexists. reflexivity.
    + apply existsb_in in Hs as (v & I & E). exists v. split; [exact I|]. intros [[s l'] i]. cbn. unfold tuple_field, child_value. rewrite (H v I (Hi v I) E). reflexivity.
  - apply andb_true_iff in Hi as [_ Hi]. rewrite Forall_forall in H. rewrite forallb_forall in Hi. cbn [ser stream_ser s_tuple_variant obind]. erewrite each_err; [reflexivity| |].
    + intros v I. cbn. unfold tuple_field, child_value. destruct (gives_up v) eqn:E; [right; intros [[s l'] j]; rewrite (H v I (Hi v I) E); reflexivity|left].
      intros [[s l'] j]. destruct (Sd v (Hi v I) E) as (cs & Ec). rewrite Ec. eexists. reflexivity.
    + apply existsb_in in Hs as (v & I & E). exists v. split; [exact I|]. intros [[s l'] j]. cbn. unfold tuple_field, child_value. rewrite (H v I (Hi v I) E). reflexivity.
  - rewrite Forall_forall in H. rewrite forallb_forall in Hi. cbn [ser stream_ser s_map obind].
    assert (Both : forall a b s, In (a, b) es -> (exists s', (s0 <- k_map_key stream_ser s (ser stream_ser a) ;; k_map_value stream_ser s0 (ser stream_ser b)) = OOk s') /\ gives_up a || gives_up b = false
       \/ (s0 <- k_map_key stream_ser s (ser stream_ser a) ;; k_map_value stream_ser s0 (ser stream_ser b)) = OErr /\ gives_up a || gives_up b = true).
    { intros a b s I. destruct (H _ I) as [Ha Hb]. pose proof (Hi _ I) as Hab. cbn [fst snd] in *. apply andb_true_iff in Hab as [Ia Ib]. cbn. unfold child_value.
      destruct (gives_up a) eqn:Ea; [right; rewrite (Ha Ia eq_refl); split; reflexivity|]. destruct (Sd a Ia Ea) as (ca & ->). cbn [obind orb].
      destruct (gives_up b) eqn:Eb; [right; rewrite (Hb Ib eq_refl); split; reflexivity|]. destruct (Sd b Ib Eb) as (cb & ->). left. split; [eexists; reflexivity|reflexivity]. }
    erewrite each_err; [reflexivity| |].
    + intros [a b] I. destruct (gives_up a || gives_up b) eqn:E; [right|left]; intros s; destruct (Both a b s I) as [[X Y]|[X Y]]; try congruence; exact X.
    + apply existsb_in in Hs as ([a b] & I & E). exists (a, b). split; [exact I|]. intros s. destruct (Both a b s I) as [[X Y]|[X Y]]; [congruence|exact X].
  - rewrite Forall_forall in H. rewrite forallb_forall in Hi. cbn [ser stream_ser s_struct obind].
    assert (One : forall a v, In (a, v) fs -> (forall s l, exists s', k_struct_field stream_ser (s, l) a (ser stream_ser v) = OOk s') /\ gives_up v = false
       \/ (forall s l, k_struct_field stream_ser (s, l) a (ser stream_ser v) = OErr) /\ gives_up v = true).
    { intros a v I. pose proof (H _ I) as Hv. pose proof (Hi _ I) as Iv. cbn [fst snd] in *. cbn. unfold record_field, child_value.
      destruct (gives_up v) eqn:Ev; [right; rewrite (Hv Iv eq_refl); split; [intros; reflexivity|reflexivity]|]. destruct (Sd v Iv Ev) as (cv & ->). left. split; [intros; eexists; reflexivity|reflexivity]. }
    destruct (existsb (fun f : bytes * sdata => let (_, v) := f in gives_up v) fs) eqn:Ex.
    + erewrite each_err; [reflexivity| |].
      * intros [a v] I. destruct (One a v I) as [[X Y]|[X Y]]; [left|right]; intros [s l']; apply X.
      * apply existsb_in in Ex as ([a v] & I & E). exists (a, v). split; [exact I|]. intros [s l']. destruct (One a v I) as [[X Y]|[X Y]]; [congruence|apply X].
    + cbn [orb] in Hs. apply negb_true_iff in Hs. subst ok.
      match goal with |- obind (each ?f ?s ?l) _ = _ => assert (N : exists y, each f s l = OOk y) end.
      { assert (G : forall s l', exists y, each (fun (s : k_struct stream_ser) (f : bytes * sdata) => let (l0, v) := f in k_struct_field stream_ser s l0 (ser stream_ser v)) (s, l') fs = OOk y).
        { clear - One Ex. induction fs as [|[a v] fs IH]; intros s l'; [eexists; reflexivity|]. cbn [existsb] in Ex. apply orb_false_iff in Ex as [E1 E2]. cbn [each].
          destruct (One a v (or_introl eq_refl)) as [[X Y]|[X Y]]; [|congruence]. destruct (X s l') as ([s' l''] & E). rewrite E. cbn [obind]. apply IH; [exact E2|]. intros a' v' I. apply One. right. exact I. }
        apply G. }
      destruct N as (y & N). etransitivity; [apply (f_equal (fun o => obind o _)); exact N|]. reflexivity.
  - apply andb_true_iff in Hi as [_ Hi]. rewrite Forall_forall in H. rewrite forallb_forall in Hi. cbn [ser stream_ser s_struct_variant obind].
    assert (One : forall a v, In (a, v) fs -> (forall s l, exists s', k_svariant_field stream_ser (s, l) a (ser stream_ser v) = OOk s') /\ gives_up v = false
       \/ (forall s l, k_svariant_field stream_ser (s, l) a (ser stream_ser v) = OErr) /\ gives_up v = true).
    { intros a v I. pose proof (H _ I) as Hv. pose proof (Hi _ I) as Iv. cbn [fst snd] in *. cbn. unfold record_field, child_value.
      destruct (gives_up v) eqn:Ev; [right; rewrite (Hv Iv eq_refl); split; [intros; reflexivity|reflexivity]|]. destruct (Sd v Iv Ev) as (cv & ->). left. split; [intros; eexists; reflexivity|reflexivity]. }
    destruct (existsb (fun f : bytes * sdata => let (_, v) := f in gives_up v) fs) eqn:Ex.
    + erewrite each_err; [reflexivity| |].
      * intros [a v] I. destruct (One a v I) as [[X Y]|[X Y]]; [left|right]; intros [s l']; apply X.
      * apply existsb_in in Ex as ([a v] & I & E). exists (a, v). split; [exact I|]. intros [s l']. destruct (One a v I) as [[X Y]|[X Y]]; [congruence|apply X].
    + cbn [orb] in Hs. apply negb_true_iff in Hs. subst ok.
      match goal with |- obind (each ?f ?s ?l) _ = _ => assert (N : exists y, each f s l = OOk y) end.
      { assert (G : forall s l', exists y, each (fun (s : k_svariant stream_ser) (f : bytes * sdata) => let (l0, v) := f in k_svariant_field stream_ser s l0 (ser stream_ser v)) (s, l') fs = OOk y).
        { clear - One Ex. induction fs as [|[a v] fs IH]; intros s l'; [eexists; reflexivity|]. cbn [existsb] in Ex. apply orb_false_iff in Ex as [E1 E2]. cbn [each].
          destruct (One a v (or_introl eq_refl)) as [[X Y]|[X Y]]; [|congruence]. destruct (X s l') as ([s' l''] & E). rewrite E. cbn [obind]. apply IH; [exact E2|]. intros a' v' I. apply One. right. exact I. }
        apply G. }
      destruct N as (y & N). etransitivity; [apply (f_equal (fun o => obind o _)); exact N|]. reflexivity.
  - reflexivity.
Qed.
Theorem C37_to_value_gives_up : forall x, small_indexes x = true ->
  to_value x = (if gives_up x then OErr else OOk (streamed x)) /\
  forall comp, snd (flat (streamed x) comp) = negb (gives_up x).
Proof.
  intros x H. destruct (gives_up x) eqn:E; (split; [|intros comp]).
  - apply to_value_gives_up; assumption.
  - destruct (streamed_stuck x comp E) as (es & F & _). rewrite F. reflexivity.
  - rewrite (streamed_sound x E). apply to_value_valued. rewrite sound_parts, H, E. reflexivity.
  - destruct (sound_gives x comp E) as (ps & es & F & _). rewrite F. reflexivity.
Qed.

(** ** A serializer that keeps a list of what it is told, and goes on *)
Definition noting : serializer :=
  let note := fun (c : unit -> outcome (list bytes)) => match c tt with OOk l => l | _ => [bs "failed"] end in
  {| k_ser := unit; k_ok := list bytes;
     k_seq := list bytes; k_tuple := list bytes; k_tstruct := list bytes; k_tvariant := list bytes; k_map := list bytes;
     k_struct := list bytes; k_svariant := list bytes;
     s_bool _ _ := OOk [bs "bool"]; s_int _ _ _ := OOk [bs "int"]; s_f32 _ _ := OOk [bs "f32"]; s_f64 _ _ := OOk [bs "f64"];
     s_char _ _ := OOk [bs "char"]; s_str _ s := OOk [s]; s_bytes _ _ := OOk [bs "bytes"]; s_collect_str _ _ := OOk [bs "display"];
     s_none _ := OOk [bs "none"]; s_some _ c := OOk (bs "some" :: note c); s_unit _ := OOk [bs "unit"];
     s_unit_struct _ n := OOk [n]; s_unit_variant _ _ _ v := OOk [v];
     s_newtype_struct _ n c := OOk (n :: note c); s_newtype_variant _ _ _ v c := OOk (v :: note c);
     s_seq _ _ := OOk [bs "seq"]; s_tuple _ _ := OOk [bs "tuple"]; s_tuple_struct _ n _ := OOk [n];
     s_tuple_variant _ _ _ v _ := OOk [v]; s_map _ _ := OOk [bs "map"]; s_struct _ n _ := OOk [n]; s_struct_variant _ _ _ v _ := OOk [v];
     k_seq_element s c := OOk (s ++ note c); k_seq_end s := OOk (s ++ [bs "end"]);
     k_tuple_element s c := OOk (s ++ note c); k_tuple_end s := OOk (s ++ [bs "end"]);
     k_tstruct_field s c := OOk (s ++ note c); k_tstruct_end s := OOk (s ++ [bs "end"]);
     k_tvariant_field s c := OOk (s ++ note c); k_tvariant_end s := OOk (s ++ [bs "end"]);
     k_map_key s c := OOk (s ++ note c); k_map_value s c := OOk (s ++ note c); k_map_end s := OOk (s ++ [bs "end"]);
     k_struct_field s n c := OOk (s ++ n :: note c); k_struct_end s := OOk (s ++ [bs "end"]);
     k_svariant_field s n c := OOk (s ++ n :: note c); k_svariant_end s := OOk (s ++ [bs "end"]) |}.
Lemma noting_opaque : opaque_children noting.
Proof. constructor; intros; cbn; rewrite (H tt); reflexivity. Qed.

Theorem C37_same_failures_refuted : ~ C37_same_failures.
Proof.
  intros H. destruct (H noting (DSome DFail) noting_opaque eq_refl eq_refl) as (n & X).
  destruct (C37_giving_up_exact noting (DSome DFail) noting_opaque eq_refl) as (n' & X').
  specialize (X (n + n')%nat ltac:(lia) tt). specialize (X' (n + n')%nat ltac:(lia) tt). rewrite X in X'. discriminate X'.
Qed.

Lemma rebuild_minds : minds_errors rebuild.
Proof.
  constructor; intros; cbn; repeat match goal with |- (let (_, _) := ?x in _) <> _ => destruct x | |- match ?x with Some _ => _ | None => _ end <> _ => destruct x end;
    try discriminate; destruct (c tt) eqn:E; cbn; try discriminate; destruct (H tt _ E).
Qed.
Definition half : sdata := DStruct (bs "Half") 2 [(bs "a", DInt U8 1)] false.
Definition broken : sdata :=
  DSeq None [half; DSome half; DSome (DSome half); DSome (DSome (DSome half)); DNewtypeVariant (bs "E") 1 (bs "V") half; DChar 97; DSome (DChar 98)].
Example C37_giving_up_exact_applies :
  small_indexes broken = true /\ gives_up broken = true /\ opaque_children noting /\
  to_serialize noting 20 (streamed broken) tt =
    OOk [bs "seq"; bs "failed"; bs "failed"; bs "some"; bs "some"; bs "failed"; bs "some"; bs "some"; bs "failed"; bs "V"; bs "failed"; bs "a"; bs "some"; bs "b"; bs "end"] /\
  ser noting broken tt =
    OOk [bs "seq"; bs "failed"; bs "some"; bs "failed"; bs "some"; bs "some"; bs "failed"; bs "some"; bs "some"; bs "some"; bs "failed"; bs "V"; bs "failed"; bs "char"; bs "some"; bs "char"; bs "end"].
Proof. do 2 (split; [vm_compute; reflexivity|]). split; [exact noting_opaque|]. split; vm_compute; reflexivity. Qed.
Example C37_giving_up_fails_applies :
  opaque_children rebuild /\ minds_errors rebuild /\ small_indexes broken = true /\ gives_up broken = true /\
  to_serialize rebuild 20 (streamed broken) tt = OErr.
Proof. split; [exact rebuild_opaque|]. split; [exact rebuild_minds|]. split; [reflexivity|]. split; vm_compute; reflexivity. Qed.
Example C37_same_failures_partial_applies :
  let x := DMap None [(DStr (bs "k"), half); (DSome (DStr (bs "l")), DSeq None [DFail])] in
  small_indexes x = true /\ strings x = x /\ some_gives_up x = false /\ gives_up x = true /\
  to_serialize noting 20 (streamed x) tt = ser noting x tt.
Proof. repeat split; vm_compute; reflexivity. Qed.

Print Assumptions C37_giving_up_exact.
Print Assumptions C37_same_failures_partial.
Print Assumptions C37_giving_up_fails.
Print Assumptions C37_to_value_gives_up.
Print Assumptions C37_same_failures_refuted.
