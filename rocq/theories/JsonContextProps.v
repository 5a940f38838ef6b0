(** * JsonContextProps: a value's text inside any other value (C27, C43) *)

From Verif Require Import Base Event Tree LowerModel LowerSpec FlatProofs LowerProofs MethProofs DataModel
  JsonModel JsonGrammar JsonSpec JsonMethProofs JsonProofs JsonSimProofs JsonProps JsonLocalProofs JsonLocalProps EnumExactProps Utf8 JsonNumExactSpec JsonNumExactProps JsonNumCutProps JsonContextSpec.

Section Context.
  Variable r32 r64 : float -> bytes.
  Notation step := (json_step bytes string_write r32 r64).
  Notation jm := (meth json_over step).
  Notation J := (run jm).
  Notation same_it := (JsonLocalProps.same_it).

  (** [h] does [r] wherever a value may begin, or where an element or field may. *)
  Definition good (el : bool) (h : tree) (r : sresult) : Prop :=
    forall it cde out, (el = true -> it = false) -> yields r32 r64 (st it cde out) (emit h) out r.
  Lemma own_text_good el h : takes_name h = false \/ el = true -> good el h (alone r32 r64 h).
  Proof. intros T it cde out I. apply local_it. destruct T as [T|T]; [rewrite T; apply andb_false_r|rewrite (I T); reflexivity]. Qed.

  (** The same with [a] and [b] around it. *)
  Definition gives (q : res (fm bytes)) (a : bytes) (r : sresult) (b : bytes) : Prop :=
    match r with
    | SOk s => exists x, q = Ok (st x false (a ++ s ++ b))
    | SErr e => exists g, q = Err g /\ err_of g = e
    | SPanic => q = Panic
    end.
  Lemma gives_then q a r b a' b' k : gives q a r b ->
    (forall s, r = SOk s -> gives q a r b -> gives (q >>= k) a' r b') -> gives (q >>= k) a' r b'.
  Proof.
    intros G H. destruct r as [s|e|].
    - apply (H s eq_refl G).
    - destruct G as (g & -> & E). exists g. auto.
    - rewrite G. reflexivity.
  Qed.

  (** From one state, either every such value leaves the same text around its own,
      or none can be written. *)
  Definition plugs (el : bool) (F : tree -> list ev) (f : fm bytes) : Prop :=
    (exists a b, forall h r, good el h r -> gives (J f (F h)) a r b) \/
    (forall h s, good el h (SOk s) -> forall g, J f (F h) <> Ok g).

  Lemma st_any f it cde out : keeps (st it cde out) f -> f = st (f_it f) (f_cde f) (f_out f).
  Proof. intros (A & B & C & _). specialize (B eq_refl). specialize (C eq_refl). destruct f; cbn in *. subst. reflexivity. Qed.
  Lemma wrap_plugs el (F : tree -> list ev) (G : tree -> tree) before rest :
    kop (fun f => J f before) ->
    (forall it cde out f, J (st it cde out) before = Ok f -> plugs el F f) -> (forall f x, same_it (J f rest) (J (set_it bytes x f) rest)) ->
    (forall h, emit (G h) = before ++ F h ++ rest) ->
    forall it cde out, plugs el (fun h => emit (G h)) (st it cde out).
  Proof.
    intros K P S E it cde out.
    destruct (J (st it cde out) before) as [f1|f1|] eqn:B.
    2,3: right; intros h s _ g; rewrite E, run_app, B; discriminate.
    destruct (P _ _ _ _ B) as [(a & b & H)|H].
    - destruct (J (st false false []) rest) as [g0|g0|] eqn:R.
      + left. exists a, (b ++ f_out g0). intros h r Gd. specialize (H h r Gd).
        assert (T : forall s, r = SOk s -> exists g, J (st it cde out) (emit (G h)) = Ok g /\ f_out g = a ++ s ++ b ++ f_out g0).
        { intros s ->. destruct H as (x & Hx). rewrite E, run_app, B. cbn [bind]. rewrite run_app, Hx. cbn [bind].
          rewrite <- (app_nil_r (a ++ s ++ b)), st_pre, pre_run.
          pose proof (S (st false false []) x) as Sx. rewrite R in Sx. change (set_it bytes x (st false false [])) with (st x false []) in Sx.
          destruct (J (st x false []) rest) as [g1|g1|]; cbn [JsonLocalProps.same_it] in Sx; try contradiction.
          destruct Sx as (y & ->). eexists. split; [reflexivity|]. cbn. rewrite <- !app_assoc. reflexivity. }
        destruct r as [s|e|].
        * destruct (T s eq_refl) as (g & Tg & O). exists (f_it g). rewrite Tg. f_equal.
          pose proof (all_settle r32 r64 _ _ _ Tg) as (Kg & Cg). rewrite (st_any _ _ _ _ Kg). cbn [f_it st]. rewrite Cg, O. reflexivity.
        * destruct H as (g & Hg & Eg). exists g. rewrite E, run_app, B. cbn [bind]. rewrite run_app, Hg. auto.
        * cbn [gives] in H |- *. rewrite E, run_app, B. cbn [bind]. rewrite run_app, H. reflexivity.
      + right. intros h s Gd g. destruct (H h (SOk s) Gd) as (x & Hx). rewrite E, run_app, B. cbn [bind]. rewrite run_app, Hx. cbn [bind].
        rewrite <- (app_nil_r (a ++ s ++ b)), st_pre, pre_run.
        pose proof (S (st false false []) x) as Sx. rewrite R in Sx. change (set_it bytes x (st false false [])) with (st x false []) in Sx.
        destruct (J (st x false []) rest); cbn [JsonLocalProps.same_it] in Sx; try contradiction. discriminate.
      + right. intros h s Gd g. destruct (H h (SOk s) Gd) as (x & Hx). rewrite E, run_app, B. cbn [bind]. rewrite run_app, Hx. cbn [bind].
        rewrite <- (app_nil_r (a ++ s ++ b)), st_pre, pre_run.
        pose proof (S (st false false []) x) as Sx. rewrite R in Sx. change (set_it bytes x (st false false [])) with (st x false []) in Sx.
        destruct (J (st x false []) rest); cbn [JsonLocalProps.same_it] in Sx; try contradiction. discriminate.
    - right. intros h s Gd g. rewrite E, run_app, B. cbn [bind]. rewrite run_app.
      specialize (H h s Gd). destruct (J f1 (F h)) as [g1|g1|]; [destruct (H g1 eq_refl)|discriminate|discriminate].
  Qed.

  (** What comes before. *)
  Lemma kop_app es es' : kop (fun f => J f es) -> kop (fun f => J f es') -> kop (fun f => J f (es ++ es')).
  Proof. intros A B f f' R. rewrite run_app in R. apply bind_inv in R as (g & R1 & R2). eapply keeps_trans; [apply A, R1|apply B, R2]. Qed.
  Lemma kop_one e : kop (fun f => jm f e) -> kop (fun f => J f [e]).
  Proof. intros A f f' R. rewrite run_one in R. apply A, R. Qed.
  Lemma kop_first e es : kop (fun f => jm f e) -> kop (fun f => J f es) -> kop (fun f => J f (e :: es)).
  Proof. intros A B. apply (kop_app [e]); [apply kop_one, A|exact B]. Qed.
  Lemma kop_blocks {A} (f : A -> list ev) vs : (forall v, kop (fun g => J g (f v))) -> kop (fun g => J g (flat_map f vs)).
  Proof. intros H. rewrite flat_map_concat_map. apply kop_list, Forall_forall. intros es I. apply in_map_iff in I as (v & <- & _). apply H. Qed.
  Lemma kop_value v : kop (fun f => J f (emit v)).
  Proof. apply settles_kop, all_settle. Qed.
  Lemma kop_same e : (forall f, jm f e = Ok f) -> kop (fun f => jm f e).
  Proof. intros H f f' R. rewrite H in R. injection R as <-. apply keeps_refl. Qed.
  Lemma kop_key k : kop (fun f => J f (EMapKeyBegin :: emit k ++ [EMapKeyEnd; EMapValBegin])).
  Proof.
    intros f f' R. rewrite run_cons in R. apply bind_inv in R as (h1 & R1 & R2).
    rewrite run_app in R2. apply bind_inv in R2 as (h2 & R2 & R3).
    rewrite run_cons in R3. apply bind_inv in R3 as (h3 & R3 & R4).
    rewrite run_one in R4. rewrite jm_over in R1, R3, R4 by reflexivity. cbn [json_step] in R1, R3, R4. injection R4 as <-.
    apply all_settle in R2 as ((A1 & A2 & A3 & A4) & _).
    assert (B : f_err h1 = f_err f /\ f_th h1 = f_th f) by (unfold j_map_key_begin in R1; cbv zeta in R1; destruct (f_cde _); injection R1 as <-; auto).
    assert (C : f_err h3 = f_err h2 /\ f_th h3 = f_th h2 /\ f_tq h3 = true) by (injection R3 as <-; auto).
    destruct B as (B1 & B2), C as (C1 & C2 & C3). split; [cbn in *; congruence|]. split; [intros _; exact C3|]. split; intros X.
    - cbn in *. rewrite C2. apply A3. congruence.
    - unfold nonnum in *. cbn in *. rewrite C2. apply A4. rewrite B2. exact X.
  Qed.

  (** What comes after. *)
  Lemma same_it_one e : (forall f x, same_it (jm f e) (jm (set_it bytes x f) e)) -> forall f x, same_it (J f [e]) (J (set_it bytes x f) [e]).
  Proof. intros H f x. rewrite !run_one. apply H. Qed.
  Lemma same_it_rest {A} (b : A -> ev) (f : A -> list ev) vs ve e :
    (forall f, jm f ve = Ok f) -> (forall v f x, jm (set_it bytes x f) (b v) = jm f (b v)) -> (forall f x, same_it (jm f e) (jm (set_it bytes x f) e)) ->
    forall g x, same_it (J g (ve :: flat_map (fun v => b v :: f v) vs ++ [e])) (J (set_it bytes x g) (ve :: flat_map (fun v => b v :: f v) vs ++ [e])).
  Proof.
    intros V B E g x. rewrite !run_cons, !V. cbn [bind]. destruct vs as [|v vs]; cbn [flat_map app]; [apply same_it_one, E|].
    rewrite !run_cons, B. apply same_it_refl.
  Qed.
  Lemma seq_val_it f x : j_seq_value_begin bytes string_write (set_it bytes x f) = j_seq_value_begin bytes string_write f.
  Proof. reflexivity. Qed.
  Lemma record_val_it l f x : j_record_value_begin bytes string_write l (set_it bytes x f) = j_record_value_begin bytes string_write l f.
  Proof. reflexivity. Qed.
  Lemma ite_it l i s f x : same_it (put bytes string_write s (set_cde bytes false f) >>= internally_tagged_end bytes l i)
    (put bytes string_write s (set_cde bytes false (set_it bytes x f)) >>= internally_tagged_end bytes l i).
  Proof. rewrite !put_pure. cbn [bind]. rewrite !ite. exists (is_named l i). reflexivity. Qed.
  Lemma tagged_end_it t l i f x : is_raw t = false -> same_it (j_tagged_end bytes string_write t l i f) (j_tagged_end bytes string_write t l i (set_it bytes x f)).
  Proof.
    unfold is_raw. intros N. apply orb_false_iff in N as (N & N4). apply orb_false_iff in N as (N & N3). apply orb_false_iff in N as (N1 & N2).
    unfold j_tagged_end. rewrite N1, N2, N3, N4. cbn [bind f_cde set_it]. destruct (f_cde f).
    - change (j_tag bytes string_write t l i (set_it bytes x f)) with (j_tag bytes string_write t l i f). apply same_it_refl.
    - cbn [bind]. rewrite !ite. exists (is_named l i). reflexivity.
  Qed.
  Lemma kop_tagged t l i : is_raw t = false -> kop (fun f => jm f (ETaggedBegin t l i)).
  Proof.
    intros N. unfold is_raw in N. apply orb_false_iff in N as (N & N4). apply orb_false_iff in N as (N & N3). apply orb_false_iff in N as (N1 & N2).
    intros f f' R. rewrite jm_over in R by reflexivity. cbn [json_step] in R. unfold j_tagged_begin in R. rewrite N1, N2, N3, N4 in R. cbv zeta in R.
    apply bind_inv in R as (g & R1 & R2). injection R2 as <-. apply kop_itb in R1. exact R1.
  Qed.

  Lemma enum_plugs el (F : tree -> list ev) (G : tree -> tree) t l i n :
    (forall it cde out, plugs el F (st it cde out)) -> (forall f h g, J f (F h) = Ok g -> f_it g = n) ->
    (forall h, emit (G h) = EEnumBegin t l i :: F h ++ [EEnumEnd t l i]) ->
    forall it cde out, plugs el (fun h => emit (G h)) (st it cde out).
  Proof.
    intros P N E it cde out.
    destruct (jm (st it cde out) (EEnumBegin t l i)) as [f1|f1|] eqn:B.
    2,3: right; intros h s _ g; rewrite E, run_cons, B; discriminate.
    assert (K : keeps (st it cde out) f1).
    { rewrite jm_over in B by reflexivity. cbn [json_step] in B. unfold j_enum_begin in B. apply bind_inv in B as (g & B1 & B2). injection B2 as <-.
      apply kop_itb in B1. exact B1. }
    pose proof (st_any _ _ _ _ K) as Sf.
    destruct (P (f_it f1) (f_cde f1) (f_out f1)) as [(a & b & H)|H]; rewrite <- Sf in H.
    - left. exists a, (b ++ if n then bs "}" else []). intros h r Gd. specialize (H h r Gd).
      rewrite E, run_cons, B. cbn [bind]. rewrite run_app. apply (gives_then _ a r b); [exact H|]. intros s -> _. destruct H as (x & Hx).
      pose proof (N _ _ _ Hx) as Nx. cbn [f_it st] in Nx. subst x.
      rewrite Hx. cbn [bind]. rewrite run_one, jm_over by reflexivity. cbn [json_step].
      unfold j_enum_end. cbn [f_cde f_it st bind]. destruct n.
      + exists true. cbn. unfold set_out, set_cde, st. cbn. rewrite <- !app_assoc. reflexivity.
      + rewrite ite. exists (is_named l i). rewrite app_nil_r. reflexivity.
    - right. intros h s Gd g. rewrite E, run_cons, B. cbn [bind]. rewrite run_app.
      specialize (H h s Gd). destruct (J f1 (F h)) as [g1|g1|]; [destruct (H g1 eq_refl)|discriminate|discriminate].
  Qed.

  Lemma variant_flag c : variant c = true -> exists n, forall h x, ends_named x (fill c h) = n.
  Proof.
    induction c; cbn [variant]; intros V; try discriminate V; cbn [fill ends_named].
    - auto.
    - exists (is_named l i). auto.
    - destruct (IHc V) as (n & H). exists (n || is_named l i). intros h _. rewrite H. reflexivity.
    - exists (is_named l i). auto.
    - exists (is_named l i). auto.
    - exists (is_named l i). auto.
  Qed.
  (** After the beginning of an element or field. *)
  Lemma after_last before e f f' : (forall g g', jm g e = Ok g' -> f_it g' = false) -> J f (before ++ [e]) = Ok f' -> f_it f' = false.
  Proof. intros H R. rewrite run_app in R. apply bind_inv in R as (g & _ & R). rewrite run_one in R. apply (H _ _ R). Qed.
  Lemma here_plugs el f it cde out : keeps (st it cde out) f -> (el = true -> f_it f = false) -> plugs el emit f.
  Proof.
    intros K I. rewrite (st_any _ _ _ _ K). left. exists (f_out f), []. intros h r G. specialize (G _ (f_cde f) (f_out f) I).
    destruct r; unfold yields in G; cbn [gives] in *; rewrite ?app_nil_r; exact G.
  Qed.
  Lemma inside_plugs el c before e :
    kop (fun f => J f (before ++ [e])) -> (forall g g', jm g e = Ok g' -> f_it g' = false) ->
    (c <> XHere -> forall it cde out, plugs el (fun h => emit (fill c h)) (st it cde out)) ->
    forall it cde out f, J (st it cde out) (before ++ [e]) = Ok f -> plugs el (fun h => emit (fill c h)) f.
  Proof.
    intros K I P it cde out f R.
    assert (D : c = XHere \/ c <> XHere) by (destruct c; [left; reflexivity|right; discriminate..]).
    destruct D as [->|D].
    - apply (here_plugs el f it cde out); [apply (K _ _ R)|]. intros _. apply (after_last _ _ _ _ I R).
    - rewrite (st_any _ _ _ _ (K _ _ R)). apply P, D.
  Qed.
  Lemma kop_plugs el F before : kop (fun f => J f before) -> (forall it cde out, plugs el F (st it cde out)) ->
    forall it cde out f, J (st it cde out) before = Ok f -> plugs el F f.
  Proof. intros K P it cde out f R. rewrite (st_any _ _ _ _ (K _ _ R)). apply P. Qed.
  Lemma seq_val_off g g' : j_seq_value_begin bytes string_write g = Ok g' -> f_it g' = false.
  Proof. unfold j_seq_value_begin. cbv zeta. destruct (f_cde _); [|rewrite put_pure]; intros E; injection E as <-; reflexivity. Qed.
  Lemma record_val_off l g g' : j_record_value_begin bytes string_write l g = Ok g' -> f_it g' = false.
  Proof.
    unfold j_record_value_begin. cbv zeta. destruct (f_cde _); rewrite put_pure; cbn [bind]; (destruct (otag_is (l_tag l) VALUE_IDENT);
      [rewrite put_pure|rewrite escape_str_pure; cbn [lift]]); cbn [bind]; rewrite put_pure; intros E; injection E as <-; reflexivity.
  Qed.
  Lemma deeper c : c <> XHere -> match c with XHere => true | _ => element_place c end = element_place c.
  Proof. destruct c; [contradiction|reflexivity..]. Qed.

  Lemma fill_plugs el c : plain_place c = true -> (el = true -> element_place c = true) ->
    forall it cde out, plugs el (fun h => emit (fill c h)) (st it cde out).
  Proof.
    induction c; cbn [plain_place element_place]; intros O L.
    - intros it cde out. left. exists out, []. intros h r G. specialize (G it cde out (fun E => False_ind _ (diff_false_true (L E)))). destruct r; unfold yields in G; cbn [gives] in *; rewrite ?app_nil_r; exact G.
    - apply (wrap_plugs el (fun h => emit (fill c h)) (fun h => THint t (fill c h)) [ETagHint t] []); auto.
      + apply kop_one, kop_same. intros f. apply jm_hint.
      + apply kop_plugs; [apply kop_one, kop_same; intros f; apply jm_hint|auto].
      + intros f x. exists x. reflexivity.
      + intros h. rewrite app_nil_r. reflexivity.
    - apply andb_prop in O as [N O]. apply negb_true_iff in N.
      apply (wrap_plugs el (fun h => emit (fill c h)) (fun h => TTagged t l i (fill c h)) [ETaggedBegin t l i] [ETaggedEnd t l i]); auto.
      + apply kop_one, kop_tagged, N.
      + apply kop_plugs; [apply kop_one, kop_tagged, N|auto].
      + apply same_it_one. intros f x. rewrite !jm_over by reflexivity. cbn [json_step]. apply tagged_end_it, N.
    - apply andb_prop in O as [N O].
      destruct (variant_flag c N) as (n & X).
      apply (enum_plugs el (fun h => emit (fill c h)) (fun h => TEnum t l i (fill c h)) t l i n); auto.
      intros f h g R. rewrite (flag_after r32 r64 _ _ _ R). apply X.
    - assert (K : kop (fun f => J f (ESeqBegin n :: flat_map (fun v => ESeqValBegin :: emit v ++ [ESeqValEnd]) before ++ [ESeqValBegin]))).
      { apply kop_first; [eapply kop_over; [reflexivity|intros ?; reflexivity|apply kop_seq_begin]|].
        apply kop_app; [apply kop_blocks; intros v|apply kop_one].
        * apply kop_between; [eapply kop_over; [reflexivity|intros ?; reflexivity|apply kop_seq_val]|apply kop_value|eapply kop_over; [reflexivity|intros ?; reflexivity|apply kop_ok]].
        * eapply kop_over; [reflexivity|intros ?; reflexivity|apply kop_seq_val]. }
      apply (wrap_plugs el (fun h => emit (fill c h)) (fun h => TSeq n (before ++ fill c h :: rest))
        (ESeqBegin n :: flat_map (fun v => ESeqValBegin :: emit v ++ [ESeqValEnd]) before ++ [ESeqValBegin])
        (ESeqValEnd :: flat_map (fun v => ESeqValBegin :: emit v ++ [ESeqValEnd]) rest ++ [ESeqEnd])); auto.
      + apply (inside_plugs el c (ESeqBegin n :: flat_map (fun v => ESeqValBegin :: emit v ++ [ESeqValEnd]) before) ESeqValBegin); [exact K|intros g g' R; rewrite jm_over in R by reflexivity; apply (seq_val_off _ _ R)|].
        intros D. apply (IHc O). intros X. rewrite <- (deeper c D). apply L, X.
      + apply (same_it_rest (fun _ => ESeqValBegin)).
        * intros f. rewrite jm_over by reflexivity. reflexivity.
        * intros _ f x. rewrite !jm_over by reflexivity. apply seq_val_it.
        * intros f x. rewrite !jm_over by reflexivity. exists x. reflexivity.
      + intros h. cbn [emit]. rewrite flat_map_app. cbn [flat_map app]. rewrite <- !app_assoc. cbn [app]. rewrite <- ?app_assoc. reflexivity.
    - assert (K : kop (fun f => J f (EMapBegin n :: flat_map entry_evs before ++ (EMapKeyBegin :: emit k ++ [EMapKeyEnd; EMapValBegin])))).
      { apply kop_first; [eapply kop_over; [reflexivity|intros ?; reflexivity|apply kop_map_begin]|].
        apply kop_app; [apply kop_blocks; intros [k' v]|apply kop_key].
        unfold entry_evs. cbn [fst snd].
        replace (EMapKeyBegin :: emit k' ++ EMapKeyEnd :: EMapValBegin :: emit v ++ [EMapValEnd])
          with ((EMapKeyBegin :: emit k' ++ [EMapKeyEnd; EMapValBegin]) ++ emit v ++ [EMapValEnd]) by (cbn [app]; rewrite <- app_assoc; reflexivity).
        apply kop_app; [apply kop_key|]. apply kop_app; [apply kop_value|]. apply kop_one. eapply kop_over; [reflexivity|intros ?; reflexivity|apply kop_ok]. }
      apply (wrap_plugs el (fun h => emit (fill c h)) (fun h => TMap n (before ++ (k, fill c h) :: rest))
        (EMapBegin n :: flat_map entry_evs before ++ (EMapKeyBegin :: emit k ++ [EMapKeyEnd; EMapValBegin]))
        (EMapValEnd :: flat_map entry_evs rest ++ [EMapEnd])); auto.
      + apply kop_plugs; [exact K|auto].
      + apply (same_it_rest (fun _ => EMapKeyBegin)).
        * intros f. rewrite jm_over by reflexivity. reflexivity.
        * intros _ f x. rewrite !jm_over by reflexivity. reflexivity.
        * intros f x. rewrite !jm_over by reflexivity. exists x. reflexivity.
      + intros h. cbn [emit].
        rewrite (flat_map_ext _ entry_evs) by (intros []; reflexivity).
        rewrite flat_map_app. cbn [flat_map app entry_evs fst snd]. rewrite <- !app_assoc. cbn [app]. rewrite <- ?app_assoc. cbn [app]. rewrite <- ?app_assoc. reflexivity.
    - assert (K : kop (fun f => J f (ERecordBegin t l i n :: flat_map (fun fd => match fd with (ft, fl, v) => ERecordValBegin ft fl :: emit v ++ [ERecordValEnd ft fl] end) before ++ [ERecordValBegin ft fl]))).
      { apply kop_first; [eapply kop_over; [reflexivity|intros ?; reflexivity|apply (kop_bind _ _ (kop_itb l i) kop_map_begin)]|].
        apply kop_app; [apply kop_blocks; intros [[ft' fl'] v]|apply kop_one].
        * apply kop_between; [eapply kop_over; [reflexivity|intros ?; reflexivity|apply kop_record_val]|apply kop_value|apply kop_same; intros f; apply jm_record_val_end].
        * eapply kop_over; [reflexivity|intros ?; reflexivity|apply kop_record_val]. }
      apply (wrap_plugs el (fun h => emit (fill c h)) (fun h => TRecord t l i n (before ++ (ft, fl, fill c h) :: rest))
        (ERecordBegin t l i n :: flat_map (fun fd => match fd with (ft, fl, v) => ERecordValBegin ft fl :: emit v ++ [ERecordValEnd ft fl] end) before ++ [ERecordValBegin ft fl])
        (ERecordValEnd ft fl :: flat_map (fun fd => ERecordValBegin (fst (fst fd)) (snd (fst fd)) :: emit (snd fd) ++ [ERecordValEnd (fst (fst fd)) (snd (fst fd))]) rest ++ [ERecordEnd t l i])); auto.
      + apply (inside_plugs el c (ERecordBegin t l i n :: flat_map (fun fd => match fd with (ft, fl, v) => ERecordValBegin ft fl :: emit v ++ [ERecordValEnd ft fl] end) before) (ERecordValBegin ft fl)); [exact K|intros g g' R; rewrite jm_over in R by reflexivity; apply (record_val_off _ _ _ R)|].
        intros D. apply (IHc O). intros X. rewrite <- (deeper c D). apply L, X.
      + apply (same_it_rest (fun fd : option tag * label * tree => ERecordValBegin (fst (fst fd)) (snd (fst fd)))).
        * intros f. apply jm_record_val_end.
        * intros v f x. rewrite !jm_over by reflexivity. apply record_val_it.
        * intros f x. rewrite !jm_over by reflexivity. apply ite_it.
      + intros h. cbn [emit]. rewrite flat_map_app. cbn [flat_map app].
        rewrite (flat_map_ext _ (fun fd : option tag * label * tree => ERecordValBegin (fst (fst fd)) (snd (fst fd)) :: emit (snd fd) ++ [ERecordValEnd (fst (fst fd)) (snd (fst fd))])) with (l := rest) by (intros [[? ?] ?]; reflexivity).
        rewrite <- !app_assoc. cbn [app]. rewrite <- ?app_assoc. reflexivity.
    - assert (K : kop (fun f => J f (ETupleBegin t l i n :: flat_map (fun fd => match fd with (ft, fi, v) => ETupleValBegin ft fi :: emit v ++ [ETupleValEnd ft fi] end) before ++ [ETupleValBegin ft fi]))).
      { apply kop_first; [eapply kop_over; [reflexivity|intros ?; reflexivity|apply (kop_bind _ _ (kop_itb l i) kop_seq_begin)]|].
        assert (V : forall a b, kop (fun f => jm f (ETupleValBegin a b))) by (intros a b f f' X; rewrite jm_tuple_val_begin in X; apply kop_seq_val in X; exact X).
        apply kop_app; [apply kop_blocks; intros [[ft' fi'] v]|apply kop_one, V].
        apply kop_between; [apply V|apply kop_value|apply kop_same; intros f; apply jm_tuple_val_end]. }
      apply (wrap_plugs el (fun h => emit (fill c h)) (fun h => TTuple t l i n (before ++ (ft, fi, fill c h) :: rest))
        (ETupleBegin t l i n :: flat_map (fun fd => match fd with (ft, fi, v) => ETupleValBegin ft fi :: emit v ++ [ETupleValEnd ft fi] end) before ++ [ETupleValBegin ft fi])
        (ETupleValEnd ft fi :: flat_map (fun fd => ETupleValBegin (fst (fst fd)) (snd (fst fd)) :: emit (snd fd) ++ [ETupleValEnd (fst (fst fd)) (snd (fst fd))]) rest ++ [ETupleEnd t l i])); auto.
      + apply (inside_plugs el c (ETupleBegin t l i n :: flat_map (fun fd => match fd with (ft, fi, v) => ETupleValBegin ft fi :: emit v ++ [ETupleValEnd ft fi] end) before) (ETupleValBegin ft fi)); [exact K|intros g g' R; rewrite jm_tuple_val_begin in R; apply (seq_val_off _ _ R)|].
        intros D. apply (IHc O). intros X. rewrite <- (deeper c D). apply L, X.
      + apply (same_it_rest (fun fd : option tag * index * tree => ETupleValBegin (fst (fst fd)) (snd (fst fd)))).
        * intros f. apply jm_tuple_val_end.
        * intros v f x. rewrite !jm_tuple_val_begin. apply seq_val_it.
        * intros f x. rewrite !jm_over by reflexivity. apply ite_it.
      + intros h. cbn [emit]. rewrite flat_map_app. cbn [flat_map app].
        rewrite (flat_map_ext _ (fun fd : option tag * index * tree => ETupleValBegin (fst (fst fd)) (snd (fst fd)) :: emit (snd fd) ++ [ETupleValEnd (fst (fst fd)) (snd (fst fd))])) with (l := rest) by (intros [[? ?] ?]; reflexivity).
        rewrite <- !app_assoc. cbn [app]. rewrite <- ?app_assoc. reflexivity.
    - assert (K : kop (fun f => J f (ERecTupBegin t l i n :: flat_map (fun fd => match fd with (ft, fl, fi, v) => ERecTupValBegin ft fl fi :: emit v ++ [ERecTupValEnd ft fl fi] end) before ++ [ERecTupValBegin ft fl fi]))).
      { apply kop_first; [intros f f' X; rewrite jm_rectup_begin in X; apply (kop_bind _ _ (kop_itb l i) kop_map_begin) in X; exact X|].
        assert (V : forall a b d, kop (fun f => jm f (ERecTupValBegin a b d))) by (intros a b d f f' X; rewrite jm_rectup_val_begin in X; apply kop_record_val in X; exact X).
        apply kop_app; [apply kop_blocks; intros [[[ft' fl'] fi'] v]|apply kop_one, V].
        apply kop_between; [apply V|apply kop_value|apply kop_same; intros f; apply jm_rectup_val_end]. }
      apply (wrap_plugs el (fun h => emit (fill c h)) (fun h => TRecTup t l i n (before ++ (ft, fl, fi, fill c h) :: rest))
        (ERecTupBegin t l i n :: flat_map (fun fd => match fd with (ft, fl, fi, v) => ERecTupValBegin ft fl fi :: emit v ++ [ERecTupValEnd ft fl fi] end) before ++ [ERecTupValBegin ft fl fi])
        (ERecTupValEnd ft fl fi :: flat_map (fun fd => ERecTupValBegin (fst (fst (fst fd))) (snd (fst (fst fd))) (snd (fst fd)) :: emit (snd fd) ++ [ERecTupValEnd (fst (fst (fst fd))) (snd (fst (fst fd))) (snd (fst fd))]) rest ++ [ERecTupEnd t l i])); auto.
      + apply (inside_plugs el c (ERecTupBegin t l i n :: flat_map (fun fd => match fd with (ft, fl, fi, v) => ERecTupValBegin ft fl fi :: emit v ++ [ERecTupValEnd ft fl fi] end) before) (ERecTupValBegin ft fl fi)); [exact K|intros g g' R; rewrite jm_rectup_val_begin in R; apply (record_val_off _ _ _ R)|].
        intros D. apply (IHc O). intros X. rewrite <- (deeper c D). apply L, X.
      + apply (same_it_rest (fun fd : option tag * label * index * tree => ERecTupValBegin (fst (fst (fst fd))) (snd (fst (fst fd))) (snd (fst fd)))).
        * intros f. apply jm_rectup_val_end.
        * intros v f x. rewrite !jm_rectup_val_begin. apply record_val_it.
        * intros f x. rewrite !jm_rectup_end. apply ite_it.
      + intros h. cbn [emit]. rewrite flat_map_app. cbn [flat_map app].
        rewrite (flat_map_ext _ (fun fd : option tag * label * index * tree => ERecTupValBegin (fst (fst (fst fd))) (snd (fst (fst fd))) (snd (fst fd)) :: emit (snd fd) ++ [ERecTupValEnd (fst (fst (fst fd))) (snd (fst (fst fd))) (snd (fst fd))])) with (l := rest) by (intros [[[? ?] ?] ?]; reflexivity).
        rewrite <- !app_assoc. cbn [app]. rewrite <- ?app_assoc. reflexivity.
  Qed.
End Context.

(** ** C27

    Whatever is around it, a value is written as on its own: replacing it by another
    replaces exactly its own text, or fails as the other does on its own.  The place
    may be any value in sequences, maps, records, tuples, enums and tagged values, at
    any depth; not a map key, where text is all there is.  Values with a name need
    to be an element or field: after some keys they are written differently. *)
Theorem C27_own_text_anywhere : forall r32 r64 c t0 s0 out, plain_place c = true ->
  takes_name t0 = false \/ element_place c = true -> alone r32 r64 t0 = SOk s0 -> alone r32 r64 (fill c t0) = SOk out ->
  exists a b, out = a ++ s0 ++ b /\
  forall t, takes_name t = false \/ element_place c = true ->
  alone r32 r64 (fill c t) = match alone r32 r64 t with SOk s => SOk (a ++ s ++ b) | failure => failure end.
Proof.
  intros r32 r64 c t0 s0 out O T0 A0 F0. pose proof (own_text_good r32 r64 (element_place c) t0 T0) as G0. rewrite A0 in G0.
  destruct (fill_plugs r32 r64 (element_place c) c O (fun E => E) false true []) as [(a & b & H)|H].
  - exists a, b. split.
    + destruct (H t0 _ G0) as (x & Hx). rewrite alone_run, Hx in F0. injection F0 as <-. reflexivity.
    + intros t T. pose proof (H t _ (own_text_good r32 r64 (element_place c) t T)) as Ht. rewrite (alone_run _ _ (fill c t)). destruct (alone r32 r64 t) as [s|e|].
      * destruct Ht as (x & ->). reflexivity.
      * destruct Ht as (g & -> & <-). reflexivity.
      * cbn [gives] in Ht. rewrite Ht. reflexivity.
  - exfalso. rewrite alone_run in F0. specialize (H t0 s0 G0).
    destruct (run _ _ (emit (fill c t0))) as [g|g|]; [destruct (H g eq_refl)|discriminate|discriminate].
Qed.

(** ** C43

    Embedded JSON ([JsonStr], [JsonSlice]) anywhere inside a value that can be
    written with [null] in its place: the bytes in the place of the [null]. *)
Theorem C43_verbatim_anywhere : forall r32 r64 c v0 out, plain_place c = true ->
  streams v0 (fill c TNull) -> json_to_string r32 r64 v0 = SOk out ->
  exists a b, out = a ++ bs "null" ++ b /\
  forall v l i w s, is_named l i = false \/ element_place c = true -> text_of w = Some s ->
  (streams v (fill c (TTagged (Some JSON_VALUE) l i w)) -> json_to_string r32 r64 v = SOk (a ++ s ++ b)) /\
  (streams v (fill c (TTagged (Some JSON_TEXT) l i w)) -> json_to_string r32 r64 v = SOk (a ++ quoted s ++ b)).
Proof.
  intros r32 r64 c v0 out O S0 J0. rewrite (to_string_alone _ _ _ _ S0) in J0.
  destruct (C27_own_text_anywhere r32 r64 c TNull (bs "null") out O (or_introl eq_refl) eq_refl J0) as (a & b & E & H).
  exists a, b. split; [exact E|]. intros v l i w s N T. split; intros S; rewrite (to_string_alone _ _ _ _ S).
  - rewrite (H (TTagged (Some JSON_VALUE) l i w) N). unfold alone. rewrite (C43_json_value_verbatim r32 r64 _ l i w s (flat_CE_false _) T). reflexivity.
  - rewrite (H (TTagged (Some JSON_TEXT) l i w) N). unfold alone. rewrite (C43_json_text_verbatim r32 r64 _ l i w s (flat_CE_false _) T). reflexivity.
Qed.

Definition deep_place : ctx :=
  XMap None [(txt "k", TBool true)] (txt "j") (XEnum None (lab "E") None (XTagged None (lab "V") None (XSeq None [TNull] XHere [TInt U8 1]))) [].
Example C43_deep : plain_place deep_place = true /\
  json_to_string exact_print exact_print (map CE (emit (fill deep_place TNull))) = SOk (bs "{""k"":true,""j"":{""V"":[null,null,1]}}") /\
  json_to_string exact_print exact_print (map CE (emit (fill deep_place (TTagged (Some JSON_VALUE) None None (txt "{ ""a"":2 }"))))) =
    SOk (bs "{""k"":true,""j"":{""V"":[null,{ ""a"":2 },1]}}").
Proof. vm_compute. repeat split. Qed.

Example C27_named_element : element_place deep_place = true /\
  takes_name (TTagged None (lab "N") None (TBool true)) = true /\
  alone exact_print exact_print (TTagged None (lab "N") None (TBool true)) = SOk (bs "true") /\
  alone exact_print exact_print (fill deep_place (TTagged None (lab "N") None (TBool true))) = SOk (bs "{""k"":true,""j"":{""V"":[null,true,1]}}").
Proof. vm_compute. repeat split. Qed.

(** ** C22

    A number streamed as text, anywhere inside a value: its text may be cut in any
    way exactly if it may on its own. *)
Theorem C22_number_any_cut_anywhere : forall r32 r64 c v0 out l i s, plain_place c = true ->
  streams v0 (fill c TNull) -> json_to_string r32 r64 v0 = SOk out -> is_named l i = false \/ element_place c = true -> utf8 s = true ->
  ((forall v v' n n' fs fs',
      streams v (fill c (TTagged (Some NUMBER) l i (TText n fs))) -> streams v' (fill c (TTagged (Some NUMBER) l i (TText n' fs'))) ->
      forallb utf8 (map snd fs) = true -> forallb utf8 (map snd fs') = true ->
      frags_text fs = s -> frags_text fs' = s ->
      json_to_string r32 r64 v = json_to_string r32 r64 v') <->
   cut_free s).
Proof.
  intros r32 r64 c v0 out l i s O S0 J0 N U. rewrite (to_string_alone _ _ _ _ S0) in J0.
  destruct (C27_own_text_anywhere r32 r64 c TNull (bs "null") out O (or_introl eq_refl) eq_refl J0) as (a & b & _ & H).
  rewrite <- (C22_number_any_cut_exactly r32 r64 l i s U).
  split; intros X v v' n n' fs fs' Sv Sv' Uf Uf' E E'; rewrite (to_string_alone _ _ _ _ Sv), (to_string_alone _ _ _ _ Sv').
  - specialize (X _ _ n n' fs fs' (flat_CE_false _) (flat_CE_false _) Uf Uf' E E').
    rewrite (to_string_alone _ _ _ _ (flat_CE_false _)), (to_string_alone r32 r64 _ (fill c (TTagged (Some NUMBER) l i (TText n' fs'))) (flat_CE_false _)) in X.
    rewrite (H (TTagged (Some NUMBER) l i (TText n fs)) N), (H (TTagged (Some NUMBER) l i (TText n' fs')) N) in X.
    generalize dependent (alone r32 r64 (TTagged (Some NUMBER) l i (TText n fs))).
    generalize dependent (alone r32 r64 (TTagged (Some NUMBER) l i (TText n' fs'))). intros y x X.
    destruct x as [p|p|], y as [q|q|]; try discriminate X; try congruence.
    assert (P : a ++ p ++ b = a ++ q ++ b) by congruence. apply app_inv_head, app_inv_tail in P. congruence.
  - specialize (X _ _ n n' fs fs' (flat_CE_false _) (flat_CE_false _) Uf Uf' E E').
    rewrite (to_string_alone _ _ _ _ (flat_CE_false _)), (to_string_alone r32 r64 _ (TTagged (Some NUMBER) l i (TText n' fs')) (flat_CE_false _)) in X.
    rewrite (H (TTagged (Some NUMBER) l i (TText n fs)) N), (H (TTagged (Some NUMBER) l i (TText n' fs')) N), X. reflexivity.
Qed.

Example C22_deep_cut :
  json_to_string exact_print exact_print (map CE (emit (fill deep_place (TTagged (Some NUMBER) None None (TText None [(true, bs "1"); (false, bs "2.5")]))))) =
  json_to_string exact_print exact_print (map CE (emit (fill deep_place (TTagged (Some NUMBER) None None (txt "12.5"))))).
Proof. vm_compute. reflexivity. Qed.

(** ** C24

    What a number streamed as text becomes, anywhere inside a value. *)
Theorem C24_any_text_anywhere : forall r32 r64 c v0 out, plain_place c = true ->
  streams v0 (fill c TNull) -> json_to_string r32 r64 v0 = SOk out ->
  exists a b, out = a ++ bs "null" ++ b /\
  forall v l i n fs, is_named l i = false \/ element_place c = true -> streams v (fill c (TTagged (Some NUMBER) l i (TText n fs))) ->
  json_to_string r32 r64 v = match number_becomes (map snd fs) with Some s => SOk (a ++ s ++ b) | None => SPanic end.
Proof.
  intros r32 r64 c v0 out O S0 J0. rewrite (to_string_alone _ _ _ _ S0) in J0.
  destruct (C27_own_text_anywhere r32 r64 c TNull (bs "null") out O (or_introl eq_refl) eq_refl J0) as (a & b & E & H).
  exists a, b. split; [exact E|]. intros v l i n fs N S. rewrite (to_string_alone _ _ _ _ S), (H (TTagged (Some NUMBER) l i (TText n fs)) N).
  unfold alone. rewrite (C24_any_text_exactly r32 r64 _ l i n fs (flat_CE_false _)). destruct (number_becomes (map snd fs)); reflexivity.
Qed.

Example C24_deep_number :
  json_to_string exact_print exact_print (map CE (emit (fill deep_place (TTagged (Some NUMBER) None None (txt "+012.50"))))) =
    SOk (bs "{""k"":true,""j"":{""V"":[null,12.50,1]}}") /\
  json_to_string exact_print exact_print (map CE (emit (fill deep_place (TTagged (Some NUMBER) None None (txt "NaN"))))) =
    SOk (bs "{""k"":true,""j"":{""V"":[null,null,1]}}").
Proof. vm_compute. split; reflexivity. Qed.

Print Assumptions C27_own_text_anywhere.
Print Assumptions C43_verbatim_anywhere.
Print Assumptions C22_number_any_cut_anywhere.
Print Assumptions C24_any_text_anywhere.
