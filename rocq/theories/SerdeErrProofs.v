(** * SerdeErrProofs: lemmas about the errors of [ToSerialize] *)

From Verif Require Import Base Event Tree LowerModel DataModel DataProofs FragModel BufferSpec StdModel NestedModel NestedSpec NestedProofs SerdeModel SerdeSpec SerdeProofs SerdeErrModel SerdeErrSpec.

Definition efin {E A} (cu : E) (o : outcome (A + E)) : result E A :=
  match o with OOk (inl x) => ROk x | OOk (inr e) => RErr e | OErr => RErr cu | OPanic => RPanic end.
Lemma efin_inner {E A} (cu : E) (o : result E A) : efin cu (einner o) = o.
Proof. destruct o; reflexivity. Qed.
Lemma rbind_ext {E A B} (o : result E A) (f g : A -> result E B) : (forall x, f x = g x) -> rbind o f = rbind o g.
Proof. intros H. destruct o; cbn; auto. Qed.
Lemma rbind_rbind {E A B C} (o : result E A) (f : A -> result E B) (g : B -> result E C) :
  (y <~ (x <~ o ;; f x) ;; g y) = x <~ o ;; y <~ f x ;; g y.
Proof. destruct o; reflexivity. Qed.

(** The state after a [value_computed] that went well. *)
Definition into {E K K'} (inj : K -> K') (r : result E K) : outcome (K' + E) :=
  match r with ROk z => OOk (inl (inj z)) | RErr _ => OErr | RPanic => OPanic end.
Lemma fold_eeach {E K K' X Y} (inj : K -> K') (step : K -> X -> result E K) (op : K' + E -> Y -> outcome (K' + E)) (R : Y -> X -> Prop) args xs :
  Forall2 R args xs ->
  (forall s y x, In x xs -> R y x -> op (inl (inj s)) y = into inj (step s x)) ->
  forall s, fold_o op (inl (inj s)) args = into inj (eeach step s xs).
Proof.
  induction 1 as [|y x args xs Ryx F IH]; intros H s; [reflexivity|].
  cbn [fold_o eeach]. rewrite (H s y x) by (auto; left; reflexivity).
  destruct (step s x) as [z|e|]; cbn [into obind rbind]; try reflexivity. apply IH. intros. apply H; auto; right; assumption.
Qed.
Lemma ecompound {E K K' X Y B} (cu : E) (inj : K -> K') (beg : result E K) (beg' : outcome (K' + E)) (step : K -> X -> result E K)
    (op : K' + E -> Y -> outcome (K' + E)) (R : Y -> X -> Prop) (e : K -> result E B) (e' : K' + E -> outcome (B + E)) args xs :
  Forall2 R args xs ->
  beg' = einner (rmap inj beg) ->
  (forall s y x, In x xs -> R y x -> op (inl (inj s)) y = into inj (step s x)) ->
  (forall er y, op (inr er) y = OErr) ->
  (forall s, e' (inl (inj s)) = einner (e s)) -> (forall er, e' (inr er) = OOk (inr er)) ->
  efin cu (s <- beg' ;; s' <- fold_o op s args ;; e' s') = compound_of (fun _ => cu) (any xs) beg step xs e.
Proof.
  intros F -> H1 H2 H3 H4. unfold compound_of. destruct beg as [s|er|]; cbn [rmap rbind einner obind].
  - replace (if any xs then masked (fun _ => cu) (ROk s) else ROk s) with (@ROk E _ s) by (destruct (any xs); reflexivity).
    cbn [rbind]. rewrite (fold_eeach inj step op R args xs F H1 s). destruct (eeach step s xs) as [z|er|]; cbn [into obind masked rbind]; try reflexivity.
    rewrite H3. apply efin_inner.
  - destruct F; cbn [fold_o any obind]; [rewrite H4; reflexivity|]. rewrite H2. reflexivity.
  - destruct (any xs); reflexivity.
Qed.

Lemma eeach_map {E St A B} (g : A -> B) (f : St -> B -> result E St) l : forall s, eeach f s (map g l) = eeach (fun s x => f s (g x)) s l.
Proof. induction l as [|x l IH]; intros s; [reflexivity|]. cbn [eeach map]. apply rbind_ext, IH. Qed.
Lemma eeach_ext {E St A} (f g : St -> A -> result E St) l : (forall s x, In x l -> f s x = g s x) -> forall s, eeach f s l = eeach g s l.
Proof.
  intros H. induction l as [|x l IH]; intros s; [reflexivity|]. cbn [eeach]. rewrite (H s x (or_introl eq_refl)). apply rbind_ext, IH.
  intros. apply H. right. assumption.
Qed.
Lemma any_map {A B} (g : A -> B) l : any (map g l) = any l.
Proof. destruct l; reflexivity. Qed.
Lemma compound_map {E K X Y B} (mask : E -> E) (g : X -> Y) more (beg : result E K) step xs (fin : K -> result E B) :
  compound_of mask more beg step (map g xs) fin = compound_of mask more beg (fun s x => step s (g x)) xs fin.
Proof. unfold compound_of. apply rbind_ext. intros s. rewrite eeach_map. reflexivity. Qed.
Lemma compound_ext {E K X B} (mask : E -> E) more (beg : result E K) step step' (xs : list X) (fin : K -> result E B) :
  (forall s x, In x xs -> step s x = step' s x) ->
  compound_of mask more beg step xs fin = compound_of mask more beg step' xs fin.
Proof. intros H. unfold compound_of. apply rbind_ext. intros s. rewrite (eeach_ext step step' xs H). reflexivity. Qed.

(** The fields of a record up to the first one without a static name. *)
Lemma compound_named {A B E St R} (cu : E) (f : B -> sdata) (fld : St -> bytes -> sdata -> result E St) (beg : result E St) (e : St -> result E R) (fs : list (A * label * B)) :
  compound_of (fun _ => cu) (any fs) beg
    (fun s x => match x with (_, l, v) => match as_static_str l with Some n => fld s n (f v) | None => RErr cu end end) fs e =
  (let (vs, ok) := named f fs in
   compound_of (fun _ => cu) (any vs || negb ok) beg (fun s x => match x with (n, v) => fld s n v end) vs (fun s => if ok then e s else RErr cu)).
Proof.
  destruct (named f fs) as [vs ok] eqn:En. unfold compound_of.
  assert (any fs = any vs || negb ok) as ->.
  { destruct fs as [|[[a l] v] fs]; cbn [named] in En; [injection En as <- <-; reflexivity|].
    destruct (as_static_str l); [destruct (named f fs)|]; injection En as <- <-; reflexivity. }
  apply rbind_ext. intros s. revert vs ok En s. induction fs as [|[[a l] v] fs IH]; intros vs ok En s; cbn [named] in En.
  - injection En as <- <-. reflexivity.
  - destruct (as_static_str l) as [n|] eqn:El.
    + destruct (named f fs) as [vs' ok'] eqn:E'. injection En as <- <-. cbn [eeach]. rewrite El.
      destruct (fld s n (f v)) as [z|er|]; cbn [rbind masked]; try reflexivity. apply IH. reflexivity.
    + injection En as <- <-. cbn [eeach]. rewrite El. reflexivity.
Qed.

Section ToSerialize.
Variable S : eserializer.
Hypothesis OC : opaque_echildren S.
Variable n : nat.
Notation ES := (eser S (fun _ => e_custom S)).
Notation EF := (efin (e_custom S)).
Hypothesis IH : forall a k, shallow (mirror (tree_of a)) = true -> levels (mirror (tree_of a)) <= n ->
  eto_serialize S n (acalls a) k = ES (as_serde (mirror (tree_of a))) k.
Notation Z := (eserialize_stream S (eto_serialize S n)).
Notation fine := (fine n).

Lemma efine_same v r : child v r -> fine r -> same_echild (eto_serialize S n (snd v)) (ES (as_serde r)).
Proof. intros (a & E & <-) [H L] k. rewrite E. apply IH; assumption. Qed.

Lemma eseq_same k len args vs : Forall2 child args vs -> (forall c, In c vs -> fine c) ->
  EF (s <- n_seq_begin (Z k) len ;; s' <- fold_o (seq_value (Z k)) s args ;; seq_end (Z k) s') =
  ES (DSeq len (map as_serde vs)) k.
Proof.
  intros F H. cbn [eser]. rewrite compound_map, any_map.
  apply (ecompound _ (fun x => x) (es_seq S k len) _ (fun s r => e_seq_element S s (ES (as_serde r))) _ child (e_seq_end S) _ args vs F).
  - cbn. destruct (es_seq S k len); reflexivity.
  - intros s y x I C. cbn. rewrite (eoc_seq S OC s _ _ (efine_same _ _ C (H _ I))). reflexivity.
  - reflexivity.
  - reflexivity.
  - reflexivity.
Qed.
Lemma emap_same k len args es :
  Forall2 (fun x e => match x, e with (a, b), (k, v) => child a k /\ child b v end) args es ->
  (forall c, In c (flat_map (fun e => match e with (a, b) => [a; b] end) es) -> fine c) ->
  EF (s <- n_map_begin (Z k) len ;;
       s' <- fold_o (fun s x => match x with (a, b) => s1 <- map_key (Z k) s a ;; map_value (Z k) s1 b end) s args ;; map_end (Z k) s') =
  ES (DMap len (map (fun e => match e with (a, b) => (as_serde a, as_serde b) end) es)) k.
Proof.
  intros F H. cbn [eser]. rewrite compound_map, any_map.
  etransitivity; [apply (ecompound _ (fun x => x) (es_map S k len) _
    (fun s e => match e with (a, b) => s <~ e_map_key S s (ES (as_serde a)) ;; e_map_value S s (ES (as_serde b)) end) _
    (fun x e => match x, e with (a, b), (k, v) => child a k /\ child b v end) (e_map_end S) _ args es F)|]; cycle -1.
  - apply compound_ext. intros s [a b] _. reflexivity.
  - cbn. destruct (es_map S k len); reflexivity.
  - intros s [y y'] [x x'] I [C C'].
    assert (fine x /\ fine x') as [Hx Hx'].
    { split; apply H, in_flat_map; exists (x, x'); (split; [exact I|cbn; auto]). }
    cbn. rewrite (eoc_map_key S OC s _ _ (efine_same _ _ C Hx)). destruct (e_map_key S s (ES (as_serde x))); cbn; try reflexivity.
    rewrite (eoc_map_value S OC _ _ _ (efine_same _ _ C' Hx')). reflexivity.
  - intros er [a b]. reflexivity.
  - reflexivity.
  - reflexivity.
Qed.

Section Tuples.
  Variables (args : list (option tag * index * arg)) (fs : list (option tag * index * rview)).
  Hypothesis F : Forall2 (fun x f => match x, f with (xt, xi, a), (ft, fi, v) => xt = ft /\ xi = fi /\ child a v end) args fs.
  Hypothesis H : forall c, In c (map (fun f => match f with (_, _, v) => v end) fs) -> fine c.
  Notation vs := (map (fun f : option tag * index * rview => match f with (_, _, v) => as_serde v end) fs).
  Lemma etuple_same k t l i len :
    EF (s <- n_tuple_begin (Z k) t l i len ;;
         s' <- fold_o (fun s x => match x with (xt, xi, a) => tuple_value (Z k) s xt xi a end) s args ;; tuple_end (Z k) s') =
    ES (match len with
           | None => DFail
           | Some n => match l with
                       | None => DTuple n vs
                       | Some l => match as_static_str l with Some name => DTupleStruct name n vs | None => DFail end
                       end
           end) k.
  Proof.
    destruct len as [len|]; [|reflexivity]. destruct l as [l|].
    - cbn [n_tuple_begin eserialize_stream need obind]. destruct (as_static_str l) as [name|]; [|reflexivity]. cbn [need obind eser].
      rewrite compound_map, any_map.
      etransitivity; [apply (ecompound _ inl (es_tuple_struct S k name len) _ (fun s f => match f with (_, _, v) => e_tstruct_field S s (ES (as_serde v)) end) _ _ (e_tstruct_end S) _ args fs F)|]; cycle -1.
      + apply compound_ext. intros s [[? ?] ?] _. reflexivity.
      + reflexivity.
      + intros s [[yt yi] y] [[xt xi] x] I (_ & _ & C). cbn. rewrite (eoc_tstruct S OC s _ _ (efine_same _ _ C (tuple_fine _ _ H _ _ _ I))).
        destruct (e_tstruct_field _ _ _); reflexivity.
      + intros er [[? ?] ?]. reflexivity.
      + reflexivity.
      + reflexivity.
    - cbn [n_tuple_begin eserialize_stream need obind eser]. rewrite compound_map, any_map.
      etransitivity; [apply (ecompound _ inr (es_tuple S k len) _ (fun s f => match f with (_, _, v) => e_tuple_element S s (ES (as_serde v)) end) _ _ (e_tuple_end S) _ args fs F)|]; cycle -1.
      + apply compound_ext. intros s [[? ?] ?] _. reflexivity.
      + reflexivity.
      + intros s [[yt yi] y] [[xt xi] x] I (_ & _ & C). cbn. rewrite (eoc_tuple S OC s _ _ (efine_same _ _ C (tuple_fine _ _ H _ _ _ I))).
        destruct (e_tuple_element _ _ _); reflexivity.
      + intros er [[? ?] ?]. reflexivity.
      + reflexivity.
      + reflexivity.
  Qed.
  Lemma evtuple_same k t l i len name :
    EF (s <- enum_tuple_begin (Z k) name t l i len ;;
         s' <- fold_o (fun s x => match x with (xt, xi, a) => vtuple_value (Z k) s xt xi a end) s args ;; vtuple_end (Z k) s') =
    ES (match name_of l, index_of i, len with
           | Some variant, Some i, Some n => DTupleVariant name i variant n vs
           | _, _, _ => DFail
           end) k.
  Proof.
    cbn [enum_tuple_begin eserialize_stream]. rewrite static_need, need_u32.
    destruct (name_of l) as [variant|]; [|reflexivity]. destruct (index_of i) as [ix|]; [|reflexivity]. destruct len as [len|]; [|reflexivity].
    cbn [need obind eser]. rewrite compound_map, any_map.
    etransitivity; [apply (ecompound _ (fun x => x) (es_tuple_variant S k name ix variant len) _ (fun s f => match f with (_, _, v) => e_tvariant_field S s (ES (as_serde v)) end) _ _ (e_tvariant_end S) _ args fs F)|]; cycle -1.
    + apply compound_ext. intros s [[? ?] ?] _. reflexivity.
    + destruct (es_tuple_variant _ _ _ _ _ _); reflexivity.
    + intros s [[yt yi] y] [[xt xi] x] I (_ & _ & C). cbn. rewrite (eoc_tvariant S OC s _ _ (efine_same _ _ C (tuple_fine _ _ H _ _ _ I))). reflexivity.
    + intros er [[? ?] ?]. reflexivity.
    + reflexivity.
    + reflexivity.
  Qed.
End Tuples.

Section Records.
  Variables (args : list (option tag * label * arg)) (fs : list (option tag * label * rview)).
  Hypothesis F : Forall2 (fun x f => match x, f with (xt, xl, a), (ft, fl, v) => xt = ft /\ kept_label xl = fl /\ child a v end) args fs.
  Hypothesis H : forall c, In c (map (fun f => match f with (_, _, v) => v end) fs) -> fine c.
  Lemma erecord_same k t l i len :
    EF (s <- n_record_begin (Z k) t l i len ;;
         s' <- fold_o (fun s x => match x with (xt, xl, a) => record_value (Z k) s xt xl a end) s args ;; record_end (Z k) s') =
    ES (match len with
           | None => DFail
           | Some n => match l with
                       | None => DTuple n (map (fun f : option tag * label * rview => match f with (_, _, v) => as_serde v end) fs)
                       | Some l => match as_static_str l with Some name => let (vs, ok) := named as_serde fs in DStruct name n vs ok | None => DFail end
                       end
           end) k.
  Proof.
    destruct len as [len|]; [|reflexivity]. destruct l as [l|].
    - cbn [n_record_begin eserialize_stream need obind]. destruct (as_static_str l) as [name|]; [|reflexivity]. cbn [need obind].
      etransitivity; [apply (ecompound _ inl (es_struct S k name len) _
        (fun s f => match f with (_, l, v) => match as_static_str l with Some n => e_struct_field S s n (ES (as_serde v)) | None => RErr (e_custom S) end end) _ _ (e_struct_end S) _ args fs F)|]; cycle -1.
      + etransitivity; [apply (compound_named (e_custom S) as_serde (fun s n v => e_struct_field S s n (ES v)))|].
        destruct (named as_serde fs) as [vs ok]. reflexivity.
      + reflexivity.
      + intros s [[yt yl] y] [[xt xl] x] I (_ & El & C). cbn. subst xl. rewrite kept_static.
        destruct (as_static_str yl) as [f|]; [|reflexivity]. cbn.
        rewrite (eoc_struct S OC s _ _ _ (efine_same _ _ C (record_fine _ _ H _ _ _ I))). destruct (e_struct_field _ _ _ _); reflexivity.
      + intros er [[? ?] ?]. reflexivity.
      + reflexivity.
      + reflexivity.
    - cbn [n_record_begin eserialize_stream need obind eser]. rewrite compound_map, any_map.
      etransitivity; [apply (ecompound _ inr (es_tuple S k len) _ (fun s f => match f with (_, _, v) => e_tuple_element S s (ES (as_serde v)) end) _ _ (e_tuple_end S) _ args fs F)|]; cycle -1.
      + apply compound_ext. intros s [[? ?] ?] _. reflexivity.
      + reflexivity.
      + intros s [[yt yi] y] [[xt xi] x] I (_ & _ & C). cbn. rewrite (eoc_tuple S OC s _ _ (efine_same _ _ C (record_fine _ _ H _ _ _ I))).
        destruct (e_tuple_element _ _ _); reflexivity.
      + intros er [[? ?] ?]. reflexivity.
      + reflexivity.
      + reflexivity.
  Qed.
  Lemma evrecord_same k t l i len name :
    EF (s <- enum_record_begin (Z k) name t l i len ;;
         s' <- fold_o (fun s x => match x with (xt, xl, a) => vrecord_value (Z k) s xt xl a end) s args ;; vrecord_end (Z k) s') =
    ES (match name_of l, index_of i, len with
           | Some variant, Some i, Some n => let (vs, ok) := named as_serde fs in DStructVariant name i variant n vs ok
           | _, _, _ => DFail
           end) k.
  Proof.
    cbn [enum_record_begin eserialize_stream]. rewrite static_need, need_u32.
    destruct (name_of l) as [variant|]; [|reflexivity]. destruct (index_of i) as [ix|]; [|reflexivity]. destruct len as [len|]; [|reflexivity].
    cbn [need obind].
    etransitivity; [apply (ecompound _ (fun x => x) (es_struct_variant S k name ix variant len) _
      (fun s f => match f with (_, l, v) => match as_static_str l with Some n => e_svariant_field S s n (ES (as_serde v)) | None => RErr (e_custom S) end end) _ _ (e_svariant_end S) _ args fs F)|]; cycle -1.
    + etransitivity; [apply (compound_named (e_custom S) as_serde (fun s n v => e_svariant_field S s n (ES v)))|].
      destruct (named as_serde fs) as [vs ok]. reflexivity.
    + destruct (es_struct_variant _ _ _ _ _ _); reflexivity.
    + intros s [[yt yl] y] [[xt xl] x] I (_ & El & C). cbn. subst xl. rewrite kept_static.
      destruct (as_static_str yl) as [f|]; [|reflexivity]. cbn.
      rewrite (eoc_svariant S OC s _ _ _ (efine_same _ _ C (record_fine _ _ H _ _ _ I))). reflexivity.
    + intros er [[? l'] ?]. cbn. destruct (as_static_str l'); reflexivity.
    + reflexivity.
    + reflexivity.
  Qed.
End Records.

Lemma eanswer_same r k o : answer (Z k) r o -> shallow r = true -> levels r <= Datatypes.S n ->
  EF o = ES (as_serde r) k.
Proof.
  intros A H L. pose proof (fine_children n r H L) as FC. destruct r; cbn [answer] in A; try (subst o; apply efin_inner).
  - destruct A as (b & ->). apply efin_inner.
  - destruct A as (b & ->). apply efin_inner.
  - destruct A as (l' & El & ->). cbn [n_tag eserialize_stream as_serde]. rewrite static_need, (name_kept _ _ El).
    destruct (otag_is t RUST_OPTION_NONE); [apply efin_inner|]. destruct (otag_is t RUST_UNIT); [apply efin_inner|].
    destruct (name_of l); [apply efin_inner|reflexivity].
  - destruct A as (l' & a & El & C & ->). cbn [n_tagged eserialize_stream as_serde]. rewrite static_need, (name_kept _ _ El).
    assert (fine r) as Fr by (apply FC; left; reflexivity).
    destruct (otag_is t RUST_OPTION_SOME).
    + rewrite efin_inner. apply (eoc_some S OC), efine_same; assumption.
    + destruct (name_of l); [|reflexivity]. cbn [need obind]. rewrite efin_inner. apply (eoc_newtype_struct S OC), efine_same; assumption.
  - destruct A as (l' & g & El & V & ->). cbn [n_enum_begin eserialize_stream]. rewrite static_need, (name_kept _ _ El).
    cbn [as_serde]. destruct (name_of l) as [name|]; [|reflexivity]. cbn [need obind].
    assert (FC' : forall c, In c (children r) -> fine c).
    { cbn [shallow levels] in H, L. apply andb_true_iff in H as [_ H]. apply fine_children; [exact H|lia]. }
    destruct r; cbn [variant_answer] in V; try contradiction.
    + destruct V as (l1 & E1 & ->). cbn [enum_tag eserialize_stream]. rewrite static_need, need_u32, (name_kept _ _ E1).
      destruct (name_of l0); [|reflexivity]. destruct (index_of i0); [|reflexivity]. apply efin_inner.
    + destruct V as (l1 & a & E1 & C & ->). cbn [enum_tagged eserialize_stream]. rewrite static_need, need_u32, (name_kept _ _ E1).
      destruct (name_of l0); [|reflexivity]. destruct (index_of i0); [|reflexivity]. cbn [need obind]. rewrite efin_inner.
      apply (eoc_newtype_variant S OC), efine_same; [assumption|]. apply FC'. left. reflexivity.
    + destruct V as (l1 & g' & E1 & V & ->). reflexivity.
    + destruct V as (l1 & args & E1 & F & ->). etransitivity; [apply (evrecord_same args fs F FC')|]. rewrite (name_kept _ _ E1). reflexivity.
    + destruct V as (l1 & args & E1 & F & ->). etransitivity; [apply (evtuple_same args fs F FC')|]. rewrite (name_kept _ _ E1). reflexivity.
  - destruct A as (args & F & ->). apply eseq_same; assumption.
  - destruct A as (args & F & ->). apply emap_same; assumption.
  - destruct A as (l' & args & El & F & ->). etransitivity; [apply (erecord_same args fs F FC)|]. subst l. cbn [as_serde].
    destruct n0; [|reflexivity]. destruct l' as [l'|]; [|reflexivity]. cbn [okept option_map]. rewrite kept_static. reflexivity.
  - destruct A as (l' & args & El & F & ->). etransitivity; [apply (etuple_same args fs F FC)|]. subst l. cbn [as_serde].
    destruct n0; [|reflexivity]. destruct l' as [l'|]; [|reflexivity]. cbn [okept option_map]. rewrite kept_static. reflexivity.
Qed.

Lemma estep_same a k : shallow (mirror (tree_of a)) = true -> levels (mirror (tree_of a)) <= Datatypes.S n ->
  eto_serialize S (Datatypes.S n) (acalls a) k = ES (as_serde (mirror (tree_of a))) k.
Proof.
  intros H L. change (EF (nested_stream (Z k) (acalls a)) = ES (as_serde (mirror (tree_of a))) k).
  destruct (handled1 (mirror (tree_of a))) eqn:E.
  - apply eanswer_same; [|exact H|exact L]. apply nested_answers, E.
  - assert (D : too_deep (mirror (tree_of a)) = false).
    { destruct (mirror (tree_of a)); try discriminate E. cbn [shallow] in H. apply andb_true_iff in H as [H _]. apply negb_true_iff, H. }
    destruct (any_refuses (S := Z k) a false E D) as (t & l & i & X). etransitivity; [apply f_equal; exact (ends_settled _ _ X)|].
    cbn [n_enum_begin eserialize_stream].
    transitivity (@RErr _ (e_ok S) (e_custom S)); [destruct (static_of l) as [x| |] eqn:El; try reflexivity; destruct l as [l|]; [|discriminate El]; cbn in El; destruct (as_static_str l); discriminate El|].
    destruct (mirror (tree_of a)); try discriminate E. cbn [as_serde]. destruct (name_of l0); [|reflexivity].
    destruct r; try discriminate E; reflexivity.
Qed.
End ToSerialize.

Lemma eto_serialize_same S : opaque_echildren S -> forall n a k, shallow (mirror (tree_of a)) = true -> levels (mirror (tree_of a)) <= n ->
  eto_serialize S n (acalls a) k = custom_ser S (as_serde (mirror (tree_of a))) k.
Proof.
  intros OC. induction n as [|n IH]; intros a k H L.
  - destruct (mirror (tree_of a)); cbn in L; lia.
  - apply estep_same; assumption.
Qed.

(** ** The choice of mask *)
Lemma compound_bare {E K X B} (m m' : E -> E) more (beg : result E K) step step' (xs : list X) (fin : K -> result E B) :
  any xs = false -> more = false -> compound_of m more beg step xs fin = compound_of m' more beg step' xs fin.
Proof. destruct xs; [|discriminate]. intros _ ->. unfold compound_of. apply rbind_ext. reflexivity. Qed.
Lemma partless_mask S m m' x : opaque_echildren S -> partless x = true -> same_echild (eser S m x) (eser S m' x).
Proof.
  intros OC. induction x using sdata_ind'; cbn [partless eser]; intros P k; try reflexivity.
  - apply (eoc_some S OC), IHx, P.
  - apply (eoc_newtype_struct S OC), IHx, P.
  - apply (eoc_newtype_variant S OC), IHx, P.
  - apply negb_true_iff in P. apply compound_bare; assumption.
  - apply negb_true_iff in P. apply compound_bare; assumption.
  - apply negb_true_iff in P. apply compound_bare; assumption.
  - apply negb_true_iff in P. apply compound_bare; assumption.
  - apply negb_true_iff in P. apply compound_bare; assumption.
  - apply negb_true_iff in P. apply compound_bare; [|exact P]. apply orb_false_iff in P as [P _]. exact P.
  - apply negb_true_iff in P. apply compound_bare; [|exact P]. apply orb_false_iff in P as [P _]. exact P.
Qed.

Lemma erase_bind {E A B} (r : result E A) (k : A -> result E B) : erase (rbind r k) = obind (erase r) (fun x => erase (k x)).
Proof. destruct r; reflexivity. Qed.
Lemma erase_masked {E A} (m : E -> E) (r : result E A) : erase (masked m r) = erase r.
Proof. destruct r; reflexivity. Qed.
Lemma erase_each {E St A} (f g : St -> A -> result E St) l :
  (forall s x, In x l -> erase (f s x) = erase (g s x)) -> forall s, erase (eeach f s l) = erase (eeach g s l).
Proof.
  intros H. induction l as [|x l IH]; intros s; [reflexivity|]. cbn [eeach]. rewrite !erase_bind, (H s x (or_introl eq_refl)).
  apply bind_ext. apply IH. intros. apply H. right. assumption.
Qed.
Lemma erase_compound {E K X B} (m m' : E -> E) more more' (beg : result E K) step step' (xs : list X) (fin : K -> result E B) :
  (forall s x, In x xs -> erase (step s x) = erase (step' s x)) ->
  erase (compound_of m more beg step xs fin) = erase (compound_of m' more' beg step' xs fin).
Proof.
  intros H. unfold compound_of. rewrite !erase_bind.
  assert (forall m (more : bool), erase (if more then masked m beg else beg) = erase beg) as E1 by (intros ? []; [apply erase_masked|reflexivity]).
  rewrite !E1. apply bind_ext. intros s. rewrite !erase_bind, !erase_masked, (erase_each step step' xs H). reflexivity.
Qed.
Lemma masks_alike S m m' x : error_blind S -> alike (eser S m x) (eser S m' x).
Proof.
  intros EB. induction x using sdata_ind'; cbn [eser]; intros k; try reflexivity.
  - apply (eb_some S EB), IHx.
  - apply (eb_newtype_struct S EB), IHx.
  - apply (eb_newtype_variant S EB), IHx.
  - apply erase_compound. intros s v I. rewrite Forall_forall in H. apply (eb_seq S EB), H, I.
  - apply erase_compound. intros s v I. rewrite Forall_forall in H. apply (eb_tuple S EB), H, I.
  - apply erase_compound. intros s v I. rewrite Forall_forall in H. apply (eb_tstruct S EB), H, I.
  - apply erase_compound. intros s v I. rewrite Forall_forall in H. apply (eb_tvariant S EB), H, I.
  - apply erase_compound. intros s [a b] I. rewrite Forall_forall in H. destruct (H _ I) as [Ha Hb]. cbn [fst snd] in Ha, Hb. rewrite !erase_bind, (eb_map_key S EB s _ _ Ha).
    apply bind_ext. intros z. apply (eb_map_value S EB), Hb.
  - apply erase_compound. intros s [fl fv] I. rewrite Forall_forall in H. apply (eb_struct S EB). apply (H _ I).
  - apply erase_compound. intros s [fl fv] I. rewrite Forall_forall in H. apply (eb_svariant S EB). apply (H _ I).
Qed.

(** ** The serializer without its errors *)
Definition eback {S : eserializer} (c : e_ser S -> outcome (e_ok S)) (k : e_ser S) : result (e_err S) (e_ok S) :=
  match c k with OOk x => ROk x | OErr => RErr (e_custom S) | OPanic => RPanic end.
Definition forget (S : eserializer) : serializer :=
  {| k_ser := e_ser S; k_ok := e_ok S;
     k_seq := e_seq S; k_tuple := e_tuple S; k_tstruct := e_tstruct S; k_tvariant := e_tvariant S;
     k_map := e_map S; k_struct := e_struct S; k_svariant := e_svariant S;
     s_bool k b := erase (es_bool S k b); s_int k t z := erase (es_int S k t z);
     s_f32 k f := erase (es_f32 S k f); s_f64 k f := erase (es_f64 S k f); s_char k c := erase (es_char S k c);
     s_str k s := erase (es_str S k s); s_bytes k s := erase (es_bytes S k s); s_collect_str k fs := erase (es_collect_str S k fs);
     s_none k := erase (es_none S k); s_some k c := erase (es_some S k (eback c)); s_unit k := erase (es_unit S k);
     s_unit_struct k n := erase (es_unit_struct S k n); s_unit_variant k n i v := erase (es_unit_variant S k n i v);
     s_newtype_struct k n c := erase (es_newtype_struct S k n (eback c));
     s_newtype_variant k n i v c := erase (es_newtype_variant S k n i v (eback c));
     s_seq k n := erase (es_seq S k n); s_tuple k n := erase (es_tuple S k n);
     s_tuple_struct k l n := erase (es_tuple_struct S k l n); s_tuple_variant k l i v n := erase (es_tuple_variant S k l i v n);
     s_map k n := erase (es_map S k n); s_struct k l n := erase (es_struct S k l n);
     s_struct_variant k l i v n := erase (es_struct_variant S k l i v n);
     k_seq_element s c := erase (e_seq_element S s (eback c)); k_seq_end s := erase (e_seq_end S s);
     k_tuple_element s c := erase (e_tuple_element S s (eback c)); k_tuple_end s := erase (e_tuple_end S s);
     k_tstruct_field s c := erase (e_tstruct_field S s (eback c)); k_tstruct_end s := erase (e_tstruct_end S s);
     k_tvariant_field s c := erase (e_tvariant_field S s (eback c)); k_tvariant_end s := erase (e_tvariant_end S s);
     k_map_key s c := erase (e_map_key S s (eback c)); k_map_value s c := erase (e_map_value S s (eback c));
     k_map_end s := erase (e_map_end S s);
     k_struct_field s f c := erase (e_struct_field S s f (eback c)); k_struct_end s := erase (e_struct_end S s);
     k_svariant_field s f c := erase (e_svariant_field S s f (eback c)); k_svariant_end s := erase (e_svariant_end S s) |}.
Lemma back_erase {S} (c : e_ser S -> result (e_err S) (e_ok S)) d : (forall k, erase (c k) = d k) -> alike (@eback S d) c.
Proof. intros H k. unfold eback. rewrite <- H. destruct (c k); reflexivity. Qed.
Lemma forget_opaque S : error_blind S -> opaque_children (forget S).
Proof.
  intros EB. assert (B : forall c d : e_ser S -> outcome (e_ok S), (forall k, c k = d k) -> alike (@eback S c) (@eback S d)).
  { intros c d H k. unfold eback. rewrite H. reflexivity. }
  constructor; intros; cbn.
  - apply (eb_some S EB), B, H.
  - apply (eb_newtype_struct S EB), B, H.
  - apply (eb_newtype_variant S EB), B, H.
  - apply (eb_seq S EB), B, H.
  - apply (eb_tuple S EB), B, H.
  - apply (eb_tstruct S EB), B, H.
  - apply (eb_tvariant S EB), B, H.
  - apply (eb_map_key S EB), B, H.
  - apply (eb_map_value S EB), B, H.
  - apply (eb_struct S EB), B, H.
  - apply (eb_svariant S EB), B, H.
Qed.
Lemma erase_loop {E K X} (step : K -> X -> result E K) (step' : K -> X -> outcome K) (xs : list X) :
  (forall s x, In x xs -> erase (step s x) = step' s x) -> forall s, erase (eeach step s xs) = each step' s xs.
Proof.
  intros H. induction xs as [|x xs IH]; intros s; [reflexivity|]. cbn [eeach each]. rewrite erase_bind, (H s x (or_introl eq_refl)).
  apply bind_ext. apply IH. intros. apply H. right. assumption.
Qed.
Lemma erase_of {E K X B} (m : E -> E) more (beg : result E K) step step' (xs : list X) (fin : K -> result E B) fin' :
  (forall s x, In x xs -> erase (step s x) = step' s x) -> (forall s, erase (fin s) = fin' s) ->
  erase (compound_of m more beg step xs fin) = (s <- erase beg ;; s <- each step' s xs ;; fin' s).
Proof.
  intros H F. unfold compound_of. rewrite erase_bind.
  assert (erase (if more then masked m beg else beg) = erase beg) as -> by (destruct more; [apply erase_masked|reflexivity]).
  apply bind_ext. intros s. rewrite erase_bind, erase_masked, (erase_loop step step' xs H). apply bind_ext, F.
Qed.
Lemma ser_forget S m x : error_blind S -> forall k, erase (eser S m x k) = ser (forget S) x k.
Proof.
  intros EB. induction x using sdata_ind'; intros k; cbn [eser ser]; try reflexivity.
  - symmetry. apply (eb_some S EB), back_erase, IHx.
  - symmetry. apply (eb_newtype_struct S EB), back_erase, IHx.
  - symmetry. apply (eb_newtype_variant S EB), back_erase, IHx.
  - apply erase_of; [|reflexivity]. intros s v I. rewrite Forall_forall in H. symmetry. apply (eb_seq S EB), back_erase, H, I.
  - apply erase_of; [|reflexivity]. intros s v I. rewrite Forall_forall in H. symmetry. apply (eb_tuple S EB), back_erase, H, I.
  - apply erase_of; [|reflexivity]. intros s v I. rewrite Forall_forall in H. symmetry. apply (eb_tstruct S EB), back_erase, H, I.
  - apply erase_of; [|reflexivity]. intros s v I. rewrite Forall_forall in H. symmetry. apply (eb_tvariant S EB), back_erase, H, I.
  - apply erase_of; [|reflexivity]. intros s [a b] I. rewrite Forall_forall in H. destruct (H _ I) as [Ha Hb]. cbn [fst snd] in Ha, Hb. rewrite erase_bind.
    cbn [k_map_key k_map_value forget]. rewrite (eb_map_key S EB s _ _ (back_erase _ _ Ha)). apply bind_ext. intros z.
    symmetry. apply (eb_map_value S EB), back_erase, Hb.
  - apply erase_of; [|destruct ok; reflexivity]. intros s [fl fv] I. rewrite Forall_forall in H. symmetry. apply (eb_struct S EB), back_erase. apply (H _ I).
  - apply erase_of; [|destruct ok; reflexivity]. intros s [fl fv] I. rewrite Forall_forall in H. symmetry. apply (eb_svariant S EB), back_erase. apply (H _ I).
Qed.
