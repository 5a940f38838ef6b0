(** * SerdeProofs: lemmas about [sval_serde] *)

From Verif Require Import Base Event Tree LowerModel DataModel DataProofs FragModel BufferSpec StdModel NestedModel NestedSpec NestedProofs SerdeModel SerdeSpec.

(** ** From [sval] to [serde] *)
Definition fin {A} (o : outcome (option A)) : outcome A :=
  r <- o ;; match r with Some x => OOk x | None => OErr end.
Lemma fin_inner {A} (o : outcome A) : fin (inner o) = o.
Proof. destruct o; reflexivity. Qed.
Lemma fin_bind {A B} (o : outcome A) (f : A -> outcome (option B)) : fin (x <- o ;; f x) = x <- o ;; fin (f x).
Proof. destruct o; reflexivity. Qed.
Lemma bind_bind {A B C} (o : outcome A) (f : A -> outcome B) (g : B -> outcome C) :
  (y <- (x <- o ;; f x) ;; g y) = x <- o ;; y <- f x ;; g y.
Proof. destruct o; reflexivity. Qed.
Lemma bind_ext {A B} (o : outcome A) (f g : A -> outcome B) : (forall x, f x = g x) -> obind o f = obind o g.
Proof. intros H. destruct o; cbn; auto. Qed.

Lemma fold_each {K K' X Y} (inj : K -> K') (step : K -> X -> outcome K) (op : option K' -> Y -> outcome (option K')) (R : Y -> X -> Prop) args xs :
  Forall2 R args xs ->
  (forall s y x, In x xs -> R y x -> op (Some (inj s)) y = (z <- step s x ;; OOk (Some (inj z)))) ->
  forall s, fold_o op (Some (inj s)) args = (z <- each step s xs ;; OOk (Some (inj z))).
Proof.
  induction 1 as [|y x args xs Ryx F IH]; intros H s; [reflexivity|].
  cbn [fold_o each]. rewrite (H s y x) by (auto; left; reflexivity).
  rewrite !bind_bind. apply bind_ext. intros z. cbn [obind]. apply IH. intros. apply H; auto; right; assumption.
Qed.
Lemma compound {K K' X Y B} (inj : K -> K') (beg : outcome K) (beg' : outcome (option K')) (step : K -> X -> outcome K)
    (op : option K' -> Y -> outcome (option K')) (R : Y -> X -> Prop) (e : K -> outcome B) (e' : option K' -> outcome (option B)) args xs :
  Forall2 R args xs ->
  beg' = inner (s <- beg ;; OOk (inj s)) ->
  (forall s y x, In x xs -> R y x -> op (Some (inj s)) y = (z <- step s x ;; OOk (Some (inj z)))) ->
  (forall y, op None y = OErr) ->
  (forall s, e' (Some (inj s)) = inner (e s)) -> e' None = OOk None ->
  fin (s <- beg' ;; s' <- fold_o op s args ;; e' s') = s <- beg ;; s <- each step s xs ;; e s.
Proof.
  intros F -> H1 H2 H3 H4. destruct beg as [s| |]; cbn [obind inner]; [|destruct args; cbn [fold_o]; [cbn; rewrite H4; reflexivity|rewrite H2; reflexivity]|reflexivity].
  rewrite (fold_each inj step op R args xs F H1 s), bind_bind, fin_bind. apply bind_ext. intros z. cbn [obind]. rewrite H3. apply fin_inner.
Qed.

Lemma each_named {A B St} (f : B -> sdata) (fld : St -> bytes -> sdata -> outcome St) (R : Type) (e : St -> outcome R) (fs : list (A * label * B)) : forall s,
  (z <- each (fun s x => match x with (_, l, v) => n <- need (as_static_str l) ;; fld s n (f v) end) s fs ;; e z) =
  (let (vs, ok) := named f fs in
   z <- each (fun s x => match x with (n, v) => fld s n v end) s vs ;; if ok then e z else OErr).
Proof.
  induction fs as [|[[a l] v] fs IH]; intros s; [reflexivity|]. cbn [each named].
  destruct (as_static_str l) as [n|] eqn:El; [|reflexivity]. cbn [need obind].
  destruct (named f fs) as [vs ok]. cbn [each]. rewrite !bind_bind. apply bind_ext. intros z. apply IH.
Qed.
Lemma each_map {St A B} (g : A -> B) (f : St -> B -> outcome St) l : forall s, each f s (map g l) = each (fun s x => f s (g x)) s l.
Proof. induction l as [|x l IH]; intros s; [reflexivity|]. cbn [each map]. apply bind_ext, IH. Qed.

Lemma kept_static l : as_static_str (kept_label l) = as_static_str l.
Proof. destruct l as [t k g]. destruct k; reflexivity. Qed.
Lemma okept_static l' l : okept l' = l -> static_of l' = need (name_of l).
Proof. intros <-. destruct l' as [l'|]; [|reflexivity]. cbn. rewrite kept_static. reflexivity. Qed.
Lemma need_u32 i : u32_of i = need (index_of i).
Proof. destruct i; reflexivity. Qed.

Section ToSerialize.
Variable S : serializer.
Hypothesis OC : opaque_children S.
Variable n : nat.
Hypothesis IH : forall a k, shallow (mirror (tree_of a)) = true -> levels (mirror (tree_of a)) <= n ->
  to_serialize S n (acalls a) k = ser S (as_serde (mirror (tree_of a))) k.
Notation Z := (serialize_stream S (to_serialize S n)).

Lemma child_same v r : child v r -> shallow r = true -> levels r <= n ->
  same_child (to_serialize S n (snd v)) (ser S (as_serde r)).
Proof. intros (a & E & <-) H L k. rewrite E. apply IH; assumption. Qed.

Definition fine (r : rview) : Prop := shallow r = true /\ levels r <= n.
Lemma fine_same v r : child v r -> fine r -> same_child (to_serialize S n (snd v)) (ser S (as_serde r)).
Proof. intros C [H L]. apply child_same; assumption. Qed.

(** The children of a value. *)
Definition children (r : rview) : list rview :=
  match r with
  | RTagged _ _ _ v => [v]
  | RSeq _ vs => vs
  | RMap _ es => flat_map (fun e => match e with (a, b) => [a; b] end) es
  | RTuple _ _ _ _ fs => map (fun f => match f with (_, _, v) => v end) fs
  | RRecord _ _ _ _ fs => map (fun f => match f with (_, _, v) => v end) fs
  | _ => []
  end.
Lemma fine_children r : shallow r = true -> levels r <= Datatypes.S n -> forall c, In c (children r) -> fine c.
Proof.
  intros H L. destruct r; cbn [children shallow levels] in *; try contradiction; apply andb_true_iff in H as [_ H].
  - intros c [<-|[]]. split; [exact H|lia].
  - intros c I. split; [apply (proj1 (forallb_forall _ _) H _ I)|].
    assert (X : maxl (map levels vs) <= n) by lia. apply maxl_le in X. apply (proj1 (Forall_forall _ _) X). apply in_map, I.
  - intros c I. apply in_flat_map in I as ([a b] & I & J). pose proof (proj1 (forallb_forall _ _) H _ I) as E. cbn in E.
    apply andb_true_iff in E as [Ea Eb].
    match type of L with Datatypes.S (maxl ?m) <= _ => assert (X : maxl m <= n) by lia end.
    apply maxl_le in X. pose proof (proj1 (Forall_forall _ _) X _ (in_map _ _ _ I)) as Y. cbn in Y.
    destruct J as [<-|[<-|[]]]; (split; [assumption|lia]).
  - intros c I. apply in_map_iff in I as ([[t' l'] v] & <- & I). split; [apply (proj1 (forallb_forall _ _) H _ I)|].
    match type of L with Datatypes.S (maxl ?m) <= _ => assert (X : maxl m <= n) by lia end.
    apply maxl_le in X. apply (proj1 (Forall_forall _ _) X _ (in_map _ _ _ I)).
  - intros c I. apply in_map_iff in I as ([[t' l'] v] & <- & I). split; [apply (proj1 (forallb_forall _ _) H _ I)|].
    match type of L with Datatypes.S (maxl ?m) <= _ => assert (X : maxl m <= n) by lia end.
    apply maxl_le in X. apply (proj1 (Forall_forall _ _) X _ (in_map _ _ _ I)).
Qed.

Lemma tuple_fine (fs : list (option tag * index * rview)) :
  (forall c, In c (map (fun f => match f with (_, _, v) => v end) fs) -> fine c) ->
  forall ft fi v, In (ft, fi, v) fs -> fine v.
Proof. intros H ft fi v I. apply H. apply in_map_iff. exists (ft, fi, v). auto. Qed.
Lemma record_fine (fs : list (option tag * label * rview)) :
  (forall c, In c (map (fun f => match f with (_, _, v) => v end) fs) -> fine c) ->
  forall ft fi v, In (ft, fi, v) fs -> fine v.
Proof. intros H ft fi v I. apply H. apply in_map_iff. exists (ft, fi, v). auto. Qed.

Lemma seq_same k len args vs : Forall2 child args vs -> (forall c, In c vs -> fine c) ->
  fin (s <- n_seq_begin (Z k) len ;; s' <- fold_o (seq_value (Z k)) s args ;; seq_end (Z k) s') =
  ser S (DSeq len (map as_serde vs)) k.
Proof.
  intros F H. cbn [ser]. erewrite (compound (fun x => x) (s_seq S k len) _ (fun s r => k_seq_element S s (ser S (as_serde r))) _ child (k_seq_end S) _ args vs F).
  - apply bind_ext. intros s. rewrite each_map. reflexivity.
  - cbn. destruct (s_seq S k len); reflexivity.
  - intros s y x I C. cbn. rewrite (oc_seq S OC s _ _ (fine_same _ _ C (H _ I))). reflexivity.
  - reflexivity.
  - reflexivity.
  - reflexivity.
Qed.
Lemma map_same k len args es :
  Forall2 (fun x e => match x, e with (a, b), (k, v) => child a k /\ child b v end) args es ->
  (forall c, In c (flat_map (fun e => match e with (a, b) => [a; b] end) es) -> fine c) ->
  fin (s <- n_map_begin (Z k) len ;;
       s' <- fold_o (fun s x => match x with (a, b) => s1 <- map_key (Z k) s a ;; map_value (Z k) s1 b end) s args ;; map_end (Z k) s') =
  ser S (DMap len (map (fun e => match e with (a, b) => (as_serde a, as_serde b) end) es)) k.
Proof.
  intros F H. cbn [ser].
  erewrite (compound (fun x => x) (s_map S k len) _
    (fun s e => match e with (a, b) => s <- k_map_key S s (ser S (as_serde a)) ;; k_map_value S s (ser S (as_serde b)) end) _
    (fun x e => match x, e with (a, b), (k, v) => child a k /\ child b v end) (k_map_end S) _ args es F).
  - apply bind_ext. intros s. rewrite each_map. f_equal.
    clear. revert s. induction es as [|[a b] es IHe]; intros s; [reflexivity|]. cbn [each]. apply bind_ext, IHe.
  - cbn. destruct (s_map S k len); reflexivity.
  - intros s [y y'] [x x'] I [C C'].
    assert (fine x /\ fine x') as [Hx Hx'].
    { split; apply H, in_flat_map; exists (x, x'); (split; [exact I|cbn; auto]). }
    cbn. rewrite (oc_map_key S OC s _ _ (fine_same _ _ C Hx)). destruct (k_map_key S s (ser S (as_serde x))); cbn; try reflexivity.
    rewrite (oc_map_value S OC _ _ _ (fine_same _ _ C' Hx')). reflexivity.
  - intros [a b]. reflexivity.
  - reflexivity.
  - reflexivity.
Qed.

Section Tuples.
  Variables (args : list (option tag * index * arg)) (fs : list (option tag * index * rview)).
  Hypothesis F : Forall2 (fun x f => match x, f with (xt, xi, a), (ft, fi, v) => xt = ft /\ xi = fi /\ child a v end) args fs.
  Hypothesis H : forall c, In c (map (fun f => match f with (_, _, v) => v end) fs) -> fine c.
  Notation vs := (map (fun f : option tag * index * rview => match f with (_, _, v) => as_serde v end) fs).
  Lemma tuple_same k t l i len :
    fin (s <- n_tuple_begin (Z k) t l i len ;;
         s' <- fold_o (fun s x => match x with (xt, xi, a) => tuple_value (Z k) s xt xi a end) s args ;; tuple_end (Z k) s') =
    ser S (match len with
           | None => DFail
           | Some n => match l with
                       | None => DTuple n vs
                       | Some l => match as_static_str l with Some name => DTupleStruct name n vs | None => DFail end
                       end
           end) k.
  Proof.
    destruct len as [len|]; [|reflexivity]. destruct l as [l|].
    - cbn [n_tuple_begin serialize_stream need obind]. destruct (as_static_str l) as [name|]; [|reflexivity]. cbn [need obind ser].
      etransitivity; [apply (compound inl (s_tuple_struct S k name len) _ (fun s f => match f with (_, _, v) => k_tstruct_field S s (ser S (as_serde v)) end) _ _ (k_tstruct_end S) _ args fs F)|]; cycle -1.
      + apply bind_ext. intros s. rewrite each_map. f_equal. clear. revert s. induction fs as [|[[? ?] ?] fs' IHf]; intros s; [reflexivity|]. cbn [each]. apply bind_ext, IHf.
      + reflexivity.
      + intros s [[yt yi] y] [[xt xi] x] I (_ & _ & C). cbn. rewrite (oc_tstruct S OC s _ _ (fine_same _ _ C (tuple_fine _ H _ _ _ I))).
        destruct (k_tstruct_field _ _ _); reflexivity.
      + intros [[? ?] ?]. reflexivity.
      + reflexivity.
      + reflexivity.
    - cbn [n_tuple_begin serialize_stream need obind ser].
      etransitivity; [apply (compound inr (s_tuple S k len) _ (fun s f => match f with (_, _, v) => k_tuple_element S s (ser S (as_serde v)) end) _ _ (k_tuple_end S) _ args fs F)|]; cycle -1.
      + apply bind_ext. intros s. rewrite each_map. f_equal. clear. revert s. induction fs as [|[[? ?] ?] fs' IHf]; intros s; [reflexivity|]. cbn [each]. apply bind_ext, IHf.
      + reflexivity.
      + intros s [[yt yi] y] [[xt xi] x] I (_ & _ & C). cbn. rewrite (oc_tuple S OC s _ _ (fine_same _ _ C (tuple_fine _ H _ _ _ I))).
        destruct (k_tuple_element _ _ _); reflexivity.
      + intros [[? ?] ?]. reflexivity.
      + reflexivity.
      + reflexivity.
  Qed.
  Lemma vtuple_same k t l i len name :
    fin (s <- enum_tuple_begin (Z k) name t l i len ;;
         s' <- fold_o (fun s x => match x with (xt, xi, a) => vtuple_value (Z k) s xt xi a end) s args ;; vtuple_end (Z k) s') =
    ser S (match name_of l, index_of i, len with
           | Some variant, Some i, Some n => DTupleVariant name i variant n vs
           | _, _, _ => DFail
           end) k.
  Proof.
    cbn [enum_tuple_begin serialize_stream]. rewrite (okept_static l (okept l) eq_refl), need_u32.
    assert (name_of (okept l) = name_of l) as -> by (destruct l; cbn; [apply kept_static|reflexivity]).
    destruct (name_of l) as [variant|]; [|reflexivity]. destruct (index_of i) as [ix|]; [|reflexivity]. destruct len as [len|]; [|reflexivity].
    cbn [need obind ser].
    etransitivity; [apply (compound (fun x => x) (s_tuple_variant S k name ix variant len) _ (fun s f => match f with (_, _, v) => k_tvariant_field S s (ser S (as_serde v)) end) _ _ (k_tvariant_end S) _ args fs F)|]; cycle -1.
      + apply bind_ext. intros s. rewrite each_map. f_equal. clear. revert s. induction fs as [|[[? ?] ?] fs' IHf]; intros s; [reflexivity|]. cbn [each]. apply bind_ext, IHf.
    + destruct (s_tuple_variant _ _ _ _ _ _); reflexivity.
    + intros s [[yt yi] y] [[xt xi] x] I (_ & _ & C). cbn. rewrite (oc_tvariant S OC s _ _ (fine_same _ _ C (tuple_fine _ H _ _ _ I))). reflexivity.
    + intros [[? ?] ?]. reflexivity.
    + reflexivity.
    + reflexivity.
  Qed.
End Tuples.

Section Records.
  Variables (args : list (option tag * label * arg)) (fs : list (option tag * label * rview)).
  Hypothesis F : Forall2 (fun x f => match x, f with (xt, xl, a), (ft, fl, v) => xt = ft /\ kept_label xl = fl /\ child a v end) args fs.
  Hypothesis H : forall c, In c (map (fun f => match f with (_, _, v) => v end) fs) -> fine c.
  Lemma record_same k t l i len :
    fin (s <- n_record_begin (Z k) t l i len ;;
         s' <- fold_o (fun s x => match x with (xt, xl, a) => record_value (Z k) s xt xl a end) s args ;; record_end (Z k) s') =
    ser S (match len with
           | None => DFail
           | Some n => match l with
                       | None => DTuple n (map (fun f : option tag * label * rview => match f with (_, _, v) => as_serde v end) fs)
                       | Some l => match as_static_str l with Some name => let (vs, ok) := named as_serde fs in DStruct name n vs ok | None => DFail end
                       end
           end) k.
  Proof.
    destruct len as [len|]; [|reflexivity]. destruct l as [l|].
    - cbn [n_record_begin serialize_stream need obind]. destruct (as_static_str l) as [name|]; [|reflexivity]. cbn [need obind].
      etransitivity; [apply (compound inl (s_struct S k name len) _
        (fun s f => match f with (_, l, v) => n <- need (as_static_str l) ;; k_struct_field S s n (ser S (as_serde v)) end) _ _ (k_struct_end S) _ args fs F)|]; cycle -1.
    + transitivity (s <- s_struct S k name len ;; let (vs, ok) := named as_serde fs in
          z <- each (fun s x => match x with (n, v) => k_struct_field S s n (ser S v) end) s vs ;; if ok then k_struct_end S z else OErr).
        * apply bind_ext. intros s. apply (each_named as_serde (fun s n v => k_struct_field S s n (ser S v))).
        * destruct (named as_serde fs) as [vs ok]. reflexivity.
      + reflexivity.
      + intros s [[yt yl] y] [[xt xl] x] I (_ & El & C). cbn. subst xl. rewrite kept_static.
        destruct (as_static_str yl) as [f|]; [|reflexivity]. cbn.
        rewrite (oc_struct S OC s _ _ _ (fine_same _ _ C (record_fine _ H _ _ _ I))). destruct (k_struct_field _ _ _ _); reflexivity.
      + intros [[? ?] ?]. reflexivity.
      + reflexivity.
      + reflexivity.
    - cbn [n_record_begin serialize_stream need obind ser].
      etransitivity; [apply (compound inr (s_tuple S k len) _ (fun s f => match f with (_, _, v) => k_tuple_element S s (ser S (as_serde v)) end) _ _ (k_tuple_end S) _ args fs F)|]; cycle -1.
      + apply bind_ext. intros s. rewrite each_map. f_equal. clear. revert s. induction fs as [|[[? ?] ?] fs' IHf]; intros s; [reflexivity|]. cbn [each]. apply bind_ext, IHf.
      + reflexivity.
      + intros s [[yt yi] y] [[xt xi] x] I (_ & _ & C). cbn. rewrite (oc_tuple S OC s _ _ (fine_same _ _ C (record_fine _ H _ _ _ I))).
        destruct (k_tuple_element _ _ _); reflexivity.
      + intros [[? ?] ?]. reflexivity.
      + reflexivity.
      + reflexivity.
  Qed.
  Lemma vrecord_same k t l i len name :
    fin (s <- enum_record_begin (Z k) name t l i len ;;
         s' <- fold_o (fun s x => match x with (xt, xl, a) => vrecord_value (Z k) s xt xl a end) s args ;; vrecord_end (Z k) s') =
    ser S (match name_of l, index_of i, len with
           | Some variant, Some i, Some n => let (vs, ok) := named as_serde fs in DStructVariant name i variant n vs ok
           | _, _, _ => DFail
           end) k.
  Proof.
    cbn [enum_record_begin serialize_stream]. rewrite (okept_static l (okept l) eq_refl), need_u32.
    assert (name_of (okept l) = name_of l) as -> by (destruct l; cbn; [apply kept_static|reflexivity]).
    destruct (name_of l) as [variant|]; [|reflexivity]. destruct (index_of i) as [ix|]; [|reflexivity]. destruct len as [len|]; [|reflexivity].
    cbn [need obind].
    etransitivity; [apply (compound (fun x => x) (s_struct_variant S k name ix variant len) _
      (fun s f => match f with (_, l, v) => n <- need (as_static_str l) ;; k_svariant_field S s n (ser S (as_serde v)) end) _ _ (k_svariant_end S) _ args fs F)|]; cycle -1.
    + transitivity (s <- s_struct_variant S k name ix variant len ;; let (vs, ok) := named as_serde fs in
        z <- each (fun s x => match x with (n, v) => k_svariant_field S s n (ser S v) end) s vs ;; if ok then k_svariant_end S z else OErr).
      * apply bind_ext. intros s. apply (each_named as_serde (fun s n v => k_svariant_field S s n (ser S v))).
      * destruct (named as_serde fs) as [vs ok]. reflexivity.
    + destruct (s_struct_variant _ _ _ _ _ _); reflexivity.
    + intros s [[yt yl] y] [[xt xl] x] I (_ & El & C). cbn. subst xl. rewrite kept_static.
      destruct (as_static_str yl) as [f|]; [|reflexivity]. cbn.
      rewrite (oc_svariant S OC s _ _ _ (fine_same _ _ C (record_fine _ H _ _ _ I))). reflexivity.
    + intros [[? l'] ?]. cbn. destruct (as_static_str l'); reflexivity.
    + reflexivity.
    + reflexivity.
  Qed.
End Records.

Lemma name_kept l' l : okept l' = l -> name_of l' = name_of l.
Proof. intros <-. destruct l' as [l'|]; [|reflexivity]. cbn. symmetry. apply kept_static. Qed.
Lemma static_need l : static_of l = need (name_of l).
Proof. destruct l; reflexivity. Qed.

Lemma answer_same r k o : answer (Z k) r o -> shallow r = true -> levels r <= Datatypes.S n ->
  fin o = ser S (as_serde r) k.
Proof.
  intros A H L. pose proof (fine_children r H L) as FC. destruct r; cbn [answer] in A; try (subst o; apply fin_inner).
  - destruct A as (b & ->). apply fin_inner.
  - destruct A as (b & ->). apply fin_inner.
  - destruct A as (l' & El & ->). cbn [n_tag serialize_stream as_serde]. rewrite static_need, (name_kept _ _ El).
    destruct (otag_is t RUST_OPTION_NONE); [apply fin_inner|]. destruct (otag_is t RUST_UNIT); [apply fin_inner|].
    destruct (name_of l); [apply fin_inner|reflexivity].
  - destruct A as (l' & a & El & C & ->). cbn [n_tagged serialize_stream as_serde]. rewrite static_need, (name_kept _ _ El).
    assert (fine r) as Fr by (apply FC; left; reflexivity).
    destruct (otag_is t RUST_OPTION_SOME).
    + rewrite fin_inner. apply (oc_some S OC), fine_same; assumption.
    + destruct (name_of l); [|reflexivity]. cbn [need obind]. rewrite fin_inner. apply (oc_newtype_struct S OC), fine_same; assumption.
  - destruct A as (l' & g & El & V & ->). etransitivity; [apply fin_bind|]. cbn [n_enum_begin serialize_stream]. rewrite static_need, (name_kept _ _ El).
    cbn [as_serde]. destruct (name_of l) as [name|]; [|reflexivity]. cbn [need obind].
    assert (FC' : forall c, In c (children r) -> fine c).
    { cbn [shallow levels] in H, L. apply andb_true_iff in H as [_ H]. apply fine_children; [exact H|lia]. }
    destruct r; cbn [variant_answer] in V; try contradiction.
    + destruct V as (l1 & E1 & ->). cbn [enum_tag serialize_stream]. rewrite static_need, need_u32, (name_kept _ _ E1).
      destruct (name_of l0); [|reflexivity]. destruct (index_of i0); [|reflexivity]. apply fin_inner.
    + destruct V as (l1 & a & E1 & C & ->). cbn [enum_tagged serialize_stream]. rewrite static_need, need_u32, (name_kept _ _ E1).
      destruct (name_of l0); [|reflexivity]. destruct (index_of i0); [|reflexivity]. cbn [need obind]. rewrite fin_inner.
      apply (oc_newtype_variant S OC), fine_same; [assumption|]. apply FC'. left. reflexivity.
    + destruct V as (l1 & g' & E1 & V & ->). reflexivity.
    + destruct V as (l1 & args & E1 & F & ->). rewrite (vrecord_same args fs F FC'), (name_kept _ _ E1). reflexivity.
    + destruct V as (l1 & args & E1 & F & ->). rewrite (vtuple_same args fs F FC'), (name_kept _ _ E1). reflexivity.
  - destruct A as (args & F & ->). apply seq_same; assumption.
  - destruct A as (args & F & ->). apply map_same; assumption.
  - destruct A as (l' & args & El & F & ->). rewrite (record_same args fs F FC). subst l. cbn [as_serde].
    destruct n0; [|reflexivity]. destruct l' as [l'|]; [|reflexivity]. cbn [okept option_map]. rewrite kept_static. reflexivity.
  - destruct A as (l' & args & El & F & ->). rewrite (tuple_same args fs F FC). subst l. cbn [as_serde].
    destruct n0; [|reflexivity]. destruct l' as [l'|]; [|reflexivity]. cbn [okept option_map]. rewrite kept_static. reflexivity.
Qed.

Lemma step_same a k : shallow (mirror (tree_of a)) = true -> levels (mirror (tree_of a)) <= Datatypes.S n ->
  to_serialize S (Datatypes.S n) (acalls a) k = ser S (as_serde (mirror (tree_of a))) k.
Proof.
  intros H L. change (fin (nested_stream (Z k) (acalls a)) = ser S (as_serde (mirror (tree_of a))) k).
  destruct (handled1 (mirror (tree_of a))) eqn:E.
  - apply answer_same; [|exact H|exact L]. apply nested_answers, E.
  - assert (D : too_deep (mirror (tree_of a)) = false).
    { destruct (mirror (tree_of a)); try discriminate E. cbn [shallow] in H. apply andb_true_iff in H as [H _]. apply negb_true_iff, H. }
    destruct (any_refuses (S := Z k) a false E D) as (t & l & i & X). etransitivity; [apply f_equal; exact (ends_settled _ _ X)|].
    cbn [n_enum_begin serialize_stream].
    transitivity (@OErr (k_ok S)); [destruct (static_of l) as [x| |] eqn:El; try reflexivity; destruct l as [l|]; [|discriminate El]; cbn in El; destruct (as_static_str l); discriminate El|].
    destruct (mirror (tree_of a)); try discriminate E. cbn [as_serde]. destruct (name_of l0); [|reflexivity].
    destruct r; try discriminate E; reflexivity.
Qed.
End ToSerialize.

Lemma to_serialize_same S : opaque_children S -> forall n a k, shallow (mirror (tree_of a)) = true -> levels (mirror (tree_of a)) <= n ->
  to_serialize S n (acalls a) k = ser S (as_serde (mirror (tree_of a))) k.
Proof.
  intros OC. induction n as [|n IH]; intros a k H L.
  - destruct (mirror (tree_of a)); cbn in L; lia.
  - apply step_same; assumption.
Qed.

(** ** From [serde] to [sval] *)
Section SdataInd.
  Variable P : sdata -> Prop.
  Hypothesis Hbool : forall b, P (DBool b).
  Hypothesis Hint : forall t z, P (DInt t z).
  Hypothesis Hf32 : forall f, P (DF32 f).
  Hypothesis Hf64 : forall f, P (DF64 f).
  Hypothesis Hchar : forall c, P (DChar c).
  Hypothesis Hstr : forall s, P (DStr s).
  Hypothesis Hbytes : forall s, P (DBytes s).
  Hypothesis Hdisplay : forall fs, P (DDisplay fs).
  Hypothesis Hnone : P DNone.
  Hypothesis Hsome : forall v, P v -> P (DSome v).
  Hypothesis Hunit : P DUnit.
  Hypothesis Hustruct : forall n, P (DUnitStruct n).
  Hypothesis Huvariant : forall n i v, P (DUnitVariant n i v).
  Hypothesis Hnstruct : forall n v, P v -> P (DNewtypeStruct n v).
  Hypothesis Hnvariant : forall n i w v, P v -> P (DNewtypeVariant n i w v).
  Hypothesis Hseq : forall n vs, Forall P vs -> P (DSeq n vs).
  Hypothesis Htuple : forall n vs, Forall P vs -> P (DTuple n vs).
  Hypothesis Htstruct : forall l n vs, Forall P vs -> P (DTupleStruct l n vs).
  Hypothesis Htvariant : forall l i w n vs, Forall P vs -> P (DTupleVariant l i w n vs).
  Hypothesis Hmap : forall n es, Forall (fun e => P (fst e) /\ P (snd e)) es -> P (DMap n es).
  Hypothesis Hstruct : forall l n fs ok, Forall (fun f => P (snd f)) fs -> P (DStruct l n fs ok).
  Hypothesis Hsvariant : forall l i w n fs ok, Forall (fun f => P (snd f)) fs -> P (DStructVariant l i w n fs ok).
  Hypothesis Hfail : P DFail.
  Fixpoint sdata_ind' (x : sdata) : P x :=
    let fix go (l : list sdata) : Forall P l := match l with [] => Forall_nil _ | v :: l' => Forall_cons _ (sdata_ind' v) (go l') end in
    let fix gof (l : list (bytes * sdata)) : Forall (fun f => P (snd f)) l :=
      match l with [] => Forall_nil _ | (k, v) :: l' => Forall_cons (k, v) (sdata_ind' v) (gof l') end in
    match x with
    | DBool b => Hbool b | DInt t z => Hint t z | DF32 f => Hf32 f | DF64 f => Hf64 f | DChar c => Hchar c
    | DStr s => Hstr s | DBytes s => Hbytes s | DDisplay fs => Hdisplay fs | DNone => Hnone
    | DSome v => Hsome v (sdata_ind' v) | DUnit => Hunit | DUnitStruct n => Hustruct n
    | DUnitVariant n i v => Huvariant n i v | DNewtypeStruct n v => Hnstruct n v (sdata_ind' v)
    | DNewtypeVariant n i w v => Hnvariant n i w v (sdata_ind' v)
    | DSeq n vs => Hseq n vs (go vs) | DTuple n vs => Htuple n vs (go vs) | DTupleStruct l n vs => Htstruct l n vs (go vs)
    | DTupleVariant l i w n vs => Htvariant l i w n vs (go vs)
    | DMap n es => Hmap n es
        ((fix gom (l : list (sdata * sdata)) : Forall (fun e => P (fst e) /\ P (snd e)) l :=
            match l with [] => Forall_nil _ | (a, b) :: l' => Forall_cons (a, b) (conj (sdata_ind' a) (sdata_ind' b)) (gom l') end) es)
    | DStruct l n fs ok => Hstruct l n fs ok (gof fs)
    | DStructVariant l i w n fs ok => Hsvariant l i w n fs ok (gof fs)
    | DFail => Hfail
    end.
End SdataInd.

(** The tree [ToValue] streams, with the places where it recurses. *)
Fixpoint numbered {A B} (f : A -> B) (i : Z) (l : list A) : list (option tag * index * B) :=
  match l with [] => [] | x :: l' => (None, index_new i, f x) :: numbered f (i + 1) l' end.
Fixpoint valued (x : sdata) : atree :=
  match x with
  | DBool b => AVal false (ABool b)
  | DInt t z => AVal false (AInt t z)
  | DF32 f => AVal false (AF32 f)
  | DF64 f => AVal false (AF64 f)
  | DChar c => AVal false (AText (Some (blen (encode_utf8 c))) [(false, encode_utf8 c)])
  | DStr s => AVal false (AText (Some (blen s)) [(true, s)])
  | DBytes s => AVal false (ABin (Some (blen s)) [(true, s)])
  | DDisplay fs => AVal false (AText None (map (pair false) fs))
  | DNone => AVal false (ATag (Some RUST_OPTION_NONE) (Some (ident "None")) (Some (offset 0)))
  | DSome v => AVal false (ATagged (Some RUST_OPTION_SOME) (Some (ident "Some")) (Some (offset 1)) (AVal true (valued v)))
  | DUnit => AVal false (ATag (Some RUST_UNIT) None None)
  | DUnitStruct name => ATag None (static name) None
  | DUnitVariant name i v => AEnum None (static name) None (ATag None (static v) (Some (index_new i)))
  | DNewtypeStruct name v => ATagged None (static name) None (AVal false (valued v))
  | DNewtypeVariant name i w v =>
      AEnum None (static name) None (ATagged None (static w) (Some (index_new i)) (AVal false (valued v)))
  | DSeq n vs => ASeq true n (map (fun v => AVal false (valued v)) vs)
  | DTuple n vs => ATuple None None None (Some n) (numbered (fun v => v) 0 (map (fun v => AVal false (valued v)) vs))
  | DTupleStruct name n vs => ATuple None (static name) None (Some n) (numbered (fun v => v) 0 (map (fun v => AVal false (valued v)) vs))
  | DTupleVariant name i w n vs =>
      AEnum None (static name) None
        (ATuple None (static w) (Some (index_new i)) (Some n) (numbered (fun v => v) 0 (map (fun v => AVal false (valued v)) vs)))
  | DMap n es => AMap n (map (fun e => match e with (a, b) => (AVal false (valued a), AVal false (valued b)) end) es)
  | DStruct name n fs _ =>
      ARecord None (static name) None (Some n) (map (fun f => match f with (l, v) => (None, label_new l, AVal false (valued v)) end) fs)
  | DStructVariant name i w n fs _ =>
      AEnum None (static name) None
        (ARecord None (static w) (Some (index_new i)) (Some n)
           (map (fun f => match f with (l, v) => (None, label_new l, AVal false (valued v)) end) fs))
  | DFail => ANull
  end.

Lemma each_append {A} (f : list call -> A -> outcome (list call)) (g : A -> list call) l :
  Forall (fun x => forall s, f s x = OOk (s ++ g x)) l -> forall s, each f s l = OOk (s ++ flat_map g l).
Proof.
  induction 1 as [|x l H F IH]; intros s; [cbn; rewrite app_nil_r; reflexivity|].
  cbn [each flat_map]. rewrite H. cbn [obind]. rewrite IH, app_assoc. reflexivity.
Qed.
Lemma each_tuple {L A} (f : A -> atree) (step : list call * L * Z -> A -> outcome (list call * L * Z)) l :
  Forall (fun x => forall s h i, step (s, h, i) x =
     OOk (s ++ CE (ETupleValBegin None (index_new i)) :: acalls (f x) ++ [CE (ETupleValEnd None (index_new i))], h, (i + 1)%Z)) l ->
  forall s h i, exists j, each step (s, h, i) l =
    OOk (s ++ flat_map (fun fd => match fd with (ft, fi, v) => CE (ETupleValBegin ft fi) :: acalls v ++ [CE (ETupleValEnd ft fi)] end)
                       (numbered (fun v => v) i (map f l)), h, j).
Proof.
  induction 1 as [|x l H F IH]; intros s h i; [exists i; cbn; rewrite app_nil_r; reflexivity|].
  cbn [each map numbered flat_map]. rewrite H. cbn [obind].
  destruct (IH (s ++ CE (ETupleValBegin None (index_new i)) :: acalls (f x) ++ [CE (ETupleValEnd None (index_new i))]) h (i + 1)%Z) as (j & E).
  exists j. rewrite E, <- app_assoc. reflexivity.
Qed.
Lemma each_record {L A} (f : A -> atree) (nm : A -> bytes) (step : list call * L -> A -> outcome (list call * L)) l :
  Forall (fun x => forall s h, step (s, h) x =
     OOk (s ++ CE (ERecordValBegin None (label_new (nm x))) :: acalls (f x) ++ [CE (ERecordValEnd None (label_new (nm x)))], h)) l ->
  forall s h, each step (s, h) l =
    OOk (s ++ flat_map (fun fd => match fd with (ft, fi, v) => CE (ERecordValBegin ft fi) :: acalls v ++ [CE (ERecordValEnd ft fi)] end)
                       (map (fun x => (None, label_new (nm x), f x)) l), h).
Proof.
  induction 1 as [|x l H F IH]; intros s h; [cbn; rewrite app_nil_r; reflexivity|].
  cbn [each map flat_map]. rewrite H. cbn [obind]. rewrite IH, <- app_assoc. reflexivity.
Qed.

Lemma sound_Forall {A} (f : A -> bool) (P : A -> Prop) l :
  Forall (fun x => f x = true -> P x) l -> forallb f l = true -> Forall P l.
Proof. induction 1; cbn; intros E; [constructor|]. apply andb_true_iff in E as [E1 E2]. constructor; auto. Qed.

Lemma to_value_valued x : sound x = true -> to_value x = OOk (acalls (valued x)).
Proof.
  unfold to_value. induction x using sdata_ind'; cbn [sound]; intros Hs; try reflexivity; try discriminate Hs.
  - cbn. unfold stream_value, display_calls. rewrite map_map. reflexivity.
  - cbn [ser stream_ser s_some]. rewrite (IHx Hs). reflexivity.
  - cbn [ser stream_ser s_newtype_struct]. unfold child_value. rewrite (IHx Hs). reflexivity.
  - apply andb_true_iff in Hs as [_ Hs]. cbn [ser stream_ser s_newtype_variant]. unfold child_value. rewrite (IHx Hs). reflexivity.
  - cbn [ser]. cbn [stream_ser s_seq obind].
    etransitivity; [apply (f_equal (fun o => obind o _)); apply (each_append _ (fun v => CE ESeqValBegin :: acalls (AVal false (valued v)) ++ [CE ESeqValEnd]))|].
    { apply sound_Forall with (f := sound); [|exact Hs]. eapply Forall_impl; [|exact H]. cbn. intros v IHv Hv s. unfold child_value. rewrite (IHv Hv). reflexivity. }
    cbn [obind valued acalls]. rewrite flat_map_map'. rewrite <- ?app_assoc. reflexivity.
  - cbn [ser]. cbn [stream_ser s_tuple obind].
    match goal with |- obind (each ?st (?x1, ?x2, ?x3) vs) _ = _ => edestruct (fun F => each_tuple (fun v => AVal false (valued v)) st vs F x1 x2 x3) as (j & E) end.
    { apply sound_Forall with (f := sound); [|exact Hs]. eapply Forall_impl; [|exact H]. cbn. intros v IHv Hv s h i. unfold tuple_field, child_value. rewrite (IHv Hv). reflexivity. }
    etransitivity; [apply (f_equal (fun o => obind o _)); exact E|]. cbn [obind valued acalls stream_ser k_tuple_end]. rewrite <- ?app_assoc. reflexivity.
  - cbn [ser]. cbn [stream_ser s_tuple_struct obind].
    match goal with |- obind (each ?st (?x1, ?x2, ?x3) vs) _ = _ => edestruct (fun F => each_tuple (fun v => AVal false (valued v)) st vs F x1 x2 x3) as (j & E) end.
    { apply sound_Forall with (f := sound); [|exact Hs]. eapply Forall_impl; [|exact H]. cbn. intros v IHv Hv s h i. unfold tuple_field, child_value. rewrite (IHv Hv). reflexivity. }
    etransitivity; [apply (f_equal (fun o => obind o _)); exact E|]. cbn [obind valued acalls stream_ser k_tstruct_end]. rewrite <- ?app_assoc. reflexivity.
  - apply andb_true_iff in Hs as [_ Hs]. cbn [ser]. cbn [stream_ser s_tuple_variant obind].
    match goal with |- obind (each ?st (?x1, ?x2, ?x3) vs) _ = _ => edestruct (fun F => each_tuple (fun v => AVal false (valued v)) st vs F x1 x2 x3) as (j & E) end.
    { apply sound_Forall with (f := sound); [|exact Hs]. eapply Forall_impl; [|exact H]. cbn. intros v IHv Hv s h i'. unfold tuple_field, child_value. rewrite (IHv Hv). reflexivity. }
    etransitivity; [apply (f_equal (fun o => obind o _)); exact E|]. cbn [obind valued acalls stream_ser k_tvariant_end]. cbn [app]. rewrite <- ?app_assoc. reflexivity.
  - cbn [ser]. cbn [stream_ser s_map obind].
    etransitivity; [apply (f_equal (fun o => obind o _)); apply (each_append _ (fun e => CE EMapKeyBegin :: acalls (AVal false (valued (fst e))) ++ CE EMapKeyEnd :: CE EMapValBegin :: acalls (AVal false (valued (snd e))) ++ [CE EMapValEnd]))|].
    { apply sound_Forall with (f := fun e => match e with (a, b) => sound a && sound b end); [|exact Hs]. eapply Forall_impl; [|exact H].
      intros [a b] [Ha Hb] He s. apply andb_true_iff in He as [Ea Eb]. cbn. unfold child_value. cbn [fst snd] in *. rewrite (Ha Ea). cbn [obind]. rewrite (Hb Eb). cbn [obind].
      rewrite <- app_assoc. reflexivity. }
    cbn [obind valued acalls]. rewrite flat_map_map'. rewrite <- ?app_assoc.
    assert (X : forall r, flat_map (fun e : sdata * sdata => CE EMapKeyBegin :: acalls (AVal false (valued (fst e))) ++ CE EMapKeyEnd :: CE EMapValBegin :: acalls (AVal false (valued (snd e))) ++ [CE EMapValEnd]) es ++ r =
      flat_map (fun x : sdata * sdata => let (k, v) := let (a, b) := x in (AVal false (valued a), AVal false (valued b)) in CE EMapKeyBegin :: acalls k ++ CE EMapKeyEnd :: CE EMapValBegin :: acalls v ++ [CE EMapValEnd]) es ++ r).
    { intros r. f_equal. apply flat_map_ext. intros [a b]. reflexivity. }
    cbn [app k_map_end stream_ser]. rewrite <- ?app_assoc, X. reflexivity.
  - apply andb_true_iff in Hs as [Hok Hs]. subst ok. cbn [ser]. cbn [stream_ser s_struct obind].
    etransitivity; [apply (f_equal (fun o => obind o _)); apply (each_record (fun f => AVal false (valued (snd f))) fst)|].
    { apply sound_Forall with (f := fun f => match f with (_, v) => sound v end); [|exact Hs]. eapply Forall_impl; [|exact H].
      intros [key v] IHv Hv s h. cbn. unfold record_field, child_value. cbn [snd] in IHv. rewrite (IHv Hv). reflexivity. }
    cbn [obind valued acalls stream_ser k_struct_end]. rewrite <- ?app_assoc.
    replace (map (fun f : bytes * sdata => let (l0, v) := f in (None, label_new l0, AVal false (valued v))) fs)
      with (map (fun x : bytes * sdata => (@None tag, label_new (fst x), AVal false (valued (snd x)))) fs) by (apply map_ext; intros [? ?]; reflexivity).
    reflexivity.
  - apply andb_true_iff in Hs as [Hs Hf]. apply andb_true_iff in Hs as [_ Hok]. subst ok. cbn [ser]. cbn [stream_ser s_struct_variant obind].
    etransitivity; [apply (f_equal (fun o => obind o _)); apply (each_record (fun f => AVal false (valued (snd f))) fst)|].
    { apply sound_Forall with (f := fun f => match f with (_, v) => sound v end); [|exact Hf]. eapply Forall_impl; [|exact H].
      intros [key v] IHv Hv s h. cbn. unfold record_field, child_value. cbn [snd] in IHv. rewrite (IHv Hv). reflexivity. }
    cbn [obind valued acalls stream_ser k_svariant_end].
    replace (map (fun f : bytes * sdata => let (l0, v) := f in (None, label_new l0, AVal false (valued v))) fs)
      with (map (fun x : bytes * sdata => (@None tag, label_new (fst x), AVal false (valued (snd x)))) fs) by (apply map_ext; intros [? ?]; reflexivity).
    cbn [app]. rewrite <- ?app_assoc. reflexivity.
Qed.

Lemma numbered_map {A B C} (f : A -> B) (g : option tag * index * B -> C) (h : A -> C) l : (forall i x, g (None, i, f x) = h x) ->
  forall i, map g (numbered (fun v => v) i (map f l)) = map h l.
Proof. intros H. induction l as [|x l IH]; intros i; [reflexivity|]. cbn. rewrite H, IH. reflexivity. Qed.

Lemma index_u32 i : fits U32 i = true -> index_to U32 (index_new i) = Some i.
Proof. intros H. rewrite index_to_spec by discriminate. cbn [index_new i_val]. rewrite H. reflexivity. Qed.

Lemma map_ext_sound {A B} (ok : A -> bool) (f g : A -> B) l :
  Forall (fun x => ok x = true -> f x = g x) l -> forallb ok l = true -> map f l = map g l.
Proof. induction 1; cbn; intros E; [reflexivity|]. apply andb_true_iff in E as [E1 E2]. f_equal; auto. Qed.
Lemma named_new {A B} (f : A -> sdata) (g : B -> A) (fs : list (bytes * B)) :
  named (A := option tag) f (map (fun x => match x with (l, v) => (None, kept_label (label_new l), g v) end) fs) =
  (map (fun x => match x with (l, v) => (l, f (g v)) end) fs, true).
Proof. induction fs as [|[l v] fs IH]; [reflexivity|]. cbn [map named]. rewrite kept_static. cbn [as_static_str label_new l_kind l_text]. rewrite IH. reflexivity. Qed.

Lemma as_serde_valued x : sound x = true -> as_serde (mirror (tree_of (valued x))) = strings x.
Proof.
  induction x using sdata_ind'; cbn [sound]; intros Hs; try reflexivity; try discriminate Hs.
  - cbn. unfold content. cbn. rewrite app_nil_r. reflexivity.
  - cbn. unfold content. cbn. rewrite app_nil_r. reflexivity.
  - cbn. unfold content. cbn. rewrite app_nil_r. reflexivity.
  - cbn. unfold content. rewrite map_map. cbn. rewrite map_id. reflexivity.
  - change (DSome (as_serde (mirror (tree_of (valued x)))) = DSome (strings x)). f_equal. apply IHx, Hs.
  - cbn [valued tree_of mirror as_serde strings okept option_map static name_of]. rewrite !kept_static. cbn [as_static_str label_new l_kind l_text index_of].
    rewrite (index_u32 _ Hs). reflexivity.
  - cbn [valued tree_of mirror as_serde strings okept option_map static name_of otag_is]. rewrite kept_static. cbn [as_static_str label_new l_kind l_text].
    f_equal. apply IHx, Hs.
  - apply andb_true_iff in Hs as [Hi Hs].
    cbn [valued tree_of mirror as_serde strings okept option_map static name_of]. rewrite !kept_static. cbn [as_static_str label_new l_kind l_text index_of].
    rewrite (index_u32 _ Hi). f_equal. apply IHx, Hs.
  - cbn [valued tree_of mirror as_serde strings]. rewrite !map_map. f_equal. apply (map_ext_sound sound); assumption.
  - cbn [valued tree_of mirror as_serde strings okept option_map]. rewrite !map_map. f_equal.
    rewrite (numbered_map _ _ (fun v => as_serde (mirror (tree_of (valued v))))) by reflexivity. apply (map_ext_sound sound); assumption.
  - cbn [valued tree_of mirror as_serde strings okept option_map static]. rewrite kept_static. cbn [as_static_str label_new l_kind l_text]. rewrite !map_map. f_equal.
    rewrite (numbered_map _ _ (fun v => as_serde (mirror (tree_of (valued v))))) by reflexivity. apply (map_ext_sound sound); assumption.
  - apply andb_true_iff in Hs as [Hi Hs].
    cbn [valued tree_of mirror as_serde strings okept option_map static name_of]. rewrite !kept_static. cbn [as_static_str label_new l_kind l_text index_of].
    rewrite (index_u32 _ Hi), !map_map. f_equal.
    rewrite (numbered_map _ _ (fun v => as_serde (mirror (tree_of (valued v))))) by reflexivity. apply (map_ext_sound sound); assumption.
  - cbn [valued tree_of mirror as_serde strings]. rewrite !map_map. f_equal.
    apply (map_ext_sound (fun e => match e with (a, b) => sound a && sound b end)); [|exact Hs]. eapply Forall_impl; [|exact H].
    intros [a b] [Ha Hb] E. apply andb_true_iff in E as [Ea Eb]. cbn [fst snd tree_of] in *. rewrite (Ha Ea), (Hb Eb). reflexivity.
  - apply andb_true_iff in Hs as [Hok Hs]. subst ok.
    cbn [valued tree_of mirror as_serde strings okept option_map static name_of]. rewrite kept_static. cbn [as_static_str label_new l_kind l_text].
    rewrite !map_map.
    match goal with |- (let (_, _) := named ?f ?m in _) = _ =>
      replace m with (map (fun x : bytes * sdata => match x with (l, v) => (@None tag, kept_label (label_new l), mirror (tree_of (valued v))) end) fs)
        by (apply map_ext; intros [? ?]; reflexivity) end.
    rewrite named_new. f_equal. apply (map_ext_sound (fun f => match f with (_, v) => sound v end)); [|exact Hs]. eapply Forall_impl; [|exact H].
    intros [a b] Hb E. cbn [snd] in *. rewrite (Hb E). reflexivity.
  - apply andb_true_iff in Hs as [Hs Hf]. apply andb_true_iff in Hs as [Hi Hok]. subst ok.
    cbn [valued tree_of mirror as_serde strings okept option_map static name_of]. rewrite !kept_static. cbn [as_static_str label_new l_kind l_text index_of].
    rewrite (index_u32 _ Hi), !map_map.
    match goal with |- (let (_, _) := named ?f ?m in _) = _ =>
      replace m with (map (fun x : bytes * sdata => match x with (l, v) => (@None tag, kept_label (label_new l), mirror (tree_of (valued v))) end) fs)
        by (apply map_ext; intros [? ?]; reflexivity) end.
    rewrite named_new. f_equal. apply (map_ext_sound (fun f => match f with (_, v) => sound v end)); [|exact Hf]. eapply Forall_impl; [|exact H].
    intros [a b] Hb E. cbn [snd] in *. rewrite (Hb E). reflexivity.
Qed.

Lemma forallb_all {A} (f : A -> bool) l : Forall (fun x => f x = true) l -> forallb f l = true.
Proof. induction 1; cbn; [reflexivity|]. apply andb_true_iff. auto. Qed.
Lemma forallb_numbered {A B} (f : A -> B) (g : option tag * index * B -> bool) l : Forall (fun x => forall i, g (None, i, f x) = true) l ->
  forall i, forallb g (numbered (fun v => v) i (map f l)) = true.
Proof. induction 1; intros i; cbn; [reflexivity|]. apply andb_true_iff. auto. Qed.
Lemma forallb_map' {A B} (f : A -> B) (g : B -> bool) l : forallb g (map f l) = forallb (fun x => g (f x)) l.
Proof. induction l; cbn; [reflexivity|]. f_equal. assumption. Qed.

Lemma shallow_valued x : shallow (mirror (tree_of (valued x))) = true.
Proof.
  induction x using sdata_ind'; try reflexivity; cbn [valued tree_of mirror shallow too_deep ends_in_fields negb andb];
    rewrite ?forallb_map'; try assumption.
  - apply forallb_all, H.
  - apply forallb_numbered. eapply Forall_impl; [|exact H]. intros v E i. exact E.
  - apply forallb_numbered. eapply Forall_impl; [|exact H]. intros v E i. exact E.
  - apply forallb_numbered. eapply Forall_impl; [|exact H]. intros v E j. exact E.
  - apply forallb_all. eapply Forall_impl; [|exact H]. intros [a b] [Ha Hb]. cbn [fst snd tree_of] in *. rewrite Ha, Hb. reflexivity.
  - apply forallb_all. eapply Forall_impl; [|exact H]. intros [a b] Hb. exact Hb.
  - apply forallb_all. eapply Forall_impl; [|exact H]. intros [a b] Hb. exact Hb.
Qed.

(** A serializer that treats [char]s and [Display]s as strings. *)
Lemma each_ext {St A} (f g : St -> A -> outcome St) l : Forall (fun x => forall s, f s x = g s x) l -> forall s, each f s l = each g s l.
Proof. induction 1 as [|x l H F IH]; intros s; [reflexivity|]. cbn [each]. rewrite H. apply bind_ext, IH. Qed.
Lemma ser_strings S : opaque_children S -> chars_as_strings S -> default_collect_str S ->
  forall x k, ser S (strings x) k = ser S x k.
Proof.
  intros OC HC HD. induction x using sdata_ind'; intros k; try reflexivity.
  - symmetry. apply HC.
  - symmetry. apply HD.
  - cbn [strings ser]. apply (oc_some S OC). exact IHx.
  - cbn [strings ser]. apply (oc_newtype_struct S OC). exact IHx.
  - cbn [strings ser]. apply (oc_newtype_variant S OC). exact IHx.
  - cbn [strings ser]. apply bind_ext. intros s. rewrite each_map. f_equal. apply each_ext. eapply Forall_impl; [|exact H]. intros v E s'. apply (oc_seq S OC); exact E.
  - cbn [strings ser]. apply bind_ext. intros s. rewrite each_map. f_equal. apply each_ext. eapply Forall_impl; [|exact H]. intros v E s'. apply (oc_tuple S OC); exact E.
  - cbn [strings ser]. apply bind_ext. intros s. rewrite each_map. f_equal. apply each_ext. eapply Forall_impl; [|exact H]. intros v E s'. apply (oc_tstruct S OC); exact E.
  - cbn [strings ser]. apply bind_ext. intros s. rewrite each_map. f_equal. apply each_ext. eapply Forall_impl; [|exact H]. intros v E s'. apply (oc_tvariant S OC); exact E.
  - cbn [strings ser]. apply bind_ext. intros s. rewrite each_map. f_equal. apply each_ext. eapply Forall_impl; [|exact H]. intros [a b] [Ea Eb] s'.
    cbn [fst snd] in Ea, Eb. rewrite (oc_map_key S OC s' _ _ Ea). apply bind_ext. intros s1. apply (oc_map_value S OC); exact Eb.
  - cbn [strings ser]. apply bind_ext. intros s. rewrite each_map. f_equal. apply each_ext. eapply Forall_impl; [|exact H]. intros [a b] E s'. apply (oc_struct S OC); exact E.
  - cbn [strings ser]. apply bind_ext. intros s. rewrite each_map. f_equal. apply each_ext. eapply Forall_impl; [|exact H]. intros [a b] E s'. apply (oc_svariant S OC); exact E.
Qed.
