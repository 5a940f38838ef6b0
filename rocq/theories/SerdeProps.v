(** * SerdeProps: C37 and C53, between [sval] and [serde] *)

From Verif Require Import Base Event Tree LowerModel DataModel DataProofs FragModel BufferSpec StdModel NestedModel NestedSpec NestedProofs NestedWhole NestedProps SerdeModel SerdeSpec SerdeProofs.

(** ** A [sval] value as a [serde::Serialize]

    Serializing a [sval] value drives every serializer exactly as its [serde]
    reading does, errors included. *)
Theorem C37_serializes_as : forall S v t,
  opaque_children S -> whole v -> streams v t -> shallow (mirror t) = true ->
  forall n, levels (mirror t) <= n ->
  forall k, to_serialize S n v k = ser S (as_serde (mirror t)) k.
Proof.
  intros S v t OC W F H n L k. destruct (whole_atree v t W F) as (a & -> & _ & <-). rewrite stree_mirror in *.
  apply to_serialize_same; assumption.
Qed.

(** ** There and back

    The full claim: serializing [x] as a [sval] value drives every serializer
    exactly as serializing [x] directly does. *)
Definition C37_same_calls : Prop := forall S x,
  opaque_children S -> sound x = true ->
  exists cs, to_value x = OOk cs /\
  exists n, forall m, n <= m -> forall k, to_serialize S m cs k = ser S x k.

(** A [char] and a [Display] arrive as the string they read as; everything else
    is unchanged. *)
Theorem C37_exact : forall S x,
  opaque_children S -> sound x = true ->
  exists cs, to_value x = OOk cs /\
  exists n, forall m, n <= m -> forall k, to_serialize S m cs k = ser S (strings x) k.
Proof.
  intros S x OC Hs. exists (acalls (valued x)). split; [apply to_value_valued, Hs|].
  exists (levels (mirror (tree_of (valued x)))). intros m L k.
  rewrite (to_serialize_same S OC m _ k (shallow_valued x) L), as_serde_valued by exact Hs. reflexivity.
Qed.
(** So the claim holds for values without [char]s and [Display]s... *)
Theorem C37_same_calls_partial : forall S x,
  opaque_children S -> sound x = true -> strings x = x ->
  exists cs, to_value x = OOk cs /\
  exists n, forall m, n <= m -> forall k, to_serialize S m cs k = ser S x k.
Proof. intros S x OC Hs E. pose proof (C37_exact S x OC Hs) as H. rewrite E in H. exact H. Qed.
(** ... and for every value when the serializer treats [char]s as strings and
    keeps the default [collect_str]. *)
Theorem C37_same_calls_as_strings_partial : forall S x,
  opaque_children S -> chars_as_strings S -> default_collect_str S -> sound x = true ->
  exists cs, to_value x = OOk cs /\
  exists n, forall m, n <= m -> forall k, to_serialize S m cs k = ser S x k.
Proof.
  intros S x OC HC HD Hs. destruct (C37_exact S x OC Hs) as (cs & E & n & H). exists cs. split; [exact E|].
  exists n. intros m L k. rewrite (H m L k). apply ser_strings; assumption.
Qed.

(** A serializer that builds the value it is told about. *)
Definition rebuild : serializer :=
  let one := fun (c : unit -> outcome sdata) (f : sdata -> sdata) => x <- c tt ;; OOk (f x) in
  let more := fun (T : Type) (s : T * list sdata) (c : unit -> outcome sdata) => x <- c tt ;; OOk (fst s, snd s ++ [x]) in
  let field := fun (T : Type) (s : T * list (bytes * sdata)) (l : bytes) (c : unit -> outcome sdata) => x <- c tt ;; OOk (fst s, snd s ++ [(l, x)]) in
  {| k_ser := unit; k_ok := sdata;
     k_seq := option N * list sdata; k_tuple := N * list sdata; k_tstruct := (bytes * N) * list sdata;
     k_tvariant := (bytes * Z * bytes * N) * list sdata;
     k_map := option N * list (sdata * sdata) * option sdata;
     k_struct := (bytes * N) * list (bytes * sdata); k_svariant := (bytes * Z * bytes * N) * list (bytes * sdata);
     s_bool _ b := OOk (DBool b); s_int _ t z := OOk (DInt t z); s_f32 _ f := OOk (DF32 f); s_f64 _ f := OOk (DF64 f);
     s_char _ c := OOk (DChar c); s_str _ s := OOk (DStr s); s_bytes _ s := OOk (DBytes s); s_collect_str _ fs := OOk (DDisplay fs);
     s_none _ := OOk DNone; s_some _ c := one c DSome; s_unit _ := OOk DUnit;
     s_unit_struct _ n := OOk (DUnitStruct n); s_unit_variant _ n i v := OOk (DUnitVariant n i v);
     s_newtype_struct _ n c := one c (DNewtypeStruct n); s_newtype_variant _ n i v c := one c (DNewtypeVariant n i v);
     s_seq _ n := OOk (n, []); s_tuple _ n := OOk (n, []); s_tuple_struct _ l n := OOk ((l, n), []);
     s_tuple_variant _ l i v n := OOk ((l, i, v, n), []); s_map _ n := OOk (n, [], None);
     s_struct _ l n := OOk ((l, n), []); s_struct_variant _ l i v n := OOk ((l, i, v, n), []);
     k_seq_element := more _; k_seq_end s := OOk (DSeq (fst s) (snd s));
     k_tuple_element := more _; k_tuple_end s := OOk (DTuple (fst s) (snd s));
     k_tstruct_field := more _; k_tstruct_end s := OOk (DTupleStruct (fst (fst s)) (snd (fst s)) (snd s));
     k_tvariant_field := more _;
     k_tvariant_end s := match s with ((l, i, v, n), vs) => OOk (DTupleVariant l i v n vs) end;
     k_map_key s c := match s with (n, es, _) => x <- c tt ;; OOk (n, es, Some x) end;
     k_map_value s c := match s with (n, es, Some k) => x <- c tt ;; OOk (n, es ++ [(k, x)], None) | _ => OErr end;
     k_map_end s := match s with (n, es, _) => OOk (DMap n es) end;
     k_struct_field := field _; k_struct_end s := OOk (DStruct (fst (fst s)) (snd (fst s)) (snd s) true);
     k_svariant_field := field _;
     k_svariant_end s := match s with ((l, i, v, n), fs) => OOk (DStructVariant l i v n fs true) end |}.
Lemma rebuild_opaque : opaque_children rebuild.
Proof.
  constructor; intros; cbn; try (rewrite (H tt); reflexivity).
Qed.

Theorem C37_same_calls_refuted : ~ C37_same_calls.
Proof.
  intros H. destruct (H rebuild (DChar 65) rebuild_opaque eq_refl) as (cs & E & n & X).
  destruct (C37_exact rebuild (DChar 65) rebuild_opaque eq_refl) as (cs' & E' & n' & X').
  rewrite E in E'. injection E' as <-. specialize (X (n + n')%nat ltac:(lia) tt). specialize (X' (n + n')%nat ltac:(lia) tt).
  rewrite X in X'. discriminate X'.
Qed.

Definition sample : sdata :=
  DStruct (bs "Sample") 3
    [(bs "a", DSome (DSeq (Some 2%N) [DInt U8 1; DUnit]));
     (bs "b", DMap None [(DStr (bs "k"), DNewtypeVariant (bs "E") 2 (bs "V") (DTupleStruct (bs "T") 1 [DNone]))]);
     (bs "c", DStructVariant (bs "E") 4294967295 (bs "W") 1 [(bs "x", DUnitVariant (bs "E") 0 (bs "U"))] true)] true.
Example C37_applies :
  sound sample = true /\ strings sample = sample /\
  exists cs, to_value sample = OOk cs /\ to_serialize rebuild 9 cs tt = OOk sample.
Proof. split; [reflexivity|]. split; [reflexivity|]. eexists. split; [reflexivity|]. vm_compute. reflexivity. Qed.
Example C37_char_becomes_string :
  exists cs, to_value (DSome (DChar 233)) = OOk cs /\ to_serialize rebuild 3 cs tt = OOk (DSome (DStr [ascii_of_N 195; ascii_of_N 169])).
Proof. eexists. split; [reflexivity|]. vm_compute. reflexivity. Qed.

(** ** Values [serde] is not told about

    A tagged value without a label is refused by every serializer, unless it is
    an option; so is every array and every big number of the standard library. *)
Theorem C37_unlabelled_tagged_fails : forall S v t g i w,
  opaque_children S -> whole v -> streams v t -> shallow (mirror t) = true ->
  mirror t = RTagged g None i w -> otag_is g RUST_OPTION_SOME = false ->
  forall n k, levels (mirror t) <= n -> to_serialize S n v k = OErr.
Proof.
  intros S v t g i w OC W F H E G n k L. rewrite (C37_serializes_as S v t OC W F H n L), E. cbn [as_serde]. rewrite G. reflexivity.
Qed.
Definition C37_well_formed_values_serialize : Prop := forall v t,
  whole v -> streams v t -> shallow (mirror t) = true ->
  exists n x, to_serialize rebuild n v tt = OOk x.
Definition an_array : tree := TTagged (Some CONSTANT_SIZE) None None (TSeq (Some 1%N) [TInt U8 1]).
Example an_array_is_std : flat (calls (StdModel.RArray [StdModel.RInt U8 1])) false = (emit an_array, true).
Proof. reflexivity. Qed.
Theorem C37_well_formed_values_serialize_refuted : ~ C37_well_formed_values_serialize.
Proof.
  intros H. destruct (H _ _ (whole_events (emit an_array)) (streams_events an_array) eq_refl) as (n & x & E).
  destruct n as [|n]; vm_compute in E; discriminate E.
Qed.

(** ** C53: a [sval] value sent through [serde] and back *)
Lemma stream_ser_opaque : opaque_children stream_ser.
Proof.
  constructor; intros; repeat match goal with x : _ * _ |- _ => destruct x end; cbn; unfold tuple_field, record_field, child_value;
    rewrite (H tt); reflexivity.
Qed.

Section RviewInd.
  Variable P : rview -> Prop.
  Hypothesis Hnull : P RNull.
  Hypothesis Hbool : forall b, P (RBool b).
  Hypothesis Hint : forall t z, P (RInt t z).
  Hypothesis Hf32 : forall f, P (RF32 f).
  Hypothesis Hf64 : forall f, P (RF64 f).
  Hypothesis Htext : forall s, P (RText s).
  Hypothesis Hbin : forall s, P (RBin s).
  Hypothesis Htag : forall t l i, P (RTag t l i).
  Hypothesis Htagged : forall t l i v, P v -> P (RTagged t l i v).
  Hypothesis Henum : forall t l i v, P v -> P (REnum t l i v).
  Hypothesis Hseq : forall n vs, Forall P vs -> P (RSeq n vs).
  Hypothesis Hmap : forall n es, Forall (fun e => P (fst e) /\ P (snd e)) es -> P (RMap n es).
  Hypothesis Hrecord : forall t l i n fs, Forall (fun f => P (snd f)) fs -> P (RRecord t l i n fs).
  Hypothesis Htuple : forall t l i n fs, Forall (fun f => P (snd f)) fs -> P (RTuple t l i n fs).
  Fixpoint rview_ind' (r : rview) : P r :=
    let fix go (l : list rview) : Forall P l := match l with [] => Forall_nil _ | v :: l' => Forall_cons _ (rview_ind' v) (go l') end in
    let fix gor (l : list (option tag * label * rview)) : Forall (fun f => P (snd f)) l :=
      match l with [] => Forall_nil _ | (k, v) :: l' => Forall_cons (k, v) (rview_ind' v) (gor l') end in
    let fix got (l : list (option tag * index * rview)) : Forall (fun f => P (snd f)) l :=
      match l with [] => Forall_nil _ | (k, v) :: l' => Forall_cons (k, v) (rview_ind' v) (got l') end in
    match r with
    | RNull => Hnull | RBool b => Hbool b | RInt t z => Hint t z | RF32 f => Hf32 f | RF64 f => Hf64 f
    | RText s => Htext s | RBin s => Hbin s | RTag t l i => Htag t l i
    | RTagged t l i v => Htagged t l i v (rview_ind' v)
    | REnum t l i v => Henum t l i v (rview_ind' v)
    | RSeq n vs => Hseq n vs (go vs)
    | RMap n es => Hmap n es
        ((fix gom (l : list (rview * rview)) : Forall (fun e => P (fst e) /\ P (snd e)) l :=
            match l with [] => Forall_nil _ | (a, b) :: l' => Forall_cons (a, b) (conj (rview_ind' a) (rview_ind' b)) (gom l') end) es)
    | RRecord t l i n fs => Hrecord t l i n fs (gor fs)
    | RTuple t l i n fs => Htuple t l i n fs (got fs)
    end.
End RviewInd.

Definition image (r : rview) : rview := mirror (tree_of (valued (as_serde r))).
Definition comes_back (r : rview) : Prop :=
  sound (as_serde r) = true -> has_image r = true -> kept false (image r) = kept false r.
Definition variant_back (r : rview) : Prop :=
  match r with
  | RTagged _ _ _ v => comes_back v
  | RTuple _ _ _ _ fs => Forall (fun f => comes_back (snd f)) fs
  | RRecord _ _ _ _ fs => Forall (fun f => comes_back (snd f)) fs
  | _ => True
  end.

Lemma static_named l n : as_static_str l = Some n -> label_new n = named_as l.
Proof. unfold as_static_str. destruct (l_kind l); intros E; [injection E as <-; reflexivity|discriminate E|discriminate E]. Qed.
Lemma index_to_u32 i z : index_to U32 i = Some z -> index_new z = index_new (i_val i).
Proof.
  unfold index_to. destruct (_ && _) eqn:E; [|discriminate]. intros H. injection H as <-. f_equal.
  apply andb_true_iff in E as [E1 E2]. apply Z.leb_le in E1, E2. apply cast_fits. unfold fits.
  apply andb_true_iff. split; apply Z.leb_le; assumption.
Qed.


Lemma named_back (fs : list (option tag * label * rview)) vs :
  Forall (fun f => comes_back (snd f)) fs -> named as_serde fs = (vs, true) ->
  forallb (fun f : bytes * sdata => let (_, v) := f in sound v) vs = true ->
  forallb (fun f : option tag * label * rview => let '(_, _, v) := f in has_image v) fs = true ->
  map (fun f : bytes * sdata => match f with (l, v) => (@None tag, label_new l, kept false (mirror (tree_of (valued v)))) end) vs =
  map (fun f : option tag * label * rview => match f with (_, l, v) => (@None tag, named_as l, kept false v) end) fs.
Proof.
  intros F. revert vs. induction F as [|[[g l] v] fs H F IH]; intros vs; cbn [named]; [intros E; injection E as <-; reflexivity|].
  destruct (as_static_str l) as [n|] eqn:E; [|discriminate]. destruct (named as_serde fs) as [vs' ok] eqn:En.
  intros Q. injection Q as <- ->. cbn [forallb map]. intros Hs Hi. apply andb_true_iff in Hs as [Hs1 Hs2], Hi as [Hi1 Hi2].
  f_equal; [|apply IH; [reflexivity|assumption|assumption]]. rewrite (static_named l n E). f_equal. apply H; assumption.
Qed.
Lemma positions_back (fs : list (option tag * index * rview)) :
  Forall (fun f => comes_back (snd f)) fs ->
  forallb sound (map (fun f : option tag * index * rview => let '(_, _, v) := f in as_serde v) fs) = true ->
  forallb (fun f : option tag * index * rview => let '(_, _, v) := f in has_image v) fs = true ->
  map (fun f : option tag * index * rview => let '(_, _, v) := f in (@None tag, index_new 0, kept false (image v))) fs =
  map (fun f : option tag * index * rview => let '(_, _, v) := f in (@None tag, index_new 0, kept false v)) fs.
Proof.
  induction 1 as [|[[g i] v] fs H F IH]; cbn [map forallb]; intros Hs Hi; [reflexivity|].
  apply andb_true_iff in Hs as [Hs1 Hs2], Hi as [Hi1 Hi2]. f_equal; [|auto]. f_equal. apply H; assumption.
Qed.
Lemma all_back vs :
  Forall comes_back vs -> forallb sound (map as_serde vs) = true -> forallb has_image vs = true ->
  map (fun v => kept false (image v)) vs = map (kept false) vs.
Proof.
  induction 1 as [|v vs H F IH]; cbn [map forallb]; intros Hs Hi; [reflexivity|].
  apply andb_true_iff in Hs as [Hs1 Hs2], Hi as [Hi1 Hi2]. f_equal; auto.
Qed.
Lemma sub_back {A} (fs : list (A * rview)) :
  Forall (fun f => comes_back (snd f) /\ variant_back (snd f)) fs -> Forall (fun f => comes_back (snd f)) fs.
Proof. intros H. eapply Forall_impl; [|exact H]. cbn. tauto. Qed.

Lemma tuple_fields_image fs :
  map (fun f : option tag * index * rview => let '(_, _, v) := f in (@None tag, index_new 0, kept false v))
    (map (fun f : option tag * index * tree => let '(ft, fi, v) := f in (ft, fi, mirror v))
      (map (fun f : option tag * index * atree => let '(ft, fi, v) := f in (ft, fi, tree_of v))
        (numbered (fun v => v) 0 (map (fun v => AVal false (valued v))
          (map (fun f : option tag * index * rview => let '(_, _, v) := f in as_serde v) fs))))) =
  map (fun f : option tag * index * rview => let '(_, _, v) := f in (@None tag, index_new 0, kept false (image v))) fs.
Proof.
  rewrite !map_map. rewrite (numbered_map _ _ (fun f : option tag * index * rview => let '(_, _, v) := f in (@None tag, index_new 0, kept false (image v)))); [reflexivity|].
  intros i [[g j] v]. reflexivity.
Qed.

Lemma comes_back_all r : comes_back r /\ variant_back r.
Proof.
  induction r using rview_ind'; (split; [|try exact I]); unfold comes_back; try (intros; reflexivity).
  - discriminate.
  - intros _ _. unfold image. cbn. unfold content. cbn. rewrite app_nil_r. reflexivity.
  - intros _ _. unfold image. cbn. unfold content. cbn. rewrite app_nil_r. reflexivity.
  - cbn [as_serde kept negb andb]. unfold image. cbn [as_serde]. destruct (otag_is t RUST_OPTION_NONE) eqn:E1; [reflexivity|].
    destruct (otag_is t RUST_UNIT) eqn:E2; [reflexivity|]. destruct l as [l|]; cbn [name_of]; [|discriminate].
    destruct (as_static_str l) as [n|] eqn:E; [|discriminate]. intros _ _.
    cbn [valued tree_of mirror static okept option_map kept negb andb otag_is]. rewrite <- (static_named l n E). reflexivity.
  - cbn [as_serde kept negb andb has_image]. unfold image. cbn [as_serde]. destruct (otag_is t RUST_OPTION_SOME) eqn:E1.
    + cbn [sound]. intros Hs Hi. cbn [valued tree_of mirror kept negb andb]. change (otag_is (Some RUST_OPTION_SOME) RUST_OPTION_SOME) with true. cbv iota.
      f_equal. apply IHr; assumption.
    + destruct l as [l|]; cbn [name_of]; [|discriminate]. destruct (as_static_str l) as [n|] eqn:E; [|discriminate].
      cbn [sound]. intros Hs Hi. cbn [valued tree_of mirror static okept option_map kept negb andb otag_is]. rewrite <- (static_named l n E).
      change (RTagged None (Some (label_new n)) None (kept false (image r)) = RTagged None (Some (label_new n)) None (kept false r)).
      f_equal. apply IHr; assumption.
  - cbn [variant_back]. apply IHr.
  - cbn [as_serde kept negb andb has_image]. unfold image. cbn [as_serde]. destruct l as [l|]; cbn [name_of]; [|discriminate].
    destruct (as_static_str l) as [n|] eqn:E; [|discriminate]. destruct IHr as [_ IHr]. destruct r; try discriminate; cbn [variant_back] in IHr.
    + destruct l0 as [l0|]; cbn [name_of]; [|discriminate]. destruct (as_static_str l0) as [n0|] eqn:E0; [|discriminate].
      destruct i0 as [i0|]; cbn [index_of]; [|discriminate]. destruct (index_to U32 i0) as [z|] eqn:Ez; [|discriminate]. intros Hs Hi.
      cbn [kept negb andb option_map index_value]. rewrite <- (static_named l n E), <- (static_named l0 n0 E0), <- (index_to_u32 i0 z Ez). reflexivity.
    + destruct l0 as [l0|]; cbn [name_of]; [|discriminate]. destruct (as_static_str l0) as [n0|] eqn:E0; [|discriminate].
      destruct i0 as [i0|]; cbn [index_of]; [|discriminate]. destruct (index_to U32 i0) as [z|] eqn:Ez; [|discriminate]. cbn [sound has_image]. intros Hs Hi.
      apply andb_true_iff in Hs as [_ Hs].
      cbn [kept negb andb option_map index_value]. rewrite <- (static_named l n E), <- (static_named l0 n0 E0), <- (index_to_u32 i0 z Ez).
      rewrite <- (IHr Hs Hi). reflexivity.
    + destruct l0 as [l0|]; cbn [name_of]; [|discriminate]. destruct (as_static_str l0) as [w|] eqn:E0; [|discriminate].
      destruct i0 as [i0|]; cbn [index_of]; [|discriminate]. destruct (index_to U32 i0) as [z|] eqn:Ez; [|discriminate].
      destruct n0 as [n0|]; [|discriminate]. destruct (named as_serde fs) as [vs ok] eqn:En. cbn [sound has_image andb]. intros Hs Hi.
      apply andb_true_iff in Hs as [Hs Hv]. apply andb_true_iff in Hs as [_ ->].
      cbn [kept negb andb option_map index_value]. rewrite <- (static_named l n E), <- (static_named l0 w E0), <- (index_to_u32 i0 z Ez).
      rewrite <- (named_back fs vs IHr En Hv Hi).
      cbn [valued tree_of mirror static okept option_map kept]. rewrite !map_map. do 2 f_equal. apply map_ext. intros [a b]. reflexivity.
    + destruct l0 as [l0|]; cbn [name_of]; [|discriminate]. destruct (as_static_str l0) as [w|] eqn:E0; [|discriminate].
      destruct i0 as [i0|]; cbn [index_of]; [|discriminate]. destruct (index_to U32 i0) as [z|] eqn:Ez; [|discriminate].
      destruct n0 as [n0|]; [|discriminate]. cbn [sound has_image andb]. intros Hs Hi. apply andb_true_iff in Hs as [_ Hs].
      cbn [kept negb andb option_map index_value]. rewrite <- (static_named l n E), <- (static_named l0 w E0), <- (index_to_u32 i0 z Ez).
      rewrite <- (positions_back fs IHr Hs Hi), <- tuple_fields_image. reflexivity.
  - cbn [as_serde kept has_image sound]. intros Hs Hi. unfold image. cbn [as_serde valued tree_of mirror kept]. rewrite !map_map. f_equal.
    rewrite <- all_back; [reflexivity| |exact Hs|exact Hi]. eapply Forall_impl; [|exact H]. cbn. tauto.
  - cbn [as_serde kept has_image sound]. intros Hs Hi. unfold image. cbn [as_serde valued tree_of mirror kept]. rewrite !map_map. f_equal.
    clear n. induction H as [|[a b] es [[Ha _] [Hb _]] F IH]; [reflexivity|]. cbn [map forallb fst snd] in *.
    apply andb_true_iff in Hs as [Hs1 Hs2], Hi as [Hi1 Hi2]. apply andb_true_iff in Hs1 as [Hs1 Hs3], Hi1 as [Hi1 Hi3].
    f_equal; [|auto]. f_equal; [apply Ha|apply Hb]; assumption.
  - cbn [as_serde kept has_image sound negb]. unfold image. cbn [as_serde]. destruct n as [n|]; [|discriminate].
    destruct l as [l|]; [|intros _ X; discriminate X]. destruct (as_static_str l) as [w|] eqn:E; [|discriminate].
    destruct (named as_serde fs) as [vs ok] eqn:En. cbn [sound andb]. intros Hs Hi. apply andb_true_iff in Hs as [-> Hv].
    cbn [option_map]. rewrite <- (static_named l w E). rewrite <- (named_back fs vs (sub_back fs H) En Hv Hi).
    cbn [valued tree_of mirror static okept option_map kept]. rewrite !map_map. f_equal. apply map_ext. intros [a b]. reflexivity.
  - cbn [variant_back]. apply sub_back, H.
  - cbn [as_serde kept has_image sound negb]. unfold image. cbn [as_serde]. destruct n as [n|]; [|discriminate].
    destruct l as [l|].
    + destruct (as_static_str l) as [w|] eqn:E; [|discriminate]. cbn [sound]. intros Hs Hi. cbn [option_map]. rewrite <- (static_named l w E).
      rewrite <- (positions_back fs (sub_back fs H) Hs Hi), <- tuple_fields_image. reflexivity.
    + cbn [sound]. intros Hs Hi. rewrite <- (positions_back fs (sub_back fs H) Hs Hi), <- tuple_fields_image. reflexivity.
  - cbn [variant_back]. apply sub_back, H.
Qed.

Lemma whole_app a b : whole a -> whole b -> whole (a ++ b).
Proof. intros. apply Forall_app. split; assumption. Qed.
Lemma whole_map {A} (f : A -> ev) l : whole (map (fun x => CE (f x)) l).
Proof. apply Forall_forall. intros c H. apply in_map_iff in H as (x & <- & _). constructor. Qed.
Lemma whole_flat_map {A} (f : A -> list call) l : Forall (fun x => whole (f x)) l -> whole (flat_map f l).
Proof. induction 1; cbn; [constructor|]. apply whole_app; assumption. Qed.
Lemma whole_bracket e a e' : whole a -> whole (CE e :: a ++ [CE e']).
Proof. intros H. constructor; [constructor|]. apply whole_app; [exact H|]. repeat constructor. Qed.
Lemma whole_acalls a : marked_seqs a = true -> whole (acalls a).
Proof.
  induction a using atree_ind'; cbn [acalls marked_seqs]; intros Hm; try (repeat constructor; fail).
  - pose proof (stree_flat a false Hm) as F. destruct b; repeat econstructor; try exact F; apply IHa, Hm.
  - apply whole_bracket, whole_map.
  - apply whole_bracket, whole_map.
  - constructor; [constructor|]. apply IHa, Hm.
  - apply whole_bracket, IHa, Hm.
  - apply whole_bracket, IHa, Hm.
  - apply andb_true_iff in Hm as [-> Hm]. apply whole_bracket, whole_flat_map. rewrite forallb_forall in Hm. rewrite Forall_forall in *.
    intros v Hv. apply whole_bracket. auto.
  - apply whole_bracket, whole_flat_map. rewrite forallb_forall in Hm. rewrite Forall_forall in *.
    intros [k v] Hv. destruct (H _ Hv) as [Hk Hw]. specialize (Hm _ Hv). apply andb_true_iff in Hm as [Mk Mv]. cbn [fst snd] in *.
    constructor; [constructor|]. apply whole_app; [auto|]. constructor; [constructor|]. apply whole_bracket. auto.
  - apply whole_bracket, whole_flat_map. rewrite forallb_forall in Hm. rewrite Forall_forall in *.
    intros [[ft fl] v] Hv. specialize (Hm _ Hv). specialize (H _ Hv). apply whole_bracket. auto.
  - apply whole_bracket, whole_flat_map. rewrite forallb_forall in Hm. rewrite Forall_forall in *.
    intros [[ft fl] v] Hv. specialize (Hm _ Hv). specialize (H _ Hv). apply whole_bracket. auto.
  - apply whole_bracket, whole_flat_map. rewrite forallb_forall in Hm. rewrite Forall_forall in *.
    intros [[[ft fl] fi] v] Hv. specialize (Hm _ Hv). specialize (H _ Hv). apply whole_bracket. auto.
Qed.
Lemma marked_numbered (f : sdata -> atree) vs : Forall (fun v => marked_seqs (f v) = true) vs ->
  forall i, forallb (fun fd : option tag * index * atree => let '(_, _, v) := fd in marked_seqs v) (numbered (fun v => v) i (map f vs)) = true.
Proof. induction 1 as [|v vs H F IH]; intros i; [reflexivity|]. cbn. rewrite H. apply IH. Qed.
Lemma marked_valued x : marked_seqs (valued x) = true.
Proof.
  induction x using sdata_ind'; cbn [valued marked_seqs andb]; try reflexivity; try assumption; try (apply marked_numbered; assumption).
  - apply forallb_forall. intros a Ha. apply in_map_iff in Ha as (v & <- & Hv). rewrite Forall_forall in H. apply (H v Hv).
  - apply forallb_forall. intros a Ha. apply in_map_iff in Ha as ([k v] & <- & Hv). rewrite Forall_forall in H.
    destruct (H _ Hv) as [E1 E2]. cbn in *. rewrite E1. exact E2.
  - apply forallb_forall. intros a Ha. apply in_map_iff in Ha as ([k v] & <- & Hv). rewrite Forall_forall in H. apply (H _ Hv).
  - apply forallb_forall. intros a Ha. apply in_map_iff in Ha as ([k v] & <- & Hv). rewrite Forall_forall in H. apply (H _ Hv).
Qed.

(** What arrives is a well-formed value, the same one up to what [serde] has no
    room for. *)
Theorem C53_through_serde : forall v t,
  whole v -> streams v t -> shallow (mirror t) = true ->
  sound (as_serde (mirror t)) = true -> has_image (mirror t) = true ->
  exists n cs t', (forall m, n <= m -> to_serialize stream_ser m v tt = OOk cs) /\
    whole cs /\ streams cs t' /\ kept false (mirror t') = kept false (mirror t).
Proof.
  intros v t W F H Hs Hi. exists (levels (mirror t)), (acalls (valued (as_serde (mirror t)))), (stree false (valued (as_serde (mirror t)))).
  split; [|split; [|split]].
  - intros m L. rewrite (C37_serializes_as stream_ser v t stream_ser_opaque W F H m L). apply to_value_valued, Hs.
  - apply whole_acalls, marked_valued.
  - unfold streams. apply stree_flat, marked_valued.
  - rewrite stree_mirror. apply comes_back_all; assumption.
Qed.

(** A [serde] value streams as a well-formed [sval] value that reads as it. *)
Theorem C37_to_value_well_formed : forall x, sound x = true ->
  exists cs t, to_value x = OOk cs /\ whole cs /\ streams cs t /\ shallow (mirror t) = true /\ as_serde (mirror t) = strings x.
Proof.
  intros x Hs. exists (acalls (valued x)), (stree false (valued x)). split; [apply to_value_valued, Hs|].
  split; [apply whole_acalls, marked_valued|]. split; [apply stree_flat, marked_valued|]. rewrite stree_mirror.
  split; [apply shallow_valued|apply as_serde_valued, Hs].
Qed.

(** A concrete case of the hypotheses. *)
Definition a_record : tree :=
  TRecord None (Some (label_new (bs "R"))) None (Some 2%N)
    [(None, label_new (bs "a"), TTagged (Some RUST_OPTION_SOME) (Some (label_new (bs "Some"))) (Some (index_new 1)) (TInt I64 7));
     (Some VALUE_IDENT, label_new (bs "b"),
      TEnum None (Some (label_new (bs "E"))) None
        (TTuple None (Some (label_new (bs "V"))) (Some (index_new 3)) (Some 1%N) [(None, index_new 0, TSeq None [TBool true])]))].
Example C53_applies :
  whole (map CE (emit a_record)) /\ streams (map CE (emit a_record)) a_record /\ shallow (mirror a_record) = true /\
  sound (as_serde (mirror a_record)) = true /\ has_image (mirror a_record) = true.
Proof. split; [apply whole_events|]. split; [apply streams_events|]. repeat split. Qed.
(** What changes when the last hypothesis fails. *)
Example C53_null_becomes_none :
  to_serialize stream_ser 1 [CE ENull] tt = to_value DNone.
Proof. reflexivity. Qed.
Example C53_unnamed_record_becomes_tuple :
  to_serialize stream_ser 2 (map CE (emit (TRecord None None None (Some 1%N) [(None, label_new (bs "a"), TBool true)]))) tt = to_value (DTuple 1 [DBool true]).
Proof. vm_compute. reflexivity. Qed.

Print Assumptions C37_serializes_as.
Print Assumptions C37_exact.
Print Assumptions C37_same_calls_partial.
Print Assumptions C37_same_calls_as_strings_partial.
Print Assumptions C37_same_calls_refuted.
Print Assumptions C37_unlabelled_tagged_fails.
Print Assumptions C37_well_formed_values_serialize_refuted.
Print Assumptions C37_to_value_well_formed.
Print Assumptions C53_through_serde.
