(** * NestedProofs *)

From Verif Require Import Base Event Tree LowerModel FlatProofs DataModel FragModel FragProofs BufferModel BufferSpec
  BufferProofs NestedModel NestedSpec.

Section ATreeInd.
  Variable P : atree -> Prop.
  Hypothesis HVal : forall b v, P v -> P (AVal b v).
  Hypothesis HNull : P ANull.
  Hypothesis HBool : forall b, P (ABool b).
  Hypothesis HInt : forall t z, P (AInt t z).
  Hypothesis HF32 : forall f, P (AF32 f).
  Hypothesis HF64 : forall f, P (AF64 f).
  Hypothesis HText : forall n fs, P (AText n fs).
  Hypothesis HBin : forall n fs, P (ABin n fs).
  Hypothesis HTag : forall t l i, P (ATag t l i).
  Hypothesis HHint : forall t v, P v -> P (AHint t v).
  Hypothesis HTagged : forall t l i v, P v -> P (ATagged t l i v).
  Hypothesis HEnum : forall t l i v, P v -> P (AEnum t l i v).
  Hypothesis HSeq : forall m n vs, Forall P vs -> P (ASeq m n vs).
  Hypothesis HMap : forall n es, Forall (fun kv => P (fst kv) /\ P (snd kv)) es -> P (AMap n es).
  Hypothesis HRecord : forall t l i n fs, Forall (fun f => P (snd f)) fs -> P (ARecord t l i n fs).
  Hypothesis HTuple : forall t l i n fs, Forall (fun f => P (snd f)) fs -> P (ATuple t l i n fs).
  Hypothesis HRecTup : forall t l i n fs, Forall (fun f => P (snd f)) fs -> P (ARecTup t l i n fs).

  Fixpoint atree_ind' (v : atree) : P v :=
    match v with
    | AVal b v => HVal b v (atree_ind' v)
    | ANull => HNull
    | ABool b => HBool b
    | AInt t z => HInt t z
    | AF32 f => HF32 f
    | AF64 f => HF64 f
    | AText n fs => HText n fs
    | ABin n fs => HBin n fs
    | ATag t l i => HTag t l i
    | AHint t v => HHint t v (atree_ind' v)
    | ATagged t l i v => HTagged t l i v (atree_ind' v)
    | AEnum t l i v => HEnum t l i v (atree_ind' v)
    | ASeq m n vs =>
        HSeq m n vs ((fix go vs : Forall P vs := match vs with
                                 | [] => Forall_nil _
                                 | v :: vs' => Forall_cons v (atree_ind' v) (go vs')
                                 end) vs)
    | AMap n es =>
        HMap n es ((fix go es : Forall (fun kv => P (fst kv) /\ P (snd kv)) es := match es with
                                 | [] => Forall_nil _
                                 | kv :: es' =>
                                     Forall_cons kv
                                       (match kv as kv return P (fst kv) /\ P (snd kv) with (k, v) => conj (atree_ind' k) (atree_ind' v) end)
                                       (go es')
                                 end) es)
    | ARecord t l i n fs =>
        HRecord t l i n fs ((fix go fs : Forall (fun f => P (snd f)) fs := match fs with
                                 | [] => Forall_nil _
                                 | f :: fs' =>
                                     Forall_cons f (match f as f return P (snd f) with (_, v) => atree_ind' v end) (go fs')
                                 end) fs)
    | ATuple t l i n fs =>
        HTuple t l i n fs ((fix go fs : Forall (fun f => P (snd f)) fs := match fs with
                                 | [] => Forall_nil _
                                 | f :: fs' =>
                                     Forall_cons f (match f as f return P (snd f) with (_, v) => atree_ind' v end) (go fs')
                                 end) fs)
    | ARecTup t l i n fs =>
        HRecTup t l i n fs ((fix go fs : Forall (fun f => P (snd f)) fs := match fs with
                                 | [] => Forall_nil _
                                 | f :: fs' =>
                                     Forall_cons f (match f as f return P (snd f) with (_, v) => atree_ind' v end) (go fs')
                                 end) fs)
    end.
End ATreeInd.

(** ** Labels *)
Lemma kept_kept l : kept_label (kept_label l) = kept_label l.
Proof. destruct l as [t [| |] g]; reflexivity. Qed.
Lemma kept_clone l : kept_label (label_clone l) = kept_label l.
Proof. destruct l as [t [| |] g]; reflexivity. Qed.
Lemma okept_own l : okept (option_map label_to_owned l) = okept l.
Proof. destruct l as [l|]; [|reflexivity]. cbn. rewrite own_kept, kept_kept. reflexivity. Qed.
Lemma okept_clone l : okept (cloned l) = okept l.
Proof. destruct l as [l|]; [|reflexivity]. cbn. rewrite kept_clone. reflexivity. Qed.
Lemma same_owned l : kept_label (label_to_owned l) = kept_label l.
Proof. rewrite own_kept, kept_kept. reflexivity. Qed.

(** ** What a value streams, wherever it recurses *)

(** The buffer parts of a value that does or does not mark its elements, and the
    value they replay. *)
Definition keeps (ps : list part) (a : atree) : Prop :=
  exists a', plays ps (acalls a') /\ mirror (tree_of a') = mirror (tree_of a).

Lemma flat1_CE e comp : flat1 (CE e) comp = ([if comp then computed e else e], true).
Proof. reflexivity. Qed.
Lemma flat_frags_text fs comp : exists fs', flat (map (fun f => CE (text_frag f)) fs) comp = (map text_frag fs', true) /\ content fs' = content fs.
Proof.
  induction fs as [|[b s] fs (fs' & E & C)]; [exists []; split; reflexivity|].
  exists ((if comp then false else b, s) :: fs'). split.
  - cbn [map]. rewrite flat_cons, flat1_CE, E. destruct comp, b; reflexivity.
  - unfold content in *. cbn [map List.concat snd]. rewrite C. reflexivity.
Qed.
Lemma flat_frags_bin fs comp : exists fs', flat (map (fun f => CE (bin_frag f)) fs) comp = (map bin_frag fs', true) /\ content fs' = content fs.
Proof.
  induction fs as [|[b s] fs (fs' & E & C)]; [exists []; split; reflexivity|].
  exists ((if comp then false else b, s) :: fs'). split.
  - cbn [map]. rewrite flat_cons, flat1_CE, E. destruct comp, b; reflexivity.
  - unfold content in *. cbn [map List.concat snd]. rewrite C. reflexivity.
Qed.

(** ** Feeding a list of children *)
Lemma Forall2_map_eq {A B C} (g : A -> C) (h : B -> C) l m : Forall2 (fun x y => h y = g x) l m -> map h m = map g l.
Proof. induction 1; cbn; congruence. Qed.

Lemma plays_one k ps cs : plays ps cs -> plays (PNode (List.length ps) k :: ps) (CE (begin_ev k) :: cs ++ [CE (end_ev k)]).
Proof. intros P. pose proof (plays_node k ps [] cs [] P plays_nil) as X. rewrite app_nil_r in X. exact X. Qed.
Lemma plays_leaf1 k : plays [PLeaf k] [CE (leaf_ev k)].
Proof. constructor. constructor. Qed.

Lemma okept_own' l : okept (own l) = okept l.
Proof. exact (okept_own l). Qed.

(** The mirror of the children of a node. *)
Definition same (a a' : atree) : Prop := mirror (tree_of a') = mirror (tree_of a).

Lemma map_map_eq {A B C D} (f : A -> B) (g : C -> B) (h : B -> D) l m :
  Forall2 (fun x y => h (g y) = h (f x)) l m -> map h (map g m) = map h (map f l).
Proof. rewrite !map_map. apply Forall2_map_eq. Qed.

Ltac mirrors := cbn [tree_of mirror]; rewrite ?okept_own', ?map_map; f_equal.

Lemma F2_impl {A B} (P Q : A -> B -> Prop) l m : (forall x y, P x y -> Q x y) -> Forall2 P l m -> Forall2 Q l m.
Proof. induction 2; constructor; auto. Qed.

Definition wraps (G G' : list call -> list part -> Prop) (b e : ev) (k : node) : Prop :=
  forall cs ps, G cs ps -> G' (CE b :: cs ++ [CE e]) (PNode (List.length ps) k :: ps).
(** One value fed: the parts added replay a value with the same view. *)
Definition fed (G : list call -> list part -> Prop) (a : atree) : Prop :=
  exists ps, G (acalls a) ps /\ keeps ps a /\ ps <> [].

Section Feed.
  (** [G]: what holds of the children; [G']: of the whole. *)
  Variable G G' : list call -> list part -> Prop.
  Hypothesis G_nil : G [] [].
  Hypothesis G_app : forall a b p q, G a p -> G b q -> G (a ++ b) (p ++ q).

  Lemma feed_list {A B} (f : A -> list call) (f' : B -> list call) (R : A -> B -> Prop) l :
    Forall (fun x => exists ps y, G (f x) ps /\ plays ps (f' y) /\ R x y) l ->
    exists ps m, G (flat_map f l) ps /\ plays ps (flat_map f' m) /\ Forall2 R l m.
  Proof.
    induction 1 as [|x l (ps & y & H1 & H2 & H3) _ (qs & m & I1 & I2 & I3)].
    - exists [], []. repeat split; [exact G_nil|constructor|constructor].
    - exists (ps ++ qs), (y :: m). cbn [flat_map]. repeat split.
      + apply G_app; assumption.
      + apply plays_app; assumption.
      + constructor; assumption.
  Qed.

  Lemma fed_tagged t l i v : wraps G G' (ETaggedBegin t l i) (ETaggedEnd t l i) (NTagged t (own l) i) -> fed G v -> fed G' (ATagged t l i v).
  Proof.
    intros W (ps & E & (a' & P & M) & N). eexists. split; [apply W, E|]. split; [|discriminate].
    exists (ATagged t (own l) i a'). split; [apply (plays_one (NTagged t (own l) i)), P|]. mirrors. exact M.
  Qed.
  Lemma fed_enum t l i v : wraps G G' (EEnumBegin t l i) (EEnumEnd t l i) (NEnum t (own l) i) -> fed G v -> fed G' (AEnum t l i v).
  Proof.
    intros W (ps & E & (a' & P & M) & N). eexists. split; [apply W, E|]. split; [|discriminate].
    exists (AEnum t (own l) i a'). split; [apply (plays_one (NEnum t (own l) i)), P|]. mirrors. exact M.
  Qed.
  (** The elements of a sequence, whether or not the markers reach the buffer. *)
  Lemma fed_seq (m m' : bool) n vs : wraps G G' (ESeqBegin n) ESeqEnd (NSeq n) ->
    (forall v, fed G v -> exists ps a', G (if m then CE ESeqValBegin :: acalls v ++ [CE ESeqValEnd] else acalls v) ps /\
                        plays ps (if m' then CE ESeqValBegin :: acalls a' ++ [CE ESeqValEnd] else acalls a') /\ same v a') ->
    Forall (fed G) vs -> fed G' (ASeq m n vs).
  Proof.
    intros W I F.
    destruct (feed_list (fun v : atree => if m then CE ESeqValBegin :: acalls v ++ [CE ESeqValEnd] else acalls v)
                        (fun v : atree => if m' then CE ESeqValBegin :: acalls v ++ [CE ESeqValEnd] else acalls v) same vs) as (ps & vs' & E & P & Q).
    { eapply Forall_impl; [|exact F]. exact I. }
    eexists. split; [apply W, E|]. split; [|discriminate].
    exists (ASeq m' n vs'). split; [apply (plays_one (NSeq n)), P|]. mirrors.
    exact (Forall2_map_eq (fun v => mirror (tree_of v)) (fun v => mirror (tree_of v)) vs vs' Q).
  Qed.
  Lemma fed_map n es : wraps G G' (EMapBegin n) EMapEnd (NMap n) -> wraps G G EMapKeyBegin EMapKeyEnd NMapKey ->
    wraps G G EMapValBegin EMapValEnd NMapValue ->
    Forall (fun kv => fed G (fst kv) /\ fed G (snd kv)) es -> fed G' (AMap n es).
  Proof.
    intros W Wk Wv F.
    pose (f := fun kv : atree * atree => match kv with (k, v) =>
                  CE EMapKeyBegin :: acalls k ++ CE EMapKeyEnd ::
                  CE EMapValBegin :: acalls v ++ [CE EMapValEnd] end).
    destruct (feed_list f f (fun x y => same (fst x) (fst y) /\ same (snd x) (snd y)) es) as (ps & es' & E & P & Q).
    { eapply Forall_impl; [|exact F]. intros [k v] [(pk & Ek & (ak & Pk & Mk) & Nk) (pv & Ev & (av & Pv & Mv) & Nv)]. cbn [fst snd] in *.
      exists ((PNode (List.length pk) NMapKey :: pk) ++ (PNode (List.length pv) NMapValue :: pv)), (ak, av). unfold f.
      assert (X : forall a b : list call, CE EMapKeyBegin :: a ++ CE EMapKeyEnd :: CE EMapValBegin :: b ++ [CE EMapValEnd]
                = (CE EMapKeyBegin :: a ++ [CE EMapKeyEnd]) ++ (CE EMapValBegin :: b ++ [CE EMapValEnd])).
      { intros a b. cbn. rewrite <- app_assoc. reflexivity. }
      split; [|split; [|split; [exact Mk|exact Mv]]].
      - rewrite X. apply G_app; [apply Wk, Ek|apply Wv, Ev].
      - rewrite X. apply plays_app; [apply (plays_one NMapKey), Pk|apply (plays_one NMapValue), Pv]. }
    eexists. split; [apply W, E|]. split; [|discriminate].
    exists (AMap n es'). split; [apply (plays_one (NMap n)), P|]. mirrors.
    apply (Forall2_map_eq (fun x : atree * atree => let (k, v) := let (k, v) := x in (tree_of k, tree_of v) in (mirror k, mirror v))
                          (fun x : atree * atree => let (k, v) := let (k, v) := x in (tree_of k, tree_of v) in (mirror k, mirror v)) es es').
    eapply F2_impl; [|exact Q]. intros [k v] [k' v'] [X Y]. cbn [fst snd] in *. rewrite X, Y. reflexivity.
  Qed.
  Lemma fed_record t l i n fs : wraps G G' (ERecordBegin t l i n) (ERecordEnd t l i) (NRecord t (own l) i n) ->
    (forall ft fl, wraps G G (ERecordValBegin ft fl) (ERecordValEnd ft fl) (NRecordValue ft (label_to_owned fl))) ->
    Forall (fun f => fed G (snd f)) fs -> fed G' (ARecord t l i n fs).
  Proof.
    intros W Wf F.
    pose (f := fun f : option tag * label * atree => match f with (ft, fl, v) =>
                  CE (ERecordValBegin ft fl) :: acalls v ++ [CE (ERecordValEnd ft fl)] end).
    destruct (feed_list f f (fun x y => match x, y with (ft, fl, v), (ft', fl', v') => ft' = ft /\ kept_label fl' = kept_label fl /\ same v v' end) fs) as (ps & fs' & E & P & Q).
    { eapply Forall_impl; [|exact F]. intros [[ft fl] v] (pv & Ev & (av & Pv & Mv) & Nv). cbn [fst snd] in *.
      exists (PNode (List.length pv) (NRecordValue ft (label_to_owned fl)) :: pv), (ft, label_to_owned fl, av). unfold f.
      split; [apply Wf, Ev|]. split; [apply (plays_one (NRecordValue ft (label_to_owned fl))), Pv|]. split; [reflexivity|]. split; [|exact Mv].
      apply same_owned. }
    eexists. split; [apply W, E|]. split; [|discriminate].
    exists (ARecord t (own l) i n fs'). split; [apply (plays_one (NRecord t (own l) i n)), P|]. mirrors.
    apply Forall2_map_eq; eapply F2_impl; [|exact Q]. intros [[ft fl] v] [[ft' fl'] v'] (X & Y & Z). rewrite X, Y, Z. reflexivity.
  Qed.
  Lemma fed_tuple t l i n fs : wraps G G' (ETupleBegin t l i n) (ETupleEnd t l i) (NTuple t (own l) i n) ->
    (forall ft fi, wraps G G (ETupleValBegin ft fi) (ETupleValEnd ft fi) (NTupleValue ft fi)) ->
    Forall (fun f => fed G (snd f)) fs -> fed G' (ATuple t l i n fs).
  Proof.
    intros W Wf F.
    pose (f := fun f : option tag * index * atree => match f with (ft, fi, v) =>
                  CE (ETupleValBegin ft fi) :: acalls v ++ [CE (ETupleValEnd ft fi)] end).
    destruct (feed_list f f (fun x y => match x, y with (ft, fi, v), (ft', fi', v') => ft' = ft /\ fi' = fi /\ same v v' end) fs) as (ps & fs' & E & P & Q).
    { eapply Forall_impl; [|exact F]. intros [[ft fi] v] (pv & Ev & (av & Pv & Mv) & Nv). cbn [fst snd] in *.
      exists (PNode (List.length pv) (NTupleValue ft fi) :: pv), (ft, fi, av). unfold f.
      split; [apply Wf, Ev|]. split; [apply (plays_one (NTupleValue ft fi)), Pv|]. split; [reflexivity|]. split; [reflexivity|exact Mv]. }
    eexists. split; [apply W, E|]. split; [|discriminate].
    exists (ATuple t (own l) i n fs'). split; [apply (plays_one (NTuple t (own l) i n)), P|]. mirrors.
    apply Forall2_map_eq; eapply F2_impl; [|exact Q]. intros [[ft fi] v] [[ft' fi'] v'] (X & Y & Z). rewrite X, Y, Z. reflexivity.
  Qed.
  Lemma fed_rectup t l i n fs : wraps G G' (ERecTupBegin t l i n) (ERecTupEnd t l i) (NRecTup t (own l) i n) ->
    (forall ft fl fi, wraps G G (ERecTupValBegin ft fl fi) (ERecTupValEnd ft fl fi) (NRecTupValue ft (label_to_owned fl) fi)) ->
    Forall (fun f => fed G (snd f)) fs -> fed G' (ARecTup t l i n fs).
  Proof.
    intros W Wf F.
    pose (f := fun f : option tag * label * index * atree => match f with (ft, fl, fi, v) =>
                  CE (ERecTupValBegin ft fl fi) :: acalls v ++ [CE (ERecTupValEnd ft fl fi)] end).
    destruct (feed_list f f (fun x y => match x, y with (ft, fl, fi, v), (ft', fl', fi', v') => ft' = ft /\ kept_label fl' = kept_label fl /\ same v v' end) fs) as (ps & fs' & E & P & Q).
    { eapply Forall_impl; [|exact F]. intros [[[ft fl] fi] v] (pv & Ev & (av & Pv & Mv) & Nv). cbn [fst snd] in *.
      exists (PNode (List.length pv) (NRecTupValue ft (label_to_owned fl) fi) :: pv), (ft, label_to_owned fl, fi, av). unfold f.
      split; [apply Wf, Ev|]. split; [apply (plays_one (NRecTupValue ft (label_to_owned fl) fi)), Pv|]. split; [reflexivity|]. split; [|exact Mv].
      apply same_owned. }
    eexists. split; [apply W, E|]. split; [|discriminate].
    exists (ARecTup t (own l) i n fs'). split; [apply (plays_one (NRecTup t (own l) i n)), P|]. mirrors.
    apply Forall2_map_eq; eapply F2_impl; [|exact Q]. intros [[[ft fl] fi] v] [[[ft' fl'] fi'] v'] (X & Y & Z). rewrite X, Y, Z. reflexivity.
  Qed.
  (** A record-tuple that reaches the buffer as a record. *)
  Lemma fed_rectup_record t l i n fs : wraps G G' (ERecTupBegin t l i n) (ERecTupEnd t l i) (NRecord t (own l) i n) ->
    (forall ft fl fi, wraps G G (ERecTupValBegin ft fl fi) (ERecTupValEnd ft fl fi) (NRecordValue ft (label_to_owned fl))) ->
    Forall (fun f => fed G (snd f)) fs -> fed G' (ARecTup t l i n fs).
  Proof.
    intros W Wf F.
    pose (f := fun f : option tag * label * index * atree => match f with (ft, fl, fi, v) =>
                  CE (ERecTupValBegin ft fl fi) :: acalls v ++ [CE (ERecTupValEnd ft fl fi)] end).
    pose (f' := fun f : option tag * label * atree => match f with (ft, fl, v) =>
                  CE (ERecordValBegin ft fl) :: acalls v ++ [CE (ERecordValEnd ft fl)] end).
    destruct (feed_list f f' (fun x y => match x, y with (ft, fl, fi, v), (ft', fl', v') => ft' = ft /\ kept_label fl' = kept_label fl /\ same v v' end) fs) as (ps & fs' & E & P & Q).
    { eapply Forall_impl; [|exact F]. intros [[[ft fl] fi] v] (pv & Ev & (av & Pv & Mv) & Nv). cbn [fst snd] in *.
      exists (PNode (List.length pv) (NRecordValue ft (label_to_owned fl)) :: pv), (ft, label_to_owned fl, av). unfold f, f'.
      split; [apply Wf, Ev|]. split; [apply (plays_one (NRecordValue ft (label_to_owned fl))), Pv|]. split; [reflexivity|]. split; [|exact Mv].
      apply same_owned. }
    eexists. split; [apply W, E|]. split; [|discriminate].
    exists (ARecord t (own l) i n fs'). split; [apply (plays_one (NRecord t (own l) i n)), P|]. mirrors.
    apply Forall2_map_eq; eapply F2_impl; [|exact Q]. intros [[[ft fl] fi] v] [[ft' fl'] v'] (X & Y & Z). rewrite X, Y, Z. reflexivity.
  Qed.
End Feed.

(** ** Streaming straight into a buffer *)
Definition gives (cs : list call) (comp : bool) (ps : list part) : Prop :=
  exists es, flat cs comp = (es, true) /\ adds es ps.

Lemma gives_nil comp : gives [] comp [].
Proof. exists []. split; [reflexivity|apply adds_nil]. Qed.
Lemma gives_app comp a b p q : gives a comp p -> gives b comp q -> gives (a ++ b) comp (p ++ q).
Proof.
  intros (es & E & A) (es' & E' & A'). exists (es ++ es'). split; [apply flat_app_ok; assumption|apply adds_app; assumption].
Qed.
Lemma flat_CE' e cs comp es : flat cs comp = (es, true) -> flat (CE e :: cs) comp = ((if comp then computed e else e) :: es, true).
Proof. intros E. rewrite flat_cons, flat1_CE, E. reflexivity. Qed.
Lemma gives_wrap b e k cs comp ps : computed b = b -> computed e = e ->
  (forall s, vbuf_step s b = Ok (push_begin s k)) -> (forall s, vbuf_step s e = push_end s) ->
  gives cs comp ps -> gives (CE b :: cs ++ [CE e]) comp (PNode (List.length ps) k :: ps).
Proof.
  intros Cb Ce B E (es & F & A). exists (b :: es ++ [e]). split; [|apply adds_wrap; assumption].
  rewrite (flat_CE' b _ comp (es ++ [e])); [destruct comp; rewrite ?Cb; reflexivity|].
  apply flat_app_ok; [exact F|]. destruct comp; cbn; rewrite ?Ce; reflexivity.
Qed.
Lemma gives_leaf e k comp : computed e = e -> (forall s, vbuf_step s e = Ok (push_part s (PLeaf k))) ->
  gives [CE e] comp [PLeaf k].
Proof.
  intros C B. exists [e]. split; [destruct comp; cbn; rewrite ?C; reflexivity|].
  intros p st er. cbn [run]. rewrite B. reflexivity.
Qed.

Lemma text_ref_mirror c : exists a, text_buf_ref c = acalls a /\ mirror (tree_of a) = RText (c_data c).
Proof.
  unfold text_buf_ref, frag_borrowed, frag_inner. destruct c as [[|] d]; cbn [c_owned c_data].
  - exists (AText (Some (blen d)) [(false, d)]). split; [reflexivity|]. cbn. unfold content. cbn. rewrite app_nil_r. reflexivity.
  - exists (AVal true (AText (Some (blen d)) [(true, d)])). split; [reflexivity|]. cbn. unfold content. cbn. rewrite app_nil_r. reflexivity.
Qed.
Lemma bin_ref_mirror c : exists a, bin_buf_ref c = acalls a /\ mirror (tree_of a) = RBin (c_data c).
Proof.
  unfold bin_buf_ref, frag_borrowed, frag_inner. destruct c as [[|] d]; cbn [c_owned c_data].
  - exists (AVal false (ABin (Some (blen d)) [(true, d)])). split; [reflexivity|]. cbn. unfold content. cbn. rewrite app_nil_r. reflexivity.
  - exists (AVal true (ABin (Some (blen d)) [(true, d)])). split; [reflexivity|]. cbn. unfold content. cbn. rewrite app_nil_r. reflexivity.
Qed.
Lemma keeps_text fs fs' n : content fs' = content fs -> keeps [PText (frag_cow fs')] (AText n fs).
Proof.
  intros C. destruct (text_ref_mirror (frag_cow fs')) as (a & E & M). exists a. split.
  - rewrite <- E, <- (app_nil_r (text_buf_ref _)). repeat constructor.
  - rewrite M, frag_cow_spec. cbn [c_data tree_of mirror]. rewrite C. reflexivity.
Qed.
Lemma keeps_bin fs fs' n : content fs' = content fs -> keeps [PBin (frag_cow fs')] (ABin n fs).
Proof.
  intros C. destruct (bin_ref_mirror (frag_cow fs')) as (a & E & M). exists a. split.
  - rewrite <- E, <- (app_nil_r (bin_buf_ref _)). repeat constructor.
  - rewrite M, frag_cow_spec. cbn [c_data tree_of mirror]. rewrite C. reflexivity.
Qed.
Lemma gives_text n fs comp : exists fs', gives (acalls (AText n fs)) comp [PText (frag_cow fs')] /\ content fs' = content fs.
Proof.
  destruct (flat_frags_text fs comp) as (fs' & E & C). exists fs'. split; [|exact C].
  exists (emit (TText n fs')). split.
  - cbn [acalls emit]. rewrite (flat_CE' _ _ comp (map text_frag fs' ++ [ETextEnd])); [destruct comp; reflexivity|].
    apply flat_app_ok; [exact E|destruct comp; reflexivity].
  - exact (adds_tree (TText n fs')).
Qed.
Lemma gives_bin n fs comp : exists fs', gives (acalls (ABin n fs)) comp [PBin (frag_cow fs')] /\ content fs' = content fs.
Proof.
  destruct (flat_frags_bin fs comp) as (fs' & E & C). exists fs'. split; [|exact C].
  exists (emit (TBin n fs')). split.
  - cbn [acalls emit]. rewrite (flat_CE' _ _ comp (map bin_frag fs' ++ [EBinEnd])); [destruct comp; reflexivity|].
    apply flat_app_ok; [exact E|destruct comp; reflexivity].
  - exact (adds_tree (TBin n fs')).
Qed.


Lemma gives_tree a : forall comp, fed (fun cs => gives cs comp) a.
Proof.
  induction a using atree_ind'; intros comp.
  - (* AVal *) destruct (IHa (if b then comp else true)) as (ps & (es & E & A) & (a' & P & M) & N). exists ps.
    split; [|split; [exists a'; split; [exact P|exact M]|exact N]].
    exists es. split; [|exact A]. destruct b; cbn [acalls]; rewrite flat_cons.
    + rewrite flat1_CV, E. cbn. rewrite app_nil_r. reflexivity.
    + rewrite flat1_CVC, E. cbn. rewrite app_nil_r. reflexivity.
  - exists [PLeaf VNull]. split; [apply gives_leaf; reflexivity|]. split; [exists ANull; split; [apply plays_leaf1|reflexivity]|discriminate].
  - exists [PLeaf (VBool b)]. split; [apply gives_leaf; reflexivity|]. split; [exists (ABool b); split; [apply plays_leaf1|reflexivity]|discriminate].
  - exists [PLeaf (VInt t z)]. split; [apply gives_leaf; reflexivity|]. split; [exists (AInt t z); split; [apply plays_leaf1|reflexivity]|discriminate].
  - exists [PLeaf (VF32 f)]. split; [apply gives_leaf; reflexivity|]. split; [exists (AF32 f); split; [apply plays_leaf1|reflexivity]|discriminate].
  - exists [PLeaf (VF64 f)]. split; [apply gives_leaf; reflexivity|]. split; [exists (AF64 f); split; [apply plays_leaf1|reflexivity]|discriminate].
  - destruct (gives_text n fs comp) as (fs' & E & C). exists [PText (frag_cow fs')]. split; [exact E|]. split; [|discriminate].
    exact (keeps_text fs fs' n C).
  - destruct (gives_bin n fs comp) as (fs' & E & C). exists [PBin (frag_cow fs')]. split; [exact E|]. split; [|discriminate].
    exact (keeps_bin fs fs' n C).
  - exists [PLeaf (VTag t (own l) i)]. split; [apply gives_leaf; reflexivity|]. split; [|discriminate].
    exists (ATag t (own l) i). split; [apply (plays_leaf1 (VTag t (own l) i))|]. mirrors.
  - destruct (IHa comp) as (ps & E & (a' & P & M) & N). exists (PLeaf (VTagHint t) :: ps). split.
    + apply (gives_app comp [CE (ETagHint t)] _ [PLeaf (VTagHint t)]); [apply gives_leaf; reflexivity|exact E].
    + split; [|discriminate]. exists (AHint t a'). split; [|exact M]. cbn [acalls]. apply (plays_leaf (VTagHint t)). exact P.
  - apply (fed_tagged (fun cs => gives cs comp)); [|apply IHa]. intros cs ps. apply gives_wrap; reflexivity.
  - apply (fed_enum (fun cs => gives cs comp)); [|apply IHa]. intros cs ps. apply gives_wrap; reflexivity.
  - apply (fed_seq (fun cs => gives cs comp) _ (gives_nil comp) (gives_app comp) m m).
    + intros cs ps. apply gives_wrap; reflexivity.
    + intros v (ps & E & (a' & P & M) & N). destruct m.
      * exists (PNode (List.length ps) NSeqValue :: ps), a'. split; [apply gives_wrap; try reflexivity; exact E|].
        split; [apply (plays_one NSeqValue), P|exact M].
      * exists ps, a'. split; [exact E|]. split; [exact P|exact M].
    + eapply Forall_impl; [|exact H]. auto.
  - apply (fed_map (fun cs => gives cs comp) _ (gives_nil comp) (gives_app comp)); try (intros cs ps; apply gives_wrap; reflexivity).
    eapply Forall_impl; [|exact H]. intros kv [K V]. split; auto.
  - apply (fed_record (fun cs => gives cs comp) _ (gives_nil comp) (gives_app comp)); try (intros; intros cs ps; apply gives_wrap; reflexivity).
    eapply Forall_impl; [|exact H]. auto.
  - apply (fed_tuple (fun cs => gives cs comp) _ (gives_nil comp) (gives_app comp)); try (intros; intros cs ps; apply gives_wrap; reflexivity).
    eapply Forall_impl; [|exact H]. auto.
  - apply (fed_rectup (fun cs => gives cs comp) _ (gives_nil comp) (gives_app comp)); try (intros; intros cs ps; apply gives_wrap; reflexivity).
    eapply Forall_impl; [|exact H]. auto.
Qed.

(** ** Streaming through [FlatStream] *)
Section FlatStream.
Context {S : nstream}.
Notation ok := (n_ok S).
Notation fstream := (fstream S).
Notation state := (state S).

Lemma go_calls cs comp (f : fstream) :
  (fix go (cs : list call) (comp : bool) (f : fstream) : res fstream :=
      match cs with
      | [] => Ok f
      | c :: cs' => fs_call c comp f >>= go cs' comp
      end) cs comp f = fs_calls cs comp f.
Proof. reflexivity. Qed.

Definition settled (r : res fstream) : outcome ok :=
  match r with Ok f | Err f => finish f | Panic => OPanic end.
(** [value] (179-191) and [value_computed] (193-205). *)
Definition fs_value (computed : bool) (cs : list call) (f : fstream) : res fstream :=
  buffer_or_with f (buf_value computed cs) (fun f =>
    match f_state f with
    | SEnum _ => fs_calls cs computed f
    | st => settle f (state_value st (settled (fs_calls cs computed fs_new)) (negb computed, cs))
    end).
Lemma fs_call_CE e comp (f : fstream) : fs_call (CE e) comp f = fs_step f (if comp then computed e else e).
Proof. reflexivity. Qed.
Lemma fs_call_val computed cs (f : fstream) :
  buffer_or_with f (buf_value computed cs) (fun f =>
      match f_state f with
      | SEnum _ => (fix go (cs : list call) (comp : bool) (f : fstream) : res fstream :=
            match cs with [] => Ok f | c :: cs' => fs_call c comp f >>= go cs' comp end) cs computed f
      | st =>
          let any := match (fix go (cs : list call) (comp : bool) (f : fstream) : res fstream :=
            match cs with [] => Ok f | c :: cs' => fs_call c comp f >>= go cs' comp end) cs computed fs_new with
                     | Ok f' | Err f' => finish f'
                     | Panic => OPanic
                     end in
          settle f (state_value st any (negb computed, cs))
      end) = fs_value computed cs f.
Proof.
  reflexivity.
Qed.
Lemma fs_call_CV cs (f : fstream) : fs_call (CV cs) false f = fs_value false cs f.
Proof. apply (fs_call_val false). Qed.
Lemma fs_call_CVC cs comp (f : fstream) : fs_call (CVC cs) comp f = fs_value true cs f.
Proof. apply (fs_call_val true). Qed.
Lemma fs_call_CV_computed cs (f : fstream) : fs_call (CV cs) true f = fs_calls cs true f.
Proof. apply go_calls. Qed.

Lemma fs_calls_app a b comp (f : fstream) : fs_calls (a ++ b) comp f = fs_calls a comp f >>= fs_calls b comp.
Proof.
  revert f. induction a as [|c a IH]; intros f; [reflexivity|]. cbn [app fs_calls].
  destruct (fs_call c comp f); cbn [bind]; auto.
Qed.
Lemma fs_calls_one c comp (f : fstream) : fs_calls [c] comp f = fs_call c comp f.
Proof. cbn [fs_calls]. destruct (fs_call c comp f); reflexivity. Qed.
Lemma fs_calls_cons c cs comp (f : fstream) : fs_calls (c :: cs) comp f = fs_call c comp f >>= fs_calls cs comp.
Proof. reflexivity. Qed.

(** *** While a value is being buffered *)
Definition fed_state (p : list part) (st : list nat) (er : bool) (sst : state) : fstream :=
  MkFS (Some (BValue (MkVB p st false er))) sst.
Definition feeds (comp : bool) (cs : list call) (ps : list part) : Prop :=
  forall p st er sst, st <> [] ->
    fs_calls cs comp (fed_state p st er sst) = Ok (fed_state (p ++ ps) st er sst).

Lemma feeds_nil comp : feeds comp [] [].
Proof. intros p st er sst N. rewrite app_nil_r. reflexivity. Qed.
Lemma feeds_app comp a b p q : feeds comp a p -> feeds comp b q -> feeds comp (a ++ b) (p ++ q).
Proof. intros A B p0 st er sst N. rewrite fs_calls_app, A by assumption. cbn [bind]. rewrite B, app_assoc by assumption. reflexivity. Qed.

(** Events that only feed the buffer. *)
Definition passes (e : ev) : Prop := forall v v' (sst : state), vbuf_step v e = Ok v' ->
  fs_step (MkFS (Some (BValue v)) sst) e = Ok (MkFS (Some (BValue v')) sst).
Definition as_computed (comp : bool) (e : ev) : ev := if comp then computed e else e.
Lemma passes_run comp es : Forall (fun e => passes (as_computed comp e)) es -> forall v v' (sst : state),
  run vbuf_step v (map (as_computed comp) es) = Ok v' ->
  fs_calls (map CE es) comp (MkFS (Some (BValue v)) sst) = Ok (MkFS (Some (BValue v')) sst).
Proof.
  induction 1 as [|e es P _ IH]; intros v v' sst R.
  - cbn in *. congruence.
  - cbn [map] in *. rewrite run_cons in R. destruct (vbuf_step v (as_computed comp e)) as [v1|v1|] eqn:E; cbn [bind] in R; try discriminate.
    rewrite fs_calls_cons, fs_call_CE. fold (as_computed comp e). rewrite (P _ _ sst E). cbn [bind]. apply IH, R.
Qed.
Lemma feeds_events comp es ps : Forall (fun e => passes (as_computed comp e)) es -> adds (map (as_computed comp) es) ps ->
  feeds comp (map CE es) ps.
Proof. intros P A p st er sst N. apply passes_run; [exact P|apply A]. Qed.

Lemma feeds_wrap comp b e k :
  computed b = b -> computed e = e ->
  (forall v (sst : state), fs_step (MkFS (Some (BValue v)) sst) b = Ok (MkFS (Some (BValue (push_begin v k))) sst)) ->
  (forall v v' (sst : state), push_end v = Ok v' -> is_complete v' = false ->
     fs_step (MkFS (Some (BValue v)) sst) e = Ok (MkFS (Some (BValue v')) sst)) ->
  wraps (feeds comp) (feeds comp) b e k.
Proof.
  intros Cb Ce B E cs ps F p st er sst N. rewrite fs_calls_cons, fs_call_CE.
  replace (if comp then computed b else b) with b by (destruct comp; congruence).
  unfold fed_state. rewrite B. cbn [bind push_begin]. rewrite fs_calls_app.
  change (MkFS (Some (BValue (push_begin (MkVB p st false er) k))) sst) with (fed_state (p ++ [PNode 0 k]) (List.length p :: st) er sst).
  rewrite F by discriminate. cbn [bind]. rewrite fs_calls_one, fs_call_CE.
  replace (if comp then computed e else e) with e by (destruct comp; congruence).
  unfold fed_state. rewrite <- app_assoc. cbn [app].
  apply (E _ _ sst (push_end_body p k ps st false er)). unfold is_complete. cbn [stack parts in_tb]. destruct st; [congruence|reflexivity].
Qed.

(** *** Buffering a value through [FlatStream]: hints and the markers around
    elements are lost, record-tuples become records. *)
Lemma feeds_val (computed : bool) cs ps : gives cs computed ps ->
  forall p st er sst, fs_value computed cs (fed_state p st er sst) = Ok (fed_state (p ++ ps) st er sst).
Proof.
  intros (es & E & A) p st er sst. unfold fs_value, buffer_or_with, fed_state. cbn [f_buf].
  assert (X : buf_value computed cs (MkVB p st false er) = Ok (MkVB (p ++ ps) st false er)).
  { unfold buf_value, stream_value. destruct computed.
    - rewrite flat_cons, flat1_CVC, E. cbn [flat fst snd]. rewrite app_nil_r, A. reflexivity.
    - rewrite E, A. reflexivity. }
  rewrite X. reflexivity.
Qed.

Ltac buffered_step := intros; unfold fs_step, fs_own, buffer_or_value, buffer_or_with, buffer_or_begin, buffer_or_end, with_buf, put;
  cbn [f_buf f_state vbuf_step]; repeat (match goal with H : push_end _ = _ |- _ => rewrite H; clear H end);
  repeat (match goal with H : is_complete _ = _ |- _ => rewrite H; clear H end); reflexivity.
Ltac feeds_wraps := intros; apply feeds_wrap; [reflexivity|reflexivity|buffered_step|buffered_step].

Ltac passes_tac := unfold passes, fs_step, fs_own, buffer_or_value, buffer_or_with, with_buf, put; cbn [f_buf f_state]; intros;
  match goal with H : vbuf_step _ _ = _ |- _ => rewrite H; reflexivity end.

Lemma feeds_leaf e k comp : computed e = e -> passes e -> (forall s, vbuf_step s e = Ok (push_part s (PLeaf k))) ->
  feeds comp [CE e] [PLeaf k].
Proof.
  intros C P B. apply (feeds_events comp [e]).
  - constructor; [|constructor]. unfold as_computed. destruct comp; rewrite ?C; exact P.
  - cbn [map]. replace (as_computed comp e) with e by (unfold as_computed; destruct comp; congruence).
    intros p st er. cbn [run]. rewrite B. reflexivity.
Qed.

Lemma text_events n fs : acalls (AText n fs) = map CE (emit (TText n fs)).
Proof. cbn [acalls emit map]. rewrite map_app, map_map. reflexivity. Qed.
Lemma bin_events n fs : acalls (ABin n fs) = map CE (emit (TBin n fs)).
Proof. cbn [acalls emit map]. rewrite map_app, map_map. reflexivity. Qed.
Definition frags_as (comp : bool) (fs : list (bool * bytes)) : list (bool * bytes) :=
  map (fun f => (if comp then false else fst f, snd f)) fs.
Lemma frags_as_content comp fs : content (frags_as comp fs) = content fs.
Proof. unfold content, frags_as. rewrite map_map. reflexivity. Qed.
Lemma text_as comp n fs : map (as_computed comp) (emit (TText n fs)) = emit (TText n (frags_as comp fs)).
Proof.
  cbn [emit map]. rewrite map_app, map_map. unfold frags_as. rewrite map_map. destruct comp; cbn [as_computed map computed]; do 2 f_equal;
  apply map_ext; intros [[|] s]; reflexivity.
Qed.
Lemma bin_as comp n fs : map (as_computed comp) (emit (TBin n fs)) = emit (TBin n (frags_as comp fs)).
Proof.
  cbn [emit map]. rewrite map_app, map_map. unfold frags_as. rewrite map_map. destruct comp; cbn [as_computed map computed]; do 2 f_equal;
  apply map_ext; intros [[|] s]; reflexivity.
Qed.
Lemma passes_text comp n fs : Forall (fun e => passes (as_computed comp e)) (emit (TText n fs)).
Proof.
  cbn [emit]. constructor; [destruct comp; passes_tac|]. apply Forall_app. split; [|constructor; [destruct comp; passes_tac|constructor]].
  apply Forall_map, Forall_forall. intros [[|] s] _; destruct comp; passes_tac.
Qed.
Lemma passes_bin comp n fs : Forall (fun e => passes (as_computed comp e)) (emit (TBin n fs)).
Proof.
  cbn [emit]. constructor; [destruct comp; passes_tac|]. apply Forall_app. split; [|constructor; [destruct comp; passes_tac|constructor]].
  apply Forall_map, Forall_forall. intros [[|] s] _; destruct comp; passes_tac.
Qed.

Lemma feeds_tree a : forall comp, fed (feeds comp) a.
Proof.
  induction a using atree_ind'; intros comp.
  - (* AVal *) destruct b; [destruct comp|].
    + destruct (IHa true) as (ps & F & K & N). exists ps. split; [|split; [exact K|exact N]].
      intros p st er sst Ns. cbn [acalls]. rewrite fs_calls_one, fs_call_CV_computed. apply F, Ns.
    + destruct (gives_tree a false) as (ps & F & K & N). exists ps. split; [|split; [exact K|exact N]].
      intros p st er sst Ns. cbn [acalls]. rewrite fs_calls_one, fs_call_CV. apply feeds_val, F.
    + destruct (gives_tree a true) as (ps & F & K & N). exists ps. split; [|split; [exact K|exact N]].
      intros p st er sst Ns. cbn [acalls]. rewrite fs_calls_one, fs_call_CVC. apply feeds_val, F.
  - exists [PLeaf VNull]. split; [apply feeds_leaf; [reflexivity|passes_tac|reflexivity]|]. split; [exists ANull; split; [apply plays_leaf1|reflexivity]|discriminate].
  - exists [PLeaf (VBool b)]. split; [apply feeds_leaf; [reflexivity|passes_tac|reflexivity]|]. split; [exists (ABool b); split; [apply plays_leaf1|reflexivity]|discriminate].
  - exists [PLeaf (VInt t z)]. split; [apply feeds_leaf; [reflexivity|passes_tac|reflexivity]|]. split; [exists (AInt t z); split; [apply plays_leaf1|reflexivity]|discriminate].
  - exists [PLeaf (VF32 f)]. split; [apply feeds_leaf; [reflexivity|passes_tac|reflexivity]|]. split; [exists (AF32 f); split; [apply plays_leaf1|reflexivity]|discriminate].
  - exists [PLeaf (VF64 f)]. split; [apply feeds_leaf; [reflexivity|passes_tac|reflexivity]|]. split; [exists (AF64 f); split; [apply plays_leaf1|reflexivity]|discriminate].
  - exists [PText (frag_cow (frags_as comp fs))]. split; [|split; [apply keeps_text, frags_as_content|discriminate]].
    rewrite text_events. apply feeds_events; [apply passes_text|]. rewrite text_as. exact (adds_tree (TText n (frags_as comp fs))).
  - exists [PBin (frag_cow (frags_as comp fs))]. split; [|split; [apply keeps_bin, frags_as_content|discriminate]].
    rewrite bin_events. apply feeds_events; [apply passes_bin|]. rewrite bin_as. exact (adds_tree (TBin n (frags_as comp fs))).
  - exists [PLeaf (VTag t (own l) i)]. split; [apply feeds_leaf; [reflexivity|passes_tac|reflexivity]|]. split; [|discriminate].
    exists (ATag t (own l) i). split; [apply (plays_leaf1 (VTag t (own l) i))|]. mirrors.
  - destruct (IHa comp) as (ps & E & (a' & P & M) & N). exists ps. split; [|split; [exists a'; split; [exact P|exact M]|exact N]].
    intros p st er sst Ns. cbn [acalls]. rewrite fs_calls_cons, fs_call_CE.
    replace (if comp then computed (ETagHint t) else ETagHint t) with (ETagHint t) by (destruct comp; reflexivity).
    cbn [fs_step bind]. apply E, Ns.
  - apply (fed_tagged (feeds comp)); [|apply IHa]. feeds_wraps.
  - apply (fed_enum (feeds comp)); [|apply IHa]. feeds_wraps.
  - apply (fed_seq (feeds comp) _ (feeds_nil comp) (feeds_app comp) m false).
    + feeds_wraps.
    + intros v (ps & E & (a' & P & M) & N). exists ps, a'. split; [|split; [exact P|exact M]]. destruct m; [|exact E].
      intros p st er sst Ns. rewrite fs_calls_cons, fs_call_CE.
      replace (if comp then computed ESeqValBegin else ESeqValBegin) with ESeqValBegin by (destruct comp; reflexivity).
      cbn [fs_step fs_own bind]. rewrite fs_calls_app, E by exact Ns. cbn [bind]. rewrite fs_calls_one, fs_call_CE.
      destruct comp; reflexivity.
    + eapply Forall_impl; [|exact H]. auto.
  - apply (fed_map (feeds comp) _ (feeds_nil comp) (feeds_app comp)); try feeds_wraps.
    eapply Forall_impl; [|exact H]. intros kv [K V]. split; auto.
  - apply (fed_record (feeds comp) _ (feeds_nil comp) (feeds_app comp)); try feeds_wraps.
    eapply Forall_impl; [|exact H]. auto.
  - apply (fed_tuple (feeds comp) _ (feeds_nil comp) (feeds_app comp)); try feeds_wraps.
    eapply Forall_impl; [|exact H]. auto.
  - apply (fed_rectup_record (feeds comp) _ (feeds_nil comp) (feeds_app comp)); try feeds_wraps.
    eapply Forall_impl; [|exact H]. auto.
Qed.

(** *** Where a child is expected *)
Definition positioned (st : state) : bool := match st with SAny | SEnum _ => false | _ => true end.
Lemma positioned_any st any v : positioned st = true -> state_value st any v = state_value st OErr v.
Proof. destruct st; try discriminate; reflexivity. Qed.
Definition hand (st : state) (v : arg) : res fstream := try_catch (settle (MkFS None st) (state_value st OErr v)).

Definition completes (comp : bool) (cs : list call) (ps : list part) : Prop :=
  forall cs' st, plays ps cs' -> positioned st = true -> fs_calls cs comp (MkFS None st) = hand st (false, cs').

Lemma completes_wrap comp b e k :
  computed b = b -> computed e = e ->
  (forall st, positioned st = true -> fs_step (MkFS None st) b = Ok (MkFS (Some (BValue (push_begin vbuf_new k))) st)) ->
  (forall v v' cs (st : state), push_end v = Ok v' -> is_complete v' = true -> vbuf_stream v' = Some cs -> fs_step (MkFS (Some (BValue v)) st) e = hand st (false, cs)) ->
  wraps (feeds comp) (completes comp) b e k.
Proof.
  intros Cb Ce B E cs ps F cs' st P N. rewrite fs_calls_cons, fs_call_CE.
  replace (if comp then computed b else b) with b by (destruct comp; congruence).
  rewrite B by exact N. cbn [bind]. rewrite fs_calls_app.
  change (MkFS (Some (BValue (push_begin vbuf_new k))) st) with (fed_state ([] ++ [PNode 0 k]) [0] false st).
  rewrite F by discriminate. cbn [bind]. rewrite fs_calls_one, fs_call_CE.
  replace (if comp then computed e else e) with e by (destruct comp; congruence).
  unfold fed_state. rewrite <- app_assoc. cbn [app].
  apply (E _ _ _ st (push_end_body [] k ps [] false false)).
  - reflexivity.
  - unfold vbuf_stream. cbn [parts]. apply stream_parts_plays; [exact P|discriminate].
Qed.
Ltac begin_step := let st := fresh "st" in let P := fresh "P" in intros st P; destruct st; try discriminate P; reflexivity.
Ltac end_step := intros; unfold hand, fs_step, fs_own, buffer_or_end, with_buf; cbn [f_buf f_state vbuf_step];
  repeat (match goal with H : push_end _ = _ |- _ => rewrite H; clear H end);
  repeat (match goal with H : is_complete _ = _ |- _ => rewrite H; clear H end);
  repeat (match goal with H : vbuf_stream _ = _ |- _ => rewrite H; clear H end); reflexivity.
Ltac completes_wraps := intros; apply completes_wrap; [reflexivity|reflexivity|begin_step|end_step].

(** A value arriving where a child is expected: the user's stream is called once,
    with a value that has the same view. *)
Definition arrives (comp : bool) (a : atree) : Prop :=
  exists v, child v (mirror (tree_of a)) /\
    forall st, positioned st = true -> fs_calls (acalls a) comp (MkFS None st) = hand st v.

Lemma completes_arrives comp a : fed (completes comp) a -> arrives comp a.
Proof.
  intros (ps & C & (a' & P & M) & N). exists (false, acalls a'). split.
  - exists a'. split; [reflexivity|exact M].
  - intros st Ps. apply C; assumption.
Qed.
Lemma leaf_arrives comp a e v : acalls a = [CE e] -> computed e = e -> child v (mirror (tree_of a)) ->
  (forall st, positioned st = true -> fs_step (MkFS None st) e = hand st v) -> arrives comp a.
Proof.
  intros A C V E. exists v. split; [exact V|]. intros st P. rewrite A, fs_calls_one, fs_call_CE.
  replace (if comp then computed e else e) with e by (destruct comp; congruence). apply E, P.
Qed.

Lemma fs_text comp n fs : forall (st : state),
  fs_calls (acalls (AText n fs)) comp (MkFS None st) =
  let c := frag_cow (frags_as comp fs) in
  try_catch (settle (MkFS None st) (state_value st (n_text S (is_borrowed c) (frag_inner c)) (is_borrowed c, str_calls (frag_inner c)))).
Proof.
  intros st. cbv zeta.
  assert (F : forall c : cow, fs_calls (map (fun f => CE (text_frag f)) fs) comp (MkFS (Some (BText c)) st) =
              Ok (MkFS (Some (BText (fold_left (fun c (f : bool * bytes) => if fst f then frag_push c (snd f) else frag_push_computed c (snd f)) (frags_as comp fs) c))) st)).
  { induction fs as [|[b x] fs' IH]; intros c; [reflexivity|]. cbn [map]. rewrite fs_calls_cons, fs_call_CE.
    cbn [frags_as map fold_left fst snd]. fold (frags_as comp fs').
    destruct comp, b; apply IH. }
  cbn [acalls]. rewrite fs_calls_cons, fs_call_CE.
  replace (if comp then computed (ETextBegin n) else ETextBegin n) with (ETextBegin n) by (destruct comp; reflexivity).
  change (fs_step (MkFS None st) (ETextBegin n)) with (Ok (MkFS (Some (BText text_buf_new)) st)). cbn [bind].
  rewrite fs_calls_app, F. cbn [bind]. rewrite fs_calls_one, fs_call_CE. fold (frag_cow (frags_as comp fs)). destruct comp; reflexivity.
Qed.
Lemma fs_bin comp n fs : forall (st : state),
  fs_calls (acalls (ABin n fs)) comp (MkFS None st) =
  let c := frag_cow (frags_as comp fs) in
  try_catch (settle (MkFS None st) (state_value st (n_bin S (is_borrowed c) (frag_inner c)) (is_borrowed c, bin_calls (frag_inner c)))).
Proof.
  intros st. cbv zeta.
  assert (F : forall c : cow, fs_calls (map (fun f => CE (bin_frag f)) fs) comp (MkFS (Some (BBin c)) st) =
              Ok (MkFS (Some (BBin (fold_left (fun c (f : bool * bytes) => if fst f then frag_push c (snd f) else frag_push_computed c (snd f)) (frags_as comp fs) c))) st)).
  { induction fs as [|[b x] fs' IH]; intros c; [reflexivity|]. cbn [map]. rewrite fs_calls_cons, fs_call_CE.
    cbn [frags_as map fold_left fst snd]. fold (frags_as comp fs').
    destruct comp, b; apply IH. }
  cbn [acalls]. rewrite fs_calls_cons, fs_call_CE.
  replace (if comp then computed (EBinBegin n) else EBinBegin n) with (EBinBegin n) by (destruct comp; reflexivity).
  change (fs_step (MkFS None st) (EBinBegin n)) with (Ok (MkFS (Some (BBin text_buf_new)) st)). cbn [bind].
  rewrite fs_calls_app, F. cbn [bind]. rewrite fs_calls_one, fs_call_CE. fold (frag_cow (frags_as comp fs)). destruct comp; reflexivity.
Qed.
Lemma inner_content comp fs : frag_inner (frag_cow (frags_as comp fs)) = content fs.
Proof. rewrite frag_cow_spec. apply frags_as_content. Qed.

Lemma arrives_tree a : forall comp, arrives comp a.
Proof.
  assert (V : forall m v (st : state), positioned st = true -> fs_value (negb m) (acalls v) (MkFS None st) = hand st (m, acalls v)).
  { intros m v st P. unfold fs_value, buffer_or_with, hand. cbn [f_buf f_state]. rewrite negb_involutive.
    destruct st; try discriminate P; reflexivity. }
  induction a using atree_ind'; intros comp.
  - (* AVal *) destruct b; [destruct comp|].
    + destruct (IHa true) as (v & C & F). exists v. split; [exact C|]. intros st P. cbn [acalls]. rewrite fs_calls_one, fs_call_CV_computed. apply F, P.
    + exists (true, acalls a). split; [exists a; split; reflexivity|]. intros st P. cbn [acalls]. rewrite fs_calls_one, fs_call_CV. apply (V true), P.
    + exists (false, acalls a). split; [exists a; split; reflexivity|]. intros st P. cbn [acalls]. rewrite fs_calls_one, fs_call_CVC. apply (V false), P.
  - apply (leaf_arrives comp _ ENull (true, [CE ENull])); [reflexivity|reflexivity|exists ANull; split; reflexivity|begin_step].
  - apply (leaf_arrives comp _ (EBool b) (false, [CE (EBool b)])); [reflexivity|reflexivity|exists (ABool b); split; reflexivity|begin_step].
  - apply (leaf_arrives comp _ (EInt t z) (false, [CE (EInt t z)])); [reflexivity|reflexivity|exists (AInt t z); split; reflexivity|begin_step].
  - apply (leaf_arrives comp _ (EF32 f) (false, [CE (EF32 f)])); [reflexivity|reflexivity|exists (AF32 f); split; reflexivity|begin_step].
  - apply (leaf_arrives comp _ (EF64 f) (false, [CE (EF64 f)])); [reflexivity|reflexivity|exists (AF64 f); split; reflexivity|begin_step].
  - eexists. split; [|intros st P; rewrite fs_text; cbv zeta; rewrite positioned_any by exact P; reflexivity].
    rewrite inner_content. exists (AText (Some (blen (content fs))) [(true, content fs)]). split; [reflexivity|].
    cbn. unfold content at 1. cbn. rewrite app_nil_r. reflexivity.
  - eexists. split; [|intros st P; rewrite fs_bin; cbv zeta; rewrite positioned_any by exact P; reflexivity].
    rewrite inner_content. exists (ABin (Some (blen (content fs))) [(true, content fs)]). split; [reflexivity|].
    cbn. unfold content at 1. cbn. rewrite app_nil_r. reflexivity.
  - apply (leaf_arrives comp _ (ETag t l i) (false, [CE (ETag t l i)])); [reflexivity|reflexivity|exists (ATag t l i); split; reflexivity|begin_step].
  - destruct (IHa comp) as (v & C & F). exists v. split; [exact C|]. intros st P. cbn [acalls]. rewrite fs_calls_cons, fs_call_CE.
    replace (if comp then computed (ETagHint t) else ETagHint t) with (ETagHint t) by (destruct comp; reflexivity).
    cbn [fs_step bind]. apply F, P.
  - apply completes_arrives, (fed_tagged (feeds comp)); [completes_wraps|apply feeds_tree].
  - apply completes_arrives, (fed_enum (feeds comp)); [completes_wraps|apply feeds_tree].
  - apply completes_arrives, (fed_seq (feeds comp) _ (feeds_nil comp) (feeds_app comp) m false).
    + completes_wraps.
    + intros v (ps & E & (a' & P & M) & N). exists ps, a'. split; [|split; [exact P|exact M]]. destruct m; [|exact E].
      intros p st er sst Ns. rewrite fs_calls_cons, fs_call_CE.
      replace (if comp then computed ESeqValBegin else ESeqValBegin) with ESeqValBegin by (destruct comp; reflexivity).
      cbn [fs_step fs_own bind]. rewrite fs_calls_app, E by exact Ns. cbn [bind]. rewrite fs_calls_one, fs_call_CE.
      destruct comp; reflexivity.
    + apply Forall_forall. intros x _. apply feeds_tree.
  - apply completes_arrives, (fed_map (feeds comp) _ (feeds_nil comp) (feeds_app comp)); [completes_wraps|feeds_wraps|feeds_wraps|].
    apply Forall_forall. intros x _. split; apply feeds_tree.
  - apply completes_arrives, (fed_record (feeds comp) _ (feeds_nil comp) (feeds_app comp)); [completes_wraps|feeds_wraps|].
    apply Forall_forall. intros x _. apply feeds_tree.
  - apply completes_arrives, (fed_tuple (feeds comp) _ (feeds_nil comp) (feeds_app comp)); [completes_wraps|feeds_wraps|].
    apply Forall_forall. intros x _. apply feeds_tree.
  - apply completes_arrives, (fed_rectup_record (feeds comp) _ (feeds_nil comp) (feeds_app comp)); [completes_wraps|feeds_wraps|].
    apply Forall_forall. intros x _. apply feeds_tree.
Qed.

(** *** Outcomes *)
Definition ends (r : res fstream) (o : outcome ok) : Prop :=
  match o with
  | OOk x => r = Ok (MkFS None (SDone (Some x)))
  | OErr => exists b, r = Err (MkFS b (SDone None))
  | OPanic => r = Panic
  end.
Definition going {St} (I : St -> state -> Prop) (r : res fstream) (o : outcome St) : Prop :=
  match o with
  | OOk s => exists st, I s st /\ r = Ok (MkFS None st)
  | OErr => exists b, r = Err (MkFS b (SDone None))
  | OPanic => r = Panic
  end.

Lemma ends_settled r o : ends r o -> settled r = o.
Proof. destruct o as [x| |]; cbn; [intros ->|intros (b & ->)|intros ->]; reflexivity. Qed.
Lemma ends_catch r o : ends r o -> ends (try_catch r) o.
Proof. destruct o as [x| |]; cbn; [intros ->|intros (b & ->); exists b|intros ->]; reflexivity. Qed.
Lemma ends_settle st st' o : ends (try_catch (settle (MkFS None st) (x <- o ;; OOk (st', Some x)))) o.
Proof. destruct o as [x| |]; cbn; [reflexivity|eexists; reflexivity|reflexivity]. Qed.
Lemma ends_then e comp r o : computed e = e ->
  (forall x, fs_step (S:=S) (MkFS None (SDone (Some x))) e = Ok (MkFS None (SDone (Some x)))) ->
  ends r o -> ends (r >>= fs_calls [CE e] comp) o.
Proof.
  intros C E. destruct o as [x| |]; cbn [ends]; [intros ->|intros (b & ->); exists b|intros ->]; cbn [bind]; try reflexivity.
  rewrite fs_calls_one, fs_call_CE. replace (if comp then computed e else e) with e by (destruct comp; congruence). apply E.
Qed.

Lemma going_then {St St'} (I : St -> state -> Prop) (J : St' -> state -> Prop) r o cs comp (k : St -> outcome St') :
  going I r o -> (forall s st, I s st -> going J (fs_calls cs comp (MkFS None st)) (k s)) ->
  going J (r >>= fs_calls cs comp) (s <- o ;; k s).
Proof.
  destruct o as [s| |]; cbn [going obind]; [intros (st & H & ->)|intros (b & ->)|intros ->]; intros K; cbn [bind]; auto.
  exists b. reflexivity.
Qed.
Lemma going_end {St} (I : St -> state -> Prop) r o e comp (k : St -> outcome ok) : computed e = e ->
  going I r o -> (forall s st, I s st -> ends (fs_step (MkFS None st) e) (k s)) ->
  ends (r >>= fs_calls [CE e] comp) (s <- o ;; k s).
Proof.
  intros C. destruct o as [s| |]; cbn [going obind]; [intros (st & H & ->)|intros (b & ->)|intros ->]; intros K; cbn [bind].
  - rewrite fs_calls_one, fs_call_CE. replace (if comp then computed e else e) with e by (destruct comp; congruence). apply K, H.
  - exists b. reflexivity.
  - reflexivity.
Qed.

Lemma going_list {A B St} (f : A -> list call) (op : St -> B -> outcome St) (R : B -> A -> Prop) (I : St -> state -> Prop) comp l :
  Forall (fun x => exists y, R y x /\ forall s st, I s st -> going I (fs_calls (f x) comp (MkFS None st)) (op s y)) l ->
  exists m, Forall2 R m l /\ forall s st, I s st -> going I (fs_calls (flat_map f l) comp (MkFS None st)) (fold_o op s m).
Proof.
  induction 1 as [|x l (y & HR & Hy) _ (m & HF & Hm)].
  - exists []. split; [constructor|]. intros s st HI. exists st. split; [exact HI|reflexivity].
  - exists (y :: m). split; [constructor; assumption|]. intros s st HI. cbn [flat_map fold_o]. rewrite fs_calls_app.
    apply (going_then I I); [apply Hy, HI|exact Hm].
Qed.

Lemma node_ends {St B} (I : St -> state -> Prop) b e cs comp st0 beg (op : St -> B -> outcome St) args fin :
  computed b = b -> computed e = e -> going I (fs_step (MkFS None st0) b) beg ->
  (forall s st, I s st -> going I (fs_calls cs comp (MkFS None st)) (fold_o op s args)) ->
  (forall s st, I s st -> ends (fs_step (MkFS None st) e) (fin s)) ->
  ends (fs_calls (CE b :: cs ++ [CE e]) comp (MkFS None st0)) (s <- beg ;; s' <- fold_o op s args ;; fin s').
Proof.
  intros Cb Ce HB HC HE. rewrite fs_calls_cons, fs_call_CE.
  replace (if comp then computed b else b) with b by (destruct comp; congruence).
  destruct beg as [s| |]; cbn [going obind] in *; [destruct HB as (st & HI & ->)|destruct HB as (x & ->)|rewrite HB]; cbn [bind].
  - rewrite fs_calls_app. apply (going_end I); [exact Ce|apply HC, HI|exact HE].
  - exists x. reflexivity.
  - reflexivity.
Qed.

Lemma going_item {St} (I : St -> state -> Prop) (nxt : St -> state) b e cs comp v st st1 o :
  computed b = b -> computed e = e -> fs_step (MkFS None st) b = Ok (MkFS None st1) ->
  fs_calls cs comp (MkFS None st1) = hand st1 v ->
  state_value st1 OErr v = (s' <- o ;; OOk (nxt s', None)) -> (forall s', I s' (nxt s')) ->
  (forall s', fs_step (MkFS None (nxt s')) e = Ok (MkFS None (nxt s'))) ->
  going I (fs_calls (CE b :: cs ++ [CE e]) comp (MkFS None st)) o.
Proof.
  intros Cb Ce HB HC HS HI HE. rewrite fs_calls_cons, fs_call_CE.
  replace (if comp then computed b else b) with b by (destruct comp; congruence). rewrite HB. cbn [bind].
  rewrite fs_calls_app, HC. unfold hand. rewrite HS. destruct o as [s| |]; cbn [obind settle try_catch f_buf bind going].
  - exists (nxt s). split; [apply HI|]. rewrite fs_calls_one, fs_call_CE.
    replace (if comp then computed e else e) with e by (destruct comp; congruence). apply HE.
  - eexists. reflexivity.
  - reflexivity.
Qed.
Lemma begin_going {St} (st : state) (o : outcome St) (mk : St -> state) (I : St -> state -> Prop) :
  (forall s, I s (mk s)) -> going I (try_catch (lift (MkFS None st) (s <- o ;; OOk (mk s)))) o.
Proof. intros H. destruct o as [s| |]; cbn; [exists (mk s); auto|eexists; reflexivity|reflexivity]. Qed.
Lemma fin_ends (st : state) o : ends (try_catch (settle (MkFS None st) (x <- o ;; OOk (st, Some x)))) o.
Proof. apply ends_settle. Qed.

(** *** The children of each kind of value *)
Lemma seq_children comp (m : bool) vs : exists args, Forall2 child args (map mirror (map tree_of vs)) /\
  forall s st, st = SSeq s ->
    going (fun s st => st = SSeq s)
      (fs_calls (flat_map (fun v => if m then CE ESeqValBegin :: acalls v ++ [CE ESeqValEnd] else acalls v) vs) comp (MkFS None st))
      (fold_o (seq_value S) s args).
Proof.
  destruct (going_list (fun v => if m then CE ESeqValBegin :: acalls v ++ [CE ESeqValEnd] else acalls v) (seq_value S)
              (fun a v => child a (mirror (tree_of v))) (fun s st => st = SSeq s) comp vs) as (args & F & G).
  - apply Forall_forall. intros v _. destruct (arrives_tree v comp) as (a & C & A). exists a. split; [exact C|].
    intros s st ->. destruct m.
    + apply (going_item _ (fun s' => SSeq s') _ _ _ _ a (SSeq s) (SSeq s)); try reflexivity. apply A. reflexivity.
    + rewrite A by reflexivity. unfold hand. cbn [state_value]. destruct (seq_value S s a); cbn; [eexists; split; reflexivity|eexists; reflexivity|reflexivity].
  - exists args. split; [|exact G]. clear G. induction F; cbn; constructor; auto.
Qed.
Lemma map_children comp es : exists args,
  Forall2 (fun x e => match x, e with (a, b), (k, v) => child a k /\ child b v end) args
          (map (fun kv => match kv with (k, v) => (mirror k, mirror v) end) (map (fun kv => match kv with (k, v) => (tree_of k, tree_of v) end) es)) /\
  forall s st, (exists b, st = SMap s b) ->
    going (fun s st => exists b, st = SMap s b)
      (fs_calls (flat_map (fun kv => match kv with (k, v) =>
                  CE EMapKeyBegin :: acalls k ++ CE EMapKeyEnd ::
                  CE EMapValBegin :: acalls v ++ [CE EMapValEnd] end) es) comp (MkFS None st))
      (fold_o (fun s x => match x with (a, b) => s1 <- map_key S s a ;; map_value S s1 b end) s args).
Proof.
  destruct (going_list (fun kv => match kv with (k, v) =>
                  CE EMapKeyBegin :: acalls k ++ CE EMapKeyEnd ::
                  CE EMapValBegin :: acalls v ++ [CE EMapValEnd] end)
              (fun s x => match x with (a, b) => s1 <- map_key S s a ;; map_value S s1 b end)
              (fun x e => match x, e with (a, b), (k, v) => child a (mirror (tree_of k)) /\ child b (mirror (tree_of v)) end)
              (fun s st => exists b, st = SMap s b) comp es) as (args & F & G).
  - apply Forall_forall. intros [k v] _. destruct (arrives_tree k comp) as (a & Ca & A). destruct (arrives_tree v comp) as (b & Cb & B).
    exists (a, b). split; [split; assumption|]. intros s st (x & ->).
    assert (X : forall a b : list call, CE EMapKeyBegin :: a ++ CE EMapKeyEnd :: CE EMapValBegin :: b ++ [CE EMapValEnd]
                = (CE EMapKeyBegin :: a ++ [CE EMapKeyEnd]) ++ (CE EMapValBegin :: b ++ [CE EMapValEnd])).
    { intros. cbn. rewrite <- app_assoc. reflexivity. }
    rewrite X, fs_calls_app. apply (going_then (fun s st => st = SMap s true)).
    + apply (going_item _ (fun s' => SMap s' true) _ _ _ _ a (SMap s x) (SMap s true)); try reflexivity. apply A. reflexivity.
    + intros s1 st ->. apply (going_item _ (fun s' => SMap s' false) _ _ _ _ b (SMap s1 true) (SMap s1 false)); try reflexivity; [apply B; reflexivity|].
      intros s'. exists false. reflexivity.
  - exists args. split; [|exact G]. clear G. induction F as [|[a b] [k v] ? ? ? ? IH]; cbn; constructor; auto.
Qed.
Section Fields.
  Variable St : Type.
  Variable comp : bool.
  Lemma tuple_children (mk : St -> option (option tag * index) -> state) (op : St -> option tag -> index -> arg -> outcome St) fs :
    (forall s o ft fi, fs_step (MkFS None (mk s o)) (ETupleValBegin ft fi) = Ok (MkFS None (mk s (Some (ft, fi))))) ->
    (forall s o, positioned (mk s o) = true) ->
    (forall s ft fi v, state_value (mk s (Some (ft, fi))) OErr v = (s' <- op s ft fi v ;; OOk (mk s' None, None))) ->
    exists args,
    Forall2 (fun x f => match x, f with (xt, xi, a), (ft, fi, v) => xt = ft /\ xi = fi /\ child a v end) args
            (map (fun f => match f with (ft, fi, v) => (ft, fi, mirror v) end) (map (fun f => match f with (ft, fi, v) => (ft, fi, tree_of v) end) fs)) /\
    forall s st, st = mk s None ->
      going (fun s st => st = mk s None)
        (fs_calls (flat_map (fun f => match f with (ft, fi, v) =>
                  CE (ETupleValBegin ft fi) :: acalls v ++ [CE (ETupleValEnd ft fi)] end) fs) comp (MkFS None st))
        (fold_o (fun s x => match x with (xt, xi, a) => op s xt xi a end) s args).
  Proof.
    intros HB HP HS.
    destruct (going_list (fun f => match f with (ft, fi, v) =>
                  CE (ETupleValBegin ft fi) :: acalls v ++ [CE (ETupleValEnd ft fi)] end)
                (fun s x => match x with (xt, xi, a) => op s xt xi a end)
                (fun x f => match x, f with (xt, xi, a), (ft, fi, v) => xt = ft /\ xi = fi /\ child a (mirror (tree_of v)) end)
                (fun s st => st = mk s None) comp fs) as (args & F & G).
    - apply Forall_forall. intros [[ft fi] v] _. destruct (arrives_tree v comp) as (a & Ca & A).
      exists (ft, fi, a). split; [auto|]. intros s st ->.
      apply (going_item _ (fun s' => mk s' None) _ _ _ _ a (mk s None) (mk s (Some (ft, fi)))); try reflexivity; auto.
    - exists args. split; [|exact G]. clear G. induction F as [|[[xt xi] a] [[ft fi] v] ? ? ? ? IH]; cbn; constructor; auto.
  Qed.
  Lemma record_children (mk : St -> option (option tag * label) -> state) (op : St -> option tag -> label -> arg -> outcome St) fs :
    (forall s o ft fl, fs_step (MkFS None (mk s o)) (ERecordValBegin ft fl) = Ok (MkFS None (mk s (Some (ft, label_to_owned fl))))) ->
    (forall s o, positioned (mk s o) = true) ->
    (forall s ft fl v, state_value (mk s (Some (ft, fl))) OErr v = (s' <- op s ft fl v ;; OOk (mk s' None, None))) ->
    exists args,
    Forall2 (fun x f => match x, f with (xt, xl, a), (ft, fl, v) => xt = ft /\ kept_label xl = fl /\ child a v end) args
            (map (fun f => match f with (ft, fl, v) => (ft, kept_label fl, mirror v) end) (map (fun f => match f with (ft, fl, v) => (ft, fl, tree_of v) end) fs)) /\
    forall s st, st = mk s None ->
      going (fun s st => st = mk s None)
        (fs_calls (flat_map (fun f => match f with (ft, fl, v) =>
                  CE (ERecordValBegin ft fl) :: acalls v ++ [CE (ERecordValEnd ft fl)] end) fs) comp (MkFS None st))
        (fold_o (fun s x => match x with (xt, xl, a) => op s xt xl a end) s args).
  Proof.
    intros HB HP HS.
    destruct (going_list (fun f => match f with (ft, fl, v) =>
                  CE (ERecordValBegin ft fl) :: acalls v ++ [CE (ERecordValEnd ft fl)] end)
                (fun s x => match x with (xt, xl, a) => op s xt xl a end)
                (fun x f => match x, f with (xt, xl, a), (ft, fl, v) => xt = ft /\ kept_label xl = kept_label fl /\ child a (mirror (tree_of v)) end)
                (fun s st => st = mk s None) comp fs) as (args & F & G).
    - apply Forall_forall. intros [[ft fl] v] _. destruct (arrives_tree v comp) as (a & Ca & A).
      exists (ft, label_to_owned fl, a). split; [split; [reflexivity|]; split; [apply same_owned|exact Ca]|]. intros s st ->.
      apply (going_item _ (fun s' => mk s' None) _ _ _ _ a (mk s None) (mk s (Some (ft, label_to_owned fl)))); try reflexivity; auto.
    - exists args. split; [|exact G]. clear G. induction F as [|[[xt xl] a] [[ft fl] v] ? ? ? ? IH]; cbn; constructor; auto.
  Qed.
  Lemma rectup_children (mk : St -> option (option tag * label) -> state) (op : St -> option tag -> label -> arg -> outcome St) fs :
    (forall s o ft fl, fs_step (MkFS None (mk s o)) (ERecordValBegin ft fl) = Ok (MkFS None (mk s (Some (ft, label_to_owned fl))))) ->
    (forall s o, positioned (mk s o) = true) ->
    (forall s ft fl v, state_value (mk s (Some (ft, fl))) OErr v = (s' <- op s ft fl v ;; OOk (mk s' None, None))) ->
    exists args,
    Forall2 (fun x f => match x, f with (xt, xl, a), (ft, fl, v) => xt = ft /\ kept_label xl = fl /\ child a v end) args
            (map (fun f => match f with (ft, fl, fi, v) => (ft, kept_label fl, mirror v) end) (map (fun f => match f with (ft, fl, fi, v) => (ft, fl, fi, tree_of v) end) fs)) /\
    forall s st, st = mk s None ->
      going (fun s st => st = mk s None)
        (fs_calls (flat_map (fun f => match f with (ft, fl, fi, v) =>
                  CE (ERecTupValBegin ft fl fi) :: acalls v ++ [CE (ERecTupValEnd ft fl fi)] end) fs) comp (MkFS None st))
        (fold_o (fun s x => match x with (xt, xl, a) => op s xt xl a end) s args).
  Proof.
    intros HB HP HS.
    destruct (going_list (fun f => match f with (ft, fl, fi, v) =>
                  CE (ERecTupValBegin ft fl fi) :: acalls v ++ [CE (ERecTupValEnd ft fl fi)] end)
                (fun s x => match x with (xt, xl, a) => op s xt xl a end)
                (fun x f => match x, f with (xt, xl, a), (ft, fl, fi, v) => xt = ft /\ kept_label xl = kept_label fl /\ child a (mirror (tree_of v)) end)
                (fun s st => st = mk s None) comp fs) as (args & F & G).
    - apply Forall_forall. intros [[[ft fl] fi] v] _. destruct (arrives_tree v comp) as (a & Ca & A).
      exists (ft, label_to_owned fl, a). split; [split; [reflexivity|]; split; [apply same_owned|exact Ca]|]. intros s st ->.
      apply (going_item _ (fun s' => mk s' None) _ _ _ _ a (mk s None) (mk s (Some (ft, label_to_owned fl)))); try reflexivity; auto.
      apply HB.
    - exists args. split; [|exact G]. clear G. induction F as [|[[xt xl] a] [[[ft fl] fi] v] ? ? ? ? IH]; cbn; constructor; auto.
  Qed.
End Fields.

Lemma okept_own_clone l : okept (option_map label_to_owned (cloned l)) = okept l.
Proof. rewrite okept_own, okept_clone. reflexivity. Qed.

(** *** Inside an enum *)
Definition in_enum (e : n_enum S) (q : list pending) : fstream := MkFS None (SEnum (MkFE e q)).
Ltac ev_step := rewrite fs_calls_cons, fs_call_CE;
  match goal with |- context [if ?c then computed ?e else ?e] => replace (if c then computed e else e) with e by (destruct c; reflexivity) end.

(** The recursive calls of a value inside an enum go to the same object. *)
Definition val_comp (b comp : bool) : bool := if b then comp else true.
Lemma enum_val comp b v e q o : ends (fs_calls (acalls v) (val_comp b comp) (in_enum e q)) o ->
  ends (fs_calls (acalls (AVal b v)) comp (in_enum e q)) o.
Proof.
  intros H. destruct b; [destruct comp|]; cbn [acalls val_comp] in *; rewrite fs_calls_one.
  - rewrite fs_call_CV_computed. exact H.
  - rewrite fs_call_CV. apply ends_catch, H.
  - rewrite fs_call_CVC. apply ends_catch, H.
Qed.
Lemma enum_push comp t l i v e q o :
  ends (fs_calls (acalls v) comp (in_enum e (q ++ [(t, option_map label_to_owned (cloned l), i)]))) o ->
  ends (fs_calls (acalls (AEnum t l i v)) comp (in_enum e q)) o.
Proof.
  intros H. cbn [acalls]. ev_step.
  change (fs_step (in_enum e q) (EEnumBegin t l i)) with (Ok (in_enum e (q ++ [(t, option_map label_to_owned (cloned l), i)]))).
  cbn [bind]. rewrite fs_calls_app. apply ends_then; [reflexivity|reflexivity|exact H].
Qed.
Lemma enum_tag_ends comp t l i e q :
  ends (fs_calls (acalls (ATag t l i)) comp (in_enum e q)) (recurse q e (fun e => enum_tag S e t (cloned l) i)).
Proof. cbn [acalls]. ev_step. cbn [fs_calls]. match goal with |- ends (?x >>= _) _ => replace (x >>= fun f => Ok f) with x by (destruct x; reflexivity) end. apply ends_settle. Qed.
Lemma enum_tagged_ends comp t l i v : exists a, child a (mirror (tree_of v)) /\ forall e q,
  ends (fs_calls (acalls (ATagged t l i v)) comp (in_enum e q))
       (recurse q e (fun e => enum_tagged S e t (option_map label_to_owned l) i a)).
Proof.
  destruct (arrives_tree v comp) as (a & C & A). exists a. split; [exact C|]. intros e q. cbn [acalls]. ev_step.
  change (fs_step (in_enum e q) (ETaggedBegin t l i)) with (Ok (MkFS (S:=S) None (SVTagged (MkFE e q) t (option_map label_to_owned l) i))).
  cbn [bind]. rewrite fs_calls_app, A by reflexivity. apply ends_then; [reflexivity|reflexivity|]. apply ends_settle.
Qed.

Lemma enum_chain a : forall comp, inner_variant (mirror (tree_of a)) = true ->
  exists q' k, variant_answer S (mirror (tree_of a)) (fun e => recurse q' e k) /\
    forall e q, ends (fs_calls (acalls a) comp (in_enum e q)) (recurse (q ++ q') e k).
Proof.
  induction a using atree_ind'; intros comp Hv; try discriminate Hv.
  - destruct (IHa (val_comp b comp) Hv) as (q' & k & V & E). exists q', k. split; [exact V|]. intros e q. apply enum_val, E.
  - exists [], (fun e => enum_tag S e t (cloned l) i). split; [exists (cloned l); split; [apply okept_clone|reflexivity]|].
    intros e q. rewrite app_nil_r. apply enum_tag_ends.
  - destruct (IHa comp Hv) as (q' & k & V & E). exists q', k. split; [exact V|]. intros e q. cbn [acalls]. ev_step. cbn [fs_step bind]. apply E.
  - destruct (enum_tagged_ends comp t l i a) as (x & C & E). exists [], (fun e => enum_tagged S e t (option_map label_to_owned l) i x).
    split; [exists (option_map label_to_owned l), x; split; [apply okept_own|]; split; [exact C|reflexivity]|].
    intros e q. rewrite app_nil_r. apply E.
  - destruct (IHa comp Hv) as (q' & k & V & E). exists ((t, option_map label_to_owned (cloned l), i) :: q'), k. split.
    + exists (option_map label_to_owned (cloned l)), (fun e => recurse q' e k). split; [apply okept_own_clone|]. split; [exact V|reflexivity].
    + intros e q. apply enum_push. replace (q ++ (t, option_map label_to_owned (cloned l), i) :: q') with
        ((q ++ [(t, option_map label_to_owned (cloned l), i)]) ++ q') by (rewrite <- app_assoc; reflexivity). apply E.
Qed.

(** A variant directly inside the outermost enum. *)
Definition outer_variant (v : rview) : bool :=
  match v with
  | RTag _ _ _ | RTagged _ _ _ _ | RTuple _ _ _ _ _ | RRecord _ _ _ _ _ => true
  | REnum _ _ _ v => inner_variant v
  | _ => false
  end.
Lemma enum_outer a : forall comp, outer_variant (mirror (tree_of a)) = true ->
  exists g, variant_answer S (mirror (tree_of a)) g /\ forall e, ends (fs_calls (acalls a) comp (in_enum e [])) (g e).
Proof.
  induction a using atree_ind'; intros comp Hv; try discriminate Hv.
  - destruct (IHa (val_comp b comp) Hv) as (g & V & E). exists g. split; [exact V|]. intros e. apply enum_val, E.
  - destruct (enum_chain (ATag t l i) comp) as (q' & k & V & E); [reflexivity|]. eexists. split; [exact V|]. intros e. apply (E e []).
  - destruct (IHa comp Hv) as (g & V & E). exists g. split; [exact V|]. intros e. cbn [acalls]. ev_step. cbn [fs_step bind]. apply E.
  - destruct (enum_chain (ATagged t l i a) comp) as (q' & k & V & E); [reflexivity|]. eexists. split; [exact V|]. intros e. apply (E e []).
  - destruct (enum_chain (AEnum t l i a) comp) as (q' & k & V & E); [exact Hv|]. eexists. split; [exact V|]. intros e. apply (E e []).
  - destruct (record_children (n_vrecord S) comp SVRecord (vrecord_value S) fs) as (args & F & G); try reflexivity.
    exists (fun e => s <- enum_record_begin S e t (cloned l) i n ;;
                     s' <- fold_o (fun s x => match x with (xt, xl, a) => vrecord_value S s xt xl a end) s args ;;
                     vrecord_end S s'). split.
    + exists (cloned l), args. split; [apply okept_clone|]. split; [exact F|reflexivity].
    + intros e. apply (node_ends (fun s st => st = SVRecord s None)); try reflexivity; [|exact G|].
      * apply (begin_going (SEnum (MkFE e [])) (enum_record_begin S e t (cloned l) i n) (fun s => SVRecord s None)). reflexivity.
      * intros s st ->. apply ends_settle.
  - destruct (tuple_children (n_vtuple S) comp SVTuple (vtuple_value S) fs) as (args & F & G); try reflexivity.
    exists (fun e => s <- enum_tuple_begin S e t (cloned l) i n ;;
                     s' <- fold_o (fun s x => match x with (xt, xi, a) => vtuple_value S s xt xi a end) s args ;;
                     vtuple_end S s'). split.
    + exists (cloned l), args. split; [apply okept_clone|]. split; [exact F|reflexivity].
    + intros e. apply (node_ends (fun s st => st = SVTuple s None)); try reflexivity; [|exact G|].
      * apply (begin_going (SEnum (MkFE e [])) (enum_tuple_begin S e t (cloned l) i n) (fun s => SVTuple s None)). reflexivity.
      * intros s st ->. apply ends_settle.
  - destruct (rectup_children (n_vrecord S) comp SVRecord (vrecord_value S) fs) as (args & F & G); try reflexivity.
    exists (fun e => s <- enum_record_begin S e t (cloned l) i n ;;
                     s' <- fold_o (fun s x => match x with (xt, xl, a) => vrecord_value S s xt xl a end) s args ;;
                     vrecord_end S s'). split.
    + exists (cloned l), args. split; [apply okept_clone|]. split; [exact F|reflexivity].
    + intros e. apply (node_ends (fun s st => st = SVRecord s None)); try reflexivity; [|exact G|].
      * apply (begin_going (SEnum (MkFE e [])) (enum_record_begin S e t (cloned l) i n) (fun s => SVRecord s None)). reflexivity.
      * intros s st ->. apply ends_settle.
Qed.

(** A tuple or record deeper than that panics. *)
Lemma enum_deep a : forall comp e q, q <> [] -> ends_in_fields (mirror (tree_of a)) = true ->
  fs_calls (acalls a) comp (in_enum e q) = Panic.
Proof.
  induction a using atree_ind'; intros comp e q Nq Hv; try discriminate Hv.
  - exact (enum_val comp b a e q OPanic (IHa _ e q Nq Hv)).
  - cbn [acalls]. ev_step. cbn [fs_step bind]. apply IHa; assumption.
  - apply (enum_push comp t l i a e q OPanic). apply IHa; [|exact Hv]. destruct q; discriminate.
  - destruct q as [|x q]; [congruence|]. destruct comp; reflexivity.
  - destruct q as [|x q]; [congruence|]. destruct comp; reflexivity.
  - destruct q as [|x q]; [congruence|]. destruct comp; reflexivity.
Qed.
(** Anything else is refused. *)
Fixpoint ends_in_variant (v : rview) : bool :=
  match v with REnum _ _ _ v => ends_in_variant v | RTag _ _ _ | RTagged _ _ _ _ | RTuple _ _ _ _ _ | RRecord _ _ _ _ _ => true | _ => false end.
Lemma enum_refuses a : forall comp e q, ends_in_variant (mirror (tree_of a)) = false ->
  ends (fs_calls (acalls a) comp (in_enum e q)) OErr.
Proof.
  induction a using atree_ind'; intros comp e q Hv; try discriminate Hv;
    try (destruct comp; eexists; reflexivity).
  - apply enum_val, IHa, Hv.
  - unfold in_enum. rewrite fs_text. eexists. reflexivity.
  - unfold in_enum. rewrite fs_bin. eexists. reflexivity.
  - cbn [acalls]. ev_step. cbn [fs_step bind]. apply IHa; assumption.
  - apply enum_push, IHa, Hv.
Qed.

(** *** The whole value *)
Lemma any_val comp b v o :
  ends (fs_calls (acalls v) (val_comp b comp) (S := S) fs_new) o -> ends (fs_calls (acalls (AVal b v)) comp (S := S) fs_new) o.
Proof.
  intros H. destruct b; [destruct comp|]; cbn [acalls val_comp] in *; rewrite fs_calls_one.
  - rewrite fs_call_CV_computed. exact H.
  - rewrite fs_call_CV. unfold fs_value, buffer_or_with. cbn [f_buf f_state fs_new state_value].
    change (MkFS None SAny) with (fs_new (S := S)). rewrite (ends_settled _ _ H). apply ends_settle.
  - rewrite fs_call_CVC. unfold fs_value, buffer_or_with. cbn [f_buf f_state fs_new state_value].
    change (MkFS None SAny) with (fs_new (S := S)). rewrite (ends_settled _ _ H). apply ends_settle.
Qed.
Lemma any_leaf comp e o : computed e = e -> fs_step (S := S) fs_new e = try_catch (settle fs_new (x <- o ;; OOk (SAny, Some x))) ->
  ends (fs_calls [CE e] comp (S := S) fs_new) o.
Proof.
  intros C E. rewrite fs_calls_one, fs_call_CE. replace (if comp then computed e else e) with e by (destruct comp; congruence).
  rewrite E. apply ends_settle.
Qed.
Lemma any_enum comp t l i v (g : n_enum S -> outcome ok) :
  (forall e, ends (fs_calls (acalls v) comp (in_enum e [])) (g e)) ->
  ends (fs_calls (acalls (AEnum t l i v)) comp (S := S) fs_new) (e <- n_enum_begin S t (cloned l) i ;; g e).
Proof.
  intros H. cbn [acalls]. ev_step.
  assert (B : going (fun e st => st = SEnum (fe_new e)) (fs_step (S := S) fs_new (EEnumBegin t l i)) (n_enum_begin S t (cloned l) i)).
  { apply (begin_going SAny (n_enum_begin S t (cloned l) i) (fun e => SEnum (fe_new e))). reflexivity. }
  set (r := fs_step fs_new (EEnumBegin t l i)) in *. clearbody r.
  destruct (n_enum_begin S t (cloned l) i) as [e| |]; cbn [going obind] in *.
  - destruct B as (st & -> & ->). cbn [bind]. rewrite fs_calls_app. apply ends_then; [reflexivity|reflexivity|]. apply H.
  - destruct B as (x & ->). exists x. reflexivity.
  - rewrite B. reflexivity.
Qed.

Lemma any_answers a : forall comp, handled1 (mirror (tree_of a)) = true ->
  exists o, answer S (mirror (tree_of a)) o /\ ends (fs_calls (acalls a) comp (S := S) fs_new) o.
Proof.
  induction a using atree_ind'; intros comp Hv.
  - destruct (IHa (val_comp b comp) Hv) as (o & A & E). exists o. split; [exact A|apply any_val, E].
  - exists (n_null S). split; [reflexivity|apply any_leaf; reflexivity].
  - exists (n_bool S b). split; [reflexivity|apply any_leaf; reflexivity].
  - exists (n_int S t z). split; [reflexivity|apply any_leaf; reflexivity].
  - exists (n_f32 S f). split; [reflexivity|apply any_leaf; reflexivity].
  - exists (n_f64 S f). split; [reflexivity|apply any_leaf; reflexivity].
  - eexists. split; [|unfold fs_new; rewrite fs_text; cbv zeta; cbn [state_value]; apply ends_settle].
    rewrite inner_content. eexists. reflexivity.
  - eexists. split; [|unfold fs_new; rewrite fs_bin; cbv zeta; cbn [state_value]; apply ends_settle].
    rewrite inner_content. eexists. reflexivity.
  - exists (n_tag S t (cloned l) i). split; [exists (cloned l); split; [apply okept_clone|reflexivity]|apply any_leaf; reflexivity].
  - destruct (IHa comp Hv) as (o & A & E). exists o. split; [exact A|]. cbn [acalls]. ev_step. cbn [fs_step bind]. exact E.
  - destruct (arrives_tree a comp) as (v & C & A). exists (n_tagged S t (option_map label_to_owned l) i v). split.
    + exists (option_map label_to_owned l), v. split; [apply okept_own|]. split; [exact C|reflexivity].
    + cbn [acalls]. ev_step.
      change (fs_step fs_new (ETaggedBegin t l i)) with (Ok (MkFS (S:=S) None (STagged t (option_map label_to_owned l) i))).
      cbn [bind]. rewrite fs_calls_app, A by reflexivity. apply ends_then; [reflexivity|reflexivity|]. apply ends_settle.
  - destruct (enum_outer a comp Hv) as (g & V & E). eexists. split; [|apply any_enum; exact E].
    exists (cloned l), g. split; [apply okept_clone|]. split; [exact V|reflexivity].
  - destruct (seq_children comp m vs) as (args & F & G). eexists. split; [exists args; split; [exact F|reflexivity]|].
    apply (node_ends (fun s st => st = SSeq s)); try reflexivity; [|exact G|].
    + apply (begin_going SAny (n_seq_begin S n) (fun s => SSeq s)). reflexivity.
    + intros s st ->. apply ends_settle.
  - destruct (map_children comp es) as (args & F & G). eexists. split; [exists args; split; [exact F|reflexivity]|].
    apply (node_ends (fun s st => exists b, st = SMap s b)); try reflexivity; [|exact G|].
    + apply (begin_going SAny (n_map_begin S n) (fun s => SMap s true)). intros s. exists true. reflexivity.
    + intros s st (b & ->). apply ends_settle.
  - destruct (record_children (n_record S) comp SRecord (record_value S) fs) as (args & F & G); try reflexivity.
    eexists. split; [exists (cloned l), args; split; [apply okept_clone|]; split; [exact F|reflexivity]|].
    apply (node_ends (fun s st => st = SRecord s None)); try reflexivity; [|exact G|].
    + apply (begin_going SAny (n_record_begin S t (cloned l) i n) (fun s => SRecord s None)). reflexivity.
    + intros s st ->. apply ends_settle.
  - destruct (tuple_children (n_tuple S) comp STuple (tuple_value S) fs) as (args & F & G); try reflexivity.
    eexists. split; [exists (cloned l), args; split; [apply okept_clone|]; split; [exact F|reflexivity]|].
    apply (node_ends (fun s st => st = STuple s None)); try reflexivity; [|exact G|].
    + apply (begin_going SAny (n_tuple_begin S t (cloned l) i n) (fun s => STuple s None)). reflexivity.
    + intros s st ->. apply ends_settle.
  - destruct (rectup_children (n_record S) comp SRecord (record_value S) fs) as (args & F & G); try reflexivity.
    eexists. split; [exists (cloned l), args; split; [apply okept_clone|]; split; [exact F|reflexivity]|].
    apply (node_ends (fun s st => st = SRecord s None)); try reflexivity; [|exact G|].
    + apply (begin_going SAny (n_record_begin S t (cloned l) i n) (fun s => SRecord s None)). reflexivity.
    + intros s st ->. apply ends_settle.
Qed.

(** Without a panic in the user's stream there is none in the answer. *)
Lemma obind_np {A B} (o : outcome A) (k : A -> outcome B) : o <> OPanic -> (forall x, k x <> OPanic) -> obind o k <> OPanic.
Proof. destruct o; cbn; [auto|discriminate|congruence]. Qed.
Lemma fold_o_np {St A} (f : St -> A -> outcome St) l : (forall s x, f s x <> OPanic) -> forall s, fold_o f s l <> OPanic.
Proof. intros F. induction l as [|x l IH]; intros s; [discriminate|]. cbn [fold_o]. apply obind_np; [apply F|intros s'; apply IH]. Qed.

Lemma variant_np r : never_panics S -> forall g, variant_answer S r g -> forall e, g e <> OPanic.
Proof.
  intros NP. induction r; cbn [variant_answer]; intros g Hg e; try contradiction.
  - destruct Hg as (l' & _ & ->). apply (np_enum_tag _ NP).
  - destruct Hg as (l' & a & _ & _ & ->). apply (np_enum_tagged _ NP).
  - destruct Hg as (l' & g' & _ & V & ->). apply (np_enum_nested _ NP). intros e'. apply IHr, V.
  - destruct Hg as (l' & args & _ & _ & ->). apply obind_np; [apply (np_enum_record_begin _ NP)|]. intros s.
    apply obind_np; [|apply (np_vrecord_end _ NP)]. apply fold_o_np. intros s' [[xt xl] a]. apply (np_vrecord_value _ NP).
  - destruct Hg as (l' & args & _ & _ & ->). apply obind_np; [apply (np_enum_tuple_begin _ NP)|]. intros s.
    apply obind_np; [|apply (np_vtuple_end _ NP)]. apply fold_o_np. intros s' [[xt xl] a]. apply (np_vtuple_value _ NP).
Qed.
Lemma answer_np r : never_panics S -> forall o, answer S r o -> o <> OPanic.
Proof.
  intros NP. destruct r; cbn [answer]; intros o Ho.
  - subst. apply (np_null _ NP).
  - subst. apply (np_bool _ NP).
  - subst. apply (np_int _ NP).
  - subst. apply (np_f32 _ NP).
  - subst. apply (np_f64 _ NP).
  - destruct Ho as (x & ->). apply (np_text _ NP).
  - destruct Ho as (x & ->). apply (np_bin _ NP).
  - destruct Ho as (l' & _ & ->). apply (np_tag _ NP).
  - destruct Ho as (l' & a & _ & _ & ->). apply (np_tagged _ NP).
  - destruct Ho as (l' & g' & _ & V & ->). apply obind_np; [apply (np_enum_begin _ NP)|]. apply (variant_np _ NP _ V).
  - destruct Ho as (args & _ & ->). apply obind_np; [apply (np_seq_begin _ NP)|]. intros s.
    apply obind_np; [|apply (np_seq_end _ NP)]. apply fold_o_np. apply (np_seq_value _ NP).
  - destruct Ho as (args & _ & ->). apply obind_np; [apply (np_map_begin _ NP)|]. intros s.
    apply obind_np; [|apply (np_map_end _ NP)]. apply fold_o_np. intros s' [a b]. apply obind_np; [apply (np_map_key _ NP)|].
    intros s1. apply (np_map_value _ NP).
  - destruct Ho as (l' & args & _ & _ & ->). apply obind_np; [apply (np_record_begin _ NP)|]. intros s.
    apply obind_np; [|apply (np_record_end _ NP)]. apply fold_o_np. intros s' [[xt xl] a]. apply (np_record_value _ NP).
  - destruct Ho as (l' & args & _ & _ & ->). apply obind_np; [apply (np_tuple_begin _ NP)|]. intros s.
    apply obind_np; [|apply (np_tuple_end _ NP)]. apply fold_o_np. intros s' [[xt xl] a]. apply (np_tuple_value _ NP).
Qed.

(** What is not handled. *)
Lemma any_deep a : forall comp, too_deep (mirror (tree_of a)) = true ->
  exists t l i, ends (fs_calls (acalls a) comp (S := S) fs_new) (e <- n_enum_begin S t l i ;; OPanic).
Proof.
  induction a using atree_ind'; intros comp Hv; try discriminate Hv.
  - destruct (IHa (val_comp b comp) Hv) as (t & l & i & E). exists t, l, i. apply any_val, E.
  - destruct (IHa comp Hv) as (t' & l & i & E). exists t', l, i. cbn [acalls]. ev_step. cbn [fs_step bind]. exact E.
  - exists t, (cloned l), i. apply any_enum. intros e. clear IHa. revert comp. cbn [tree_of mirror] in Hv.
    revert Hv. induction a using atree_ind'; intros Hv comp; try discriminate Hv.
    + apply enum_val, IHa, Hv.
    + cbn [acalls]. ev_step. cbn [fs_step bind]. apply IHa, Hv.
    + apply enum_push. apply enum_deep; [discriminate|exact Hv].
Qed.
Lemma any_refuses a : forall comp, handled1 (mirror (tree_of a)) = false -> too_deep (mirror (tree_of a)) = false ->
  exists t l i, ends (fs_calls (acalls a) comp (S := S) fs_new) (e <- n_enum_begin S t l i ;; OErr).
Proof.
  induction a using atree_ind'; intros comp Hv Hd; try discriminate Hv.
  - destruct (IHa (val_comp b comp) Hv Hd) as (t & l & i & E). exists t, l, i. apply any_val, E.
  - destruct (IHa comp Hv Hd) as (t' & l & i & E). exists t', l, i. cbn [acalls]. ev_step. cbn [fs_step bind]. exact E.
  - exists t, (cloned l), i. apply any_enum. intros e. apply enum_refuses. cbn [tree_of mirror] in *. clear IHa.
    assert (X : forall v, ends_in_variant v = inner_variant v || ends_in_fields v) by (induction v; try reflexivity; assumption).
    destruct (mirror (tree_of a)); try reflexivity; try discriminate Hv. cbn in Hv, Hd |- *. rewrite X, Hv, Hd. reflexivity.
Qed.
(** A failure after the value is complete. *)
Lemma any_fail_after a comp x : ends (fs_calls (acalls a) comp (S := S) fs_new) (OOk x) ->
  nested_value (S := S) comp (acalls a ++ [CFail]) = OOk x.
Proof. intros E. unfold nested_value. rewrite fs_calls_app, E. reflexivity. Qed.
End FlatStream.

(** ** Reading back *)
Section Read.
  Variable n : nat.
  Hypothesis IH : forall a m, handled (mirror (tree_of a)) = true -> levels (mirror (tree_of a)) <= n ->
    read n (m, acalls a) = OOk (mirror (tree_of a)).
  Notation R := (reader (read n)).

  Lemma read_child v r : child v r -> handled r = true -> levels r <= n -> read n v = OOk r.
  Proof. intros (a & E & M) H L. destruct v as [m cs]. cbn [snd] in E. subst cs r. apply IH; assumption. Qed.

  Lemma maxl_le (l : list nat) k : maxl l <= k <-> Forall (fun x => x <= k) l.
  Proof.
    unfold maxl. induction l as [|x l IHl]; cbn [fold_right]; [split; [constructor|lia]|]. split.
    - intros H. constructor; [lia|]. apply IHl. lia.
    - intros H. inversion H; subst. apply IHl in H3. lia.
  Qed.

  Lemma read_seq args vs : Forall2 child args vs -> forallb (handled_at false) vs = true ->
    Forall (fun x => x <= n) (map levels vs) ->
    forall k acc, fold_o (seq_value R) (k, acc) args = OOk (k, acc ++ vs).
  Proof.
    induction 1 as [|v r args vs C F IHF]; intros H L k acc; [cbn; rewrite app_nil_r; reflexivity|].
    cbn [forallb] in H. apply andb_true_iff in H as [H1 H2]. cbn [map] in L. inversion L as [|? ? L1 L2]; subst.
    cbn [fold_o seq_value reader]. rewrite (read_child v r C H1 L1). cbn [obind fst snd]. rewrite IHF by assumption.
    rewrite <- app_assoc. reflexivity.
  Qed.
  Lemma read_map args es : Forall2 (fun x e => match x, e with (a, b), (k, v) => child a k /\ child b v end) args es ->
    forallb (fun kv => match kv with (k, v) => handled_at false k && handled_at false v end) es = true ->
    Forall (fun x => x <= n) (map (fun kv => match kv with (k, v) => Nat.max (levels k) (levels v) end) es) ->
    forall k acc, exists o, fold_o (fun s x => match x with (a, b) => s1 <- map_key R s a ;; map_value R s1 b end) (k, acc, None) args =
      OOk (k, acc ++ es, o).
  Proof.
    induction 1 as [|[a b] [x v] args vs [Ca Cb] F IHF]; intros H L k acc; [cbn; rewrite app_nil_r; eexists; reflexivity|].
    cbn [forallb] in H. apply andb_true_iff in H as [H1 H2]. apply andb_true_iff in H1 as [Hx Hv].
    cbn [map] in L. inversion L as [|? ? L1 L2]; subst.
    cbn [fold_o map_key map_value reader]. rewrite (read_child a x Ca Hx) by lia. cbn [obind]. rewrite (read_child b v Cb Hv) by lia.
    cbn [obind]. destruct (IHF H2 L2 k (acc ++ [(x, v)])) as (o & E). exists o. etransitivity; [exact E|]. rewrite <- app_assoc. reflexivity.
  Qed.
  Section Fields.
    Variable H : Type.
    Lemma read_tuple args fs :
      Forall2 (fun x f => match x, f with (xt, xi, a), (ft, fi, v) => xt = ft /\ xi = fi /\ child a v end) args fs ->
      forallb (fun f => match f with (_, _, v) => handled_at false v end) fs = true ->
      Forall (fun x => x <= n) (map (fun f => match f with (_, _, v) => levels v end) fs) ->
      forall (h : H) acc, fold_o (fun (s : H * list (option tag * index * rview)) x => match x with (xt, xi, a) => v <- read n a ;; OOk (fst s, snd s ++ [(xt, xi, v)]) end) (h, acc) args =
        OOk (h, acc ++ fs).
    Proof.
      induction 1 as [|[[xt xi] a] [[ft fi] v] args fs (-> & -> & C) F IHF]; intros Hh L h acc; [cbn; rewrite app_nil_r; reflexivity|].
      cbn [forallb] in Hh. apply andb_true_iff in Hh as [H1 H2]. cbn [map] in L. inversion L as [|? ? L1 L2]; subst.
      cbn [fold_o]. rewrite (read_child a v C H1 L1). cbn [obind fst snd]. rewrite IHF by assumption. rewrite <- app_assoc. reflexivity.
    Qed.
    Lemma read_record args fs :
      Forall2 (fun x f => match x, f with (xt, xl, a), (ft, fl, v) => xt = ft /\ kept_label xl = fl /\ child a v end) args fs ->
      forallb (fun f => match f with (_, _, v) => handled_at false v end) fs = true ->
      Forall (fun x => x <= n) (map (fun f => match f with (_, _, v) => levels v end) fs) ->
      forall (h : H) acc, fold_o (fun (s : H * list (option tag * label * rview)) x => match x with (xt, xl, a) => v <- read n a ;; OOk (fst s, snd s ++ [(xt, kept_label xl, v)]) end) (h, acc) args =
        OOk (h, acc ++ fs).
    Proof.
      induction 1 as [|[[xt xl] a] [[ft fl] v] args fs (-> & E & C) F IHF]; intros Hh L h acc; [cbn; rewrite app_nil_r; reflexivity|].
      cbn [forallb] in Hh. apply andb_true_iff in Hh as [H1 H2]. cbn [map] in L. inversion L as [|? ? L1 L2]; subst.
      cbn [fold_o]. rewrite (read_child a v C H1 L1). cbn [obind fst snd]. rewrite IHF by assumption. rewrite <- app_assoc. reflexivity.
    Qed.
  End Fields.

  Lemma handled_children b v : handled_at b v = true ->
    match v with
    | RTagged _ _ _ v => handled_at false v
    | REnum _ _ _ v => handled_at true v
    | RSeq _ vs => forallb (handled_at false) vs
    | RMap _ es => forallb (fun kv => match kv with (k, v) => handled_at false k && handled_at false v end) es
    | RTuple _ _ _ _ fs => forallb (fun f => match f with (_, _, v) => handled_at false v end) fs
    | RRecord _ _ _ _ fs => forallb (fun f => match f with (_, _, v) => handled_at false v end) fs
    | _ => true
    end = true.
  Proof. destruct v; cbn [handled_at]; intros H; apply andb_true_iff in H; tauto. Qed.

  Lemma read_variant r : forall g, variant_answer R r g -> handled_at true r = true -> levels r <= S n ->
    forall et el ei, g (et, el, ei) = OOk (REnum et el ei r).
  Proof.
    induction r; cbn [variant_answer]; intros g Hg Hh L et el ei; try contradiction.
    - destruct Hg as (l' & E & ->). cbn [enum_tag reader]. rewrite E. reflexivity.
    - destruct Hg as (l' & a & E & C & ->). apply handled_children in Hh. cbn [enum_tagged reader levels] in *.
      rewrite (read_child _ _ C Hh) by lia. cbn [obind]. rewrite E. reflexivity.
    - destruct Hg as (l' & g' & E & V & ->). apply handled_children in Hh. cbn [enum_nested reader levels] in *.
      rewrite (IHr g' V Hh) by lia. cbn [obind]. rewrite E. reflexivity.
    - destruct Hg as (l' & args & E & F & ->). apply handled_children in Hh. cbn [levels] in *.
      cbn [enum_record_begin vrecord_value vrecord_end n_vrecord reader obind].
      rewrite (read_record _ args fs F Hh) by (apply maxl_le; lia). cbn [obind app]. rewrite E. reflexivity.
    - destruct Hg as (l' & args & E & F & ->). apply handled_children in Hh. cbn [levels] in *.
      cbn [enum_tuple_begin vtuple_value vtuple_end n_vtuple reader obind].
      rewrite (read_tuple _ args fs F Hh) by (apply maxl_le; lia). cbn [obind app]. rewrite E. reflexivity.
  Qed.
  Lemma read_answer r : forall o, answer R r o -> handled r = true -> levels r <= S n -> o = OOk r.
  Proof.
    destruct r; cbn [answer]; intros o Ho Hh L; try (subst o; reflexivity).
    - destruct Ho as (x & ->). reflexivity.
    - destruct Ho as (x & ->). reflexivity.
    - destruct Ho as (l' & E & ->). cbn [n_tag reader]. rewrite E. reflexivity.
    - destruct Ho as (l' & a & E & C & ->). apply handled_children in Hh. cbn [n_tagged reader levels] in *.
      rewrite (read_child _ _ C Hh) by lia. cbn [obind]. rewrite E. reflexivity.
    - destruct Ho as (l' & g' & E & V & ->). apply handled_children in Hh. cbn [n_enum_begin reader levels obind] in *.
      rewrite (read_variant _ g' V Hh) by lia. rewrite E. reflexivity.
    - destruct Ho as (args & F & ->). apply handled_children in Hh. cbn [levels] in *.
      cbn [n_seq_begin seq_end n_seq reader obind]. rewrite (read_seq args vs F Hh) by (apply maxl_le; lia). reflexivity.
    - destruct Ho as (args & F & ->). apply handled_children in Hh. cbn [levels] in *.
      cbn [n_map_begin map_end n_map reader obind]. destruct (read_map args es F Hh) with (k := n0) (acc := @nil (rview * rview)) as (o & E); [apply maxl_le; lia|].
      match goal with |- obind ?w _ = _ => change w with (fold_o (fun (s : n_map R) (x : arg * arg) => let (a, b) := x in s1 <- map_key R s a ;; map_value R s1 b) (n0, [], None) args) end.
      rewrite E. reflexivity.
    - destruct Ho as (l' & args & E & F & ->). apply handled_children in Hh. cbn [levels] in *.
      cbn [n_record_begin record_value record_end n_record reader obind].
      rewrite (read_record _ args fs F Hh) by (apply maxl_le; lia). cbn [obind app]. rewrite E. reflexivity.
    - destruct Ho as (l' & args & E & F & ->). apply handled_children in Hh. cbn [levels] in *.
      cbn [n_tuple_begin tuple_value tuple_end n_tuple reader obind].
      rewrite (read_tuple _ args fs F Hh) by (apply maxl_le; lia). cbn [obind app]. rewrite E. reflexivity.
  Qed.
End Read.

Lemma handled_1 v : handled v = true -> handled1 v = true.
Proof. unfold handled. destruct v; cbn [handled_at orb]; intros H; apply andb_true_iff in H; tauto. Qed.

Lemma nested_answers S comp a : handled1 (mirror (tree_of a)) = true ->
  answer S (mirror (tree_of a)) (nested_value (S := S) comp (acalls a)).
Proof. intros H. destruct (any_answers (S := S) a comp H) as (o & A & E). unfold nested_value. rewrite <- (ends_settled _ _ E) in A. exact A. Qed.

Lemma read_all n : forall a m, handled (mirror (tree_of a)) = true -> levels (mirror (tree_of a)) <= n ->
  read n (m, acalls a) = OOk (mirror (tree_of a)).
Proof.
  induction n as [|n IH]; intros a m Hh L.
  - destruct (mirror (tree_of a)); cbn in L; lia.
  - cbn [read fst snd]. apply (read_answer n IH (mirror (tree_of a))); [|exact Hh|exact L]. apply nested_answers, handled_1, Hh.
Qed.

(** ** The protocol events of a value that recurses *)
Fixpoint stree (comp : bool) (a : atree) : tree :=
  match a with
  | AVal b v => stree (if b then comp else true) v
  | ANull => TNull
  | ABool b => TBool b
  | AInt t z => TInt t z
  | AF32 f => TF32 f
  | AF64 f => TF64 f
  | AText n fs => TText n (frags_as comp fs)
  | ABin n fs => TBin n (frags_as comp fs)
  | ATag t l i => TTag t l i
  | AHint t v => THint t (stree comp v)
  | ATagged t l i v => TTagged t l i (stree comp v)
  | AEnum t l i v => TEnum t l i (stree comp v)
  | ASeq _ n vs => TSeq n (map (stree comp) vs)
  | AMap n es => TMap n (map (fun kv => match kv with (k, v) => (stree comp k, stree comp v) end) es)
  | ARecord t l i n fs => TRecord t l i n (map (fun f => match f with (ft, fl, v) => (ft, fl, stree comp v) end) fs)
  | ATuple t l i n fs => TTuple t l i n (map (fun f => match f with (ft, fi, v) => (ft, fi, stree comp v) end) fs)
  | ARecTup t l i n fs =>
      TRecTup t l i n (map (fun f => match f with (ft, fl, fi, v) => (ft, fl, fi, stree comp v) end) fs)
  end.

Lemma stree_mirror a : forall comp, mirror (stree comp a) = mirror (tree_of a).
Proof.
  induction a using atree_ind'; intros comp; cbn [stree tree_of mirror]; try reflexivity; try (rewrite ?frags_as_content; reflexivity); try (f_equal; auto; fail).
  - apply IHa.
  - apply IHa.
  - f_equal. rewrite !map_map. apply map_ext_Forall. eapply Forall_impl; [|exact H]. auto.
  - f_equal. rewrite !map_map. apply map_ext_Forall. eapply Forall_impl; [|exact H]. intros [k v] [K V]. cbn [fst snd] in *. rewrite K, V. reflexivity.
  - f_equal. rewrite !map_map. apply map_ext_Forall. eapply Forall_impl; [|exact H]. intros [[ft fl] v] V. cbn [fst snd] in *. rewrite V. reflexivity.
  - f_equal. rewrite !map_map. apply map_ext_Forall. eapply Forall_impl; [|exact H]. intros [[ft fl] v] V. cbn [fst snd] in *. rewrite V. reflexivity.
  - f_equal. rewrite !map_map. apply map_ext_Forall. eapply Forall_impl; [|exact H]. intros [[[ft fl] fi] v] V. cbn [fst snd] in *. rewrite V. reflexivity.
Qed.

Lemma flat_events comp es : flat (map CE es) comp = (map (as_computed comp) es, true).
Proof. induction es as [|e es IH]; [reflexivity|]. cbn [map]. rewrite flat_cons, flat1_CE, IH. reflexivity. Qed.
Lemma flat_wrap comp b e cs es : computed b = b -> computed e = e -> flat cs comp = (es, true) ->
  flat (CE b :: cs ++ [CE e]) comp = (b :: es ++ [e], true).
Proof.
  intros Cb Ce F. rewrite (flat_CE' b _ comp (es ++ [e])); [destruct comp; rewrite ?Cb; reflexivity|].
  apply flat_app_ok; [exact F|]. destruct comp; cbn; rewrite ?Ce; reflexivity.
Qed.
Lemma flat_list {A} comp (f : A -> list call) (g : A -> list ev) l : Forall (fun x => flat (f x) comp = (g x, true)) l ->
  flat (flat_map f l) comp = (flat_map g l, true).
Proof. induction 1; [reflexivity|]. cbn [flat_map]. apply flat_app_ok; assumption. Qed.
Lemma flat_map_map' {A B C} (f : A -> B) (g : B -> list C) l : flat_map g (map f l) = flat_map (fun x => g (f x)) l.
Proof. induction l; cbn; congruence. Qed.

Lemma stree_flat a : forall comp, marked_seqs a = true -> flat (acalls a) comp = (emit (stree comp a), true).
Proof.
  induction a using atree_ind'; intros comp Hm; try (destruct comp; reflexivity).
  - cbn [stree acalls marked_seqs] in *. destruct b; rewrite flat_cons, ?flat1_CV, ?flat1_CVC, IHa by exact Hm; cbn; rewrite app_nil_r; reflexivity.
  - rewrite text_events, flat_events, text_as. reflexivity.
  - rewrite bin_events, flat_events, bin_as. reflexivity.
  - cbn [stree acalls emit]. rewrite (flat_CE' _ _ _ _ (IHa comp Hm)). destruct comp; reflexivity.
  - cbn [stree acalls emit]. apply flat_wrap; [reflexivity|reflexivity|]. apply IHa, Hm.
  - cbn [stree acalls emit]. apply flat_wrap; [reflexivity|reflexivity|]. apply IHa, Hm.
  - cbn [marked_seqs] in Hm. apply andb_true_iff in Hm as [-> Hm]. cbn [stree acalls emit]. apply flat_wrap; [reflexivity|reflexivity|].
    rewrite flat_map_map'. apply flat_list. rewrite forallb_forall in Hm. rewrite Forall_forall in *. intros v Hv.
    apply flat_wrap; [reflexivity|reflexivity|]. apply H; auto.
  - cbn [marked_seqs] in Hm. cbn [stree acalls emit]. apply flat_wrap; [reflexivity|reflexivity|].
    rewrite flat_map_map'. apply flat_list. rewrite forallb_forall in Hm. rewrite Forall_forall in *. intros [k v] Hv.
    destruct (H _ Hv) as [K V]. cbn [fst snd] in *. apply Hm in Hv. apply andb_true_iff in Hv as [Mk Mv].
    assert (X : forall a b : list call, CE EMapKeyBegin :: a ++ CE EMapKeyEnd :: CE EMapValBegin :: b ++ [CE EMapValEnd]
                = (CE EMapKeyBegin :: a ++ [CE EMapKeyEnd]) ++ (CE EMapValBegin :: b ++ [CE EMapValEnd])).
    { intros. cbn. rewrite <- app_assoc. reflexivity. }
    rewrite X. replace (EMapKeyBegin :: emit (stree comp k) ++ EMapKeyEnd :: EMapValBegin :: emit (stree comp v) ++ [EMapValEnd])
      with ((EMapKeyBegin :: emit (stree comp k) ++ [EMapKeyEnd]) ++ (EMapValBegin :: emit (stree comp v) ++ [EMapValEnd]))
      by (cbn; rewrite <- app_assoc; reflexivity).
    apply flat_app_ok; (apply flat_wrap; [reflexivity|reflexivity|]); auto.
  - cbn [marked_seqs] in Hm. cbn [stree acalls emit]. apply flat_wrap; [reflexivity|reflexivity|].
    rewrite flat_map_map'. apply flat_list. rewrite forallb_forall in Hm. rewrite Forall_forall in *. intros [[ft fl] v] Hv.
    apply flat_wrap; [reflexivity|reflexivity|]. apply (H _ Hv), (Hm _ Hv).
  - cbn [marked_seqs] in Hm. cbn [stree acalls emit]. apply flat_wrap; [reflexivity|reflexivity|].
    rewrite flat_map_map'. apply flat_list. rewrite forallb_forall in Hm. rewrite Forall_forall in *. intros [[ft fl] v] Hv.
    apply flat_wrap; [reflexivity|reflexivity|]. apply (H _ Hv), (Hm _ Hv).
  - cbn [marked_seqs] in Hm. cbn [stree acalls emit]. apply flat_wrap; [reflexivity|reflexivity|].
    rewrite flat_map_map'. apply flat_list. rewrite forallb_forall in Hm. rewrite Forall_forall in *. intros [[[ft fl] fi] v] Hv.
    apply flat_wrap; [reflexivity|reflexivity|]. apply (H _ Hv), (Hm _ Hv).
Qed.
