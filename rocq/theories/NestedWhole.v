(** * NestedWhole: every well-formed value is a value tree with places where it
    recurses *)

From Verif Require Import Base Event Tree FlatProofs BufferSpec BufferProofs NestedModel NestedSpec NestedProofs.

(** ** The calls of a value tree are a prefix-free code *)
Definition is_start (e : ev) : bool :=
  match e with
  | ENull | EBool _ | EInt _ _ | EF32 _ | EF64 _ | ETextBegin _ | EBinBegin _ | ETag _ _ _ | ETagHint _ | ETaggedBegin _ _ _
  | EEnumBegin _ _ _ | ESeqBegin _ | EMapBegin _ | ERecordBegin _ _ _ _ | ETupleBegin _ _ _ _ | ERecTupBegin _ _ _ _ => true
  | _ => false
  end.
Definition is_frag (e : ev) : bool :=
  match e with ETextFrag _ | ETextFragC _ | EBinFrag _ | EBinFragC _ => true | _ => false end.
Definition marker (e : ev) : bool := negb (is_start e) && negb (is_frag e).

Lemma emit_head t : exists e es, emit t = e :: es /\ is_start e = true.
Proof. destruct t; cbn [emit]; eexists; eexists; split; reflexivity. Qed.
Lemma emit_not_marker t r e es : emit t ++ r = e :: es -> is_start e = true.
Proof. destruct (emit_head t) as (e0 & es0 & E & St). rewrite E. cbn. intros H. injection H as -> _. exact St. Qed.

Lemma list_prefix {A} (g : A -> list ev) (e : ev) l :
  Forall (fun x => forall x' r r', g x ++ r = g x' ++ r' -> x = x' /\ r = r') l ->
  (forall x r r', g x ++ r <> e :: r') ->
  forall l' r r', flat_map g l ++ e :: r = flat_map g l' ++ e :: r' -> l = l' /\ r = r'.
Proof.
  intros F N. induction F as [|x l Hx _ IH]; intros [|x' l'] r r' H; cbn [flat_map app] in H.
  - injection H as H. auto.
  - exfalso. rewrite <- app_assoc in H. exact (N _ _ _ (eq_sym H)).
  - exfalso. rewrite <- app_assoc in H. exact (N _ _ _ H).
  - rewrite <- !app_assoc in H. apply Hx in H as [-> H]. apply IH in H as [-> ->]. auto.
Qed.
Lemma text_frag_inj f f' : text_frag f = text_frag f' -> f = f'.
Proof. destruct f as [[|] s], f' as [[|] s']; cbn; intros H; try discriminate; injection H as ->; reflexivity. Qed.
Lemma bin_frag_inj f f' : bin_frag f = bin_frag f' -> f = f'.
Proof. destruct f as [[|] s], f' as [[|] s']; cbn; intros H; try discriminate; injection H as ->; reflexivity. Qed.
Lemma frags_prefix (g : bool * bytes -> ev) (e : ev) : (forall f f', g f = g f' -> f = f') -> (forall f, g f <> e) ->
  forall fs fs' r r', map g fs ++ e :: r = map g fs' ++ e :: r' -> fs = fs' /\ r = r'.
Proof.
  intros I N. induction fs as [|f fs IH]; intros [|f' fs'] r r' H; cbn [map app] in H.
  - injection H as H. auto.
  - injection H as H _. destruct (N f' (eq_sym H)).
  - injection H as H _. destruct (N f H).
  - injection H as H1 H2. apply I in H1 as ->. apply IH in H2 as [-> ->]. auto.
Qed.
Lemma wrapped_prefix {A} (P : A -> list ev) (b e : ev) (v v' : A) r r' :
  (forall r r', P v ++ r = P v' ++ r' -> v = v' /\ r = r') ->
  b :: (P v ++ [e]) ++ r = b :: (P v' ++ [e]) ++ r' -> v = v' /\ r = r'.
Proof. intros H E. injection E as E. rewrite <- !app_assoc in E. apply H in E as [-> E]. injection E as ->. auto. Qed.

Lemma emit_prefix t : forall t' r r', emit t ++ r = emit t' ++ r' -> t = t' /\ r = r'.
Proof.
  induction t using tree_ind'; intros t' r r' E; destruct t'; cbn [emit app] in E; try discriminate E.
  - injection E as ->. auto.
  - injection E as -> ->. auto.
  - injection E as -> -> ->. auto.
  - injection E as -> ->. auto.
  - injection E as -> ->. auto.
  - rewrite <- !app_assoc in E. cbn [app] in E. injection E as -> E.
    apply (frags_prefix text_frag ETextEnd text_frag_inj) in E as [-> ->]; [auto|intros [[|] ?]; discriminate].
  - rewrite <- !app_assoc in E. cbn [app] in E. injection E as -> E.
    apply (frags_prefix bin_frag EBinEnd bin_frag_inj) in E as [-> ->]; [auto|intros [[|] ?]; discriminate].
  - injection E as -> -> -> ->. auto.
  - injection E as -> E. apply IHt in E as [-> ->]. auto.
  - rewrite <- !app_assoc in E. cbn [app] in E. injection E as -> -> -> E. apply IHt in E as [-> E]. injection E as ->. auto.
  - rewrite <- !app_assoc in E. cbn [app] in E. injection E as -> -> -> E. apply IHt in E as [-> E]. injection E as ->. auto.
  - rewrite <- !app_assoc in E. cbn [app] in E. injection E as -> E. apply list_prefix in E as [-> ->]; [auto| |discriminate].
    eapply Forall_impl; [|exact H]. intros x Hx x' q q' X. cbn [app] in X. rewrite <- !app_assoc in X. cbn [app] in X. injection X as X.
    apply Hx in X as [-> X]. injection X as ->. auto.
  - rewrite <- !app_assoc in E. cbn [app] in E. injection E as -> E. apply list_prefix in E as [-> ->]; [auto| |].
    + eapply Forall_impl; [|exact H]. intros [k v] [Hk Hv] [k' v'] q q' X. cbn [fst snd] in *. cbn [app] in X. rewrite <- !app_assoc in X. cbn [app] in X. injection X as X.
      apply Hk in X as [-> X]. injection X as X. rewrite <- !app_assoc in X. apply Hv in X as [-> X]. injection X as ->. auto.
    + intros [k v] q q'. discriminate.
  - rewrite <- !app_assoc in E. cbn [app] in E. injection E as -> -> -> -> E. apply list_prefix in E as [-> ->]; [auto| |].
    + eapply Forall_impl; [|exact H]. intros [[ft fl] v] Hv [[ft' fl'] v'] q q' X. cbn [fst snd] in *. cbn [app] in X. rewrite <- !app_assoc in X. cbn [app] in X. injection X as -> -> X.
      apply Hv in X as [-> X]. injection X as ->. auto.
    + intros [[ft fl] v] q q'. discriminate.
  - rewrite <- !app_assoc in E. cbn [app] in E. injection E as -> -> -> -> E. apply list_prefix in E as [-> ->]; [auto| |].
    + eapply Forall_impl; [|exact H]. intros [[ft fl] v] Hv [[ft' fl'] v'] q q' X. cbn [fst snd] in *. cbn [app] in X. rewrite <- !app_assoc in X. cbn [app] in X. injection X as -> -> X.
      apply Hv in X as [-> X]. injection X as ->. auto.
    + intros [[ft fl] v] q q'. discriminate.
  - rewrite <- !app_assoc in E. cbn [app] in E. injection E as -> -> -> -> E. apply list_prefix in E as [-> ->]; [auto| |].
    + eapply Forall_impl; [|exact H]. intros [[[ft fl] fi] v] Hv [[[ft' fl'] fi'] v'] q q' X. cbn [fst snd] in *. cbn [app] in X. rewrite <- !app_assoc in X. cbn [app] in X. injection X as -> -> -> X.
      apply Hv in X as [-> X]. injection X as ->. auto.
    + intros [[[ft fl] fi] v] q q'. discriminate.
Qed.

(** ** A tree as a value that never recurses *)
Fixpoint plain (t : tree) : atree :=
  match t with
  | TNull => ANull
  | TBool b => ABool b
  | TInt t z => AInt t z
  | TF32 f => AF32 f
  | TF64 f => AF64 f
  | TText n fs => AText n fs
  | TBin n fs => ABin n fs
  | TTag t l i => ATag t l i
  | THint t v => AHint t (plain v)
  | TTagged t l i v => ATagged t l i (plain v)
  | TEnum t l i v => AEnum t l i (plain v)
  | TSeq n vs => ASeq true n (map plain vs)
  | TMap n es => AMap n (map (fun kv => match kv with (k, v) => (plain k, plain v) end) es)
  | TRecord t l i n fs => ARecord t l i n (map (fun f => match f with (ft, fl, v) => (ft, fl, plain v) end) fs)
  | TTuple t l i n fs => ATuple t l i n (map (fun f => match f with (ft, fl, v) => (ft, fl, plain v) end) fs)
  | TRecTup t l i n fs => ARecTup t l i n (map (fun f => match f with (ft, fl, fi, v) => (ft, fl, fi, plain v) end) fs)
  end.
Lemma map_flat_map {A B C} (f : B -> C) (g : A -> list B) l : map f (flat_map g l) = flat_map (fun x => map f (g x)) l.
Proof. induction l; cbn; [reflexivity|]. rewrite map_app. congruence. Qed.
Lemma flat_map_ext_Forall {A B} (f g : A -> list B) l : Forall (fun x => f x = g x) l -> flat_map f l = flat_map g l.
Proof. induction 1; cbn; congruence. Qed.
Lemma plain_calls t : acalls (plain t) = map CE (emit t).
Proof.
  induction t using tree_ind'; try reflexivity.
  - cbn. rewrite map_app, map_map. reflexivity.
  - cbn. rewrite map_app, map_map. reflexivity.
  - cbn. rewrite IHt. reflexivity.
  - cbn. rewrite IHt, map_app. reflexivity.
  - cbn. rewrite IHt, map_app. reflexivity.
  - cbn [plain acalls emit map]. rewrite map_app, map_flat_map, flat_map_map'. do 2 f_equal. apply flat_map_ext_Forall.
    eapply Forall_impl; [|exact H]. intros v ->. cbn. rewrite map_app. reflexivity.
  - cbn [plain acalls emit map]. rewrite map_app, map_flat_map, flat_map_map'. do 2 f_equal. apply flat_map_ext_Forall.
    eapply Forall_impl; [|exact H]. intros [k v] [K V]. cbn [fst snd] in *. rewrite K, V. cbn. rewrite map_app. cbn. rewrite map_app. reflexivity.
  - cbn [plain acalls emit map]. rewrite map_app, map_flat_map, flat_map_map'. do 2 f_equal. apply flat_map_ext_Forall.
    eapply Forall_impl; [|exact H]. intros [[ft fl] v] V. cbn [fst snd] in *. rewrite V. cbn. rewrite map_app. reflexivity.
  - cbn [plain acalls emit map]. rewrite map_app, map_flat_map, flat_map_map'. do 2 f_equal. apply flat_map_ext_Forall.
    eapply Forall_impl; [|exact H]. intros [[ft fl] v] V. cbn [fst snd] in *. rewrite V. cbn. rewrite map_app. reflexivity.
  - cbn [plain acalls emit map]. rewrite map_app, map_flat_map, flat_map_map'. do 2 f_equal. apply flat_map_ext_Forall.
    eapply Forall_impl; [|exact H]. intros [[[ft fl] fi] v] V. cbn [fst snd] in *. rewrite V. cbn. rewrite map_app. reflexivity.
Qed.
Lemma plain_marked t : marked_seqs (plain t) = true.
Proof.
  assert (L : forall A (f : A -> bool) l, Forall (fun x => f x = true) l -> forallb f l = true).
  { induction 1 as [|x l E _ IH]; [reflexivity|]. cbn. rewrite E. exact IH. }
  induction t using tree_ind'; try reflexivity; try exact IHt; cbn [plain marked_seqs andb]; apply L; apply Forall_map;
    (eapply Forall_impl; [|exact H]).
  - auto.
  - intros [k v] [K V]. cbn [fst snd] in *. rewrite K. exact V.
  - intros [[ft fl] v] V. exact V.
  - intros [[ft fl] v] V. exact V.
  - intros [[[ft fl] fi] v] V. exact V.
Qed.
(** ** Through [Computed] *)
Lemma emit_computed t : map computed (emit t) = emit (stree true (plain t)).
Proof.
  pose proof (stree_flat (plain t) true (plain_marked t)) as E. rewrite plain_calls, flat_events in E. injection E as E. exact E.
Qed.

(** ** Decomposition *)
Fixpoint csize (c : call) : nat :=
  match c with
  | CV cs | CVC cs => 1 + fold_right (fun c n => csize c + n) 0 cs
  | _ => 1
  end.
Definition size (cs : list call) : nat := fold_right (fun c n => csize c + n) 0 cs.
Lemma csize_pos c : 1 <= csize c.
Proof. destruct c; cbn; lia. Qed.
Lemma size_cons c cs : size (c :: cs) = csize c + size cs.
Proof. reflexivity. Qed.
Lemma size_CV cs : csize (CV cs) = 1 + size cs.
Proof. reflexivity. Qed.
Lemma size_CVC cs : csize (CVC cs) = 1 + size cs.
Proof. reflexivity. Qed.

Lemma streams_comp cs t comp : streams cs t -> exists t', flat cs comp = (emit t', true).
Proof.
  intros H. destruct comp; [|exists t; exact H]. exists (stree true (plain t)). rewrite flat_computed. unfold streams in H. rewrite H.
  cbn [fst snd]. rewrite emit_computed. reflexivity.
Qed.

(** A call: one event, or a whole value. *)
Lemma first_call c cs comp es : whole (c :: cs) -> flat (c :: cs) comp = (es, true) ->
  (exists e es', c = CE e /\ es = as_computed comp e :: es' /\ flat cs comp = (es', true)) \/
  (exists (b : bool) v t es', c = (if b then CV v else CVC v) /\ whole v /\ flat v (if b then comp else true) = (emit t, true) /\ es = emit t ++ es' /\ flat cs comp = (es', true)).
Proof.
  intros W F. inversion W as [|? ? Wc _]; subst. rewrite flat_cons in F. inversion Wc as [e|v t Wv St|v t Wv St]; subst.
  - rewrite flat1_CE in F. destruct (flat cs comp) as [es' ok] eqn:E. injection F as <- ->. left. exists e, es'. auto.
  - destruct (streams_comp v t comp St) as (t' & Ft). rewrite flat1_CV, Ft in F. destruct (flat cs comp) as [es' ok] eqn:E. injection F as <- ->.
    right. exists true, v, t', es'. auto.
  - destruct (streams_comp v t true St) as (t' & Ft). rewrite flat1_CVC, Ft in F. destruct (flat cs comp) as [es' ok] eqn:E. injection F as <- ->.
    right. exists false, v, t', es'. auto.
Qed.

Lemma as_computed_id comp e e' : as_computed comp e = e' -> is_frag e' = false -> e = e'.
Proof. unfold as_computed. destruct comp; [|auto]. destruct e; cbn; intros <- H; try reflexivity; discriminate H. Qed.

Lemma next_marker cs comp e r : whole cs -> flat cs comp = (e :: r, true) -> marker e = true ->
  exists cs', cs = CE e :: cs' /\ flat cs' comp = (r, true) /\ whole cs'.
Proof.
  intros W F M. unfold marker in M. apply andb_true_iff in M as [M1 M2]. apply negb_true_iff in M1, M2.
  destruct cs as [|c cs]; [discriminate F|]. pose proof W as W'. inversion W' as [|? ? _ Ws]; subst.
  destruct (first_call c cs comp _ W F) as [(e0 & es' & -> & E & F')|(b & v & t & es' & -> & Wv & Fv & E & F')].
  - injection E as E ->. symmetry in E. apply as_computed_id in E as ->; [|exact M2]. exists cs. auto.
  - symmetry in E. apply emit_not_marker in E. congruence.
Qed.
Lemma next_start cs comp e r : whole cs -> flat cs comp = (e :: r, true) -> is_start e = true ->
  (exists cs', cs = CE e :: cs' /\ flat cs' comp = (r, true) /\ whole cs') \/
  (exists (b : bool) v t cs' es', cs = (if b then CV v else CVC v) :: cs' /\ whole v /\ flat v (if b then comp else true) = (emit t, true) /\
     e :: r = emit t ++ es' /\ flat cs' comp = (es', true) /\ whole cs').
Proof.
  intros W F St. destruct cs as [|c cs]; [discriminate F|]. pose proof W as W'. inversion W' as [|? ? _ Ws]; subst.
  destruct (first_call c cs comp _ W F) as [(e0 & es' & -> & E & F')|(b & v & t & es' & -> & Wv & Fv & E & F')].
  - left. injection E as E ->. symmetry in E. apply as_computed_id in E as ->; [exists cs; auto|]. destruct e; try discriminate St; reflexivity.
  - right. exists b, v, t, cs, es'. repeat split; auto.
Qed.

(** Fragments. *)
Lemma next_frags (g : bool * bytes -> ev) (e : ev) comp : marker e = true ->
  (forall f, is_frag (g f) = true) ->
  (forall f e', as_computed comp e' = g f -> exists b, e' = g (b, snd f) /\ (if comp then false else b, snd f) = f) ->
  forall fs cs r, whole cs -> flat cs comp = (map g fs ++ e :: r, true) ->
  exists fs' cs', cs = map (fun f => CE (g f)) fs' ++ CE e :: cs' /\ frags_as comp fs' = fs /\ flat cs' comp = (r, true) /\ whole cs'.
Proof.
  intros M Fr Inv. induction fs as [|f fs IH]; intros cs r W F; cbn [map app] in F.
  - destruct (next_marker cs comp e r W F M) as (cs' & -> & F' & W'). exists [], cs'. auto.
  - destruct cs as [|c cs]; [discriminate F|]. pose proof W as W'. inversion W' as [|? ? _ Ws]; subst.
    destruct (first_call c cs comp _ W F) as [(e0 & es' & -> & E & F')|(b & v & t & es' & -> & Wv & Fv & E & F')].
    + injection E as E <-. symmetry in E. apply Inv in E as (b & -> & Ef). destruct (IH cs r Ws F') as (fs' & cs' & -> & <- & F2 & W2).
      exists ((b, snd f) :: fs'), cs'. repeat split; auto. cbn [frags_as map fst snd]. rewrite Ef. reflexivity.
    + exfalso. symmetry in E. apply emit_not_marker in E. specialize (Fr f). destruct (g f); discriminate.
Qed.

(** A decomposed prefix of the calls. *)
Definition splits (comp : bool) (t : tree) (cs : list call) (r : list ev) : Prop :=
  exists a cs', cs = acalls a ++ cs' /\ flat cs' comp = (r, true) /\ stree comp a = t /\ marked_seqs a = true /\ whole cs'.

Lemma size_app a b : size (a ++ b) = size a + size b.
Proof. unfold size. induction a; cbn [app fold_right]; lia. Qed.

(** The children of a node, each between two markers. *)
Lemma split_items {A} (ff : A -> ev) (val : A -> tree) (lst : A -> ev) (e : ev) n comp :
  (forall cs, size cs < n -> forall t r, whole cs -> flat cs comp = (emit t ++ r, true) -> splits comp t cs r) ->
  marker e = true -> (forall x, marker (ff x) = true) -> (forall x, marker (lst x) = true) ->
  forall l cs r, size cs < n -> whole cs ->
  flat cs comp = (flat_map (fun x => ff x :: emit (val x) ++ [lst x]) l ++ e :: r, true) ->
  exists ls cs', cs = flat_map (fun xa : A * atree => CE (ff (fst xa)) :: acalls (snd xa) ++ [CE (lst (fst xa))]) ls ++ CE e :: cs' /\
    flat cs' comp = (r, true) /\ whole cs' /\ map fst ls = l /\
    Forall (fun xa => stree comp (snd xa) = val (fst xa) /\ marked_seqs (snd xa) = true) ls.
Proof.
  intros IH Me Mf Ml. induction l as [|x l IHl]; intros cs r Sz W F; cbn [flat_map app] in F.
  - destruct (next_marker cs comp e r W F Me) as (cs' & -> & F' & W'). exists [], cs'. repeat split; auto.
  - rewrite <- !app_assoc in F. cbn [app] in F.
    destruct (next_marker cs comp _ _ W F (Mf x)) as (c1 & -> & F1 & W1). rewrite size_cons in Sz. pose proof (csize_pos (CE (ff x))).
    destruct (IH c1 ltac:(lia) (val x) _ W1 F1) as (a & c2 & -> & F2 & Ea & Ma & W2). rewrite size_app in Sz.
    cbn [app] in F2. destruct (next_marker c2 comp _ _ W2 F2 (Ml x)) as (c3 & -> & F3 & W3). rewrite size_cons in Sz.
    destruct (IHl c3 r ltac:(lia) W3 F3) as (ls & cs' & -> & F4 & W4 & El & Fl).
    exists ((x, a) :: ls), cs'. cbn [flat_map fst snd]. rewrite <- !app_assoc. cbn [app]. rewrite <- !app_assoc. cbn [app].
    repeat split; auto. cbn [map fst]. congruence.
Qed.

Lemma map_items {A B C} (f : A -> B -> C) (g : A -> C) (ls : list (A * B)) (P : B -> Prop) :
  Forall (fun xa => f (fst xa) (snd xa) = g (fst xa) /\ P (snd xa)) ls -> map (fun xa => f (fst xa) (snd xa)) ls = map g (map fst ls).
Proof. intros F. rewrite map_map. apply map_ext_Forall. eapply Forall_impl; [|exact F]. intros xa [E _]. exact E. Qed.
Lemma forallb_items {A B} (f : B -> bool) (ls : list (A * B)) (Q : A * B -> Prop) :
  Forall (fun xa => Q xa /\ f (snd xa) = true) ls -> forallb (fun xa => f (snd xa)) ls = true.
Proof. intros F. apply forallb_forall. rewrite Forall_forall in F. intros x Hx. apply (F x Hx). Qed.

Lemma text_inv comp f e' : as_computed comp e' = text_frag f -> exists b, e' = text_frag (b, snd f) /\ (if comp then false else b, snd f) = f.
Proof.
  destruct f as [b s]. unfold as_computed. destruct comp, b, e'; cbn; intros X; try discriminate X; injection X as ->;
    first [exists true; split; reflexivity|exists false; split; reflexivity].
Qed.
Lemma bin_inv comp f e' : as_computed comp e' = bin_frag f -> exists b, e' = bin_frag (b, snd f) /\ (if comp then false else b, snd f) = f.
Proof.
  destruct f as [b s]. unfold as_computed. destruct comp, b, e'; cbn; intros X; try discriminate X; injection X as ->;
    first [exists true; split; reflexivity|exists false; split; reflexivity].
Qed.
Lemma text_is_frag f : is_frag (text_frag f) = true.
Proof. destruct f as [[|] ?]; reflexivity. Qed.
Lemma bin_is_frag f : is_frag (bin_frag f) = true.
Proof. destruct f as [[|] ?]; reflexivity. Qed.

(** The entries of a map. *)
Lemma split_entries n comp :
  (forall cs, size cs < n -> forall t r, whole cs -> flat cs comp = (emit t ++ r, true) -> splits comp t cs r) ->
  forall l cs r, size cs < n -> whole cs ->
  flat cs comp = (flat_map (fun kv => match kv with (k, v) =>
                  EMapKeyBegin :: emit k ++ EMapKeyEnd ::
                  EMapValBegin :: emit v ++ [EMapValEnd] end) l ++ EMapEnd :: r, true) ->
  exists ls cs', cs = flat_map (fun kv => match kv with (k, v) =>
                  CE EMapKeyBegin :: acalls k ++ CE EMapKeyEnd ::
                  CE EMapValBegin :: acalls v ++ [CE EMapValEnd] end) ls ++ CE EMapEnd :: cs' /\
    flat cs' comp = (r, true) /\ whole cs' /\ map (fun kv => match kv with (k, v) => (stree comp k, stree comp v) end) ls = l /\
    forallb (fun kv => match kv with (k, v) => marked_seqs k && marked_seqs v end) ls = true.
Proof.
  intros IH. induction l as [|[k v] l IHl]; intros cs r Sz W F; cbn [flat_map app] in F.
  - destruct (next_marker cs comp _ r W F eq_refl) as (cs' & -> & F' & W'). exists [], cs'. repeat split; auto.
  - rewrite <- !app_assoc in F. cbn [app] in F. rewrite <- !app_assoc in F. cbn [app] in F.
    destruct (next_marker cs comp _ _ W F eq_refl) as (c1 & -> & F1 & W1). rewrite size_cons in Sz. cbn [csize] in Sz.
    destruct (IH c1 ltac:(lia) k _ W1 F1) as (ka & c2 & -> & F2 & Ek & Mk & W2). rewrite size_app in Sz.
    destruct (next_marker c2 comp _ _ W2 F2 eq_refl) as (c3 & -> & F3 & W3). rewrite size_cons in Sz. cbn [csize] in Sz.
    destruct (next_marker c3 comp _ _ W3 F3 eq_refl) as (c4 & -> & F4 & W4). rewrite size_cons in Sz. cbn [csize] in Sz.
    destruct (IH c4 ltac:(lia) v _ W4 F4) as (va & c5 & -> & F5 & Ev & Mv & W5). rewrite size_app in Sz.
    destruct (next_marker c5 comp _ _ W5 F5 eq_refl) as (c6 & -> & F6 & W6). rewrite size_cons in Sz. cbn [csize] in Sz.
    destruct (IHl c6 r ltac:(lia) W6 F6) as (ls & cs' & -> & F7 & W7 & El & Fl).
    exists ((ka, va) :: ls), cs'. cbn [flat_map map forallb]. rewrite Ek, Ev, El, Mk, Mv, Fl.
    rewrite <- !app_assoc. cbn [app]. rewrite <- !app_assoc. cbn [app]. rewrite <- !app_assoc. cbn [app]. repeat split; auto.
Qed.

Lemma split_tree n : forall cs, size cs < n -> forall comp t r, whole cs -> flat cs comp = (emit t ++ r, true) -> splits comp t cs r.
Proof.
  induction n as [|n IH]; intros cs Sz; [lia|]. intros comp t.
  (* a nested value *)
  assert (V : forall b v t' cs' es' r, cs = (if b : bool then CV v else CVC v) :: cs' -> whole v ->
                flat v (if b then comp else true) = (emit t', true) -> emit t ++ r = emit t' ++ es' -> flat cs' comp = (es', true) -> whole cs' ->
                splits comp t cs r).
  { intros b v t' cs' es' r -> Wv Fv E F' W'. apply emit_prefix in E as [<- <-]. rewrite size_cons in Sz.
    assert (Sv : size v < n) by (destruct b; rewrite ?size_CV, ?size_CVC in Sz; lia).
    rewrite <- (app_nil_r (emit t)) in Fv. destruct (IH v Sv _ t [] Wv Fv) as (a & c & -> & Fc & Ea & Ma & Wc).
    assert (c = []) as ->.
    { destruct c as [|x c]; [reflexivity|]. destruct (first_call x c _ _ Wc Fc) as [(? & ? & _ & X & _)|(? & ? & t1 & ? & _ & _ & _ & X & _)]; [discriminate X|].
      destruct (emit_head t1) as (? & ? & X' & _). rewrite X' in X. discriminate X. }
    exists (AVal b a), cs'. rewrite app_nil_r. destruct b; repeat split; auto. }
  assert (VS : forall e r0 r, emit t ++ r = e :: r0 -> whole cs -> flat cs comp = (e :: r0, true) ->
                (forall cs', cs = CE e :: cs' -> flat cs' comp = (r0, true) -> whole cs' -> size cs' < n -> splits comp t cs r) -> splits comp t cs r).
  { intros e r0 r E W F K. destruct (next_start cs comp e r0 W F) as [(cs' & -> & F' & W')|(b & v & t' & cs' & es' & Ec & Wv & Fv & E' & F' & W')].
    - apply emit_not_marker in E. exact E.
    - apply (K cs' eq_refl F' W'). rewrite size_cons in Sz. cbn [csize] in Sz. lia.
    - apply (V b v t' cs' es' r Ec Wv Fv); [congruence|exact F'|exact W']. }
  destruct t; intros r W F; cbn [emit app] in *.
  - refine (VS _ _ r eq_refl W F (fun cs' E F' W' S' => _)). exists ANull, cs'. repeat split; auto.
  - refine (VS _ _ r eq_refl W F (fun cs' E F' W' S' => _)). exists (ABool b), cs'. repeat split; auto.
  - refine (VS _ _ r eq_refl W F (fun cs' E F' W' S' => _)). exists (AInt t z), cs'. repeat split; auto.
  - refine (VS _ _ r eq_refl W F (fun cs' E F' W' S' => _)). exists (AF32 f), cs'. repeat split; auto.
  - refine (VS _ _ r eq_refl W F (fun cs' E F' W' S' => _)). exists (AF64 f), cs'. repeat split; auto.
  - refine (VS _ _ r eq_refl W F (fun cs' E F' W' S' => _)). rewrite <- app_assoc in F'. cbn [app] in F'.
    destruct (next_frags text_frag ETextEnd comp eq_refl text_is_frag (text_inv comp) fs cs' r W' F') as (fs' & c & -> & <- & F2 & W2).
    exists (AText n0 fs'), c. rewrite E. cbn [acalls app]. rewrite <- app_assoc. repeat split; auto.
  - refine (VS _ _ r eq_refl W F (fun cs' E F' W' S' => _)). rewrite <- app_assoc in F'. cbn [app] in F'.
    destruct (next_frags bin_frag EBinEnd comp eq_refl bin_is_frag (bin_inv comp) fs cs' r W' F') as (fs' & c & -> & <- & F2 & W2).
    exists (ABin n0 fs'), c. rewrite E. cbn [acalls app]. rewrite <- app_assoc. repeat split; auto.
  - refine (VS _ _ r eq_refl W F (fun cs' E F' W' S' => _)). exists (ATag t l i), cs'. repeat split; auto.
  - refine (VS _ _ r eq_refl W F (fun cs' E F' W' S' => _)). destruct (IH cs' S' comp t0 r W' F') as (a & c & -> & F2 & Ea & Ma & W2).
    exists (AHint t a), c. rewrite E. cbn [stree]. rewrite Ea. repeat split; auto.
  - refine (VS _ _ r eq_refl W F (fun cs' E F' W' S' => _)). rewrite <- app_assoc in F'. cbn [app] in F'.
    destruct (IH cs' S' comp t0 _ W' F') as (a & c & -> & F2 & Ea & Ma & W2).
    destruct (next_marker c comp _ _ W2 F2 eq_refl) as (c3 & -> & F3 & W3).
    exists (ATagged t l i a), c3. rewrite E. cbn [stree acalls app]. rewrite Ea, <- app_assoc. repeat split; auto.
  - refine (VS _ _ r eq_refl W F (fun cs' E F' W' S' => _)). rewrite <- app_assoc in F'. cbn [app] in F'.
    destruct (IH cs' S' comp t0 _ W' F') as (a & c & -> & F2 & Ea & Ma & W2).
    destruct (next_marker c comp _ _ W2 F2 eq_refl) as (c3 & -> & F3 & W3).
    exists (AEnum t l i a), c3. rewrite E. cbn [stree acalls app]. rewrite Ea, <- app_assoc. repeat split; auto.
  - refine (VS _ _ r eq_refl W F (fun cs' E F' W' S' => _)). rewrite <- app_assoc in F'. cbn [app] in F'.
    destruct (split_items (fun _ : tree => ESeqValBegin) (fun v => v) (fun _ => ESeqValEnd) ESeqEnd n comp
                (fun cs S => IH cs S comp) eq_refl (fun _ => eq_refl) (fun _ => eq_refl) vs cs' r S' W' F') as (ls & c & -> & F2 & W2 & El & Fl).
    exists (ASeq true n0 (map snd ls)), c. rewrite E. cbn [stree acalls app marked_seqs andb]. rewrite <- app_assoc, flat_map_map'.
    repeat split; auto.
    + f_equal. rewrite map_map. rewrite <- El. apply map_ext_Forall. eapply Forall_impl; [|exact Fl]. intros xa [X _]. exact X.
    + apply forallb_forall. intros a Ha. apply in_map_iff in Ha as (xa & <- & Ha). rewrite Forall_forall in Fl. apply (Fl _ Ha).
  - refine (VS _ _ r eq_refl W F (fun cs' E F' W' S' => _)). rewrite <- app_assoc in F'. cbn [app] in F'.
    destruct (split_entries n comp (fun cs S => IH cs S comp) es cs' r S' W' F') as (ls & c & -> & F2 & W2 & El & Fl).
    exists (AMap n0 ls), c. rewrite E. cbn [stree acalls app marked_seqs]. rewrite El, <- app_assoc. repeat split; auto.
  - refine (VS _ _ r eq_refl W F (fun cs' E F' W' S' => _)). rewrite <- app_assoc in F'. cbn [app] in F'.
    destruct (split_items (fun x : option tag * label * tree => ERecordValBegin (fst (fst x)) (snd (fst x))) snd
                (fun x => ERecordValEnd (fst (fst x)) (snd (fst x))) (ERecordEnd t l i) n comp
                (fun cs S => IH cs S comp) eq_refl (fun _ => eq_refl) (fun _ => eq_refl) fs cs' r S' W') as (ls & c & -> & F2 & W2 & El & Fl).
    { rewrite F'. f_equal. f_equal. apply flat_map_ext. intros [[ft fl] v]. reflexivity. }
    exists (ARecord t l i n0 (map (fun xa => (fst (fst (fst xa)), snd (fst (fst xa)), snd xa)) ls)), c. rewrite E.
    cbn [stree acalls app marked_seqs]. rewrite <- app_assoc, flat_map_map'. repeat split; auto.
    + f_equal. rewrite map_map. rewrite <- El. apply map_ext_Forall. eapply Forall_impl; [|exact Fl].
      intros [[[ft fl] v] a] [X _]. cbn in *. rewrite X. reflexivity.
    + apply forallb_forall. intros [[ft fl] a] Ha. apply in_map_iff in Ha as (xa & X & Ha). injection X as _ _ <-. rewrite Forall_forall in Fl. apply (Fl _ Ha).
  - refine (VS _ _ r eq_refl W F (fun cs' E F' W' S' => _)). rewrite <- app_assoc in F'. cbn [app] in F'.
    destruct (split_items (fun x : option tag * index * tree => ETupleValBegin (fst (fst x)) (snd (fst x))) snd
                (fun x => ETupleValEnd (fst (fst x)) (snd (fst x))) (ETupleEnd t l i) n comp
                (fun cs S => IH cs S comp) eq_refl (fun _ => eq_refl) (fun _ => eq_refl) fs cs' r S' W') as (ls & c & -> & F2 & W2 & El & Fl).
    { rewrite F'. f_equal. f_equal. apply flat_map_ext. intros [[ft fl] v]. reflexivity. }
    exists (ATuple t l i n0 (map (fun xa => (fst (fst (fst xa)), snd (fst (fst xa)), snd xa)) ls)), c. rewrite E.
    cbn [stree acalls app marked_seqs]. rewrite <- app_assoc, flat_map_map'. repeat split; auto.
    + f_equal. rewrite map_map. rewrite <- El. apply map_ext_Forall. eapply Forall_impl; [|exact Fl].
      intros [[[ft fl] v] a] [X _]. cbn in *. rewrite X. reflexivity.
    + apply forallb_forall. intros [[ft fl] a] Ha. apply in_map_iff in Ha as (xa & X & Ha). injection X as _ _ <-. rewrite Forall_forall in Fl. apply (Fl _ Ha).
  - refine (VS _ _ r eq_refl W F (fun cs' E F' W' S' => _)). rewrite <- app_assoc in F'. cbn [app] in F'.
    destruct (split_items (fun x : option tag * label * index * tree => ERecTupValBegin (fst (fst (fst x))) (snd (fst (fst x))) (snd (fst x))) snd
                (fun x => ERecTupValEnd (fst (fst (fst x))) (snd (fst (fst x))) (snd (fst x))) (ERecTupEnd t l i) n comp
                (fun cs S => IH cs S comp) eq_refl (fun _ => eq_refl) (fun _ => eq_refl) fs cs' r S' W') as (ls & c & -> & F2 & W2 & El & Fl).
    { rewrite F'. f_equal. f_equal. apply flat_map_ext. intros [[[ft fl] fi] v]. reflexivity. }
    exists (ARecTup t l i n0 (map (fun xa => (fst (fst (fst (fst xa))), snd (fst (fst (fst xa))), snd (fst (fst xa)), snd xa)) ls)), c. rewrite E.
    cbn [stree acalls app marked_seqs]. rewrite <- app_assoc, flat_map_map'. repeat split; auto.
    + f_equal. rewrite map_map. rewrite <- El. apply map_ext_Forall. eapply Forall_impl; [|exact Fl].
      intros [[[[ft fl] fi] v] a] [X _]. cbn in *. rewrite X. reflexivity.
    + apply forallb_forall. intros [[[ft fl] fi] a] Ha. apply in_map_iff in Ha as (xa & X & Ha). injection X as _ _ _ <-. rewrite Forall_forall in Fl. apply (Fl _ Ha).
Qed.

(** Every whole value that streams [t] is a value tree with places where it
    recurses, describing [t]. *)
Lemma whole_atree v t : whole v -> streams v t ->
  exists a, v = acalls a /\ marked_seqs a = true /\ stree false a = t.
Proof.
  intros W F. unfold streams in F. rewrite <- (app_nil_r (emit t)) in F.
  destruct (split_tree _ v (Nat.lt_succ_diag_r _) false t [] W F) as (a & c & -> & Fc & Ea & Ma & Wc).
  assert (c = []) as ->.
  { destruct c as [|x c]; [reflexivity|]. destruct (first_call x c _ _ Wc Fc) as [(? & ? & _ & X & _)|(? & ? & t1 & ? & _ & _ & _ & X & _)]; [discriminate X|].
    destruct (emit_head t1) as (? & ? & X' & _). rewrite X' in X. discriminate X. }
  exists a. rewrite app_nil_r. auto.
Qed.
