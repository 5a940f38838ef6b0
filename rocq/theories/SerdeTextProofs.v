(** * SerdeTextProofs: lemmas about what [ToSerialize] says *)

From Verif Require Import Base Event Tree LowerModel DataModel DataProofs FragModel BufferSpec StdModel NestedModel NestedSpec NestedProofs
  NestedErrModel NestedErrSpec NestedErrProofs NestedErrProps SerdeModel SerdeSpec SerdeProofs SerdeErrModel SerdeErrSpec SerdeErrProofs SerdeTextModel SerdeTextSpec.

Arguments MkPart {S K}. Arguments late {S K}. Arguments act {S K}.
Arguments give {S}. Arguments attempt {S K}. Arguments go_on {S K}. Arguments in_all {S K}. Arguments simply {S K}.
Arguments hush {S}. Arguments no_variant {S}. Arguments required {S A}.

Section Text.
Variable S : eserializer.
Variable custom : bytes -> e_err S.
Notation E := (e_err S).

Definition conv (o : told S) : got (e_ok S + E) := match o with Given r => tinner r | Told s => says s end.
Definition settle_t (g : got (e_ok S + E)) : result E (e_ok S) :=
  match g with
  | GOk (inl x) => ROk x
  | GOk (inr e) => RErr e
  | GErr e => RErr (custom (nerr_text e))
  | GPanic => RPanic
  end.
Lemma settle_conv o : settle_t (conv o) = give custom o.
Proof. destruct o as [[x|e|]|s]; reflexivity. Qed.
Lemma conv_required {A} text (o : option A) f g : (forall a, conv (f a) = g a) -> conv (required text o f) = gbind (asked text o) g.
Proof. intros H. destruct o; [apply H|reflexivity]. Qed.
Lemma hide_conv h o : hide h (conv o) = conv (hush h o).
Proof. destruct o as [[x|e|]|s]; try reflexivity. destruct h; reflexivity. Qed.

(** ** Containers *)
Fixpoint steps {K} (ps : list (part S K)) (s : K) : K + told S :=
  match ps with [] => inl s | p :: ps' => match act p s with inl s' => steps ps' s' | inr o => inr o end end.
Lemma go_on_app {K} ps qs (s : K) fin : go_on s (ps ++ qs) fin = match steps ps s with inl s' => go_on s' qs fin | inr o => o end.
Proof. revert s. induction ps as [|p ps IH]; intros s; [reflexivity|]. cbn [app go_on steps]. destruct (act p s); [apply IH|reflexivity]. Qed.
Definition stepped {K K'} (inj : K -> K') (r : K + told S) (g : got (K' + E)) : Prop :=
  match r with
  | inl s => g = GOk (inl (inj s))
  | inr (Told t) => g = says t
  | inr (Given a) => a = RPanic /\ g = GPanic
  end.
Lemma container {K K' Y} (inj : K -> K') (beg : result E K) (beg' : got (K' + E)) (P : Y -> list (part S K))
    (op : K' + E -> Y -> got (K' + E)) fin (fin' : K' + E -> got (e_ok S + E)) args :
  beg' = tinner (rmap inj beg) ->
  (forall s y, stepped inj (steps (P y) s) (op (inl (inj s)) y)) ->
  (forall er y, exists p ps, P y = p :: ps /\ op (inr er) y = says (late p)) ->
  (forall s, fin' (inl (inj s)) = tinner (fin s)) -> (forall er, fin' (inr er) = GOk (inr er)) ->
  (s <= beg' ;; s' <= fold_x op s args ;; fin' s') = conv (in_all beg (flat_map P args) fin).
Proof.
  intros -> H1 H2 H3 H4. destruct beg as [s|er|]; cbn [rmap rbind tinner gbind in_all]; [| |reflexivity].
  - revert s. induction args as [|y args IH]; intros s; cbn [fold_x flat_map].
    + cbn [gbind go_on conv]. apply H3.
    + rewrite go_on_app. specialize (H1 s y). destruct (steps (P y) s) as [s'|[a|t]]; cbn [stepped] in H1.
      * rewrite H1. cbn [gbind]. apply IH.
      * destruct H1 as [-> ->]. reflexivity.
      * rewrite H1. reflexivity.
  - destruct args as [|y args]; cbn [fold_x flat_map].
    + cbn [gbind conv tinner]. apply H4.
    + destruct (H2 er y) as (p & ps & -> & ->). reflexivity.
Qed.
Lemma flat_one {A B} (f : A -> B) l : map f l = flat_map (fun x => [f x]) l.
Proof. induction l as [|x l IH]; [reflexivity|]. cbn [map flat_map app]. rewrite IH. reflexivity. Qed.
Lemma container1 {K K' Y} (inj : K -> K') (beg : result E K) (beg' : got (K' + E)) (P : Y -> part S K)
    (op : K' + E -> Y -> got (K' + E)) fin (fin' : K' + E -> got (e_ok S + E)) args :
  beg' = tinner (rmap inj beg) ->
  (forall s y, stepped inj (act (P y) s) (op (inl (inj s)) y)) ->
  (forall er y, op (inr er) y = says (late (P y))) ->
  (forall s, fin' (inl (inj s)) = tinner (fin s)) -> (forall er, fin' (inr er) = GOk (inr er)) ->
  (s <= beg' ;; s' <= fold_x op s args ;; fin' s') = conv (in_all beg (map P args) fin).
Proof.
  intros B H1 H2 H3 H4. rewrite flat_one. apply (container inj); try assumption.
  - intros s y. cbn [steps]. specialize (H1 s y). destruct (act (P y) s); exact H1.
  - intros er y. exists (P y), []. split; [reflexivity|apply H2].
Qed.
Lemma all2_of {X A B} (R : X -> B -> Prop) (P : A -> B -> Prop) (g : X -> A) xs ys : Forall2 R xs ys ->
  (forall x y, In y ys -> R x y -> P (g x) y) -> all2 P (map g xs) ys.
Proof.
  induction 1 as [|x y xs ys Rxy F IH]; intros H; [exact I|]. cbn [map all2]. split; [apply H; [left; reflexivity|exact Rxy]|].
  apply IH. intros. apply H; [right|]; assumption.
Qed.
Lemma name_kept l : name_of (okept l) = name_of l.
Proof. destruct l; [apply kept_static|reflexivity]. Qed.

Variable n : nat.
Notation Z := (tserialize_stream S (tto_serialize S custom n)).
Definition kid (c : e_ser S -> result E (e_ok S)) (v : rview) : Prop :=
  exists h, forall k', exists o', tells S custom h v k' o' /\ c k' = give custom o'.
Hypothesis IH : forall a, le (levels (mirror (tree_of a))) n -> kid (tto_serialize S custom n (acalls a)) (mirror (tree_of a)).
Notation C := (fun a : arg => tto_serialize S custom n (snd a)).
Lemma a_kid a v : child a v -> le (levels v) n -> kid (C a) v.
Proof. intros (b & Eb & <-) L. cbn beta. rewrite Eb. apply IH, L. Qed.

Lemma tseq k len args : (s <= x_seq_begin (Z k) len ;; s' <= fold_x (x_seq_value (Z k)) s args ;; x_seq_end (Z k) s') =
  conv (in_all (es_seq S k len)
     (map (fun c => simply "failed to serialize sequence element" (fun s => e_seq_element S s c)) (map C args)) (e_seq_end S)).
Proof.
  rewrite map_map. apply (container1 (fun x => x)); try reflexivity.
  - cbn. destruct (es_seq S k len); reflexivity.
  - intros s y. cbn. destruct (e_seq_element S s _); cbn; auto.
Qed.
Lemma tmap k len args :
  (s <= x_map_begin (Z k) len ;;
   s' <= fold_x (fun s x => match x with (a, b) => s1 <= x_map_key (Z k) s a ;; x_map_value (Z k) s1 b end) s args ;; x_map_end (Z k) s') =
  conv (in_all (es_map S k len)
     (flat_map (fun c => match c with (c, d) =>
               [simply "failed to serialize map key" (fun s => e_map_key S s c);
                simply "failed to serialize map value" (fun s => e_map_value S s d)] end) (map (fun x => match x with (a, b) => (C a, C b) end) args)) (e_map_end S)).
Proof.
  rewrite (flat_map_concat_map _ (map _ _)), map_map, <- flat_map_concat_map. apply (container (fun x => x)); try reflexivity.
  - cbn. destruct (es_map S k len); reflexivity.
  - intros s [a b]. cbn. destruct (e_map_key S s _) as [s'|e|]; cbn; auto. destruct (e_map_value S s' _); cbn; auto.
  - intros er [a b]. eexists _, _. split; reflexivity.
Qed.
Notation tvals := (map (fun x : option tag * index * arg => match x with (_, _, a) => C a end)).
Notation rvals := (map (fun x : option tag * label * arg => match x with (_, l, a) => (kept_label l, C a) end)).
Lemma ttuple k t l i len args :
  (s <= x_tuple_begin (Z k) t l i len ;;
   s' <= fold_x (fun s x => match x with (xt, xi, a) => x_tuple_value (Z k) s xt xi a end) s args ;; x_tuple_end (Z k) s') =
  conv (required "missing tuple len" len (fun len =>
          match okept l with
          | None =>
              in_all (es_tuple S k len)
                (map (fun c => simply "failed to serialize tuple field" (fun s => e_tuple_element S s c)) (tvals args)) (e_tuple_end S)
          | Some l => required "tuple label must be static" (as_static_str l) (fun name =>
              in_all (es_tuple_struct S k name len)
                (map (fun c => simply "failed to serialize tuple field" (fun s => e_tstruct_field S s c)) (tvals args)) (e_tstruct_end S))
          end)).
Proof.
  destruct len as [len|]; [|reflexivity]. rewrite !map_map. destruct l as [l|]; cbn [okept option_map required].
  - rewrite kept_static. cbn [x_tuple_begin tserialize_stream asked gbind]. destruct (as_static_str l) as [name|]; [|reflexivity].
    cbn [asked gbind required]. apply (container1 (@inl _ (e_tuple S))); try reflexivity.
    + intros s [[xt xi] a]. cbn. destruct (e_tstruct_field S s _); cbn; auto.
    + intros er [[xt xi] a]. reflexivity.
  - cbn [x_tuple_begin tserialize_stream asked gbind]. apply (container1 (@inr (e_tstruct S) _)); try reflexivity.
    + intros s [[xt xi] a]. cbn. destruct (e_tuple_element S s _); cbn; auto.
    + intros er [[xt xi] a]. reflexivity.
Qed.
Lemma trecord k t l i len args :
  (s <= x_record_begin (Z k) t l i len ;;
   s' <= fold_x (fun s x => match x with (xt, xl, a) => x_record_value (Z k) s xt xl a end) s args ;; x_record_end (Z k) s') =
  conv (required "missing struct len" len (fun len =>
          match okept l with
          | None =>
              in_all (es_tuple S k len)
                (map (fun c : label * _ => simply "failed to serialize tuple field" (fun s => e_tuple_element S s (snd c))) (rvals args)) (e_tuple_end S)
          | Some l => required "struct label must be static" (as_static_str l) (fun name =>
              in_all (es_struct S k name len)
                (map (fun c => match c with (fl, c) =>
                   MkPart "failed to serialize tuple field" (fun s =>
                     match as_static_str fl with
                     | Some f => attempt "failed to serialize tuple field" (e_struct_field S s f c)
                     | None => inr (Told "struct field label must be static")
                     end) end) (rvals args)) (e_struct_end S))
          end)).
Proof.
  destruct len as [len|]; [|reflexivity]. rewrite !map_map. destruct l as [l|]; cbn [okept option_map required].
  - rewrite kept_static. cbn [x_record_begin tserialize_stream asked gbind]. destruct (as_static_str l) as [name|]; [|reflexivity].
    cbn [asked gbind required]. apply (container1 (@inl _ (e_tuple S))); try reflexivity.
    + intros s [[xt xl] a]. cbn [act]. rewrite kept_static. cbn. destruct (as_static_str xl) as [f|]; [|reflexivity].
      cbn. destruct (e_struct_field S s f _); cbn; auto.
    + intros er [[xt xl] a]. reflexivity.
  - cbn [x_record_begin tserialize_stream asked gbind]. apply (container1 (@inr (e_struct S) _)); try reflexivity.
    + intros s [[xt xi] a]. cbn. destruct (e_tuple_element S s _); cbn; auto.
    + intros er [[xt xi] a]. reflexivity.
Qed.
Lemma tvtuple k name t l i len args :
  (s <= x_enum_tuple_begin (Z k) name t l i len ;;
   s' <= fold_x (fun s x => match x with (xt, xi, a) => x_vtuple_value (Z k) s xt xi a end) s args ;; x_vtuple_end (Z k) s') =
  conv (required "tuple variant label must be static" (name_of (okept l)) (fun variant =>
        required "tuple variant index must be a 32bit value" (index_of i) (fun index =>
        required "missing tuple variant len" len (fun len =>
        in_all (es_tuple_variant S k name index variant len)
          (map (fun c => simply "failed to serialize tuple value" (fun s => e_tvariant_field S s c)) (tvals args)) (e_tvariant_end S))))).
Proof.
  rewrite name_kept, !map_map. cbn [x_enum_tuple_begin tserialize_stream].
  change (static_label l) with (name_of l). change (index_u32 i) with (index_of i).
  destruct (name_of l) as [variant|]; [|reflexivity]. destruct (index_of i) as [ix|]; [|reflexivity]. destruct len as [len|]; [|reflexivity].
  cbn [asked gbind required]. apply (container1 (fun x => x)); try reflexivity.
  - destruct (es_tuple_variant _ _ _ _ _ _); reflexivity.
  - intros s [[xt xi] a]. cbn. destruct (e_tvariant_field S s _); cbn; auto.
  - intros er [[xt xi] a]. reflexivity.
Qed.
Lemma tvrecord k name t l i len args :
  (s <= x_enum_record_begin (Z k) name t l i len ;;
   s' <= fold_x (fun s x => match x with (xt, xl, a) => x_vrecord_value (Z k) s xt xl a end) s args ;; x_vrecord_end (Z k) s') =
  conv (required "struct variant label must be static" (name_of (okept l)) (fun variant =>
        required "struct variant index must be a 32bit value" (index_of i) (fun index =>
        required "missing struct variant len" len (fun len =>
        in_all (es_struct_variant S k name index variant len)
          (map (fun c => match c with (fl, c) =>
             match as_static_str fl with
             | Some f => simply "failed to serialize struct value" (fun s => e_svariant_field S s f c)
             | None => MkPart "struct variant field label must be static" (fun _ => inr (Told "struct variant field label must be static"))
             end end) (rvals args)) (e_svariant_end S))))).
Proof.
  rewrite name_kept, !map_map. cbn [x_enum_record_begin tserialize_stream].
  change (static_label l) with (name_of l). change (index_u32 i) with (index_of i).
  destruct (name_of l) as [variant|]; [|reflexivity]. destruct (index_of i) as [ix|]; [|reflexivity]. destruct len as [len|]; [|reflexivity].
  cbn [asked gbind required]. apply (container1 (fun x => x)); try reflexivity.
  - destruct (es_struct_variant _ _ _ _ _ _); reflexivity.
  - intros s [[xt xl] a]. rewrite kept_static. cbn [x_vrecord_value tserialize_stream]. destruct (as_static_str xl) as [f|]; [|reflexivity].
    cbn. destruct (e_svariant_field S s f _); cbn; auto.
  - intros er [[xt xl] a]. rewrite kept_static. cbn [x_vrecord_value tserialize_stream]. destruct (as_static_str xl); reflexivity.
Qed.

(** ** One level *)
Lemma tvals_kids args fs :
  Forall2 (fun x f => match x, f with (xt, xi, a), (ft, fi, v) => xt = ft /\ xi = fi /\ child a v end) args fs ->
  le (maxl (map (fun f => match f with (_, _, v) => levels v end) fs)) n ->
  all2 (fun c (f : option tag * index * rview) => match f with (_, _, v) => kid c v end) (tvals args) fs.
Proof.
  intros F L. apply maxl_le in L. eapply all2_of; [exact F|]. intros [[xt xi] a] [[ft fi] v] I (_ & _ & H). cbn beta iota. apply a_kid; [exact H|].
  rewrite Forall_forall in L. apply L, in_map_iff. exists (ft, fi, v). split; [reflexivity|exact I].
Qed.
Lemma rvals_kids args fs :
  Forall2 (fun x f => match x, f with (xt, xl, a), (ft, fl, v) => xt = ft /\ kept_label xl = fl /\ child a v end) args fs ->
  le (maxl (map (fun f => match f with (_, _, v) => levels v end) fs)) n ->
  all2 (fun c (f : option tag * label * rview) => match c, f with (cl, c), (_, fl, v) => cl = fl /\ kid c v end) (rvals args) fs.
Proof.
  intros F L. apply maxl_le in L. eapply all2_of; [exact F|]. intros [[xt xl] a] [[ft fl] v] I (_ & El & H). cbn beta iota.
  split; [exact El|]. apply a_kid; [exact H|].
  rewrite Forall_forall in L. apply L, in_map_iff. exists (ft, fl, v). split; [reflexivity|exact I].
Qed.

Lemma inner_says k v : inner_variant v = true -> forall g, xvariant_answer (Z k) v g -> @no_variant S v = Told "nested enums aren't supported".
Proof. induction v; intros H g Hg; try discriminate H; try reflexivity. destruct Hg as (l' & g' & _ & V & _). exact (IHv H g' V). Qed.

Lemma variant_told k v : inner_variant v = true \/ match v with RTuple _ _ _ _ _ | RRecord _ _ _ _ _ => True | _ => False end ->
  le (levels v) (Datatypes.S n) -> forall g, xvariant_answer (Z k) v g ->
  exists o', (forall name, g name = conv (o' name)) /\ forall h t l i,
    tells S custom h (REnum t l i v) k (required "enum label must be static" (name_of l) (fun name => hush h (o' name))).
Proof.
  intros Hv L g Hg. destruct v; try (destruct Hv as [Hv|Hv]; [discriminate Hv|contradiction]).
  - destruct Hg as (l' & <- & Hg).
    set (o' := fun name => required "unit variant label must be static" (name_of (okept l')) (fun variant =>
      required "unit variant index must a 32bit value" (index_of i) (fun index => Given (es_unit_variant S k name index variant)))).
    exists o'. split; [|intros; exists o'; split; [reflexivity|]; intros name; reflexivity]. unfold o'.
    intros name. rewrite Hg, name_kept. cbn [x_enum_tag tserialize_stream].
    change (static_label l') with (name_of l'). change (index_u32 i) with (index_of i).
    destruct (name_of l'); [|reflexivity]. destruct (index_of i); reflexivity.
  - destruct Hg as (l' & a & <- & Ha & Hg).
    set (o' := fun name => required "newtype variant label must be static" (name_of (okept l')) (fun variant =>
      required "newtype variant index must be a 32bit value" (index_of i) (fun index => Given (es_newtype_variant S k name index variant (C a))))).
    exists o'. split; [|intros; exists o'; split; [reflexivity|]; intros name; exists (C a); split; [|reflexivity]]; unfold o'.
    + intros name. rewrite Hg, name_kept. cbn [x_enum_tagged tserialize_stream].
      change (static_label l') with (name_of l'). change (index_u32 i) with (index_of i).
      destruct (name_of l'); [|reflexivity]. destruct (index_of i); reflexivity.
    + apply a_kid; [exact Ha|cbn [levels] in L; lia].
  - destruct Hv as [Hv|Hv]; [|contradiction]. assert (N := inner_says k _ Hv _ Hg). destruct Hg as (l' & g' & <- & V & Hg).
    exists (fun _ => no_variant (REnum t (okept l') i v)). split; [|intros; exists (fun _ => no_variant (REnum t (okept l') i v)); split; [reflexivity|]; intros name; reflexivity].
    intros name. rewrite Hg, N. reflexivity.
  - destruct Hg as (l' & args & <- & F & Hg). eexists. split; [intros name; rewrite Hg; apply tvrecord|].
    intros h t' l0 i0. eexists. split; [reflexivity|]. intros name. exists (rvals args). split; [|reflexivity]. apply rvals_kids; [exact F|cbn [levels] in L; lia].
  - destruct Hg as (l' & args & <- & F & Hg). eexists. split; [intros name; rewrite Hg; apply tvtuple|].
    intros h t' l0 i0. eexists. split; [reflexivity|]. intros name. exists (tvals args). split; [|reflexivity]. apply tvals_kids; [exact F|cbn [levels] in L; lia].
Qed.

Lemma answer_told k h r g : handled1 r = true -> le (levels r) (Datatypes.S n) -> xanswer (Z k) h r g -> exists o, g = conv o /\ tells S custom h r k o.
Proof.
  intros Hh L A. destruct r; cbn [xanswer] in A.
  - eexists (Given _); split; [exact A|reflexivity].
  - eexists (Given _); split; [exact A|reflexivity].
  - eexists (Given _); split; [exact A|reflexivity].
  - eexists (Given _); split; [exact A|reflexivity].
  - eexists (Given _); split; [exact A|reflexivity].
  - destruct A as (b & A). eexists (Given _); split; [exact A|reflexivity].
  - destruct A as (b & A). eexists (Given _); split; [exact A|reflexivity].
  - destruct A as (l' & <- & ->). eexists. split; [|reflexivity]. rewrite name_kept. cbn [x_tag tserialize_stream]. change (static_label l') with (name_of l').
    destruct (otag_is t RUST_OPTION_NONE); [reflexivity|]. destruct (otag_is t RUST_UNIT); [reflexivity|]. destruct (name_of l'); reflexivity.
  - destruct A as (l' & a & <- & Ha & ->). eexists. split; [|exists (C a); split; [apply a_kid; [exact Ha|cbn [levels] in L; lia]|reflexivity]].
    rewrite name_kept. cbn [x_tagged tserialize_stream]. change (static_label l') with (name_of l').
    destruct (otag_is t RUST_OPTION_SOME); [reflexivity|]. destruct (name_of l'); reflexivity.
  - destruct A as (l' & g' & <- & V & ->).
    destruct (variant_told k r) with (g := g') as (o' & G & T); [destruct r; try discriminate Hh; auto|cbn [levels] in L; lia|exact V|].
    eexists. split; [|apply T]. rewrite name_kept. cbn [x_enum_begin tserialize_stream]. change (static_label l') with (name_of l').
    destruct (name_of l') as [name|]; [|reflexivity]. cbn [asked gbind required]. rewrite G. apply hide_conv.
  - destruct A as (args & F & ->). eexists. split; [apply tseq|]. exists (map C args). split; [|reflexivity].
    cbn [levels] in L. assert (X : le (maxl (map levels vs)) n) by lia. apply maxl_le in X. rewrite Forall_forall in X.
    eapply all2_of; [exact F|]. intros a v I Ha. apply a_kid; [exact Ha|apply X, in_map, I].
  - destruct A as (args & F & ->). eexists. split; [apply tmap|]. eexists. split; [|reflexivity].
    cbn [levels] in L. match type of L with le (Datatypes.S (maxl ?m)) _ => assert (X : le (maxl m) n) by lia end. apply maxl_le in X. rewrite Forall_forall in X.
    eapply all2_of; [exact F|]. intros [a b] [v w] I [Ha Hb].
    assert (Y : le (Nat.max (levels v) (levels w)) n) by (apply X, in_map_iff; exists (v, w); split; [reflexivity|exact I]).
    split; apply a_kid; try assumption; lia.
  - destruct A as (l' & args & <- & F & ->). eexists. split; [apply trecord|]. exists (rvals args). split; [|reflexivity].
    apply rvals_kids; [exact F|cbn [levels] in L; lia].
  - destruct A as (l' & args & <- & F & ->). eexists. split; [apply ttuple|]. exists (tvals args). split; [|reflexivity].
    apply tvals_kids; [exact F|cbn [levels] in L; lia].
Qed.

(** What is refused. *)
Lemma refusal_told a : forall comp, ends_in_variant (mirror (tree_of a)) = false ->
  GErr (NInvalid (refusal comp a)) = conv (hush (by_value comp a) (no_variant (mirror (tree_of a)))).
Proof.
  induction a using atree_ind'; intros comp Hv; try discriminate Hv; try reflexivity.
  - destruct b; [destruct comp|]; cbn [refusal by_value tree_of]; [apply IHa, Hv| |].
    all: assert (X : exists t, @no_variant S (mirror (tree_of a)) = Told t); [|destruct X as (t & ->); reflexivity].
    all: clear -Hv; cbn [tree_of] in Hv; induction (mirror (tree_of a)); try discriminate Hv; try (eexists; reflexivity); apply IHr, Hv.
  - apply IHa, Hv.
  - apply IHa, Hv.
Qed.
Lemma refused_told a : forall comp t l i r, mirror (tree_of a) = REnum t l i r -> ends_in_variant r = false ->
  GErr (NInvalid (refused_as comp a)) = conv (hush (hidden_in comp a) (no_variant r)).
Proof.
  induction a using atree_ind'; intros comp t' l' i' r E Hv; try discriminate E; cbn [refused_as hidden_in].
  - eapply IHa; [exact E|exact Hv].
  - eapply IHa; [exact E|exact Hv].
  - cbn [tree_of mirror] in E. injection E as _ _ _ <-. apply refusal_told, Hv.
Qed.
End Text.

Theorem tto_tells S custom : forall n a, le (levels (mirror (tree_of a))) n -> forall k,
  exists o, tells S custom (hidden_in false a) (mirror (tree_of a)) k o /\ tto_serialize S custom n (acalls a) k = give custom o.
Proof.
  induction n as [|n IH]; intros a L k; [destruct (mirror (tree_of a)); cbn [levels] in L; exfalso; lia|].
  assert (IH' : forall a, le (levels (mirror (tree_of a))) n -> kid S custom (tto_serialize S custom n (acalls a)) (mirror (tree_of a)))
    by (intros b Lb; exists (hidden_in false b); apply IH, Lb).
  set (Z := tserialize_stream S (tto_serialize S custom n) k).
  change (tto_serialize S custom (Datatypes.S n) (acalls a) k) with (settle_t S custom (nested_got Z false (acalls a))).
  assert (OC : only_calls_closures Z) by (intros e t l i g g' _; reflexivity).
  destruct (handled1 (mirror (tree_of a))) eqn:Hh.
  - destruct (answer_told S custom n IH' k _ _ _ Hh L (C79_error_exactly Z a false OC Hh)) as (o & -> & T).
    exists o. split; [exact T|apply settle_conv].
  - destruct (mirror (tree_of a)) as [| | | | | | | | |t l i r| | | |] eqn:M; try discriminate Hh.
    destruct (C79_refused_exactly Z a false t l i r OC M Hh) as (l' & El & ->).
    assert (X : forall v, ends_in_variant v = inner_variant v || ends_in_fields v) by (induction v; try reflexivity; assumption).
    assert (D : (if too_deep (REnum t l i r) then GPanic else GErr (NInvalid (refused_as false a))) = conv S (hush (hidden_in false a) (no_variant r))).
    { destruct (too_deep (REnum t l i r)) eqn:D.
      - destruct r; try discriminate D. cbn [no_variant]. cbn in D. clear - D. assert (Y : @no_variant S r = Given RPanic); [|rewrite Y; reflexivity].
        induction r; try discriminate D; try reflexivity. apply IHr, D.
      - apply (refused_told S a false t l i r M). destruct r; try reflexivity; try discriminate Hh. cbn in Hh, D |- *. rewrite X, Hh, D. reflexivity. }
    exists (required "enum label must be static" (name_of l) (fun _ => hush (hidden_in false a) (no_variant r))). split.
    + exists (fun _ => no_variant r). split; [reflexivity|]. intros name. destruct r; try reflexivity; discriminate Hh.
    + subst l. unfold Z. rewrite name_kept. cbn [x_enum_begin tserialize_stream]. change (static_label l') with (name_of l').
      destruct (name_of l') as [name|]; [|reflexivity]. cbn [asked gbind required].
      etransitivity; [|apply settle_conv]. apply f_equal, D.
Qed.

(** ** Without the messages *)
Section Refines.
Variable S : eserializer.
Hypothesis OC : opaque_echildren S.
Notation cu := (fun _ : bytes => e_custom S).
Notation ES := (eser S (fun _ => e_custom S)).
Notation E := (e_err S).

Definition stepped_as {K} (a : K + told S) (r : result E K) : Prop :=
  match a with
  | inl s => r = ROk s
  | inr (Told _) => exists e, r = RErr e
  | inr (Given x) => x = RPanic /\ r = RPanic
  end.
Lemma attempt_as {K} text (r : result E K) : stepped_as (attempt text r) r.
Proof. destruct r; cbn; eauto. Qed.
Lemma in_all_compound {C X K} (R : C -> X -> Prop) (P : C -> list (part S K)) (beg : result E K) (step : K -> X -> result E K) cs xs fin :
  all2 R cs xs ->
  (forall c x, In x xs -> R c x -> P c <> [] /\ forall s, stepped_as (steps S (P c) s) (step s x)) ->
  give cu (in_all beg (flat_map P cs) fin) = compound_of (fun _ => e_custom S) (any xs) beg step xs fin.
Proof.
  intros A H. unfold compound_of. destruct beg as [s|e|]; cbn [in_all masked].
  - replace (if any xs then ROk s else ROk s) with (@ROk E _ s) by (destruct (any xs); reflexivity). cbn [rbind].
    revert xs A H s. induction cs as [|c cs IH]; intros [|x xs] A H s; try contradiction; cbn [flat_map eeach masked rbind]; [reflexivity|].
    destruct A as [A1 A2]. rewrite go_on_app. destruct (H c x (or_introl eq_refl) A1) as [_ Hs]. specialize (Hs s).
    destruct (steps S (P c) s) as [s'|[r|t]]; cbn [stepped_as] in Hs.
    + rewrite Hs. cbn [rbind]. apply IH; [exact A2|]. intros. apply H; [right|]; assumption.
    + destruct Hs as [-> ->]. reflexivity.
    + destruct Hs as [e ->]. reflexivity.
  - destruct cs as [|c cs], xs as [|x xs]; try contradiction; [reflexivity|]. cbn [flat_map any rbind].
    destruct (H c x (or_introl eq_refl) (proj1 A)) as [N _]. destruct (P c); [congruence|]. reflexivity.
  - destruct (any xs); reflexivity.
Qed.
Lemma in_all_compound1 {C X K} (R : C -> X -> Prop) (P : C -> part S K) (beg : result E K) (step : K -> X -> result E K) cs xs fin :
  all2 R cs xs ->
  (forall c x, In x xs -> R c x -> forall s, stepped_as (act (P c) s) (step s x)) ->
  give cu (in_all beg (map P cs) fin) = compound_of (fun _ => e_custom S) (any xs) beg step xs fin.
Proof.
  intros A H. rewrite flat_one. apply (in_all_compound R _ beg step cs xs fin A). intros c x I Rcx. split; [discriminate|]. intros s. cbn [steps].
  specialize (H c x I Rcx s). destruct (act (P c) s); exact H.
Qed.

Lemma tells_serde : forall n r h k o, le (levels r) n -> shallow r = true -> tells S cu h r k o -> give cu o = ES (as_serde r) k.
Proof.
  induction n as [|n IH]; intros r h k o L Hs T; [destruct r; cbn [levels] in L; exfalso; lia|].
  assert (KID : forall c v, le (levels v) n -> shallow v = true ->
    (exists h, forall k', exists o', tells S cu h v k' o' /\ c k' = give cu o') -> same_echild c (ES (as_serde v))).
  { intros c v Lv Sv (h' & H) k'. destruct (H k') as (o' & T' & ->). eapply IH; eassumption. }
  assert (TK : forall (fs : list (option tag * index * rview)) cs,
    le (Datatypes.S (maxl (map (fun f => match f with (_, _, v) => levels v end) fs))) (Datatypes.S n) ->
    forallb (fun f => match f with (_, _, v) => shallow v end) fs = true ->
    all2 (fun c (f : option tag * index * rview) => match f with (_, _, v) => exists h, forall k', exists o', tells S cu h v k' o' /\ c k' = give cu o' end) cs fs ->
    all2 (fun c (f : option tag * index * rview) => match f with (_, _, v) => same_echild c (ES (as_serde v)) end) cs fs).
  { intros fs. induction fs as [|[[ft fi] v] fs IHf]; intros [|c cs] L' F A; try contradiction; [exact I|]. destruct A as [A1 A2].
    cbn [map forallb] in L', F. apply andb_true_iff in F as [F1 F2]. change (maxl (?x :: ?y)) with (Nat.max x (maxl y)) in L'.
    split; [apply KID; [lia|exact F1|exact A1]|apply IHf; [lia|exact F2|exact A2]]. }
  assert (RK : forall (fs : list (option tag * label * rview)) cs,
    le (Datatypes.S (maxl (map (fun f => match f with (_, _, v) => levels v end) fs))) (Datatypes.S n) ->
    forallb (fun f => match f with (_, _, v) => shallow v end) fs = true ->
    all2 (fun c (f : option tag * label * rview) => match c, f with (cl, c), (_, fl, v) => cl = fl /\ exists h, forall k', exists o', tells S cu h v k' o' /\ c k' = give cu o' end) cs fs ->
    all2 (fun c (f : option tag * label * rview) => match c, f with (cl, c), (_, fl, v) => cl = fl /\ same_echild c (ES (as_serde v)) end) cs fs).
  { intros fs. induction fs as [|[[ft fi] v] fs IHf]; intros [|[cl c] cs] L' F A; try contradiction; [exact I|]. destruct A as [[A0 A1] A2].
    cbn [map forallb] in L', F. apply andb_true_iff in F as [F1 F2]. change (maxl (?x :: ?y)) with (Nat.max x (maxl y)) in L'.
    split; [split; [exact A0|apply KID; [lia|exact F1|exact A1]]|apply IHf; [lia|exact F2|exact A2]]. }
  destruct r; cbn [tells] in T; try (subst o; reflexivity).
  - subst o. cbn [as_serde]. destruct (otag_is t RUST_OPTION_NONE); [reflexivity|]. destruct (otag_is t RUST_UNIT); [reflexivity|]. destruct (name_of l); reflexivity.
  - destruct T as (c & K & ->). cbn [shallow] in Hs. apply andb_true_iff in Hs as [_ Hs]. cbn [levels] in L.
    assert (SC : same_echild c (ES (as_serde r))) by (apply KID; [lia|exact Hs|exact K]).
    cbn [as_serde]. destruct (otag_is t RUST_OPTION_SOME); [apply (eoc_some S OC), SC|].
    destruct (name_of l); [|reflexivity]. apply (eoc_newtype_struct S OC), SC.
  - destruct T as (o' & -> & T). cbn [as_serde]. destruct (name_of l) as [name|]; [|reflexivity]. specialize (T name). cbn [required].
    assert (HH : give cu (hush h (o' name)) = give cu (o' name)) by (destruct (o' name); [reflexivity|destruct h; reflexivity]). rewrite HH.
    cbn [levels] in L. cbn [shallow] in Hs. apply andb_true_iff in Hs as [Hd Hs].
    destruct r; try (rewrite T; reflexivity).
    + rewrite T. destruct (name_of l0); [|reflexivity]. destruct (index_of i0); reflexivity.
    + destruct T as (c & K & ->). destruct (name_of l0); [|reflexivity]. destruct (index_of i0); [|reflexivity]. cbn [required give eser].
      apply (eoc_newtype_variant S OC). cbn [shallow] in Hs. cbn [levels] in L. apply KID; [lia| |exact K]. apply andb_true_iff in Hs. tauto.
    + rewrite T. apply negb_true_iff in Hd. cbn in Hd. clear - Hd. cbn [no_variant].
      induction r; try reflexivity; try discriminate Hd. apply IHr, Hd.
    + destruct T as (cs & K & ->). destruct (name_of l0) as [variant|]; [|reflexivity]. destruct (index_of i0) as [ix|]; [|reflexivity]. destruct n0 as [len|]; [|reflexivity].
      cbn [required]. cbn [shallow] in Hs. cbn [levels] in L. apply andb_true_iff in Hs as [_ Hs].
      etransitivity; [apply (in_all_compound1 _ _ _ (fun s f => match f with (_, l, v) => match as_static_str l with Some x => e_svariant_field S s x (ES (as_serde v)) | None => RErr (e_custom S) end end) _ _ _ (RK fs cs ltac:(lia) Hs K))|].
      * intros [cl c] [[ft fl] v] _ [-> SC] s. cbn [act]. destruct (as_static_str fl) as [x|]; [|cbn; eauto]. cbn [simply act].
        rewrite (eoc_svariant S OC s x _ _ SC). apply attempt_as.
      * etransitivity; [apply (compound_named (e_custom S) as_serde (fun s n v => e_svariant_field S s n (ES v)))|].
        destruct (named as_serde fs) as [vs ok]. reflexivity.
    + destruct T as (cs & K & ->). destruct (name_of l0) as [variant|]; [|reflexivity]. destruct (index_of i0) as [ix|]; [|reflexivity]. destruct n0 as [len|]; [|reflexivity].
      cbn [required]. cbn [shallow] in Hs. cbn [levels] in L. apply andb_true_iff in Hs as [_ Hs]. cbn [eser]. rewrite compound_map, any_map.
      apply (in_all_compound1 _ _ _ _ _ _ _ (TK fs cs ltac:(lia) Hs K)).
      intros c [[ft fi] v] _ SC s. cbn [simply act]. rewrite (eoc_tvariant S OC s _ _ SC). apply attempt_as.
  - destruct T as (cs & K & ->). cbn [shallow] in Hs. cbn [levels] in L. apply andb_true_iff in Hs as [_ Hs]. cbn [as_serde eser]. rewrite compound_map, any_map.
    apply (in_all_compound1 _ _ _ _ _ _ _ K). intros c v I0 Kc s. cbn [simply act].
    assert (X : le (maxl (map levels vs)) n) by lia. apply maxl_le in X. rewrite Forall_forall in X.
    rewrite (eoc_seq S OC s _ _ (KID c v (X _ (in_map _ _ _ I0)) (proj1 (forallb_forall _ _) Hs _ I0) Kc)). apply attempt_as.
  - destruct T as (cs & K & ->). cbn [shallow] in Hs. cbn [levels] in L. apply andb_true_iff in Hs as [_ Hs]. cbn [as_serde eser]. rewrite compound_map, any_map.
    etransitivity; [apply (in_all_compound _ _ _ (fun s e => match e with (a, b) => s <~ e_map_key S s (ES (as_serde a)) ;; e_map_value S s (ES (as_serde b)) end) _ _ _ K)|].
    + intros [c d] [a b] I0 [Kc Kd]. split; [discriminate|]. intros s.
      match type of L with le (Datatypes.S (maxl ?m)) _ => assert (X : le (maxl m) n) by lia end. apply maxl_le in X. rewrite Forall_forall in X.
      specialize (X _ (in_map _ _ _ I0)). cbn beta iota in X. pose proof (proj1 (forallb_forall _ _) Hs _ I0) as Y. cbn beta iota in Y. apply andb_true_iff in Y as [Y1 Y2].
      cbn [steps simply act]. rewrite (eoc_map_key S OC s _ _ (KID c a ltac:(lia) Y1 Kc)). destruct (e_map_key S s _) as [s'|e|]; cbn [attempt rbind]; [|cbn; eauto..].
      rewrite (eoc_map_value S OC s' _ _ (KID d b ltac:(lia) Y2 Kd)). destruct (e_map_value S s' _); cbn; eauto.
    + apply compound_ext. intros s [a b] _. reflexivity.
  - destruct T as (cs & K & ->). cbn [as_serde]. destruct n0 as [len|]; [|reflexivity]. cbn [shallow] in Hs. cbn [levels] in L. apply andb_true_iff in Hs as [_ Hs].
    cbn [required]. destruct l as [l|].
    + destruct (as_static_str l) as [name|]; [|reflexivity]. cbn [required].
      etransitivity; [apply (in_all_compound1 _ _ _ (fun s f => match f with (_, l, v) => match as_static_str l with Some x => e_struct_field S s x (ES (as_serde v)) | None => RErr (e_custom S) end end) _ _ _ (RK fs cs ltac:(lia) Hs K))|].
      * intros [cl c] [[ft fl] v] _ [-> SC] s. cbn [act]. destruct (as_static_str fl) as [x|]; [|cbn; eauto].
        rewrite (eoc_struct S OC s x _ _ SC). apply attempt_as.
      * etransitivity; [apply (compound_named (e_custom S) as_serde (fun s n v => e_struct_field S s n (ES v)))|].
        destruct (named as_serde fs) as [vs ok]. reflexivity.
    + cbn [eser]. rewrite compound_map, any_map. apply (in_all_compound1 _ _ _ _ _ _ _ (RK fs cs ltac:(lia) Hs K)).
      intros [cl c] [[ft fi] v] _ [_ SC] s. cbn [simply act snd]. rewrite (eoc_tuple S OC s _ _ SC). apply attempt_as.
  - destruct T as (cs & K & ->). cbn [as_serde]. destruct n0 as [len|]; [|reflexivity]. cbn [shallow] in Hs. cbn [levels] in L. apply andb_true_iff in Hs as [_ Hs].
    cbn [required]. destruct l as [l|].
    + destruct (as_static_str l) as [name|]; [|reflexivity]. cbn [required eser]. rewrite compound_map, any_map.
      apply (in_all_compound1 _ _ _ _ _ _ _ (TK fs cs ltac:(lia) Hs K)).
      intros c [[ft fi] v] _ SC s. cbn [simply act]. rewrite (eoc_tstruct S OC s _ _ SC). apply attempt_as.
    + cbn [eser]. rewrite compound_map, any_map. apply (in_all_compound1 _ _ _ _ _ _ _ (TK fs cs ltac:(lia) Hs K)).
      intros c [[ft fi] v] _ SC s. cbn [simply act]. rewrite (eoc_tuple S OC s _ _ SC). apply attempt_as.
Qed.
End Refines.
