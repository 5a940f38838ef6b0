(** * NestedDefaultProofs *)

From Verif Require Import Base Event Tree LowerModel DataModel FragModel BufferModel BufferSpec NestedModel NestedSpec NestedProofs
  NestedDefaultModel NestedDefaultSpec.

Definition weak (a : arg) : arg := (false, snd a).
Lemma weak_handed a r : child a r -> handed (weak a) r.
Proof. intros C. split; [reflexivity|]. exact C. Qed.

Lemma fits_in_i64 z : fits I64 z = in_i64 z.
Proof.
  unfold fits, in_i64. change (ity_min I64) with (- 2 ^ 63)%Z. change (ity_max I64) with (2 ^ 63 - 1)%Z.
  f_equal. destruct (Z.leb_spec z (2 ^ 63 - 1)), (Z.ltb_spec z (2 ^ 63)); try reflexivity; lia.
Qed.

Lemma fold_o_map {St A B} (f : St -> B -> outcome St) (g : A -> B) l : forall s,
  fold_o f s (map g l) = fold_o (fun s x => f s (g x)) s l.
Proof. induction l as [|x l IH]; intros s; [reflexivity|]. cbn [map fold_o]. destruct (f s (g x)); cbn [obind]; auto. Qed.
Lemma fold_o_ext {St A} (f g : St -> A -> outcome St) l : (forall s x, f s x = g s x) -> forall s,
  fold_o f s l = fold_o g s l.
Proof. intros E. induction l as [|x l IH]; intros s; [reflexivity|]. cbn [fold_o]. rewrite E. destruct (g s x); cbn [obind]; auto. Qed.
Lemma each_byte_fold S b : forall s,
  each_byte S s b = fold_o (seq_value S) s (map (fun x => (false, [CE (EInt U8 (byte_val x))])) b).
Proof. induction b as [|x b IH]; intros s; [reflexivity|]. cbn [each_byte map fold_o]. destruct (seq_value S s _); cbn [obind]; auto. Qed.

Lemma Forall2_weak {A B C} (P : A -> B -> Prop) (Q : C -> B -> Prop) (g : A -> C) xs ys :
  (forall x y, P x y -> Q (g x) y) -> Forall2 P xs ys -> Forall2 Q (map g xs) ys.
Proof. intros H. induction 1; cbn [map]; constructor; auto. Qed.

Definition weak3 {A B} (x : A * B * arg) : A * B * arg := match x with (a, b, v) => (a, b, weak v) end.

Section Level.
  Variable S : nstream.
  Variable n : nat.
  Notation D := (defaulted S (level S n)).

  Lemma variant_basic r : forall g, variant_answer D r g -> basic_variant S r g.
  Proof.
    induction r; cbn [variant_answer basic_variant]; intros g H; try contradiction.
    - destruct H as (l' & E & ->). exists l'. split; [exact E|]. reflexivity.
    - destruct H as (l' & a & E & C & ->). exists l', (weak a). split; [exact E|]. split; [apply weak_handed, C|]. reflexivity.
    - destruct H as (l' & g' & E & V & ->). exists l', g'. split; [exact E|]. split; [apply IHr, V|]. reflexivity.
    - destruct H as (l' & args & E & F & ->). exists l', (map weak3 args). split; [exact E|]. split.
      + eapply Forall2_weak; [|exact F]. intros [[? ?] a] [[? ?] v] (E1 & E2 & C). cbn [weak3]. split; [exact E1|]. split; [exact E2|]. apply weak_handed, C.
      + intros e. cbn [enum_record_begin vrecord_value vrecord_end n_vrecord n_ok n_enum defaulted].
        destruct (enum_record_begin S e t l' i n0); cbn [obind]; try reflexivity.
        rewrite fold_o_map. erewrite fold_o_ext; [reflexivity|]. intros s [[? ?] a0]. reflexivity.
    - destruct H as (l' & args & E & F & ->). exists l', (map weak3 args). split; [exact E|]. split.
      + eapply Forall2_weak; [|exact F]. intros [[? ?] a] [[? ?] v] (E1 & E2 & C). cbn [weak3]. split; [exact E1|]. split; [exact E2|]. apply weak_handed, C.
      + intros e. cbn [enum_tuple_begin vtuple_value vtuple_end n_vtuple n_ok n_enum defaulted].
        destruct (enum_tuple_begin S e t l' i n0); cbn [obind]; try reflexivity.
        rewrite fold_o_map. erewrite fold_o_ext; [reflexivity|]. intros s [[? ?] a0]. reflexivity.
  Qed.
End Level.

(** Simple values, directly. *)
Lemma level_text S n comp a s : mirror (tree_of a) = RText s ->
  level S (Datatypes.S n) comp (acalls a) = n_text S false s.
Proof.
  intros M. cbn [level]. assert (A := nested_answers (defaulted S (level S n)) comp a).
  rewrite M in A. destruct (A eq_refl) as (b & ->). reflexivity.
Qed.
Lemma level_null S n comp : level S (Datatypes.S n) comp [CE ENull] = n_null S.
Proof.
  cbn [level]. assert (A := nested_answers (defaulted S (level S n)) comp ANull eq_refl). exact A.
Qed.
Lemma display_acalls z : exists a, display_calls z = acalls a /\ mirror (tree_of a) = RText (dec z).
Proof.
  exists (AText None (map (fun f => (false, f)) (dec_frags z))). split.
  - unfold display_calls. cbn [acalls]. rewrite map_map. reflexivity.
  - cbn [tree_of mirror]. f_equal. unfold content. rewrite map_map. cbn [snd]. rewrite map_id. apply concat_dec_frags.
Qed.
Lemma number_acalls z : exists a b, stream_number_calls z = acalls a /\
  mirror (tree_of a) = RTagged (Some NUMBER) None None (RText (dec z)) /\ b = a.
Proof.
  destruct (display_acalls z) as (d & E & M). exists (ATagged (Some NUMBER) None None (AVal false d)). eexists. split.
  - unfold stream_number_calls. rewrite E. reflexivity.
  - split; [|reflexivity]. cbn [tree_of mirror okept option_map]. rewrite M. reflexivity.
Qed.
Lemma level_tagged S n comp a t l i r : mirror (tree_of a) = RTagged t l i r ->
  exists x, child x r /\ level S (Datatypes.S n) comp (acalls a) = level S n true (snd x).
Proof.
  intros M. cbn [level]. assert (A := nested_answers (defaulted S (level S n)) comp a).
  rewrite M in A. destruct (A eq_refl) as (l' & x & _ & C & ->). exists x. split; [exact C|reflexivity].
Qed.
Lemma level_number S n comp z :
  level S (Datatypes.S (Datatypes.S n)) comp (stream_number_calls z) = n_text S false (dec z).
Proof.
  destruct (number_acalls z) as (a & _ & E & M & _). rewrite E.
  destruct (level_tagged S (Datatypes.S n) comp a _ _ _ _ M) as (x & (a' & E' & M') & ->). rewrite E'. apply level_text, M'.
Qed.
Lemma level_label S n comp l : level S (Datatypes.S n) comp (label_calls l) = n_text S false (l_text l).
Proof.
  unfold label_calls. set (str := fun s => AText (Some (N.of_nat (List.length s))) [(true, s)]).
  assert (Hs : forall s, str_calls s = acalls (str s)) by reflexivity.
  assert (Hm : forall s, mirror (tree_of (str s)) = RText s) by (intros s; cbn; rewrite app_nil_r; reflexivity).
  destruct (as_static_str l) as [s|] eqn:E.
  - replace (l_text l) with s by (unfold as_static_str in E; destruct (l_kind l); congruence).
    rewrite Hs. change [CV (acalls (str s))] with (acalls (AVal true (str s))). apply level_text. apply Hm.
  - rewrite Hs. change [CVC (acalls (str (l_text l)))] with (acalls (AVal false (str (l_text l)))). apply level_text. apply Hm.
Qed.
Lemma def_int_spec S n t z :
  def_int S (level S (Datatypes.S (Datatypes.S n))) t z =
  if is_i64 t z then n_int S I64 z else n_text S false (dec z).
Proof.
  destruct t; unfold def_int, def_u8, def_u16, def_u32, def_u64, def_i8, def_i16, def_i32, def_128, req_i64, is_i64;
    try reflexivity; rewrite fits_in_i64; destruct (in_i64 z); try reflexivity; apply level_number.
Qed.

Lemma otext_kept l : l_text (kept_label l) = l_text l.
Proof. reflexivity. Qed.

Lemma through_1 r : handled_through r = true -> handled1 r = true.
Proof. destruct r; cbn [handled_through]; intros H; apply andb_true_iff in H; tauto. Qed.

Lemma level_answers S r : forall n comp a, mirror (tree_of a) = r -> handled_through r = true -> levels r + 2 <= n ->
  basic_answer S r (level S n comp (acalls a)).
Proof.
  induction r; intros k comp a M H L; (destruct k as [|n']; [lia|]);
    assert (A := nested_answers (defaulted S (level S n')) comp a);
    rewrite M in A; specialize (A (through_1 _ H));
    change (nested_value (S := defaulted S (level S n')) comp (acalls a)) with (level S (Datatypes.S n') comp (acalls a)) in A;
    cbn [answer basic_answer] in *.
  - exact A.
  - exact A.
  - rewrite A. cbn [levels] in L. destruct n' as [|[|n']]; [lia|lia|]. apply def_int_spec.
  - exact A.
  - exact A.
  - destruct A as (b & ->). reflexivity.
  - destruct A as (b & ->). cbn [n_bin defaulted]. unfold def_bin.
    destruct (n_seq_begin S _); cbn [obind]; try reflexivity. rewrite each_byte_fold. reflexivity.
  - destruct A as (l' & E & ->). cbn [n_tag defaulted]. unfold def_tag, def_tagged, tag_value.
    cbn [levels] in L. destruct n' as [|n']; [lia|]. subst l.
    destruct l' as [l'|]; cbn [okept option_map]; destruct (otag_is t RUST_OPTION_NONE); rewrite ?level_null, ?level_label; reflexivity.
  - destruct A as (l' & x & E & (a' & Ex & Mx) & ->). cbn [n_tagged defaulted]. unfold def_tagged. rewrite Ex.
    cbn [handled_through] in H. apply andb_true_iff in H. apply IHr; [exact Mx|tauto|cbn [levels] in L; lia].
  - destruct A as (l' & g & E & V & ->). exists l', g. split; [exact E|]. split; [eapply variant_basic, V|reflexivity].
  - destruct A as (args & F & ->). exists (map weak args). split.
    + eapply Forall2_weak; [|exact F]. apply weak_handed.
    + cbn [n_seq_begin seq_value seq_end n_seq n_ok defaulted].
      destruct (n_seq_begin S n); cbn [obind]; try reflexivity.
      rewrite fold_o_map. reflexivity.
  - destruct A as (args & F & ->). exists (map (fun x => (weak (fst x), weak (snd x))) args). split.
    + eapply Forall2_weak; [|exact F]. intros [x y] [k v] [K V]. split; apply weak_handed; assumption.
    + cbn [n_map_begin map_key map_value map_end n_map n_ok defaulted].
      destruct (n_map_begin S n); cbn [obind]; try reflexivity.
      rewrite fold_o_map. erewrite fold_o_ext; [reflexivity|]. intros s [x y]. reflexivity.
  - destruct A as (l' & args & E & F & ->). exists l', (map weak3 args). split; [exact E|]. split.
    + eapply Forall2_weak; [|exact F]. intros [[? ?] x] [[? ?] v] (E1 & E2 & C). cbn [weak3]. split; [exact E1|]. split; [exact E2|]. apply weak_handed, C.
    + cbn [n_record_begin record_value record_end n_record n_ok defaulted].
      destruct (n_record_begin S t l' i n); cbn [obind]; try reflexivity.
      rewrite fold_o_map. erewrite fold_o_ext; [reflexivity|]. intros s [[? ?] x]. reflexivity.
  - destruct A as (l' & args & E & F & ->). exists l', (map weak3 args). split; [exact E|]. split.
    + eapply Forall2_weak; [|exact F]. intros [[? ?] x] [[? ?] v] (E1 & E2 & C). cbn [weak3]. split; [exact E1|]. split; [exact E2|]. apply weak_handed, C.
    + cbn [n_tuple_begin tuple_value tuple_end n_tuple n_ok defaulted].
      destruct (n_tuple_begin S t l' i n); cbn [obind]; try reflexivity.
      rewrite fold_o_map. erewrite fold_o_ext; [reflexivity|]. intros s [[? ?] x]. reflexivity.
Qed.
