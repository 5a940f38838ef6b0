(** * UnderstoodProps: what a stream that handles some kinds of values receives (C02) *)

From Verif Require Import Base Event Tree LowerModel LowerSpec FlatProofs LowerProofs MethProofs ExtractProofs UnderstoodSpec.

Section Any.
  Variable S : Type.
  Variable O : ev -> bool.
  Variable step : S -> ev -> res S.
  Variable h : handles.
  Hypothesis HO : forall e, has_own h e = false -> O e = false.
  Notation M := (meth O step).
  Notation R := (run M).
  Definition same (a b : list ev) : Prop := forall s, R s a = R s b.

  Lemma same_refl a : same a a. Proof. intros s. reflexivity. Qed.
  Lemma same_sym a b : same a b -> same b a. Proof. intros H s. symmetry. apply H. Qed.
  Lemma same_trans a b c : same a b -> same b c -> same a c. Proof. intros H H' s. rewrite H. apply H'. Qed.
  Lemma same_app a a' b b' : same a a' -> same b b' -> same (a ++ b) (a' ++ b').
  Proof. intros A B s. rewrite !run_app, A. destruct (R s a'); cbn [bind]; [apply B|reflexivity..]. Qed.
  Lemma same_cons e b b' : same b b' -> same (e :: b) (e :: b').
  Proof. apply (same_app [e] [e]), same_refl. Qed.
  Lemma same_flat {A B} (f : A -> list ev) (g : B -> list ev) (k : A -> B) l : Forall (fun a => same (f a) (g (k a))) l -> same (flat_map f l) (flat_map g (map k l)).
  Proof. induction 1; [apply same_refl|]. cbn [flat_map map]. apply same_app; assumption. Qed.
  Lemma default e ds : has_own h e = false -> default_evs e = Some ds -> same [e] ds.
  Proof. intros N D s. rewrite run_one, meth_unfold, HO, D by exact N. reflexivity. Qed.

  Lemma tagged_same t l i v es : same es (emit v) -> same (ETaggedBegin t l i :: es ++ [ETaggedEnd t l i]) (emit (tagged_form h t l i v)).
  Proof.
    intros E. unfold tagged_form. destruct (h_tagged h) eqn:T.
    - cbn [emit]. apply same_cons, same_app; [exact E|apply same_refl].
    - apply (same_trans _ ([] ++ es ++ [])).
      + apply (same_app [_]); [apply default; [exact T|reflexivity]|]. apply same_app; [apply same_refl|]. apply default; [exact T|reflexivity].
      + rewrite app_nil_r. exact E.
  Qed.
  Lemma text_same n fs : same (ETextBegin n :: map text_frag fs ++ [ETextEnd]) (emit (text_form h n fs)).
  Proof.
    unfold text_form. cbn [emit]. apply same_cons, same_app; [|apply same_refl]. destruct (h_borrowed_text h) eqn:T; [apply same_refl|].
    induction fs as [|[b x] fs IH]; [apply same_refl|]. cbn [map]. apply (same_app [_] [_]); [|exact IH].
    destruct b; [|apply same_refl]. apply default; [exact T|reflexivity].
  Qed.
  Lemma any_int_same t z : t = U128 \/ t = I128 -> h_int h t = false -> same [EInt t z] (emit (any_int_form h z)).
  Proof.
    intros T N. assert (N' : has_own h (EInt t z) = false) by (destruct T; subst; exact N). unfold any_int_form. destruct (fits I64 z) eqn:F.
    - apply default; [exact N'|]. apply default_evs_int_small; assumption.
    - eapply same_trans; [apply default; [exact N'|apply default_evs_int_big; assumption]|].
      apply tagged_same. replace (map ETextFragC (dec_frags z)) with (map text_frag (map (fun f => (false, f)) (dec_frags z))); [apply text_same|].
      rewrite map_map. reflexivity.
  Qed.
  Lemma wider_same t z : t <> U128 -> t <> I128 -> t <> I64 -> h_int h t = false -> same [EInt t z] [EInt (wider t) z].
  Proof. intros A B C N. apply default; destruct t; try congruence; try exact N; reflexivity. Qed.
  Lemma int_same t z : same [EInt t z] (emit (int_form h t z)).
  Proof.
    assert (A : same [EInt U128 z] (emit (u128_form h z))) by (unfold u128_form; destruct (h_int h U128) eqn:E; [apply same_refl|apply any_int_same; auto]).
    assert (B : same [EInt U64 z] (emit (u64_form h z))) by (unfold u64_form; destruct (h_int h U64) eqn:E; [apply same_refl|eapply same_trans; [apply wider_same; congruence|exact A]]).
    assert (C : same [EInt U32 z] (emit (u32_form h z))) by (unfold u32_form; destruct (h_int h U32) eqn:E; [apply same_refl|eapply same_trans; [apply wider_same; congruence|exact B]]).
    assert (D : same [EInt U16 z] (emit (u16_form h z))) by (unfold u16_form; destruct (h_int h U16) eqn:E; [apply same_refl|eapply same_trans; [apply wider_same; congruence|exact C]]).
    assert (E1 : same [EInt U8 z] (emit (u8_form h z))) by (unfold u8_form; destruct (h_int h U8) eqn:E; [apply same_refl|eapply same_trans; [apply wider_same; congruence|exact D]]).
    assert (F : same [EInt I32 z] (emit (i32_form h z))) by (unfold i32_form; destruct (h_int h I32) eqn:E; [apply same_refl|apply wider_same; congruence]).
    assert (G : same [EInt I16 z] (emit (i16_form h z))) by (unfold i16_form; destruct (h_int h I16) eqn:E; [apply same_refl|eapply same_trans; [apply wider_same; congruence|exact F]]).
    assert (H1 : same [EInt I8 z] (emit (i8_form h z))) by (unfold i8_form; destruct (h_int h I8) eqn:E; [apply same_refl|eapply same_trans; [apply wider_same; congruence|exact G]]).
    destruct t; try assumption; cbn [int_form]; [apply same_refl|].
    unfold i128_form. destruct (h_int h I128) eqn:E; [apply same_refl|apply any_int_same; auto].
  Qed.
  Lemma binary_same n fs : same (EBinBegin n :: map bin_frag fs ++ [EBinEnd]) (emit (binary_form h n fs)).
  Proof.
    unfold binary_form. destruct (h_binary h) eqn:B.
    - cbn [emit]. apply same_cons, same_app; [|apply same_refl]. destruct (h_borrowed_binary h) eqn:T; [apply same_refl|].
      induction fs as [|[b x] fs IH]; [apply same_refl|]. cbn [map]. apply (same_app [_] [_]); [|exact IH].
      destruct b; [|apply same_refl]. apply default; [unfold bin_frag; cbn [fst snd has_own]; rewrite B, T; reflexivity|reflexivity].
    - cbn [emit]. apply (same_app [_] [_]); [apply default; [exact B|reflexivity]|]. apply same_app; [|apply default; [exact B|reflexivity]].
      assert (X : forall x, same [EBinFragC x] (flat_map (fun v => ESeqValBegin :: emit v ++ [ESeqValEnd]) (map (fun b => u8_form h (byte_val b)) x))).
      { intros x. eapply same_trans; [apply default; [exact B|unfold default_evs; cbn [default_calls option_map]; rewrite bin_calls_flat; reflexivity]|].
        cbn [fst]. apply same_flat, Forall_forall. intros b _. apply same_cons, (same_app [_]); [|apply same_refl]. apply (int_same U8). }
      induction fs as [|[b x] fs IH]; [apply same_refl|]. cbn [map List.concat snd]. rewrite map_app, flat_map_app. apply (same_app [_]); [|exact IH].
      destruct b; [|apply X]. eapply same_trans; [apply default; [unfold bin_frag; cbn [fst snd has_own]; rewrite B; reflexivity|reflexivity]|apply X].
  Qed.

  Lemma label_same l es : label_calls l = es -> same (fst (flat es false)) (emit (label_form h l)).
  Proof.
    intros <-. unfold label_form. eapply same_trans; [|apply text_same]. unfold label_calls, as_static_str. destruct (l_kind l); apply same_refl.
  Qed.
  Lemma tag_same t l i : same [ETag t l i] (emit (tag_form h t l i)).
  Proof.
    unfold tag_form. destruct (h_tag h) eqn:T; [apply same_refl|].
    eapply same_trans; [apply (default _ (ETaggedBegin t l i :: (if otag_is t RUST_OPTION_NONE then [ENull] else match l with Some l => fst (flat (label_calls l) false) | None => [ENull] end) ++ [ETaggedEnd t l i])); [exact T|]|].
    - unfold default_evs. cbn [default_calls option_map]. destruct (otag_is t RUST_OPTION_NONE); [reflexivity|]. destruct l as [l|]; [|reflexivity].
      unfold label_calls. destruct (as_static_str l); reflexivity.
    - apply tagged_same. destruct (otag_is t RUST_OPTION_NONE); [apply same_refl|]. destruct l as [l|]; [|apply same_refl]. apply label_same. reflexivity.
  Qed.

  Lemma tuple_same t l i n (fs : list (option tag * index * tree)) fs' :
    Forall2 (fun f f' => fst f = fst f' /\ same (emit (snd f)) (emit (snd f'))) fs fs' ->
    same (emit (TTuple t l i n fs)) (emit (tuple_form h t l i n fs')).
  Proof.
    intros F. unfold tuple_form. cbn [emit]. destruct (h_tuple h) eqn:T.
    - cbn [emit]. apply same_cons, same_app; [|apply same_refl]. induction F as [|[[a b] v] [[a' b'] v'] fs fs' (E & V) F IH]; [apply same_refl|].
      cbn [fst snd] in *. injection E as -> ->. cbn [flat_map]. apply same_app; [|exact IH]. apply same_cons, same_app; [exact V|apply same_refl].
    - eapply same_trans; [|apply (tagged_same t l i _ (ESeqBegin n :: flat_map (fun v => ESeqValBegin :: emit v ++ [ESeqValEnd]) (map snd fs') ++ [ESeqEnd])), same_refl].
      apply (same_trans _ ([ETaggedBegin t l i; ESeqBegin n] ++ flat_map (fun v => ESeqValBegin :: emit v ++ [ESeqValEnd]) (map snd fs') ++ [ESeqEnd; ETaggedEnd t l i])).
      + apply (same_app [_]); [apply default; [exact T|reflexivity]|]. apply same_app; [|apply default; [exact T|reflexivity]].
        induction F as [|[[a b] v] [[a' b'] v'] fs fs' (E & V) F IH]; [apply same_refl|]. cbn [flat_map map snd] in *. apply same_app; [|exact IH].
        apply (same_app [_] [_]); [apply default; [exact T|reflexivity]|]. apply same_app; [exact V|]. apply default; [exact T|reflexivity].
      + cbn [app]. rewrite <- app_assoc. apply same_refl.
  Qed.
  Lemma map_same n es es' :
    Forall2 (fun e e' => same (emit (fst e)) (emit (fst e')) /\ same (emit (snd e)) (emit (snd e'))) es es' ->
    same (emit (TMap n es)) (emit (map_form h n es')).
  Proof.
    intros F. unfold map_form. cbn [emit]. destruct (h_map h) eqn:T.
    - cbn [emit]. apply same_cons, same_app; [|apply same_refl]. induction F as [|[k v] [k' v'] es es' (K & V) F IH]; [apply same_refl|]. cbn [fst snd flat_map] in *.
      apply same_app; [|exact IH]. apply same_cons, same_app; [exact K|]. do 2 apply same_cons. apply same_app; [exact V|apply same_refl].
    - cbn [emit]. apply (same_app [_] [_]); [apply default; [exact T|reflexivity]|]. apply same_app; [|apply default; [exact T|reflexivity]].
      induction F as [|[k v] [k' v'] es es' (K & V) F IH]; [apply same_refl|]. cbn [fst snd flat_map map] in *. apply same_app; [|exact IH].
      eapply same_trans; [|apply same_cons, same_app; [apply (tuple_same None None None (Some 2%N) [(None, MkIndex 0 None, k); (None, MkIndex 1 None, v)])|apply same_refl];
        repeat constructor; assumption]. cbn [emit flat_map app].
      change (EMapKeyBegin :: emit k ++ EMapKeyEnd :: EMapValBegin :: emit v ++ [EMapValEnd]) with ([EMapKeyBegin] ++ emit k ++ [EMapKeyEnd] ++ [EMapValBegin] ++ emit v ++ [EMapValEnd]).
      eapply same_trans; [apply same_app; [apply default; [exact T|reflexivity]|apply same_app; [apply same_refl|apply same_app; [apply default; [exact T|reflexivity]|
        apply same_app; [apply default; [exact T|reflexivity]|apply same_app; [apply same_refl|apply default; [exact T|reflexivity]]]]]]|].
      cbn [fst flat flat1 snd app]. rewrite <- ?app_assoc. cbn [app]. rewrite <- ?app_assoc. cbn [app]. apply same_refl.
  Qed.
  Lemma record_same t l i n (fs : list (option tag * label * tree)) fs' :
    Forall2 (fun f f' => fst f = fst f' /\ same (emit (snd f)) (emit (snd f'))) fs fs' ->
    same (emit (TRecord t l i n fs)) (emit (record_form h t l i n fs')).
  Proof.
    intros F. unfold record_form. cbn [emit]. destruct (h_record h) eqn:T.
    - cbn [emit]. apply same_cons, same_app; [|apply same_refl]. induction F as [|[[a b] v] [[a' b'] v'] fs fs' (E & V) F IH]; [apply same_refl|].
      cbn [fst snd] in *. injection E as -> ->. cbn [flat_map]. apply same_app; [|exact IH]. apply same_cons, same_app; [exact V|apply same_refl].
    - set (es := map (fun f : option tag * label * tree => match f with (_, l, v) => (label_form h l, v) end) fs').
      eapply same_trans; [|apply (tagged_same t l i _ (emit (TMap n es)))].
      2: { apply map_same. induction es; constructor; [split; apply same_refl|assumption]. }
      cbn [emit]. apply (same_trans _ ([ETaggedBegin t l i; EMapBegin n] ++ flat_map (fun kv => match kv with (k, v) =>
                  EMapKeyBegin :: emit k ++ EMapKeyEnd :: EMapValBegin :: emit v ++ [EMapValEnd] end) es ++ [EMapEnd; ETaggedEnd t l i])).
      2: { cbn [app]. rewrite <- app_assoc. apply same_refl. }
      apply (same_app [_]); [apply default; [exact T|reflexivity]|]. apply same_app; [|apply default; [exact T|reflexivity]]. subst es.
      induction F as [|[[a b] v] [[a' b'] v'] fs fs' (E & V) F IH]; [apply same_refl|]. cbn [flat_map map fst snd] in *. injection E as -> ->. apply same_app; [|exact IH].
      apply (same_trans _ ((EMapKeyBegin :: fst (flat (label_calls b') false) ++ [EMapKeyEnd; EMapValBegin]) ++ emit v' ++ [EMapValEnd])).
      + apply (same_app [_]).
        * apply default; [exact T|]. unfold default_evs. cbn [default_calls option_map]. unfold label_calls. destruct (as_static_str b'); reflexivity.
        * apply same_app; [exact V|]. apply default; [exact T|reflexivity].
      + cbn [app]. rewrite <- app_assoc. apply same_cons, same_app; [apply label_same; reflexivity|apply same_refl].
  Qed.
  Lemma record_tuple_same t l i n (fs : list (option tag * label * index * tree)) fs' :
    Forall2 (fun f f' => fst f = fst f' /\ same (emit (snd f)) (emit (snd f'))) fs fs' ->
    same (emit (TRecTup t l i n fs)) (emit (record_tuple_form h t l i n fs')).
  Proof.
    intros F. unfold record_tuple_form. cbn [emit]. destruct (h_record_tuple h) eqn:T.
    - cbn [emit]. apply same_cons, same_app; [|apply same_refl]. induction F as [|[[[a b] c] v] [[[a' b'] c'] v'] fs fs' (E & V) F IH]; [apply same_refl|].
      cbn [fst snd] in *. injection E as -> -> ->. cbn [flat_map]. apply same_app; [|exact IH]. apply same_cons, same_app; [exact V|apply same_refl].
    - eapply same_trans; [|apply (record_same t l i n (map (fun f : option tag * label * index * tree => match f with (t, l, _, v) => (t, l, v) end) fs'))].
      2: { induction (map _ fs'); constructor; [split; [reflexivity|apply same_refl]|assumption]. }
      cbn [emit]. apply (same_app [_] [_]); [apply default; [exact T|reflexivity]|]. apply same_app; [|apply default; [exact T|reflexivity]].
      induction F as [|[[[a b] c] v] [[[a' b'] c'] v'] fs fs' (E & V) F IH]; [apply same_refl|]. cbn [flat_map map fst snd] in *. injection E as -> -> ->. apply same_app; [|exact IH].
      apply (same_app [_] [_]); [apply default; [exact T|reflexivity]|]. apply same_app; [exact V|]. apply default; [exact T|reflexivity].
  Qed.
  Lemma F2_map {A B} (P : A -> B -> Prop) (f : A -> B) l : Forall (fun a => P a (f a)) l -> Forall2 P l (map f l).
  Proof. induction 1; constructor; assumption. Qed.
  Lemma understood_same t : same (emit t) (emit (understood h t)).
  Proof.
    induction t using tree_ind'; cbn [understood].
    - apply same_refl.
    - apply same_refl.
    - apply int_same.
    - destruct (h_f32 h) eqn:E; [apply same_refl|]. apply default; [exact E|reflexivity].
    - apply same_refl.
    - apply text_same.
    - apply binary_same.
    - apply tag_same.
    - cbn [emit]. destruct (h_hint h) eqn:E; [cbn [emit]; apply same_cons, IHt|]. apply (same_app [_] []); [|exact IHt]. apply default; [exact E|reflexivity].
    - cbn [emit]. apply tagged_same, IHt.
    - cbn [emit]. unfold enum_form. destruct (h_enum h) eqn:E; [cbn [emit]; apply same_cons, same_app; [exact IHt|apply same_refl]|].
      eapply same_trans; [|apply (tagged_same t l i _ (emit t0)), IHt]. apply (same_app [_] [_]); [apply default; [exact E|reflexivity]|].
      apply same_app; [apply same_refl|]. apply default; [exact E|reflexivity].
    - cbn [emit]. apply same_cons, same_app; [|apply same_refl]. apply same_flat. eapply Forall_impl; [|exact H]. intros v V. apply same_cons, same_app; [exact V|apply same_refl].
    - apply map_same, F2_map. eapply Forall_impl; [|exact H]. intros [k v] (K & V). split; assumption.
    - apply record_same, F2_map. eapply Forall_impl; [|exact H]. intros [[a b] v] V. split; [reflexivity|exact V].
    - apply tuple_same, F2_map. eapply Forall_impl; [|exact H]. intros [[a b] v] V. split; [reflexivity|exact V].
    - apply record_tuple_same, F2_map. eapply Forall_impl; [|exact H]. intros [[[a b] c] v] V. split; [reflexivity|exact V].
  Qed.
End Any.

(** A stream that has no method of its own for some kinds of values does with any value what
    it does with the value written in terms of the other kinds. *)
Theorem C02_default_kinds :
  forall (S : Type) (O : ev -> bool) (step : S -> ev -> res S) h v v' t,
  (forall e, has_own h e = false -> O e = false) ->
  streams v t -> streams v' (understood h t) ->
  forall s, run_impl O step s v = run_impl O step s v'.
Proof.
  intros S O step h v v' t HO H H' s. unfold streams in *. rewrite !run_impl_meth, H, H'. cbn [fst snd].
  rewrite (understood_same S O step h HO t s). reflexivity.
Qed.

(** The calls of a value in these terms are calls the stream has methods of its own for. *)
Section Own.
  Variable h : handles.
  Definition owned (es : list ev) : Prop := Forall (fun e => has_own h e = true) es.
  Lemma owned_app a b : owned a -> owned b -> owned (a ++ b). Proof. intros; apply Forall_app; auto. Qed.
  Lemma owned_cons e b : has_own h e = true -> owned b -> owned (e :: b). Proof. constructor; assumption. Qed.
  Lemma owned_nil : owned []. Proof. constructor. Qed.
  Lemma owned_flat {A} (f : A -> list ev) l : Forall (fun a => owned (f a)) l -> owned (flat_map f l).
  Proof. induction 1; [constructor|]. cbn [flat_map]. apply owned_app; assumption. Qed.
  Lemma owned_wrap a es b : has_own h a = true -> owned es -> has_own h b = true -> owned (a :: es ++ [b]).
  Proof. intros A E B. apply owned_cons; [exact A|]. apply owned_app; [exact E|]. apply owned_cons; [exact B|apply owned_nil]. Qed.
  Lemma owned_one e : has_own h e = true -> owned [e]. Proof. intros; apply owned_cons; [assumption|apply owned_nil]. Qed.

  Lemma owned_tagged t l i v : owned (emit v) -> owned (emit (tagged_form h t l i v)).
  Proof. intros V. unfold tagged_form. destruct (h_tagged h) eqn:T; [|exact V]. cbn [emit]. apply owned_wrap; assumption. Qed.
  Lemma owned_text n fs : owned (emit (text_form h n fs)).
  Proof.
    unfold text_form. cbn [emit]. apply owned_wrap; [reflexivity| |reflexivity]. destruct (h_borrowed_text h) eqn:T; unfold owned; rewrite ?map_map; apply Forall_map, Forall_forall; intros [b x] _;
      [destruct b; [exact T|]|]; reflexivity.
  Qed.
  Lemma owned_int t z : owned (emit (int_form h t z)).
  Proof.
    assert (A : owned (emit (any_int_form h z))) by (unfold any_int_form; destruct (fits I64 z); [apply owned_one; reflexivity|apply owned_tagged, owned_text]).
    destruct t; cbn [int_form]; unfold i8_form, i16_form, i32_form, i128_form, u8_form, u16_form, u32_form, u64_form, u128_form;
      repeat match goal with |- context [if h_int h ?t then _ else _] => destruct (h_int h t) eqn:? end; try exact A; apply owned_one; cbn [has_own]; try assumption; reflexivity.
  Qed.
  Lemma owned_binary n fs : owned (emit (binary_form h n fs)).
  Proof.
    unfold binary_form. destruct (h_binary h) eqn:B; cbn [emit].
    - apply owned_wrap; [exact B| |exact B]. destruct (h_borrowed_binary h) eqn:T; unfold owned; rewrite ?map_map; apply Forall_map, Forall_forall; intros [b x] _;
        unfold bin_frag; cbn [fst snd computed_frag]; [destruct b; cbn [has_own]; [rewrite B; exact T|]|]; exact B.
    - apply owned_wrap; [reflexivity| |reflexivity]. apply owned_flat, Forall_map, Forall_forall. intros b _. apply owned_wrap; [reflexivity|apply (owned_int U8)|reflexivity].
  Qed.
  Lemma owned_tag t l i : owned (emit (tag_form h t l i)).
  Proof.
    unfold tag_form. destruct (h_tag h) eqn:T; [apply owned_one, T|]. apply owned_tagged.
    destruct (otag_is t RUST_OPTION_NONE); [apply owned_one; reflexivity|]. destruct l; [apply owned_text|apply owned_one; reflexivity].
  Qed.
  Lemma owned_tuple t l i n fs : Forall (fun f => owned (emit (snd f))) fs -> owned (emit (tuple_form h t l i n fs)).
  Proof.
    intros F. unfold tuple_form. destruct (h_tuple h) eqn:T.
    - cbn [emit]. apply owned_wrap; [exact T| |exact T]. apply owned_flat. eapply Forall_impl; [|exact F]. intros [[a b] v] V. apply owned_wrap; [exact T|exact V|exact T].
    - apply owned_tagged. cbn [emit]. apply owned_wrap; [reflexivity| |reflexivity]. apply owned_flat, Forall_map. eapply Forall_impl; [|exact F]. intros [[a b] v] V.
      apply owned_wrap; [reflexivity|exact V|reflexivity].
  Qed.
  Lemma owned_map n es : Forall (fun e => owned (emit (fst e)) /\ owned (emit (snd e))) es -> owned (emit (map_form h n es)).
  Proof.
    intros F. unfold map_form. destruct (h_map h) eqn:T; cbn [emit].
    - apply owned_wrap; [exact T| |exact T]. apply owned_flat. eapply Forall_impl; [|exact F]. intros [k v] (K & V). cbn [fst snd] in *.
      apply owned_cons; [exact T|]. apply owned_app; [exact K|]. apply owned_cons; [exact T|]. apply owned_wrap; [exact T|exact V|exact T].
    - apply owned_wrap; [reflexivity| |reflexivity]. apply owned_flat, Forall_map. eapply Forall_impl; [|exact F]. intros [k v] (K & V). cbn [fst snd] in *.
      apply owned_wrap; [reflexivity| |reflexivity]. apply owned_tuple. repeat constructor; assumption.
  Qed.
  Lemma owned_record t l i n fs : Forall (fun f => owned (emit (snd f))) fs -> owned (emit (record_form h t l i n fs)).
  Proof.
    intros F. unfold record_form. destruct (h_record h) eqn:T.
    - cbn [emit]. apply owned_wrap; [exact T| |exact T]. apply owned_flat. eapply Forall_impl; [|exact F]. intros [[a b] v] V. apply owned_wrap; [exact T|exact V|exact T].
    - apply owned_tagged, owned_map, Forall_map. eapply Forall_impl; [|exact F]. intros [[a b] v] V. split; [apply owned_text|exact V].
  Qed.
  Lemma owned_record_tuple t l i n fs : Forall (fun f => owned (emit (snd f))) fs -> owned (emit (record_tuple_form h t l i n fs)).
  Proof.
    intros F. unfold record_tuple_form. destruct (h_record_tuple h) eqn:T.
    - cbn [emit]. apply owned_wrap; [exact T| |exact T]. apply owned_flat. eapply Forall_impl; [|exact F]. intros [[[a b] c] v] V. apply owned_wrap; [exact T|exact V|exact T].
    - apply owned_record, Forall_map. eapply Forall_impl; [|exact F]. intros [[[a b] c] v] V. exact V.
  Qed.
  Lemma understood_owned t : owned (emit (understood h t)).
  Proof.
    induction t using tree_ind'; cbn [understood].
    - apply owned_one; reflexivity.
    - apply owned_one; reflexivity.
    - apply owned_int.
    - destruct (h_f32 h) eqn:E; apply owned_one; [exact E|reflexivity].
    - apply owned_one; reflexivity.
    - apply owned_text.
    - apply owned_binary.
    - apply owned_tag.
    - destruct (h_hint h) eqn:E; [cbn [emit]; apply owned_cons; assumption|exact IHt].
    - apply owned_tagged, IHt.
    - unfold enum_form. destruct (h_enum h) eqn:E; [cbn [emit]; apply owned_wrap; assumption|apply owned_tagged, IHt].
    - cbn [emit]. apply owned_wrap; [reflexivity| |reflexivity]. apply owned_flat, Forall_map. eapply Forall_impl; [|exact H]. intros v V. apply owned_wrap; [reflexivity|exact V|reflexivity].
    - apply owned_map, Forall_map. eapply Forall_impl; [|exact H]. intros [k v] (K & V). split; assumption.
    - apply owned_record, Forall_map. eapply Forall_impl; [|exact H]. intros [[a b] v] V. exact V.
    - apply owned_tuple, Forall_map. eapply Forall_impl; [|exact H]. intros [[a b] v] V. exact V.
    - apply owned_record_tuple, Forall_map. eapply Forall_impl; [|exact H]. intros [[[a b] c] v] V. exact V.
  Qed.
End Own.

(** A stream with methods of its own for exactly the kinds [h]: of any well-formed value, its
    methods receive exactly the calls of the value in those terms. *)
Theorem C02_receives_understood :
  forall (S : Type) (O : ev -> bool) (step : S -> ev -> res S) h v t,
  (forall e, required e = false -> O e = has_own h e) ->
  streams v t ->
  forall s, run_impl O step s v = run step s (emit (understood h t)).
Proof.
  intros S O step h v t HO H s. unfold streams in H. rewrite run_impl_meth, H. cbn [fst snd].
  assert (HO' : forall e, has_own h e = false -> O e = false).
  { intros e N. destruct (required e) eqn:Q; [|rewrite HO; assumption]. exfalso. unfold required in Q. destruct e; try discriminate N; try discriminate Q.
    destruct t0; try discriminate N; try discriminate Q; cbn [default_calls] in Q; destruct (fits I64 z); discriminate Q. }
  rewrite (understood_same S O step h HO' t s).
  assert (X : forall es s, owned h es -> run (meth O step) s es = run step s es).
  { intros es s0 W. apply run_ext. intros s1 e I. unfold owned in W. rewrite Forall_forall in W. specialize (W e I). rewrite meth_unfold.
    destruct (O e) eqn:E; [reflexivity|]. unfold default_evs. destruct (default_calls e) eqn:D; [|reflexivity].
    rewrite HO in E by (unfold required; rewrite D; reflexivity). congruence. }
  rewrite X by apply understood_owned. destruct (run step s (emit (understood h t))); reflexivity.
Qed.

(** For instance: maps and tuples but not records, and 64-bit integers. *)
Definition some_kinds : handles :=
  MkHandles (fun t => match t with U64 => true | _ => false end) false true false false true false false false false false true false.
Definition kinds_sample : tree :=
  TRecord None (Some (label_new (bs "R"))) None (Some 2%N)
    [(None, label_new (bs "a"), TMap None [(TInt U8 1, TBin None [(true, bs "x")])]);
     (None, label_new (bs "b"), TTuple None None None None [(None, MkIndex 0 None, TEnum None None None (TTag None (Some (label_new (bs "E"))) None))])].
Example C02_kinds_sample :
  understood some_kinds kinds_sample =
  TMap (Some 2%N)
    [(TText (Some 1%N) [(true, bs "a")], TMap None [(TInt U64 1, TSeq None [TInt U64 120])]);
     (TText (Some 1%N) [(true, bs "b")], TTuple None None None None [(None, MkIndex 0 None, TText (Some 1%N) [(true, bs "E")])])].
Proof. vm_compute. reflexivity. Qed.
Example C02_pairs_sample :
  understood (MkHandles (fun _ => true) true true true true false true true true true true true true) (TMap (Some 1%N) [(TNull, TBool true)]) =
  TSeq (Some 1%N) [TTuple None None None (Some 2%N) [(None, MkIndex 0 None, TNull); (None, MkIndex 1 None, TBool true)]].
Proof. reflexivity. Qed.

Print Assumptions C02_default_kinds.
Print Assumptions C02_receives_understood.
