(** * NestedDefaultProps: C73, a nested stream that keeps the default methods *)

From Verif Require Import Base Event Tree LowerModel DataModel FragModel BufferModel BufferSpec NestedModel NestedSpec NestedProofs NestedWhole NestedProps
  DecProofs NestedDefaultModel NestedDefaultSpec NestedDefaultProofs.

(** ** One level

    Whatever the author's methods do: streaming a value, or computing one, into a
    stream of which only the required methods are written is a fixed sequence of
    calls to those methods, with every integer, float, text and byte in place and
    the tags of tagged values dropped. *)
Theorem C73_required_methods_partial : forall S v t,
  whole v -> streams v t -> handled_through (mirror t) = true ->
  forall n computed, levels (mirror t) + 2 <= n -> basic_answer S (mirror t) (level S n computed v).
Proof.
  intros S v t W F H n c L. destruct (whole_atree v t W F) as (a & -> & _ & <-). rewrite stree_mirror in *.
  apply level_answers; [reflexivity|exact H|exact L].
Qed.

(** The children that arrive can be streamed the same way. *)
Theorem C73_children_partial : forall S a r,
  child a r -> handled_through r = true ->
  forall n computed, levels r + 2 <= n -> basic_answer S r (level S n computed (snd a)).
Proof. intros S [m cs] r (a & E & M) H n c L. cbn [snd] in *. subst. apply level_answers; [reflexivity|exact H|exact L]. Qed.

(** ** The whole value

    A stream that writes only the required methods, records what it is told and
    recurses into its children. *)
Fixpoint read_basic (n : nat) (a : arg) : outcome rview :=
  match n with
  | 0 => OErr
  | S n' => level (reader (read_basic n')) (S n) (negb (fst a)) (snd a)
  end.

Section Read.
  Variable rec : arg -> outcome rview.
  Notation R := (reader rec).
  Variable f : rview -> rview.
  Definition reads (a : arg) (r : rview) : Prop := rec a = OOk (f r).

  Lemma basic_seq args vs : Forall2 reads args vs -> forall k acc,
    fold_o (seq_value R) (k, acc) args = OOk (k, acc ++ map f vs).
  Proof.
    induction 1 as [|a r args vs Ha _ IH]; intros k acc; cbn [fold_o map]; [rewrite app_nil_r; reflexivity|].
    cbn [seq_value reader]. rewrite Ha. cbn [obind fst snd]. etransitivity; [apply IH|]. rewrite <- app_assoc. reflexivity.
  Qed.
  Lemma basic_map args es :
    Forall2 (fun x e => match x, e with (a, b), (k, v) => reads a k /\ reads b v end) args es ->
    forall k acc, fold_o (fun (s : n_map R) x => match x with (a, b) => s1 <- map_key R s a ;; map_value R s1 b end) (k, acc, None) args =
      OOk (k, acc ++ map (fun kv => match kv with (k, v) => (f k, f v) end) es, None).
  Proof.
    induction 1 as [|[a b] [k0 v0] args es Ha _ IH]; intros k acc; cbn [fold_o map]; [rewrite app_nil_r; reflexivity|].
    destruct Ha as (Hk & Hv). cbn [map_key map_value reader]. rewrite Hk. cbn [obind]. rewrite Hv. cbn [obind].
    etransitivity; [apply IH|]. rewrite <- app_assoc. reflexivity.
  Qed.
  Lemma basic_record {H} (args : list (option tag * label * arg)) (fs : list (option tag * label * rview)) :
    Forall2 (fun x y => match x, y with (xt, xl, a), (ft, fl, v) => xt = ft /\ kept_label xl = fl /\ reads a v end) args fs ->
    forall (h : H) acc, fold_o (fun s x => match x with (xt, xl, a) => v <- rec a ;; OOk (fst s, snd s ++ [(xt, kept_label xl, v)]) end) (h, acc) args =
      OOk (h, acc ++ map (fun x => match x with (ft, fl, v) => (ft, fl, f v) end) fs).
  Proof.
    induction 1 as [|[[xt xl] a] [[ft fl] v] args fs Ha _ IH]; intros h acc; cbn [fold_o map]; [rewrite app_nil_r; reflexivity|].
    destruct Ha as (-> & <- & Ha). rewrite Ha. cbn [obind fst snd]. rewrite IH, <- app_assoc. reflexivity.
  Qed.
  Lemma basic_tuple {H} (args : list (option tag * index * arg)) (fs : list (option tag * index * rview)) :
    Forall2 (fun x y => match x, y with (xt, xi, a), (ft, fi, v) => xt = ft /\ xi = fi /\ reads a v end) args fs ->
    forall (h : H) acc, fold_o (fun s x => match x with (xt, xi, a) => v <- rec a ;; OOk (fst s, snd s ++ [(xt, xi, v)]) end) (h, acc) args =
      OOk (h, acc ++ map (fun x => match x with (ft, fi, v) => (ft, fi, f v) end) fs).
  Proof.
    induction 1 as [|[[xt xi] a] [[ft fi] v] args fs Ha _ IH]; intros h acc; cbn [fold_o map]; [rewrite app_nil_r; reflexivity|].
    destruct Ha as (-> & -> & Ha). rewrite Ha. cbn [obind fst snd]. rewrite IH, <- app_assoc. reflexivity.
  Qed.
End Read.

Lemma handled_through_all r : handled r = true -> handled_through r = true.
Proof.
  unfold handled. induction r; cbn [handled_at handled_through orb]; intros H; apply andb_true_iff in H; destruct H as (H1 & H2);
    apply andb_true_iff; split; auto.
Qed.

Section Whole.
  Variable n : nat.
  Hypothesis IH : forall a m, handled (mirror (tree_of a)) = true -> levels (mirror (tree_of a)) + 2 <= n ->
    read_basic n (m, acalls a) = OOk (reduced false (mirror (tree_of a))).
  Notation R := (reader (read_basic n)).

  Lemma reads_child a r : handed a r -> handled r = true -> levels r + 2 <= n -> reads (read_basic n) (reduced false) a r.
  Proof. destruct a as [m cs]. intros (_ & a & E & M) H L. cbn [snd] in E. subst. apply IH; assumption. Qed.

  Lemma F2_reads {A B} (P : A -> B -> Prop) (Q : A -> B -> Prop) (g : B -> nat) (h : B -> bool) xs ys m :
    (forall x y, P x y -> h y = true -> g y <= m -> Q x y) ->
    Forall2 P xs ys -> forallb h ys = true -> maxl (map g ys) <= m -> Forall2 Q xs ys.
  Proof.
    intros H. induction 1 as [|x y xs ys Hx _ IHl]; intros Hb L; [constructor|].
    cbn [forallb map maxl fold_right] in *. apply andb_true_iff in Hb. destruct Hb. constructor; [apply H; auto; lia|].
    apply IHl; auto. unfold maxl. lia.
  Qed.

  Lemma basic_variant_read r : forall g, basic_variant R r g -> handled_at true r = true -> levels r + 2 <= S n ->
    forall et el ei, g (et, el, ei) = OOk (REnum et el ei (reduced true r)).
  Proof.
    induction r; cbn [basic_variant]; intros g Hg Hh L et el ei; try contradiction; cbn [reduced].
    - destruct Hg as (l' & E & ->). cbn [enum_tag reader]. rewrite E. reflexivity.
    - destruct Hg as (l' & a & E & C & ->). apply handled_children in Hh. cbn [enum_tagged reader levels] in *.
      rewrite (reads_child _ _ C Hh) by lia. cbn [obind]. rewrite E. reflexivity.
    - destruct Hg as (l' & g' & E & V & ->). apply handled_children in Hh. cbn [enum_nested reader levels] in *.
      rewrite (IHr g' V Hh) by lia. cbn [obind]. rewrite E. reflexivity.
    - destruct Hg as (l' & args & E & F & ->). apply handled_children in Hh. cbn [levels] in *.
      cbn [enum_record_begin vrecord_value vrecord_end n_vrecord reader obind].
      rewrite (basic_record (read_basic n) (reduced false) args fs).
      + cbn [obind app]. rewrite E. reflexivity.
      + eapply F2_reads with (m := n - 2) (g := fun f => match f with (_, _, v) => levels v end); [|exact F|exact Hh|lia].
        intros [[? ?] a] [[? ?] v] (E1 & E2 & C) Hv Lv. split; [exact E1|]. split; [exact E2|]. apply reads_child; auto. lia.
    - destruct Hg as (l' & args & E & F & ->). apply handled_children in Hh. cbn [levels] in *.
      cbn [enum_tuple_begin vtuple_value vtuple_end n_vtuple reader obind].
      rewrite (basic_tuple (read_basic n) (reduced false) args fs).
      + cbn [obind app]. rewrite E. reflexivity.
      + eapply F2_reads with (m := n - 2) (g := fun f => match f with (_, _, v) => levels v end); [|exact F|exact Hh|lia].
        intros [[? ?] a] [[? ?] v] (E1 & E2 & C) Hv Lv. split; [exact E1|]. split; [exact E2|]. apply reads_child; auto. lia.
  Qed.

  Lemma basic_read r : forall o, basic_answer R r o -> handled r = true -> levels r + 2 <= S n -> o = OOk (reduced false r).
  Proof.
    unfold handled. induction r; cbn [basic_answer reduced]; intros o Ho Hh L; try (subst o; reflexivity).
    - subst o. destruct (is_i64 t z); reflexivity.
    - subst o. cbn [n_seq_begin seq_end n_seq reader obind].
      rewrite (basic_seq (read_basic n) (reduced false) _ (map (fun x => RInt U8 (byte_val x)) s)).
      + cbn [obind fst snd app]. rewrite map_map. cbn [reduced].
        assert (E : map (fun x => if is_i64 U8 (byte_val x) then RInt I64 (byte_val x) else RText (dec (byte_val x))) s =
                    map (fun x => RInt I64 (byte_val x)) s); [|rewrite E; reflexivity].
        apply map_ext. intros x. assert (B : in_i64 (byte_val x) = true); [|cbn [is_i64]; rewrite B; reflexivity].
        unfold in_i64, byte_val. assert (X := N_ascii_bounded x). destruct (Z.leb_spec (- 2 ^ 63) (Z.of_N (N_of_ascii x))), (Z.ltb_spec (Z.of_N (N_of_ascii x)) (2 ^ 63)); try reflexivity; lia.
      + cbn [levels] in L. clear Hh. induction s as [|x s IHs]; cbn [map]; constructor; [|exact IHs].
        unfold reads. change [CE (EInt U8 (byte_val x))] with (acalls (AInt U8 (byte_val x))).
        destruct n as [|[|n']]; [lia|lia|].
        assert (A := level_answers (reader (read_basic (S n'))) (RInt U8 (byte_val x)) (S (S (S n'))) true (AInt U8 (byte_val x)) eq_refl eq_refl).
        cbn [basic_answer levels] in A. refine (eq_trans (A _) _); [lia|]. cbn [reduced].
        destruct (is_i64 U8 (byte_val x)); reflexivity.
    - subst o. destruct l; [destruct (otag_is t RUST_OPTION_NONE)|]; reflexivity.
    - apply handled_children in Hh. apply IHr; [exact Ho|exact Hh|cbn [levels] in L; lia].
    - destruct Ho as (l' & g' & E & V & ->). apply handled_children in Hh. cbn [n_enum_begin reader levels obind] in *.
      rewrite (basic_variant_read _ g' V Hh) by lia. rewrite E. reflexivity.
    - destruct Ho as (args & F & ->). apply handled_children in Hh. cbn [levels] in *.
      cbn [n_seq_begin seq_end n_seq reader obind]. rewrite (basic_seq (read_basic n) (reduced false) args vs); [reflexivity|].
      eapply F2_reads with (m := n - 2) (g := levels); [|exact F|exact Hh|lia]. intros x y C Hy Ly. apply reads_child; auto. lia.
    - destruct Ho as (args & F & ->). apply handled_children in Hh. cbn [levels] in *.
      cbn [n_map_begin map_end n_map obind].
      assert (E := basic_map (read_basic n) (reduced false) args es).
      change (n_map_begin R n0) with (@OOk (n_map R) (n0, [], None)). cbn [obind]. rewrite E; [reflexivity|].
      eapply F2_reads with (m := n - 2) (g := fun kv => match kv with (k, v) => Nat.max (levels k) (levels v) end); [|exact F|exact Hh|lia]. intros [a b] [k v] [K V] Hy Ly.
      apply andb_true_iff in Hy. destruct Hy. split; apply reads_child; auto; lia.
    - destruct Ho as (l' & args & E & F & ->). apply handled_children in Hh. cbn [levels] in *.
      cbn [n_record_begin record_value record_end n_record reader obind].
      rewrite (basic_record (read_basic n) (reduced false) args fs).
      + cbn [obind app]. rewrite E. reflexivity.
      + eapply F2_reads with (m := n - 2) (g := fun f => match f with (_, _, v) => levels v end); [|exact F|exact Hh|lia].
        intros [[? ?] a] [[? ?] v] (E1 & E2 & C) Hv Lv. split; [exact E1|]. split; [exact E2|]. apply reads_child; auto. lia.
    - destruct Ho as (l' & args & E & F & ->). apply handled_children in Hh. cbn [levels] in *.
      cbn [n_tuple_begin tuple_value tuple_end n_tuple reader obind].
      rewrite (basic_tuple (read_basic n) (reduced false) args fs).
      + cbn [obind app]. rewrite E. reflexivity.
      + eapply F2_reads with (m := n - 2) (g := fun f => match f with (_, _, v) => levels v end); [|exact F|exact Hh|lia].
        intros [[? ?] a] [[? ?] v] (E1 & E2 & C) Hv Lv. split; [exact E1|]. split; [exact E2|]. apply reads_child; auto. lia.
  Qed.
End Whole.

Lemma read_basic_all n : forall a m, handled (mirror (tree_of a)) = true -> levels (mirror (tree_of a)) + 2 <= n ->
  read_basic n (m, acalls a) = OOk (reduced false (mirror (tree_of a))).
Proof.
  induction n as [|n IH]; intros a m H L; [lia|]. cbn [read_basic fst snd].
  apply (basic_read n IH); [|exact H|exact L]. apply level_answers; [reflexivity|apply handled_through_all, H|lia].
Qed.

(** The full claim: a stream of required methods sees every value, whatever its
    enums. *)
Definition C73_sees_values : Prop := forall v t,
  whole v -> streams v t -> exists n, forall m, n <= m -> read_basic m (true, v) = OOk (reduced false (mirror t)).
(** It holds for the values whose enums are handled, as those of derived and
    standard types are. *)
Theorem C73_sees_values_partial : forall v t,
  whole v -> streams v t -> handled (mirror t) = true ->
  forall m, levels (mirror t) + 2 <= m ->
  read_basic m (true, v) = OOk (reduced false (mirror t)) /\ read_basic m (false, v) = OOk (reduced false (mirror t)).
Proof.
  intros v t W F H m L. destruct (whole_atree v t W F) as (a & -> & _ & <-). rewrite stree_mirror in *.
  split; apply read_basic_all; assumption.
Qed.

Theorem C73_sees_values_refuted : ~ C73_sees_values.
Proof.
  intros H. destruct (H _ _ (whole_events (emit deep_enum)) (streams_events deep_enum)) as (n & E).
  specialize (E (S n) (le_S _ _ (le_n n))). vm_compute in E. discriminate E.
Qed.

(** ** What can still be told apart

    Integers, of whatever types, reach the author as the same thing only if they
    are the same number. *)
Theorem C73_integers_kept : forall t t' z z',
  reduced false (RInt t z) = reduced false (RInt t' z') -> z = z'.
Proof.
  intros t t' z z'. cbn [reduced]. destruct (is_i64 t z), (is_i64 t' z'); intros E; try discriminate E.
  - congruence.
  - injection E as E. apply dec_inj, E.
Qed.

Definition numbers : tree :=
  TSeq None
    [TInt U8 7; TInt U64 (2 ^ 63); TInt I128 (- 2 ^ 63 - 1); TBin None [(true, bs "ab")];
     TTagged (Some NUMBER) None None (TText None [(false, bs "1"); (true, bs "e5")]);
     TTag (Some RUST_OPTION_NONE) (Some (label_new (bs "None"))) None;
     TEnum None (Some (label_new (bs "E"))) None (TTagged None (Some (label_new (bs "V"))) None (TInt U16 3))].
Example C73_applies :
  handled (mirror numbers) = true /\ levels (mirror numbers) = 4 /\
  read_basic 6 (true, map CE (emit numbers)) =
    OOk (RSeq None
      [RInt I64 7; RText (bs "9223372036854775808"); RText (bs "-9223372036854775809");
       RSeq (Some 2%N) [RInt I64 97; RInt I64 98]; RText (bs "1e5"); RNull;
       REnum None (Some (kept_label (label_new (bs "E")))) None
         (RTagged None (Some (kept_label (label_new (bs "V")))) None (RInt I64 3))]).
Proof.
  split; [reflexivity|]. split; [reflexivity|].
  refine (eq_trans (proj1 (C73_sees_values_partial _ numbers (whole_events _) (streams_events _) _ 6 _)) _); [reflexivity|apply le_n|reflexivity].
Qed.
Example C73_one_level_applies : forall computed,
  level first_child 5 computed (map CE (emit (TInt U64 (2 ^ 63)))) = n_text first_child false (bs "9223372036854775808").
Proof.
  intros computed. refine (C73_required_methods_partial first_child _ (TInt U64 (2 ^ 63)) (whole_events _) (streams_events _) eq_refl 5 computed _).
  cbn. lia.
Qed.

Print Assumptions C73_required_methods_partial.
Print Assumptions C73_children_partial.
Print Assumptions C73_sees_values_partial.
Print Assumptions C73_sees_values_refuted.
Print Assumptions C73_integers_kept.
