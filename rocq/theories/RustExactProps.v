(** * RustExactProps: exactly which plain Rust data is written as JSON the way serde_json does (C63, C72) *)

From Verif Require Import Base Event Tree LowerModel LowerSpec JsonModel JsonGrammar JsonNumProofs JsonSpec JsonProofs JsonProps
  JsonTextSpec JsonTextProps StdModel StdSpec StdProps RustModel RustSpec RustProofs RustJsonProps WrittenSpec CountProofs WrittenProps.

(** Unit structs, counted. *)
Fixpoint units (v : datum) : Z :=
  match v with
  | VSome v | VRef v => units v
  | VVec vs | VArray vs | VTup vs => total (map units vs)
  | VMap es => total (map (fun kv => match kv with (_, v) => units v end) es)
  | VData (PStruct _ PUnit) _ _ => 1%Z
  | VData _ _ fs => total (map units fs)
  | _ => 0%Z
  end.

Lemma total_zero {A} (f : A -> Z) (p : A -> bool) xs : Forall (fun x => (0 <= f x)%Z /\ (f x = 0%Z <-> p x = false)) xs ->
  (0 <= total (map f xs))%Z /\ (total (map f xs) = 0%Z <-> existsb p xs = false).
Proof.
  induction 1 as [|x xs (N & E) HF (IN & IE)]; [split; [reflexivity|tauto]|]. cbn [map total fold_right existsb]. unfold total in *.
  split; [lia|]. rewrite orb_false_iff, <- E, <- IE. lia.
Qed.
Lemma key_units k : typed k -> forall s, serde_key k = Some s -> unit_struct k = false.
Proof.
  induction k using datum_ind'; intros T s0 K; cbn [serde_key] in K; try discriminate; try reflexivity.
  - cbn [unit_struct]. eapply IHk; [exact T|exact K].
  - destruct T as (_ & L & T). destruct d as [n st|n vs].
    + destruct st as [|[|[|?]]|?]; try discriminate. destruct fs as [|f [|? ?]]; try discriminate. inversion H; subst.
      cbn [unit_struct existsb]. rewrite orb_false_r. eapply H2; [apply T|exact K].
    + cbn [variant_of] in L. destruct (nth_error vs i) as [[vn [|m|ns]]|]; try discriminate. cbn [arity] in L. destruct fs; [|discriminate]. reflexivity.
Qed.
Lemma units_zero v : typed v -> serde_accepts v = true -> (0 <= units v)%Z /\ (units v = 0%Z <-> unit_struct v = false).
Proof.
  assert (F : forall vs, Forall (fun v => typed v -> serde_accepts v = true -> (0 <= units v)%Z /\ (units v = 0%Z <-> unit_struct v = false)) vs ->
    fold_right and True (map typed vs) -> forallb serde_accepts vs = true -> Forall (fun v => (0 <= units v)%Z /\ (units v = 0%Z <-> unit_struct v = false)) vs).
  { clear v. induction 1 as [|v vs Hv _ IH]; cbn; intros T A; [constructor|]. apply andb_true_iff in A. constructor; [apply Hv; tauto|apply IH; tauto]. }
  induction v using datum_ind'; intros T A; cbn [typed serde_accepts units unit_struct] in *; try (split; [lia|tauto]).
  - apply IHv; assumption.
  - apply (total_zero units unit_struct), F; assumption.
  - apply (total_zero units unit_struct), F; assumption.
  - apply (total_zero units unit_struct), F; [assumption|apply T|assumption].
  - apply (total_zero (fun kv : datum * datum => let (_, v) := kv in units v) (fun kv : datum * datum => let (k, v) := kv in unit_struct k || unit_struct v)).
    clear F. induction H as [|[k v] es (_ & Hv) H IH]; [constructor|]. cbn [map fold_right forallb fst snd] in *.
    destruct T as ((Tk & Tv) & T). apply andb_true_iff in A as (A1 & A). apply andb_true_iff in A1 as (Ak & Av). constructor; [|apply IH; assumption].
    destruct (serde_key k) as [s|] eqn:K; [|discriminate]. rewrite (key_units k Tk s K). apply Hv; assumption.
  - apply IHv; assumption.
  - assert (G : (0 <= total (map units fs))%Z /\ (total (map units fs) = 0%Z <-> existsb unit_struct fs = false)).
    { apply (total_zero units unit_struct), F; [assumption|apply T|assumption]. }
    destruct d as [n [| |]|]; try exact G. split; [lia|]. split; discriminate.
Qed.

(** ** Names, exactly *)
Lemma key_named k : typed k -> forall s, serde_key k = Some s -> key_leaks (dtree k) = named_key k.
Proof.
  induction k using datum_ind'; intros T s0 K; cbn [serde_key] in K; try discriminate; try reflexivity.
  - cbn [dtree named_key]. eapply IHk; [exact T|exact K].
  - destruct T as (_ & L & T). cbn [dtree named_key]. unfold data_tree. destruct (variant_of d i) as [[nm st]|] eqn:V; [|contradiction].
    destruct d as [n st'|n vs]; [|reflexivity]. destruct i; [|discriminate]. injection V as <- <-. destruct st' as [|[|[|?]]|?]; try discriminate. reflexivity.
Qed.
Lemma value_named v : typed v -> takes_name (dtree v) = named_value v.
Proof.
  induction v using datum_ind'; intros T; try reflexivity; cbn [dtree named_value]; [apply IHv, T|].
  destruct T as (_ & L & T). unfold data_tree. destruct (variant_of d i) as [[nm st]|] eqn:V; [|contradiction].
  destruct d as [n st'|n vs]; [|reflexivity]. destruct i; [|discriminate]. injection V as <- <-. destruct st' as [|[|[|?]]|?]; reflexivity.
Qed.

(** ** The tree of typed data *)
Lemma from_map {A} (f : A -> Z) xs : forall i, map (fun p => f (snd p)) (from i xs) = map f xs.
Proof. induction xs as [|x xs IH]; intros i; [reflexivity|]. cbn [from map snd]. rewrite IH. reflexivity. Qed.
Lemma combine_from {A} (f : A -> Z) names xs : List.length names = List.length xs ->
  forall i, map (fun p : bytes * (Z * A) => f (snd (snd p))) (combine names (from i xs)) = map f xs.
Proof.
  revert names. induction xs as [|x xs IH]; intros [|n names] L i; try discriminate; [reflexivity|]. cbn [from combine map snd]. rewrite IH by (injection L; auto). reflexivity.
Qed.
Lemma plain_leaks name i s ts : List.length ts = arity s -> leaks (plain_tree name i s ts) = total (map leaks ts).
Proof.
  intros L. destruct s as [|[|[|n]]|names]; cbn [plain_tree leaks arity] in *.
  - destruct ts; [reflexivity|discriminate].
  - destruct ts; [reflexivity|discriminate].
  - destruct ts as [|t [|? ?]]; try discriminate. cbn [nth map total fold_right]. lia.
  - f_equal. rewrite map_map. apply (from_map leaks).
  - f_equal. rewrite map_map. rewrite <- (combine_from leaks names ts (eq_sym L) 0%Z). apply map_ext. intros [? [? ?]]. reflexivity.
Qed.
Lemma plain_closings name i s ts : List.length ts = arity s -> closings (plain_tree name i s ts) = total (map closings ts).
Proof.
  intros L. destruct s as [|[|[|n]]|names]; cbn [plain_tree closings arity] in *.
  - destruct ts; [reflexivity|discriminate].
  - destruct ts; [reflexivity|discriminate].
  - destruct ts as [|t [|? ?]]; try discriminate. cbn [nth map total fold_right]. lia.
  - f_equal. rewrite map_map. apply (from_map closings).
  - f_equal. rewrite map_map. rewrite <- (combine_from closings names ts (eq_sym L) 0%Z). apply map_ext. intros [? [? ?]]. reflexivity.
Qed.
Lemma plain_no_close name i s ts : closes_brace (plain_tree name i s ts) && negb (takes_name (plain_tree name i s ts)) = false.
Proof. destruct s as [|[|[|n]]|names]; reflexivity. Qed.
Lemma plain_ordinary name i s ts : style_ok s = true -> List.length ts = arity s -> Forall ordinary ts -> ordinary (plain_tree name i s ts).
Proof.
  intros S L H. destruct s as [|[|[|n]]|names]; cbn [plain_tree].
  - exact I.
  - destruct ts; [exact I|discriminate].
  - destruct ts as [|t [|? ?]]; try discriminate. inversion H; subst. split; [reflexivity|assumption].
  - apply ordinary_tuple. rewrite Forall_map. cbn [snd]. apply from_snd. exact H.
  - unfold style_ok in S. apply andb_true_iff in S as (_ & Nm). cbn [field_names arity] in *.
    apply ordinary_rectup. rewrite Forall_map. clear L. generalize 0%Z. revert names Nm. induction H as [|t ts Ht H IH]; intros names Nm z; [destruct names; constructor|].
    destruct names as [|n names]; [constructor|]. cbn [from combine forallb] in *. apply andb_true_iff in Nm as (N1 & N2).
    constructor; [cbn [fst snd]; auto using identifier_ok|apply IH; exact N2].
Qed.
Lemma total_all {A} (f : A -> Z) xs : Forall (fun x => f x = 0%Z) xs -> total (map f xs) = 0%Z.
Proof. induction 1 as [|x xs E F IH]; [reflexivity|]. cbn [map total fold_right]. unfold total in IH. lia. Qed.

Definition sound_tree (v : datum) : Prop :=
  ordinary (dtree v) /\ closings (dtree v) = 0%Z /\ (leaks (dtree v) = 0%Z <-> named_entry v = false).
Lemma tree_sound v : typed v -> serde_accepts v = true -> sound_tree v.
Proof.
  assert (F : forall vs, Forall (fun v => typed v -> serde_accepts v = true -> sound_tree v) vs ->
    fold_right and True (map typed vs) -> forallb serde_accepts vs = true -> Forall sound_tree vs).
  { clear v. induction 1 as [|v vs Hv _ IH]; cbn; intros T A; [constructor|]. apply andb_true_iff in A. constructor; [apply Hv; tauto|apply IH; tauto]. }
  assert (G : forall vs, Forall sound_tree vs -> Forall ordinary (map dtree vs) /\ total (map closings (map dtree vs)) = 0%Z /\
    (total (map leaks (map dtree vs)) = 0%Z <-> existsb named_entry vs = false)).
  { clear v F. intros vs H. rewrite !map_map. split; [|split].
    - rewrite Forall_map. eapply Forall_impl; [|exact H]. intros a Ra. apply Ra.
    - apply total_all. eapply Forall_impl; [|exact H]. intros a Ra. apply Ra.
    - apply total_zero. eapply Forall_impl; [|exact H]. intros a Ra. cbv beta. split; [apply leaks_nonneg|apply Ra]. }
  induction v using datum_ind'; intros T A; cbn [typed serde_accepts] in T, A;
    try (split; [exact I|split; [reflexivity|split; reflexivity]]).
  - destruct (IHv T A) as (O & C & L). split; [split; [reflexivity|exact O]|split; [exact C|exact L]].
  - destruct (G vs (F vs H T A)) as (O & C & L). split; [apply ordinary_list, O|split; [exact C|exact L]].
  - destruct (G vs (F vs H T A)) as (O & C & L). split; [split; [reflexivity|apply (ordinary_list (Some (len vs))), O]|split; [exact C|exact L]].
  - destruct T as (_ & T). destruct (G vs (F vs H T A)) as (O & C & L). unfold sound_tree. cbn [dtree closings leaks named_entry].
    split; [|split].
    + apply ordinary_tuple. rewrite Forall_map. cbn [snd]. apply (from_snd ordinary). exact O.
    + rewrite map_map. rewrite (from_map closings). exact C.
    + rewrite map_map. rewrite (from_map leaks). exact L.
  - clear F G.
    assert (E : Forall (fun kv : datum * datum => let (k, v) := kv in
      (exists s, key_text (fun _ => []) (fun _ => []) false (dtree k) = Some s) /\ key_leaks (dtree k) = named_key k /\
      takes_name (dtree v) = named_value v /\ sound_tree v) es).
    { induction H as [|[k v] es (_ & Hv) H IH]; [constructor|]. cbn [map fold_right forallb fst snd] in *.
      destruct T as ((Tk & Tv) & T). apply andb_true_iff in A as (A1 & A). apply andb_true_iff in A1 as (Ak & Av). constructor; [|apply IH; assumption].
      destruct (serde_key k) as [s|] eqn:K; [|discriminate]. split; [exists s; apply key_same; assumption|].
      split; [apply (key_named k Tk s K)|]. split; [apply value_named, Tv|]. apply Hv; assumption. }
    unfold sound_tree. cbn [dtree named_entry closings leaks]. rewrite !map_map. split; [|split].
    + apply ordinary_map. rewrite Forall_map. eapply Forall_impl; [|exact E]. intros [k v] ((s & K) & _ & _ & (O & _)). cbn [fst snd].
      split; [intros Z; change (key_text (fun _ => []) (fun _ => []) false (dtree k) = None) in Z; rewrite K in Z; discriminate|exact O].
    + apply total_all. eapply Forall_impl; [|exact E]. intros [k v] (_ & _ & _ & (_ & C & _)). exact C.
    + apply total_zero. eapply Forall_impl; [|exact E]. intros [k v] (_ & Lk & Tn & (_ & _ & L)). pose proof (leaks_nonneg (dtree v)).
      rewrite Lk, Tn. destruct (named_key k && named_value v); cbn [orb]; [split; [lia|split; [lia|discriminate]]|].
      split; [lia|]. rewrite <- L. lia.
  - exact (IHv T A).
  - destruct T as (D & L & T). destruct (variant_of d i) as [[name s]|] eqn:V; [|contradiction].
    destruct (style_of_decl _ _ _ _ D V) as (Sk & _). destruct (G fs (F fs H T A)) as (O & C & Lk).
    assert (Ln : List.length (map dtree fs) = arity s) by (rewrite map_length; exact L).
    unfold sound_tree. cbn [dtree named_entry]. unfold data_tree. rewrite V. destruct d as [n s'|n vs].
    + rewrite plain_leaks, plain_closings by exact Ln. split; [apply plain_ordinary; assumption|split; assumption].
    + cbn [closings leaks]. rewrite plain_leaks, plain_closings, plain_no_close by exact Ln. split; [|split; [exact C|exact Lk]].
      split; [destruct s as [|[|[|]]|]; reflexivity|apply plain_ordinary; assumption].
Qed.

(** ** Strings, counted *)
Section Strings.
  Variable w : byte -> Z.
  Hypothesis Q : quiet w.
  Notation wq := (w (ascii_of_N 34)).
  Notation wc := (w (ascii_of_N 58)).
  Notation wo := (w (ascii_of_N 123)).
  Notation we := (w (ascii_of_N 125)).
  Variable r32 r64 : float -> bytes.
  Hypothesis P32 : json_printer r32.
  Hypothesis P64 : json_printer r64.
  Notation compact := (compact r32 r64).
  Notation serde_json := (serde_json r32 r64).

  Definition fixed (s : style) : Z :=
    match s with PNamed names => (wo + we + Z.of_nat (List.length names) * (wq + wc))%Z | _ => 0%Z end.
  Lemma fields_adds s xs zs : List.length xs = arity s -> Forall2 (adds w) xs zs -> adds w (json_fields s xs) (fixed s + total zs).
  Proof.
    intros L F. destruct s as [|[|[|n]]|names]; cbn [json_fields fixed arity] in *.
    - destruct xs; [|discriminate]. inversion F; subst. apply (dull1 w Q). reflexivity.
    - destruct xs; [|discriminate]. inversion F; subst. apply (array_adds w Q [] []). constructor.
    - destruct xs as [|x [|? ?]]; try discriminate. inversion F as [|? z ? zs' Hz F']; subst. inversion F'; subst. cbn [nth total fold_right].
      eapply adds_eq; [exact Hz|lia].
    - eapply adds_eq; [apply (array_adds w Q), F|lia].
    - eapply adds_eq; [apply (object_adds w Q _ (map (fun z => wq + wc + z)%Z zs))|].
      + revert names L. induction F as [|x z xs zs Hz F IH]; intros [|n names] L; try discriminate; [constructor|]. cbn [combine map fst snd].
        constructor; [apply (member_adds w), Hz|apply IH; injection L; auto].
      + assert (E : total (map (fun z => (wq + wc + z)%Z) zs) = (Z.of_nat (List.length names) * (wq + wc) + total zs)%Z); [|lia].
        revert names L. induction F as [|x z xs zs Hz F IH]; intros [|n names] L; try discriminate; [reflexivity|].
        cbn [map total fold_right List.length]. unfold total in IH. rewrite (IH names) by (injection L; auto). lia.
  Qed.
  Lemma plain_compact inside name i s ts : List.length ts = arity s ->
    compact inside (plain_tree name i s ts) =
    match s with PUnit => json_string name | _ => let c := json_fields s (map (compact false) ts) in if inside then object [member name c] else c end.
  Proof.
    intros L. destruct s as [|[|[|n]]|names]; cbn [plain_tree arity json_fields] in *.
    - reflexivity.
    - destruct ts; [|discriminate]. destruct inside; reflexivity.
    - destruct ts as [|t [|? ?]]; try discriminate. destruct inside; reflexivity.
    - cbn [JsonTextSpec.compact]. replace (map _ (map _ (from 0 ts))) with (map (compact false) ts); [destruct inside; reflexivity|].
      rewrite map_map. cbn [fst snd]. clear L. generalize 0%Z. induction ts as [|t ts IH]; intros z; [reflexivity|]. cbn [map from snd]. f_equal. apply IH.
    - cbn [JsonTextSpec.compact].
      replace (map _ (map _ (combine names (from 0 ts)))) with (map (fun nx => member (fst nx) (snd nx)) (combine names (map (compact false) ts)));
        [destruct inside; reflexivity|].
      rewrite map_map. generalize 0%Z. revert names L. induction ts as [|t ts IH]; intros [|n names] L z; try discriminate; [reflexivity|].
      cbn [map from combine fst snd name_label l_text]. f_equal. apply IH. injection L; auto.
  Qed.

  Definition both (v : datum) : Prop := exists z, adds w (serde_json v) z /\ adds w (compact false (dtree v)) (z + units v * wq).
  Lemma both_list vs : Forall both vs -> exists zs ys, Forall2 (adds w) (map serde_json vs) zs /\
    Forall2 (adds w) (map (fun v => compact false (dtree v)) vs) ys /\ total ys = (total zs + total (map units vs) * wq)%Z.
  Proof.
    induction 1 as [|v vs (z & A & B) F (zs & ys & Z & Y & E)]; [exists [], []; repeat split; constructor|].
    exists (z :: zs), ((z + units v * wq)%Z :: ys). cbn [map]. split; [constructor; [exact A|exact Z]|]. split; [constructor; [exact B|exact Y]|].
    cbn [total map fold_right]. unfold total in E. rewrite E. lia.
  Qed.
  Lemma float_both r f : json_printer r -> adds w (json_float r f) 0.
  Proof.
    intros P. rewrite <- float_same. unfold float_key. destruct (is_nan f) eqn:N; [apply (dull1 w Q); reflexivity|].
    destruct (is_infinite f) eqn:Inf; [apply (dull1 w Q); reflexivity|]. destruct (P f N Inf) as (m & e & J). eapply (number_dull w Q), J.
  Qed.
  Lemma all_both v : typed v -> serde_accepts v = true -> both v.
  Proof.
    assert (F : forall vs, Forall (fun v => typed v -> serde_accepts v = true -> both v) vs ->
      fold_right and True (map typed vs) -> forallb serde_accepts vs = true -> Forall both vs).
    { clear v. induction 1 as [|v vs Hv _ IH]; cbn; intros T A; [constructor|]. apply andb_true_iff in A. constructor; [apply Hv; tauto|apply IH; tauto]. }
    assert (K : forall (x y : bytes) z, x = y -> adds w y z -> adds w x z) by (intros ? ? ? ->; auto).
    induction v using datum_ind'; intros T A; cbn [typed serde_accepts] in T, A; unfold both; cbn [units RustSpec.serde_json].
    - exists 0%Z. split; apply (dull1 w Q); reflexivity.
    - exists 0%Z. destruct b; split; apply (dull1 w Q); reflexivity.
    - exists 0%Z. split; apply (number_dull w Q _ _ _ (json_number_dec _)).
    - exists 0%Z. split; [|eapply K; [apply (float_same r32)|]]; apply float_both, P32.
    - exists 0%Z. split; [|eapply K; [apply (float_same r64)|]]; apply float_both, P64.
    - exists wq. split; [apply (string_adds w)|]. eapply adds_eq; [apply (string_adds w)|lia].
    - exists wq. split; [apply (string_adds w)|]. eapply adds_eq; [apply (string_adds w)|lia].
    - exists 0%Z. split; apply (dull1 w Q); reflexivity.
    - exact (IHv T A).
    - destruct (both_list vs (F vs H T A)) as (zs & ys & Z & Y & E). exists (total zs). split; [apply (array_adds w Q), Z|].
      rewrite <- E. cbn [dtree JsonTextSpec.compact]. rewrite map_map. apply (array_adds w Q), Y.
    - destruct (both_list vs (F vs H T A)) as (zs & ys & Z & Y & E). exists (total zs). split; [apply (array_adds w Q), Z|].
      rewrite <- E. cbn [dtree constant_size JsonTextSpec.compact under]. change (is_raw (Some CONSTANT_SIZE)) with false. cbv iota. rewrite map_map. apply (array_adds w Q), Y.
    - destruct T as (_ & T). destruct (both_list vs (F vs H T A)) as (zs & ys & Z & Y & E). exists (total zs). split; [apply (array_adds w Q), Z|].
      rewrite <- E. cbn [dtree JsonTextSpec.compact under]. eapply K; [|apply (array_adds w Q), Y]. f_equal. rewrite map_map. cbn [fst snd].
      generalize 0%Z. clear. induction vs as [|v vs IH]; intros z; [reflexivity|]. cbn [map from snd]. f_equal. apply IH.
    - clear F.
      enough (E : exists zs ys, Forall2 (adds w) (map (fun kv : datum * datum => let (k, v) := kv in member match serde_key k with Some s => s | None => [] end (serde_json v)) es) zs /\
        Forall2 (adds w) (map (fun kv : tree * tree => let (k, v) := kv in member match key_text r32 r64 false k with Some s => s | None => [] end (compact false v))
          (map (fun kv : datum * datum => let (k, v) := kv in (dtree k, dtree v)) es)) ys /\
        total ys = (total zs + total (map (fun kv : datum * datum => let (_, v) := kv in units v) es) * wq)%Z).
      { destruct E as (zs & ys & Z & Y & E). exists (wo + we + total zs)%Z. split; [apply (object_adds w Q), Z|].
        eapply adds_eq; [cbn [dtree JsonTextSpec.compact]; apply (object_adds w Q), Y|lia]. }
      induction H as [|[k v] es (_ & Hv) H IH]; [exists [], []; repeat split; constructor|]. cbn [map fold_right forallb fst snd] in *.
      destruct T as ((Tk & Tv) & T). apply andb_true_iff in A as (A1 & A). apply andb_true_iff in A1 as (Ak & Av).
      destruct (IH T A) as (zs & ys & Z & Y & E). destruct (Hv Tv Av) as (z & B1 & B2).
      exists ((wq + wc + z)%Z :: zs), ((wq + wc + (z + units v * wq))%Z :: ys).
      split; [constructor; [apply (member_adds w), B1|exact Z]|]. split; [constructor; [apply (member_adds w), B2|exact Y]|].
      cbn [total fold_right]. unfold total in E. rewrite E. lia.
    - exact (IHv T A).
    - destruct T as (D & L & T). destruct (variant_of d i) as [[name s]|] eqn:V; [|contradiction].
      destruct (both_list fs (F fs H T A)) as (zs & ys & Z & Y & E).
      assert (Ln : List.length (map dtree fs) = arity s) by (rewrite map_length; exact L).
      assert (Lj : List.length (map serde_json fs) = arity s) by (rewrite map_length; exact L).
      assert (Lc : List.length (map (compact false) (map dtree fs)) = arity s) by (rewrite !map_length; exact L).
      rewrite <- map_map in Y.
      pose proof (fields_adds s _ _ Lj Z) as FZ. pose proof (fields_adds s _ _ Lc Y) as FY. rewrite E in FY.
      cbn [dtree]. unfold data_tree. rewrite V. destruct d as [n s'|n vs].
      + cbn [variant_of] in V. destruct i; [|discriminate]. injection V as -> ->. rewrite plain_compact by exact Ln.
        destruct s; [|eexists; split; [exact FZ|]; eapply adds_eq; [exact FY|cbn [fixed]; lia]..].
        exists 0%Z. split; [apply (dull1 w Q); reflexivity|]. eapply adds_eq; [apply (string_adds w)|lia].
      + cbn [variant_of] in V. rewrite V. cbn [JsonTextSpec.compact under]. rewrite plain_compact by exact Ln.
        destruct s.
        * exists wq. split; [apply (string_adds w)|]. eapply adds_eq; [apply (string_adds w)|].
          destruct fs; [cbn [map total fold_right]; lia|discriminate].
        * cbv zeta. exists (wo + we + total [wq + wc + (fixed (PTuple n0) + total zs)])%Z. split.
          -- apply (object_adds w Q). constructor; [apply (member_adds w), FZ|constructor].
          -- eapply adds_eq; [apply (object_adds w Q); constructor; [apply (member_adds w), FY|constructor]|cbn [total fold_right]; unfold total; lia].
        * cbv zeta. exists (wo + we + total [wq + wc + (fixed (PNamed names) + total zs)])%Z. split.
          -- apply (object_adds w Q). constructor; [apply (member_adds w), FZ|constructor].
          -- eapply adds_eq; [apply (object_adds w Q); constructor; [apply (member_adds w), FY|constructor]|cbn [total fold_right]; unfold total; lia].
  Qed.
End Strings.

(** ** C63, exactly *)
Definition quotes (b : byte) : Z := if is_byte 34 b then 1%Z else 0%Z.
Lemma quiet_quotes : quiet quotes.
Proof. intros b H _ _ _. unfold quotes. rewrite H. reflexivity. Qed.

Section Texts.
  Variable r32 r64 : float -> bytes.
  Hypothesis P32 : json_printer r32.
  Hypothesis P64 : json_printer r64.

  (** What the two texts have outside their strings. *)
  Lemma texts_differ w v : quiet w -> typed v -> serde_accepts v = true ->
    count w Outside (written r32 r64 false (dtree v)) =
    (count w Outside (serde_json r32 r64 v) + units v * w (ascii_of_N 34) +
     leaks (dtree v) * (w (ascii_of_N 123) + w (ascii_of_N 34) + w (ascii_of_N 58)))%Z.
  Proof.
    intros Q T A. destruct (tree_sound v T A) as (O & C & _).
    destruct (C20_ordinary_values_have_images r32 r64 P32 P64 _ O false) as (j & I).
    destruct (all_both w Q r32 r64 P32 P64 v T A) as (z & A1 & A2).
    rewrite (adds_whole _ _ _ (written_adds w Q r32 r64 _ O j I)), (adds_whole _ _ _ A1).
    pose proof (adds_whole _ _ _ (text_parts w Q _ _ (C72_compact_denotes r32 r64 _ j O I))) as E. rewrite (adds_whole _ _ _ A2) in E.
    unfold wrong. rewrite C. lia.
  Qed.
End Texts.

(** The text of plain Rust data is the one [serde_json] writes if and only if there is
    no unit struct in it, and no map entry with a newtype or enum key and a [Some],
    struct or enum value. *)
Theorem C63_serde_compatible_iff :
  forall r32 r64, json_printer r32 -> json_printer r64 ->
  forall v, typed v -> serde_accepts v = true ->
  json_to_string r32 r64 (rust v) = SOk (serde_json r32 r64 v) <-> unit_struct v = false /\ named_entry v = false.
Proof.
  intros r32 r64 P32 P64 v T A. split.
  - intros E. destruct (tree_sound v T A) as (O & C & L). destruct (units_zero v T A) as (_ & U).
    rewrite (C72_text_of_any_value r32 r64 P32 P64 _ _ (proj1 (rust_holds v T)) O) in E. injection E as E.
    pose proof (texts_differ r32 r64 P32 P64 colons v quiet_colons T A) as D1.
    pose proof (texts_differ r32 r64 P32 P64 quotes v quiet_quotes T A) as D2. rewrite E in D1, D2.
    change (colons (ascii_of_N 123)) with 0%Z in D1. change (colons (ascii_of_N 34)) with 0%Z in D1. change (colons (ascii_of_N 58)) with 1%Z in D1.
    change (quotes (ascii_of_N 123)) with 0%Z in D2. change (quotes (ascii_of_N 34)) with 1%Z in D2. change (quotes (ascii_of_N 58)) with 0%Z in D2.
    split; [apply U; lia|apply L; lia].
  - intros (U & N). apply C63_serde_compatible_partial; assumption.
Qed.
(** It is JSON if and only if there is no such entry. *)
Theorem C72_rust_json_iff :
  forall r32 r64, json_printer r32 -> json_printer r64 ->
  forall v, typed v -> serde_accepts v = true ->
  (exists s j, json_to_string r32 r64 (rust v) = SOk s /\ json_text s j) <-> named_entry v = false.
Proof.
  intros r32 r64 P32 P64 v T A. destruct (tree_sound v T A) as (O & C & L).
  rewrite (C72_json_iff_no_leak r32 r64 P32 P64 _ _ (proj1 (rust_holds v T)) O C). exact L.
Qed.

(** Both differences and neither: the samples of RustJsonProps.v. *)
Example C63_iff_samples :
  (unit_struct unit_marker = true /\ named_entry unit_marker = false) /\
  (unit_struct users = false /\ named_entry users = true) /\
  (unit_struct rust_sample = false /\ named_entry rust_sample = false).
Proof. repeat split. Qed.
(** A unit struct after a newtype key is JSON, but not the text of [serde_json]. *)
Definition unit_entry : datum := VMap [(VData (PStruct (bs "Id") (PTuple 1)) 0 [VInt U64 7], unit_marker)].
Example C72_unit_entry : typed unit_entry /\ serde_accepts unit_entry = true /\ named_entry unit_entry = false /\
  json_to_string exact_print exact_print (rust unit_entry) = SOk (bs "{""7"":""Marker""}").
Proof. split; [cbn; repeat split|]. repeat split; vm_compute; reflexivity. Qed.

Print Assumptions C63_serde_compatible_iff.
Print Assumptions C72_rust_json_iff.
