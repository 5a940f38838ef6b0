(** * CountProofs: what JSON texts and written texts have outside their strings *)

From Verif Require Import Base Event Tree LowerModel LowerSpec JsonModel JsonGrammar JsonParse JsonSpec JsonNumProofs
  JsonProofs JsonTextSpec JsonTextProofs WrittenSpec.

Section Count.
  Variable w : byte -> Z.
  Definition quiet : Prop := forall b, is_byte 34 b = false -> is_byte 58 b = false -> is_byte 123 b = false -> is_byte 125 b = false -> w b = 0%Z.
  Hypothesis Q : quiet.
  Notation wq := (w (ascii_of_N 34)).
  Notation wc := (w (ascii_of_N 58)).
  Notation wo := (w (ascii_of_N 123)).
  Notation we := (w (ascii_of_N 125)).

  Definition adds (a : bytes) (z : Z) : Prop := forall s, count w Outside (a ++ s) = (z + count w Outside s)%Z.
  Lemma adds_nil : adds [] 0.
  Proof. intros s. reflexivity. Qed.
  Lemma adds_app a b x y : adds a x -> adds b y -> adds (a ++ b) (x + y).
  Proof. intros A B s. rewrite <- app_assoc, A, B. lia. Qed.
  Lemma adds_eq a x y : adds a x -> x = y -> adds a y.
  Proof. intros A <-. exact A. Qed.
  Lemma adds_byte b : is_byte 34 b = false -> adds [b] (w b).
  Proof. intros E s. cbn [app count]. rewrite E. reflexivity. Qed.
  Lemma adds_dull s : forallb (fun b => negb (is_byte 34 b || is_byte 58 b || is_byte 123 b || is_byte 125 b)) s = true -> adds s 0.
  Proof.
    induction s as [|b s IH]; [intros _; apply adds_nil|]. cbn [forallb]. intros H. apply andb_true_iff in H as [H1 H2].
    apply negb_true_iff in H1. apply orb_false_iff in H1 as [H1 E4]. apply orb_false_iff in H1 as [H1 E3]. apply orb_false_iff in H1 as [E1 E2].
    apply (adds_eq _ (w b + 0)).
    - change (b :: s) with ([b] ++ s). apply adds_app; [apply adds_byte, E1|apply IH, H2].
    - rewrite Q by assumption. reflexivity.
  Qed.
  Lemma scan_count s : forall x r, scan s = Some (x, r) -> count w InString s = count w Outside r.
  Proof.
    assert (Ind : forall n s x r, List.length s <= n -> scan s = Some (x, r) -> count w InString s = count w Outside r).
    2: { intros x r. apply (Ind (List.length s)), le_n. }
    clear s. induction n as [|n IH]; intros s x r L E; (destruct s as [|b s]; [discriminate|]).
    { cbn in L. lia. }
    cbn [List.length] in L. cbn [scan] in E. cbn [count]. destruct (is_byte 34 b); [injection E as <- <-; reflexivity|].
    destruct (is_byte 92 b).
    - destruct s as [|c s]; [discriminate|]. cbn [List.length] in L. destruct (scan s) as [[x' r']|] eqn:Sc; [|discriminate].
      injection E as <- <-. cbn [count]. apply (IH s x' r' ltac:(lia) Sc).
    - destruct (scan s) as [[x' r']|] eqn:Sc; [|discriminate]. injection E as <- <-. apply (IH s x' r' ltac:(lia) Sc).
  Qed.
  Lemma adds_quoted b k : unescape b = Some k -> adds (quoted b) wq.
  Proof.
    intros U s. unfold quoted. rewrite <- !app_assoc. cbn [app count]. change (is_byte 34 (ascii_of_N 34)) with true. cbv iota.
    rewrite (scan_count _ b s); [reflexivity|]. apply (scan_unescape _ k), U.
  Qed.
  Lemma ws_dull s : ws s -> adds s 0.
  Proof.
    intros H. apply adds_dull. unfold ws in H. revert H. induction s as [|b s IH]; [reflexivity|]. cbn [forallb]. intros H.
    apply andb_true_iff in H as [H1 H2]. rewrite IH by exact H2. rewrite andb_true_r.
    destruct b as [[] [] [] [] [] [] [] []]; (reflexivity || discriminate).
  Qed.
  Lemma number_dull s m e : json_number s m e -> adds s 0.
  Proof.
    intros (l & (Ok & _) & -> & _). apply adds_dull. pose proof (lit_num l Ok) as H. revert H.
    induction (lit_text l) as [|b s IH]; [reflexivity|]. cbn [forallb]. intros H. apply andb_true_iff in H as [H1 H2]. rewrite IH by exact H2.
    rewrite andb_true_r. destruct b as [[] [] [] [] [] [] [] []]; (reflexivity || discriminate).
  Qed.

  (** What a value has. *)
  Fixpoint parts (j : jv) : Z :=
    match j with
    | JStr _ => wq
    | JArr vs => total (map parts vs)
    | JObj ms => (wo + we + total (map (fun m => match m with (_, v) => wq + wc + parts v end) ms))%Z
    | _ => 0%Z
    end.

  Lemma dull1 s : forallb (fun b => negb (is_byte 34 b || is_byte 58 b || is_byte 123 b || is_byte 125 b)) (bs s) = true -> adds (bs s) 0.
  Proof. apply adds_dull. Qed.
  Lemma brace_open : adds (bs "{") wo.
  Proof. apply adds_byte. reflexivity. Qed.
  Lemma brace_close : adds (bs "}") we.
  Proof. apply adds_byte. reflexivity. Qed.
  Lemma colon : adds (bs ":") wc.
  Proof. apply adds_byte. reflexivity. Qed.

  Lemma text_parts s j : json_text s j -> adds s (parts j).
  Proof.
    apply (json_text_mind
      (fun s j _ => adds s (parts j)) (fun s j _ => adds s (parts j))
      (fun s vs _ => adds s (total (map parts vs)))
      (fun s ms _ => adds s (total (map (fun m => match m with (_, v) => wq + wc + parts v end) ms))%Z)).
    - apply dull1. reflexivity.
    - apply dull1. reflexivity.
    - apply dull1. reflexivity.
    - intros. cbn [parts]. eapply number_dull; eassumption.
    - intros. cbn [parts]. eapply adds_quoted; eassumption.
    - intros w0 W. eapply adds_eq; [apply adds_app; [apply dull1; reflexivity|apply adds_app; [apply ws_dull, W|apply dull1; reflexivity]]|reflexivity].
    - intros s0 vs _ IH. eapply adds_eq; [apply adds_app; [apply dull1; reflexivity|apply adds_app; [apply IH|apply dull1; reflexivity]]|cbn [parts]; lia].
    - intros w0 W. eapply adds_eq; [apply adds_app; [apply brace_open|apply adds_app; [apply ws_dull, W|apply brace_close]]|cbn [parts total map fold_right]; lia].
    - intros s0 ms _ IH. eapply adds_eq; [apply adds_app; [apply brace_open|apply adds_app; [apply IH|apply brace_close]]|cbn [parts]; lia].
    - intros w1 s0 w2 v W1 W2 _ IH. eapply adds_eq; [apply adds_app; [apply ws_dull, W1|apply adds_app; [apply IH|apply ws_dull, W2]]|lia].
    - intros s0 v _ IH. eapply adds_eq; [exact IH|cbn [map total fold_right]; lia].
    - intros s0 v r vs _ IH _ IHr.
      eapply adds_eq; [apply adds_app; [apply IH|apply adds_app; [apply dull1; reflexivity|apply IHr]]|cbn [map total fold_right]; unfold total; lia].
    - intros w1 w2 b k s0 v W1 W2 U _ IH.
      eapply adds_eq; [apply adds_app; [apply ws_dull, W1|apply adds_app; [eapply adds_quoted, U|apply adds_app; [apply ws_dull, W2|apply adds_app; [apply colon|apply IH]]]]
        |cbn [map total fold_right]; lia].
    - intros w1 w2 b k s0 v r ms W1 W2 U _ IH _ IHr.
      eapply adds_eq; [apply adds_app; [apply ws_dull, W1|apply adds_app; [eapply adds_quoted, U|apply adds_app; [apply ws_dull, W2|apply adds_app; [apply colon|
        apply adds_app; [apply IH|apply adds_app; [apply dull1; reflexivity|apply IHr]]]]]]|cbn [map total fold_right]; unfold total; lia].
  Qed.

  (** What a written text has. *)
  Lemma string_adds k : adds (json_string k) wq.
  Proof. rewrite json_string_esc. eapply adds_quoted, unescape_esc. Qed.
  Lemma commas_adds xs zs : Forall2 adds xs zs -> adds (commas xs) (total zs).
  Proof.
    induction 1 as [|x z xs zs A HF IH]; [apply adds_nil|]. cbn [commas total fold_right]. destruct xs.
    - inversion HF; subst. eapply adds_eq; [exact A|cbn [fold_right]; lia].
    - eapply adds_eq; [apply adds_app; [exact A|apply adds_app; [apply dull1; reflexivity|exact IH]]|unfold total; lia].
  Qed.
  Lemma array_adds xs zs : Forall2 adds xs zs -> adds (array xs) (total zs).
  Proof.
    intros F. unfold array. eapply adds_eq; [apply adds_app; [apply dull1; reflexivity|apply adds_app; [apply commas_adds, F|apply dull1; reflexivity]]|lia].
  Qed.
  Lemma object_adds xs zs : Forall2 adds xs zs -> adds (object xs) (wo + we + total zs).
  Proof.
    intros F. unfold object. eapply adds_eq; [apply adds_app; [apply brace_open|apply adds_app; [apply commas_adds, F|apply brace_close]]|lia].
  Qed.
  Lemma member_adds k x z : adds x z -> adds (member k x) (wq + wc + z).
  Proof.
    intros F. unfold member. eapply adds_eq; [apply adds_app; [apply string_adds|apply adds_app; [apply colon|exact F]]|lia].
  Qed.

  Variable ryu32 ryu64 : float -> bytes.
  Hypothesis P32 : json_printer ryu32.
  Hypothesis P64 : json_printer ryu64.
  Notation written := (written ryu32 ryu64).
  Notation image := (image ryu32 ryu64).
  Notation key_text := (key_text ryu32 ryu64).

  (** The name a value takes. *)
  Fixpoint vname (v : tree) : option bytes :=
    match v with
    | THint _ v => vname v
    | TTagged _ l i _ | TEnum _ l i _ | TRecord _ l i _ _ | TTuple _ l i _ _ | TRecTup _ l i _ _ => name_of l i
    | _ => None
    end.
  Definition name_text (v : tree) : bytes := match vname v with Some k => bs "{" ++ json_string k ++ bs ":" | None => [] end.
  Lemma takes_vname v : takes_name v = match vname v with Some _ => true | None => false end.
  Proof. induction v; cbn [takes_name vname]; unfold is_named; auto. Qed.
  Lemma written_true v : written true v = name_text v ++ written false v.
  Proof. unfold name_text. induction v; try reflexivity. cbn [WrittenSpec.written vname]. exact IHv. Qed.
  Lemma image_true v c : is_variant v = true -> image true v c ->
    exists c', image false v c' /\ c = match vname v with Some k => JObj [(k, c')] | None => c' end.
  Proof.
    destruct v; try discriminate; intros _; cbn [JsonSpec.image vname]; unfold wrap.
    - eauto.
    - intros (c' & -> & R). exists c'. split; [eauto|reflexivity].
    - intros (V & c' & -> & R). exists c'. split; [eauto|reflexivity].
    - intros (ms & -> & R). eexists. split; [eauto|reflexivity].
    - intros (ms & -> & R). eexists. split; [eauto|reflexivity].
    - intros (ms & -> & R). eexists. split; [eauto|reflexivity].
  Qed.
  Lemma name_adds v : adds (name_text v) (if takes_name v then wo + wq + wc else 0)%Z.
  Proof.
    rewrite takes_vname. unfold name_text. destruct (vname v); [|apply adds_nil].
    eapply adds_eq; [apply adds_app; [apply brace_open|apply adds_app; [apply string_adds|apply colon]]|lia].
  Qed.
  Lemma takes_closes v : is_variant v = true -> takes_name v = true -> closes_brace v = true.
  Proof. destruct v; try discriminate; intros _; cbn [takes_name closes_brace]; try congruence. intros ->. apply orb_true_r. Qed.

  Lemma float_adds ryu f j : float_image ryu f j -> adds (float_key ryu f) (parts j).
  Proof.
    unfold float_image, float_key. destruct (is_nan f || is_infinite f); [intros ->; apply dull1; reflexivity|].
    intros (m & e & N & ->). eapply number_dull, N.
  Qed.
  Lemma dec_adds z : adds (dec z) 0.
  Proof. eapply number_dull, json_number_dec. Qed.

  Definition wrong (t : tree) : Z := (leaks t * (wo + wq + wc) + closings t * we)%Z.

  Lemma written_adds t : ordinary t -> forall j, image false t j -> adds (written false t) (parts j + wrong t).
  Proof.
    unfold wrong.
    induction t using tree_ind'; intros O j I; cbn [ordinary] in O; cbn [JsonSpec.image] in I; cbn [WrittenSpec.written compact leaks closings opening app].
    - subst j. apply dull1. reflexivity.
    - subst j. destruct b; apply dull1; reflexivity.
    - subst j. apply dec_adds.
    - eapply adds_eq; [apply float_adds, I|lia].
    - eapply adds_eq; [apply float_adds, I|lia].
    - subst j. eapply adds_eq; [apply string_adds|cbn [parts]; lia].
    - subst j. eapply adds_eq; [apply (array_adds _ (map (fun _ => 0%Z) (frags_text fs)))|].
      + induction (frags_text fs); constructor; [apply dec_adds|assumption].
      + cbn [parts]. rewrite map_map. cbn [parts]. lia.
    - subst j. unfold tag_image. destruct (otag_is t RUST_OPTION_NONE); [apply dull1; reflexivity|].
      destruct l; [eapply adds_eq; [apply string_adds|cbn [parts]; lia]|].
      destruct i as [i|]; [|apply dull1; reflexivity]. destruct (fits I64 (i_val i)); [apply dec_adds|apply dull1; reflexivity].
    - apply IHt; assumption.
    - destruct O as (Rw & O), I as (c & -> & I). rewrite Rw in I. apply IHt; assumption.
    - destruct O as (V & O), I as (_ & c & -> & I). cbn [wrap].
      destruct (image_true _ _ V I) as (c' & I' & ->). rewrite written_true, <- app_assoc.
      eapply adds_eq; [apply adds_app; [apply name_adds|apply adds_app; [apply IHt; [exact O|exact I']|
        instantiate (1 := if closes_brace t0 then we else 0%Z); destruct (closes_brace t0); [apply brace_close|apply adds_nil]]]|].
      rewrite takes_vname in *. pose proof (takes_closes t0 V) as C. rewrite takes_vname in C.
      destruct (vname t0); cbn [negb]; [rewrite C by reflexivity|]; cbn [andb parts map total fold_right].
      + lia.
      + destruct (closes_brace t0); cbn [andb]; lia.
    - destruct I as (js & -> & I). cbn [parts].
      enough (F : exists zs, Forall2 adds (map (written false) vs) zs /\
        total zs = (total (map parts js) + (total (map leaks vs) * (wo + wq + wc) + total (map closings vs) * we))%Z).
      { destruct F as (zs & F & E). eapply adds_eq; [apply array_adds, F|exact E]. }
      revert js I. induction H as [|v vs Hv HF IH]; intros [|j js] I; try contradiction; [exists []; split; [constructor|reflexivity]|].
      cbn [snd] in Hv. destruct O as (O1 & O2), I as (I1 & I2). destruct (IH O2 js I2) as (zs & F & E). eexists (_ :: zs). split.
      + cbn [map]. constructor; [apply (Hv O1 _ I1)|exact F].
      + cbn [map total fold_right]. unfold total in *. rewrite E. lia.
    - destruct I as (ms & -> & I). cbn [parts].
      enough (F : exists zs, Forall2 adds (map (fun kv => match kv with (k, v) =>
          member (match key_text false k with Some s => s | None => [] end) (written (key_leaks k) v) end) es) zs /\
        total zs = (total (map (fun m => match m with (_, v) => wq + wc + parts v end) ms) +
          (total (map (fun kv => match kv with (k, v) => ((if key_leaks k && takes_name v then 1 else 0) + leaks v)%Z end) es) * (wo + wq + wc) +
           total (map (fun kv => match kv with (_, v) => closings v end) es) * we))%Z).
      { destruct F as (zs & F & E). eapply adds_eq; [apply object_adds, F|rewrite E; lia]. }
      revert ms I. induction H as [|[k v] es [_ Hv] HF IH]; intros [|[s j] ms] I; try contradiction; [exists []; split; [constructor|reflexivity]|].
      cbn [snd] in Hv. destruct O as (_ & O1 & O2), I as (_ & I1 & I2). destruct (IH O2 ms I2) as (zs & F & E). eexists (_ :: zs). split.
      + cbn [map]. constructor; [|exact F]. apply member_adds.
        instantiate (1 := ((if key_leaks k && takes_name v then wo + wq + wc else 0) + (parts j + (leaks v * (wo + wq + wc) + closings v * we)))%Z).
        destruct (key_leaks k); cbn [andb].
        * rewrite written_true. apply adds_app; [apply name_adds|apply (Hv O1 _ I1)].
        * eapply adds_eq; [apply (Hv O1 _ I1)|lia].
      + cbn [map total fold_right]. unfold total in *. rewrite E. destruct (key_leaks k && takes_name v); lia.
    - destruct I as (ms & -> & I). cbn [wrap parts].
      enough (F : exists zs, Forall2 adds (map (fun f => match f with (_, fl, v) => member (l_text fl) (written false v) end) fs) zs /\
        total zs = (total (map (fun m => match m with (_, v) => wq + wc + parts v end) ms) +
          (total (map (fun f => match f with (_, _, v) => leaks v end) fs) * (wo + wq + wc) +
           total (map (fun f => match f with (_, _, v) => closings v end) fs) * we))%Z).
      { destruct F as (zs & F & E). eapply adds_eq; [apply object_adds, F|rewrite E; lia]. }
      revert ms I. induction H as [|[[ft fl] v] fs Hv HF IH]; intros [|[s j] ms] I; try contradiction; [exists []; split; [constructor|reflexivity]|].
      cbn [snd] in Hv. destruct O as (_ & O1 & O2), I as (_ & _ & I1 & I2). destruct (IH O2 ms I2) as (zs & F & E). eexists (_ :: zs). split.
      + cbn [map]. constructor; [|exact F]. apply member_adds, (Hv O1 _ I1).
      + cbn [map total fold_right]. unfold total in *. rewrite E. lia.
    - destruct I as (js & -> & I). cbn [wrap parts].
      enough (F : exists zs, Forall2 adds (map (fun f => match f with (_, _, v) => written false v end) fs) zs /\
        total zs = (total (map parts js) +
          (total (map (fun f => match f with (_, _, v) => leaks v end) fs) * (wo + wq + wc) +
           total (map (fun f => match f with (_, _, v) => closings v end) fs) * we))%Z).
      { destruct F as (zs & F & E). eapply adds_eq; [apply array_adds, F|exact E]. }
      revert js I. induction H as [|[[ft fi] v] fs Hv HF IH]; intros [|j js] I; try contradiction; [exists []; split; [constructor|reflexivity]|].
      cbn [snd] in Hv. destruct O as (O1 & O2), I as (I1 & I2). destruct (IH O2 js I2) as (zs & F & E). eexists (_ :: zs). split.
      + cbn [map]. constructor; [apply (Hv O1 _ I1)|exact F].
      + cbn [map total fold_right]. unfold total in *. rewrite E. lia.
    - destruct I as (ms & -> & I). cbn [wrap parts].
      enough (F : exists zs, Forall2 adds (map (fun f => match f with (_, fl, _, v) => member (l_text fl) (written false v) end) fs) zs /\
        total zs = (total (map (fun m => match m with (_, v) => wq + wc + parts v end) ms) +
          (total (map (fun f => match f with (_, _, _, v) => leaks v end) fs) * (wo + wq + wc) +
           total (map (fun f => match f with (_, _, _, v) => closings v end) fs) * we))%Z).
      { destruct F as (zs & F & E). eapply adds_eq; [apply object_adds, F|rewrite E; lia]. }
      revert ms I. induction H as [|[[[ft fl] fi] v] fs Hv HF IH]; intros [|[s j] ms] I; try contradiction; [exists []; split; [constructor|reflexivity]|].
      cbn [snd] in Hv. destruct O as (_ & O1 & O2), I as (_ & _ & I1 & I2). destruct (IH O2 ms I2) as (zs & F & E). eexists (_ :: zs). split.
      + cbn [map]. constructor; [|exact F]. apply member_adds, (Hv O1 _ I1).
      + cbn [map total fold_right]. unfold total in *. rewrite E. lia.
  Qed.
End Count.

(** The two counts are of the shapes that are not [safe]. *)
Lemma total_nonneg {A} (f : A -> Z) xs : Forall (fun x => 0 <= f x)%Z xs -> (0 <= total (map f xs))%Z.
Proof. induction 1 as [|x xs H HF IH]; [reflexivity|]. cbn [map total fold_right]. unfold total in IH. lia. Qed.
Lemma Forall_snd {A} (P : A * tree -> Prop) (Q : tree -> Prop) xs : (forall a v, Q v -> P (a, v)) -> Forall (fun x => Q (snd x)) xs -> Forall P xs.
Proof. intros H F. induction F as [|[a v] xs Hx HF IH]; constructor; [apply H, Hx|exact IH]. Qed.
Lemma leaks_nonneg t : (0 <= leaks t)%Z.
Proof.
  induction t using tree_ind'; cbn [leaks]; try lia; apply total_nonneg.
  - exact H.
  - induction H as [|[k v] es [_ Hv] HF IH]; constructor; [|exact IH]. cbn [snd] in Hv. destruct (key_leaks k && takes_name v); lia.
  - refine (Forall_snd _ (fun v => 0 <= leaks v)%Z _ _ H). intros [a l'] v Hv. exact Hv.
  - refine (Forall_snd _ (fun v => 0 <= leaks v)%Z _ _ H). intros [a l'] v Hv. exact Hv.
  - refine (Forall_snd _ (fun v => 0 <= leaks v)%Z _ _ H). intros [[a l'] i'] v Hv. exact Hv.
Qed.
Lemma closings_nonneg t : (0 <= closings t)%Z.
Proof.
  induction t using tree_ind'; cbn [closings]; try lia; try apply total_nonneg.
  - destruct (closes_brace t0 && negb (takes_name t0)); lia.
  - exact H.
  - induction H as [|[k v] es [_ Hv] HF IH]; constructor; [exact Hv|exact IH].
  - refine (Forall_snd _ (fun v => 0 <= closings v)%Z _ _ H). intros [a l'] v Hv. exact Hv.
  - refine (Forall_snd _ (fun v => 0 <= closings v)%Z _ _ H). intros [a l'] v Hv. exact Hv.
  - refine (Forall_snd _ (fun v => 0 <= closings v)%Z _ _ H). intros [[a l'] i'] v Hv. exact Hv.
Qed.
Lemma closes_takes v : is_variant v = true -> ordinary v -> safe v -> unnamed_enum_of_named v = false -> closes_brace v = takes_name v.
Proof.
  induction v using tree_ind'; try discriminate; intros V O S U; cbn [closes_brace takes_name]; try reflexivity.
  cbn [ordinary] in O. cbn [safe] in S. destruct O as (Vc & O), S as (S & _ & Uc). cbn [unnamed_enum_of_named] in U.
  destruct (is_named l i); [apply orb_true_r|]. cbn [negb andb] in U. rewrite (IHv Vc O S Uc), U. reflexivity.
Qed.
Lemma safe_counts t : ordinary t -> (safe t <-> leaks t = 0%Z /\ closings t = 0%Z).
Proof.
  induction t using tree_ind'; intros O; cbn [ordinary] in O; cbn [safe leaks closings]; try tauto.
  - destruct O as (-> & O). apply IHt, O.
  - destruct O as (V & O). rewrite (IHt O). pose proof (closings_nonneg t0) as Cn.
    assert (N : named_unquoted t0 = false).
    { destruct t0; try reflexivity. cbn [ordinary] in O. destruct O as (Rw & _). cbn [named_unquoted]. rewrite Rw. reflexivity. }
    split.
    + intros (Z & _ & U). pose proof (proj2 (IHt O) Z) as S. rewrite (closes_takes t0 V O S U).
      destruct (takes_name t0); cbn [andb negb]; tauto.
    + intros (L & C). destruct (closes_brace t0 && negb (takes_name t0)) eqn:E; [lia|].
      split; [split; [exact L|exact C]|split; [exact N|]].
      destruct t0 as [| | | | | | | | | |t1 l1 i1 c| | | | |]; try reflexivity. cbn [unnamed_enum_of_named]. cbn [ordinary] in O. destruct O as (Vc & O).
      cbn [closes_brace takes_name] in E. destruct (is_named l1 i1); [reflexivity|]. cbn [negb andb]. cbn [negb] in E.
      rewrite orb_false_r, andb_true_r in E. destruct (takes_name c) eqn:T; [|reflexivity]. rewrite (takes_closes c Vc T) in E. discriminate.
  - induction H as [|v vs Hv HF IH]; [cbn; tauto|]. destruct O as (O1 & O2). specialize (Hv O1). specialize (IH O2).
    cbn [map total fold_right]. unfold total in IH.
    pose proof (leaks_nonneg v). pose proof (closings_nonneg v).
    pose proof (total_nonneg leaks vs ltac:(apply Forall_forall; intros; apply leaks_nonneg)) as L1.
    pose proof (total_nonneg closings vs ltac:(apply Forall_forall; intros; apply closings_nonneg)) as L2. unfold total in L1, L2.
    rewrite Hv, IH. lia.
  - induction H as [|[k v] es [_ Hv] HF IH]; [cbn; tauto|]. cbn [snd] in Hv. destruct O as (_ & O1 & O2). specialize (Hv O1). specialize (IH O2).
    cbn [map total fold_right]. unfold total in IH.
    pose proof (leaks_nonneg v). pose proof (closings_nonneg v).
    pose proof (total_nonneg (fun kv : tree * tree => let (k, v) := kv in ((if key_leaks k && takes_name v then 1 else 0) + leaks v)%Z) es
      ltac:(apply Forall_forall; intros [k' v'] _; pose proof (leaks_nonneg v'); destruct (key_leaks k' && takes_name v'); lia)) as L1.
    pose proof (total_nonneg (fun kv : tree * tree => let (_, v) := kv in closings v) es ltac:(apply Forall_forall; intros [k' v'] _; apply closings_nonneg)) as L2.
    unfold total in L1, L2. rewrite Hv, IH. clear Hv IH. destruct (key_leaks k && takes_name v).
    + split; [intros (Q & _); discriminate|intros (Q & _); lia].
    + lia.
  - induction H as [|[[ft fl] v] fs Hv HF IH]; [cbn; tauto|]. cbn [snd] in Hv. destruct O as (_ & O1 & O2). specialize (Hv O1). specialize (IH O2).
    cbn [map total fold_right]. unfold total in IH.
    pose proof (leaks_nonneg v). pose proof (closings_nonneg v).
    pose proof (total_nonneg (fun f : option tag * label * tree => let (p, v) := f in let (_, _) := p in leaks v) fs ltac:(apply Forall_forall; intros [[a b] v'] _; apply leaks_nonneg)) as L1.
    pose proof (total_nonneg (fun f : option tag * label * tree => let (p, v) := f in let (_, _) := p in closings v) fs ltac:(apply Forall_forall; intros [[a b] v'] _; apply closings_nonneg)) as L2.
    unfold total in L1, L2. rewrite Hv, IH. lia.
  - induction H as [|[[ft fl] v] fs Hv HF IH]; [cbn; tauto|]. cbn [snd] in Hv. destruct O as (O1 & O2). specialize (Hv O1). specialize (IH O2).
    cbn [map total fold_right]. unfold total in IH.
    pose proof (leaks_nonneg v). pose proof (closings_nonneg v).
    pose proof (total_nonneg (fun f : option tag * index * tree => let (p, v) := f in let (_, _) := p in leaks v) fs ltac:(apply Forall_forall; intros [[a b] v'] _; apply leaks_nonneg)) as L1.
    pose proof (total_nonneg (fun f : option tag * index * tree => let (p, v) := f in let (_, _) := p in closings v) fs ltac:(apply Forall_forall; intros [[a b] v'] _; apply closings_nonneg)) as L2.
    unfold total in L1, L2. rewrite Hv, IH. lia.
  - induction H as [|[[[ft fl] fi] v] fs Hv HF IH]; [cbn; tauto|]. cbn [snd] in Hv. destruct O as (_ & O1 & O2). specialize (Hv O1). specialize (IH O2).
    cbn [map total fold_right]. unfold total in IH.
    pose proof (leaks_nonneg v). pose proof (closings_nonneg v).
    pose proof (total_nonneg (fun f : option tag * label * index * tree => let (p, v) := f in let (p, _) := p in let (_, _) := p in leaks v) fs ltac:(apply Forall_forall; intros [[[a b] c] v'] _; apply leaks_nonneg)) as L1.
    pose proof (total_nonneg (fun f : option tag * label * index * tree => let (p, v) := f in let (p, _) := p in let (_, _) := p in closings v) fs ltac:(apply Forall_forall; intros [[[a b] c] v'] _; apply closings_nonneg)) as L2.
    unfold total in L1, L2. rewrite Hv, IH. lia.
Qed.

(** The compact text is always a JSON text of the image. *)
Section Compact.
  Variable ryu32 ryu64 : float -> bytes.
  Notation compact := (compact ryu32 ryu64).
  Notation image := (image ryu32 ryu64).

  Lemma jt_of s j : json_value s j -> json_text s j.
  Proof. intros H. rewrite <- (app_nil_r s). change (s ++ []) with ([] ++ s ++ []). apply jt; [reflexivity|reflexivity|exact H]. Qed.
  Lemma elems_of xs js : Forall2 json_value xs js -> json_value (array xs) (JArr js).
  Proof.
    intros F. unfold array. destruct F as [|x j xs js H F].
    - apply (jv_arr0 []). reflexivity.
    - apply jv_arr. revert x j H. induction F as [|x' j' xs js H' F IH]; intros x j H.
      + apply je_one, jt_of, H.
      + change (commas (x :: x' :: xs)) with (x ++ bs "," ++ commas (x' :: xs)). apply je_more; [apply jt_of, H|apply IH, H'].
  Qed.
  Definition is_member (x : bytes) (m : bytes * jv) : Prop := exists y, x = member (fst m) y /\ json_value y (snd m).
  Lemma members_of xs ms : Forall2 is_member xs ms -> json_value (object xs) (JObj ms).
  Proof.
    intros F. unfold object. destruct F as [|x m xs ms H F].
    - apply (jv_obj0 []). reflexivity.
    - apply jv_obj. revert x m H. induction F as [|x' m' xs ms H' F IH]; intros x [k v] (y & E & H); cbn [fst snd] in E, H; subst x.
      + cbn [commas]. unfold member. rewrite json_string_esc. apply (jm_one [] []); [reflexivity|reflexivity|apply unescape_esc|apply jt_of, H].
      + change (commas (member k y :: x' :: xs)) with (member k y ++ bs "," ++ commas (x' :: xs)). unfold member. rewrite json_string_esc, <- !app_assoc.
        apply (jm_more [] []); [reflexivity|reflexivity|apply unescape_esc|apply jt_of, H|apply IH, H'].
  Qed.
  Lemma under_value inside l i x c : json_value x c -> json_value (under inside l i x) (wrap inside l i c).
  Proof.
    intros H. unfold under, wrap. destruct inside; [|exact H]. destruct (name_of l i) as [k|]; [|exact H].
    apply members_of. constructor; [|constructor]. exists x. split; [reflexivity|exact H].
  Qed.
  Lemma compact_denotes t : ordinary t -> forall inside j, image inside t j -> json_value (compact inside t) j.
  Proof.
    induction t using tree_ind'; intros O inside j I; cbn [ordinary] in O; cbn [JsonSpec.image] in I; cbn [JsonTextSpec.compact].
    - subst j. constructor.
    - subst j. destruct b; constructor.
    - subst j. apply jv_num, json_number_dec.
    - unfold float_image in I. unfold float_key. destruct (is_nan f || is_infinite f); [subst j; constructor|]. destruct I as (m & e & N & ->). apply jv_num, N.
    - unfold float_image in I. unfold float_key. destruct (is_nan f || is_infinite f); [subst j; constructor|]. destruct I as (m & e & N & ->). apply jv_num, N.
    - subst j. rewrite json_string_esc. apply jv_str, unescape_esc.
    - subst j. apply elems_of. induction (frags_text fs); constructor; [apply jv_num, json_number_dec|assumption].
    - subst j. unfold tag_image. destruct (otag_is t RUST_OPTION_NONE); [constructor|].
      destruct l; [rewrite json_string_esc; apply jv_str, unescape_esc|].
      destruct i as [i|]; [|constructor]. destruct (fits I64 (i_val i)); [apply jv_num, json_number_dec|constructor].
    - apply IHt; assumption.
    - destruct O as (Rw & O), I as (c & -> & I). rewrite Rw in *. apply under_value, IHt; assumption.
    - destruct O as (V & O), I as (_ & c & -> & I). apply under_value, IHt; assumption.
    - destruct I as (js & -> & I). apply elems_of. revert js I.
      induction H as [|v vs Hv HF IH]; intros [|j js] I; try contradiction; constructor.
      + apply Hv; [apply O|apply I].
      + apply IH; [apply O|apply I].
    - destruct I as (ms & -> & I). apply members_of. revert ms I.
      induction H as [|[k v] es [_ Hv] HF IH]; intros [|[s j] ms] I; try contradiction; constructor.
      + destruct I as (K & I & _). exists (compact false v). rewrite K. split; [reflexivity|]. apply Hv; [apply O|exact I].
      + apply IH; [apply O|apply I].
    - destruct I as (ms & -> & I). apply under_value, members_of. revert ms I.
      induction H as [|[[ft fl] v] fs Hv HF IH]; intros [|[s j] ms] I; try contradiction; constructor.
      + destruct I as (_ & -> & I & _). exists (compact false v). split; [reflexivity|]. apply Hv; [apply O|exact I].
      + apply IH; [apply O|apply I].
    - destruct I as (js & -> & I). apply under_value, elems_of. revert js I.
      induction H as [|[[ft fi] v] fs Hv HF IH]; intros [|j js] I; try contradiction; constructor.
      + apply Hv; [apply O|apply I].
      + apply IH; [apply O|apply I].
    - destruct I as (ms & -> & I). apply under_value, members_of. revert ms I.
      induction H as [|[[[ft fl] fi] v] fs Hv HF IH]; intros [|[s j] ms] I; try contradiction; constructor.
      + destruct I as (_ & -> & I & _). exists (compact false v). split; [reflexivity|]. apply Hv; [apply O|exact I].
      + apply IH; [apply O|apply I].
  Qed.
End Compact.
