(** * FlatRustProofs: the calls and the tree of structs with flattened fields *)

From Verif Require Import Base Event Tree FlatProofs DataModel DataProofs NestedModel NestedSpec FlattenModel FlattenSpec FlattenProps
  DeriveModel DeriveSpec DeriveProps StdModel StdSpec StdProps RustModel RustSpec RustProofs FlatRustModel FlatRustSpec.
Local Open Scope Z_scope.

Section Ind.
  Variable P : fdatum -> Prop.
  Hypothesis HP : forall v, P (FPlain v).
  Hypothesis HO : forall v, P v -> P (FSome v).
  Hypothesis HS : forall name fs, Forall (fun f => P (snd f)) fs -> P (FStruct name fs).
  Fixpoint fdatum_ind' (v : fdatum) : P v :=
    match v with
    | FPlain v => HP v
    | FSome v => HO v (fdatum_ind' v)
    | FStruct name fs =>
        HS name fs ((fix go (fs : list (bytes * bool * fdatum)) : Forall (fun f => P (snd f)) fs :=
          match fs with [] => Forall_nil _ | f :: fs => Forall_cons f (fdatum_ind' (snd f)) (go fs) end) fs)
    end.
End Ind.

Definition defs (fs : list (bytes * bool * fdatum)) : list field_def := map (fun f => match f with (n, b, _) => field_of n b end) fs.

(** ** The macro accepts these definitions *)
Lemma loop_flat fs : forall p k tgt c b body, 0 <= p -> fits I64 (p + Z.of_nat (List.length fs)) = true ->
  exists lo, field_loop false false (MkLoop (MkAlloc p false) tgt c c c b body) k (defs fs) = Some lo /\
             lo_labeled lo = lo_count lo /\ lo_indexed lo = lo_count lo.
Proof.
  induction fs as [|[[n f] v] fs IH]; intros p k tgt c b body Hp F; cbn [defs map field_loop].
  - eexists. split; [reflexivity|split; reflexivity].
  - unfold field_iter. cbn [fd_skip field_of flag fd_label fd_index absent negb andb fd_name optional_label_or_ident option_map lo_alloc].
    unfold next_computed_index, next_const_index. cbn [al_next al_explicit].
    cbn [List.length] in F. rewrite Nat2Z.inj_succ in F.
    rewrite (fits_le (p + 1) (p + Z.succ (Z.of_nat (List.length fs)))) by (try assumption; lia).
    cbn [option_map lo_count lo_labeled lo_indexed lo_const lo_body].
    apply IH; [lia|]. replace (p + 1 + Z.of_nat (List.length fs)) with (p + Z.succ (Z.of_nat (List.length fs))) by lia. exact F.
Qed.
Lemma fderive name fs : sized (List.length fs) = true -> exists m, derive (fdef name fs) = Some m.
Proof.
  intros S. cbn [fdef derive]. unfold derive_struct. cbn [struct_attrs plain_attrs at_transparent absent at_unlabeled at_unindexed flag at_tag].
  unfold stream_record_tuple, alloc_new. fold (defs fs).
  destruct (loop_flat fs 0 0 FRecTup 0%N true [] ltac:(lia) S) as (lo & -> & -> & ->). rewrite N.eqb_refl, !orb_true_r. cbn [andb]. eauto.
Qed.

(** ** Positions *)
Lemma after_app ms ms' : forall pos, after pos (ms ++ ms') = after (after pos ms) ms'.
Proof. induction ms as [|m ms IH]; intros pos; [reflexivity|]. cbn [app after]. apply IH. Qed.
Definition shift (d : Z) (m : member_at) : member_at := (m_pos m + d, m_label m, m_value m).
Lemma after_shift d ms : forall pos, after (pos + d) (map (shift d) ms) = after pos ms + d.
Proof. induction ms as [|[[k l] v] ms IH]; intros pos; [reflexivity|]. cbn [map after]. rewrite <- IH. f_equal. unfold shift, m_pos. cbn [fst]. lia. Qed.
Lemma numbered_shift d ms : forall pos, numbered (pos + d) ms = map (shift d) (numbered pos ms).
Proof. induction ms as [|[l v] ms IH]; intros pos; [reflexivity|]. cbn [numbered map]. rewrite <- IH. unfold shift at 1, m_pos, m_label, m_value. cbn [fst snd]. replace (pos + d + 1) with (pos + 1 + d) by lia. reflexivity. Qed.
Lemma plain_shift d v : forall pos, plain_members (pos + d) v = map (shift d) (plain_members pos v).
Proof.
  induction v using datum_ind'; intros pos; cbn [plain_members]; try reflexivity; auto using numbered_shift.
  destruct d0 as [n [|[|[|k]]|names]|n vs]; try reflexivity.
  - destruct fs as [|v [|? ?]]; try reflexivity. inversion H; subst. auto.
  - apply numbered_shift.
  - destruct (nth_error vs i) as [[vn [|[|[|k]]|names]]|]; try (destruct fs; reflexivity).
    + destruct fs as [|v [|? ?]]; try reflexivity. cbn [map]. unfold shift, m_pos, m_label, m_value. cbn [fst snd]. do 3 f_equal. lia.
    + apply numbered_shift.
Qed.
Lemma written_shift fs : Forall (fun f => forall pos d, members (pos + d) (snd f) = map (shift d) (members pos (snd f))) fs ->
  forall pos d, written (pos + d) fs = map (shift d) (written pos fs).
Proof.
  unfold written. induction 1 as [|[[n b] v] fs H _ IH]; intros pos d; [reflexivity|]. cbn [written_with snd] in *.
  assert (E : (if b then members (pos + d) v else [(pos + d, field_label n, v)]) = map (shift d) (if b then members pos v else [(pos, field_label n, v)])).
  { destruct b; [apply H|reflexivity]. }
  rewrite E, after_shift, IH, map_app. reflexivity.
Qed.
Lemma members_shift v : forall pos d, members (pos + d) v = map (shift d) (members pos v).
Proof. induction v using fdatum_ind'; intros pos d; cbn [members]; [apply plain_shift|apply IHv|apply written_shift; assumption]. Qed.

(** Positions do not go back. *)
Fixpoint climbs (pos : Z) (ms : list member_at) : Prop :=
  match ms with [] => True | m :: ms => pos <= m_pos m /\ climbs (m_pos m + 1) ms end.
Lemma climbs_after ms : forall pos, climbs pos ms -> pos <= after pos ms.
Proof. induction ms as [|m ms IH]; intros pos; cbn [climbs after]; [lia|]. intros (A & B). specialize (IH _ B). lia. Qed.
Lemma climbs_app ms ms' : forall pos, climbs pos ms -> climbs (after pos ms) ms' -> climbs pos (ms ++ ms').
Proof. induction ms as [|m ms IH]; intros pos; cbn [climbs after app]; [auto|]. intros (A & B) C. auto. Qed.
Lemma numbered_climbs ms : forall pos, climbs pos (numbered pos ms).
Proof. induction ms as [|[l v] ms IH]; intros pos; cbn [numbered climbs]; [exact I|]. split; [unfold m_pos; cbn; lia|apply IH]. Qed.
Lemma plain_climbs v : forall pos, climbs pos (plain_members pos v).
Proof.
  induction v using datum_ind'; intros pos; cbn [plain_members climbs]; try exact I; auto using numbered_climbs.
  destruct d as [n [|[|[|k]]|names]|n vs]; try exact I.
  - destruct fs as [|v [|? ?]]; try exact I. inversion H; subst. auto.
  - apply numbered_climbs.
  - destruct (nth_error vs i) as [[vn [|[|[|k]]|names]]|]; try (destruct fs; exact I).
    + destruct fs as [|v [|? ?]]; try exact I. cbn [climbs]. unfold m_pos. cbn [fst]. split; [lia|exact I].
    + apply numbered_climbs.
Qed.
Lemma written_climbs fs : Forall (fun f => forall pos, climbs pos (members pos (snd f))) fs -> forall pos, climbs pos (written pos fs).
Proof.
  unfold written. induction 1 as [|[[n b] v] fs H _ IH]; intros pos; [exact I|]. cbn [written_with snd] in *.
  apply climbs_app; [|apply IH]. destruct b; [apply H|]. cbn [climbs]. unfold m_pos. cbn [fst]. split; [lia|exact I].
Qed.
Lemma members_climbs v : forall pos, climbs pos (members pos v).
Proof. induction v using fdatum_ind'; intros pos; cbn [members]; [apply plain_climbs|apply IHv|apply written_climbs; assumption]. Qed.

Section Tree.
  Variable r64 : float -> bytes.

  (** ** The tree *)
  Fixpoint ftree (v : fdatum) : tree :=
    match v with
    | FPlain v => dtree v
    | FSome v => shape (RSome (ROther [] (ftree v)))
    | FStruct name fs =>
        match derived_tree (label_kept r64) (fdef name fs) 0 (map (fun f => match f with (_, _, v) => ftree v end) fs) with
        | Some t => t
        | None => TNull
        end
    end.
  Definition slot_at (m : member_at) : slot := MkSlot None (m_label m) (place (m_pos m)) (ftree (m_value m)).
  Definition child_at (m : member_at) : child := MkChild None (NLabel (m_label m)) (Some (place (m_pos m))) (ftree (m_value m)).

  Definition slot_of (ci : child * index) : slot :=
    match ci with (c, i) => MkSlot (c_tag c) (label_for (label_kept r64) (c_name c) i) i (c_value c) end.
  (** Flattening [v] at [pos] does what the specification says. *)
  Definition lands (v : fdatum) : Prop :=
    tagged_enum (ftree v) = false /\
    forall pos, 0 <= pos -> fits I64 (after pos (members pos v)) = true ->
      map slot_of (placed pos pos (children false (ftree v))) = map slot_at (members pos v) /\
      end_offset pos pos (children false (ftree v)) = after pos (members pos v) /\
      room pos pos (children false (ftree v)) = true.

  (** Children that go where [ms] are, when flattened from [base] on. *)
  Fixpoint fit (base next : Z) (cs : list child) (ms : list member_at) : Prop :=
    match cs, ms with
    | [], [] => True
    | c :: cs, m :: ms =>
        (c_tag c = None /\ (forall i, label_for (label_kept r64) (c_name c) i = m_label m) /\ c_value c = ftree (m_value m) /\
         (c_index c = Some (place (m_pos m - base)) \/ c_index c = None /\ m_pos m = next)) /\ fit base (m_pos m + 1) cs ms
    | _, _ => False
    end.
  Lemma fit_lands base cs : forall next ms, 0 <= base <= next -> climbs next ms -> fits I64 (after next ms) = true -> fit base next cs ms ->
    map slot_of (placed base next cs) = map slot_at ms /\ end_offset base next cs = after next ms /\ room base next cs = true.
  Proof.
    induction cs as [|c cs IH]; intros next [|m ms] B C F H; cbn [fit] in H; try contradiction; [repeat split|].
    destruct H as ((T & L & V & Ix) & H). cbn [climbs after] in C, F. destruct C as (C1 & C2). pose proof (climbs_after _ _ C2) as A.
    assert (F1 : fits I64 (m_pos m) = true) by (eapply fits_le; [|exact F]; lia).
    assert (F2 : fits I64 (m_pos m - base) = true) by (eapply fits_le; [|exact F]; lia).
    assert (F3 : fits I64 (m_pos m + 1) = true) by (eapply fits_le; [|exact F]; lia).
    assert (P : FlattenSpec.place base next (c_index c) = place (m_pos m)).
    { destruct Ix as [->|(-> & E)]; unfold FlattenSpec.place, place; cbn [i_tag i_val]; [|rewrite E; reflexivity].
      change (otag_is (Some VALUE_OFFSET) VALUE_OFFSET) with true. rewrite F2. cbn [andb]. f_equal. lia. }
    assert (NX : next_free next (place (m_pos m)) = m_pos m + 1) by (unfold next_free, place; cbn [i_val]; rewrite F1; reflexivity).
    destruct (IH (m_pos m + 1) ms ltac:(lia) C2 F H) as (I1 & I2 & I3).
    cbn [placed end_offset room map after]. rewrite P, NX. split; [|split].
    - rewrite I1. f_equal. unfold slot_of, slot_at. rewrite T, L, V. reflexivity.
    - exact I2.
    - rewrite F3, I3, andb_true_r, andb_true_r. destruct Ix as [->|(-> & _)]; [|reflexivity].
      unfold place. cbn [i_tag i_val]. change (otag_is (Some VALUE_OFFSET) VALUE_OFFSET) with true. rewrite F2. cbn [andb].
      replace (m_pos m - base + base) with (m_pos m) by lia. exact F1.
  Qed.

  (** ** Plain data *)
  Lemma key_label_same k : forall s, serde_key k = Some s -> typed k -> label_kept r64 (dtree k) = s.
  Proof.
    induction k using datum_ind'; intros s0 K T; cbn [serde_key] in K; try discriminate; try (injection K as <-; reflexivity).
    - cbn [dtree]. apply IHk; assumption.
    - destruct T as (_ & L & T). destruct d as [n st|n vs].
      + destruct st as [|[|[|?]]|?]; try discriminate. destruct fs as [|f [|? ?]]; try discriminate. destruct i; [|contradiction].
        inversion H; subst. cbn. apply H2; [exact K|apply T].
      + cbn [variant_of] in L. cbn [dtree]. unfold data_tree. cbn [variant_of]. destruct (nth_error vs i) as [[vn [|m|ns]]|]; try discriminate. injection K as <-. reflexivity.
  Qed.
  Lemma fit_numbered base names fs : forall k, List.length names = List.length fs ->
    fit base (base + k) (map (fun f => match f with (t, l, i, v) => MkChild t (NLabel l) (Some i) v end)
                     (map (fun p => let '(n, (k, t)) := p in (None, name_label n, RustProofs.place k, t)) (combine names (from k (map dtree fs)))))
        (numbered (base + k) (combine (map field_label names) fs)).
  Proof.
    revert names. induction fs as [|f fs IH]; intros [|n names] k L; try discriminate; [exact I|].
    cbn [map from combine numbered fit c_tag c_name c_value c_index label_for]. split.
    - unfold m_label, m_value, m_pos. cbn [fst snd]. repeat split; try reflexivity. left. do 2 f_equal. lia.
    - unfold m_pos at 1. cbn [fst]. replace (base + k + 1) with (base + (k + 1)) by lia. apply IH. cbn in L. lia.
  Qed.
  Lemma fit_entries base es : forall next,
    Forall (fun kv => exists s, serde_key (fst kv) = Some s /\ typed (fst kv)) es ->
    fit base next (map (fun kv => MkChild None (NKey (fst kv)) None (snd kv)) (map (fun kv => match kv with (k, v) => (dtree k, dtree v) end) es))
        (numbered next (map (fun kv => (entry_label (key_of (fst kv)), snd kv)) es)).
  Proof.
    induction es as [|[k v] es IH]; intros next H; [exact I|]. inversion H as [|? ? (s & K & T) H']; subst. cbn [fst snd] in *.
    cbn [map numbered fit c_tag c_name c_value c_index label_for fst snd]. split; [|apply IH; exact H'].
    unfold m_label, m_value, m_pos. cbn [fst snd]. repeat split; [|right; split; reflexivity].
    intros _. rewrite (key_label_same k s K T). unfold key_of. rewrite K. reflexivity.
  Qed.
  Lemma not_below v : typed v -> an_enum v = false -> enum_below (dtree v) = false.
  Proof.
    induction v using datum_ind'; intros T N; cbn [dtree an_enum] in *; try reflexivity; auto.
    - cbn [typed] in T. destruct T as (D & L & T). destruct d as [n s|n vs]; [|discriminate N]. cbn [variant_of] in L. destruct i; [|contradiction].
      unfold data_tree. cbn [variant_of]. destruct s as [|[|[|k]]|names]; cbn [plain_tree enum_below]; try reflexivity.
      destruct fs as [|f [|? ?]]; try discriminate L. inversion H; subst. cbn [map nth]. apply H2; [apply T|exact N].
  Qed.
  Lemma plain_fit v : typed v -> plain_flattens v = true -> wrapped_enum v = false ->
    tagged_enum (dtree v) = false /\ (forall pos, fit pos pos (children false (dtree v)) (plain_members pos v)).
  Proof.
    (* Inside a wrapper there must not be an enum. *)
    assert (In' : forall v, typed v -> plain_flattens v = true -> an_enum v = false ->
              forall pos, fit pos pos (children false (dtree v)) (plain_members pos v)).
    { clear v. intros v. induction v using datum_ind'; intros T F N pos; cbn [plain_flattens an_enum typed] in *; try discriminate F.
      - exact I.
      - cbn. apply IHv; assumption.
      - cbn [dtree children plain_members]. apply fit_entries. clear H N. induction es as [|[k w] es IH]; [constructor|].
        cbn [map fold_right forallb fst snd] in *. apply andb_true_iff in F as (F1 & F2). constructor; [|apply IH; tauto]. cbn [fst].
        destruct (serde_key k) as [s|]; [|discriminate]. exists s. tauto.
      - cbn [dtree plain_members]. apply IHv; assumption.
      - destruct T as (D & L & T). destruct d as [n s|n vs]; [|discriminate N]. cbn [variant_of] in L. destruct i; [|contradiction].
        cbn [dtree]. unfold data_tree. cbn [variant_of]. destruct s as [|[|[|k]]|names]; try discriminate F; cbn [plain_tree arity] in *.
        + destruct fs as [|f [|? ?]]; try discriminate L. inversion H; subst. cbn [map nth children plain_members]. apply H2; [apply T|exact F|exact N].
        + cbn [children plain_members]. pose proof (fit_numbered pos names fs 0) as G. rewrite Z.add_0_r in G. apply G. symmetry. exact L. }
    induction v using datum_ind'; intros T F N; cbn [plain_flattens wrapped_enum typed] in *; try discriminate F.
    - split; [reflexivity|]. intros pos. exact I.
    - split; [cbn; apply not_below; assumption|]. intros pos. cbn. apply In'; assumption.
    - split; [reflexivity|]. intros pos. apply (In' (VMap es)); [exact T|exact F|reflexivity].
    - cbn [dtree plain_members]. apply IHv; assumption.
    - destruct T as (D & L & T). destruct d as [n s|n vs].
      + cbn [variant_of] in L. destruct i; [|contradiction].
        split.
        * cbn [dtree]. unfold data_tree. cbn [variant_of]. destruct s as [|[|[|k]]|names]; try discriminate F; cbn [plain_tree arity] in *; [|reflexivity].
          destruct fs as [|f [|? ?]]; try discriminate L. cbn [map nth tagged_enum]. apply not_below; [apply T|exact N].
        * intros pos. apply In'; [split; [exact D|split; [exact L|exact T]]|exact F|]. cbn [an_enum]. destruct s as [|[|[|k]]|names]; try reflexivity.
          destruct fs as [|f [|? ?]]; try discriminate L. exact N.
      + cbn [variant_of] in L. split; [unfold dtree; fold dtree; unfold data_tree; cbn [variant_of]; destruct (nth_error vs i) as [[? ?]|]; reflexivity|].
        intros pos. cbn [dtree plain_members]. unfold data_tree. cbn [variant_of]. destruct (nth_error vs i) as [[vn s]|]; [|contradiction].
        destruct s as [|[|[|k]]|names]; try discriminate F; cbn [plain_tree arity children] in *.
        * destruct fs as [|f [|? ?]]; try discriminate L. cbn [map nth fit c_tag c_name c_value c_index label_for].
          unfold m_label, m_value, m_pos. cbn [fst snd]. repeat split; try reflexivity. left. do 2 f_equal. lia.
        * pose proof (fit_numbered pos names fs 0) as G. rewrite Z.add_0_r in G. apply G. symmetry. exact L.
  Qed.
  Lemma plain_lands v : typed v -> plain_flattens v = true -> wrapped_enum v = false -> lands (FPlain v).
  Proof.
    intros T F N. destruct (plain_fit v T F N) as (A & B). split; [exact A|]. intros pos Hp Fi. cbn [members ftree] in *.
    apply fit_lands; auto using plain_climbs; lia.
  Qed.

  (** ** Maps inside *)
  Lemma existsb_false {A} (p : A -> bool) l : existsb p l = false <-> Forall (fun x => p x = false) l.
  Proof. induction l as [|a l IH]; cbn; [split; auto|]. rewrite orb_false_iff, IH. split; [intros []; auto|inversion 1; auto]. Qed.
  Lemma plain_entry name i s ts : Forall (fun t => has_entry t = false) ts -> has_entry (plain_tree name i s ts) = false.
  Proof.
    assert (Fr : forall ts, Forall (fun t => has_entry t = false) ts -> forall k, Forall (fun p => has_entry (snd p) = false) (from k ts)).
    { clear. induction 1; intros k; cbn [from]; constructor; auto. }
    intros H. destruct s as [|[|[|n]]|names]; cbn [plain_tree].
    - reflexivity.
    - cbn [has_entry]. rewrite existsb_false, Forall_map. apply Fr. exact H.
    - destruct H; [reflexivity|assumption].
    - cbn [has_entry]. rewrite existsb_false, Forall_map. apply Fr. exact H.
    - cbn [has_entry]. rewrite existsb_false, Forall_map. specialize (Fr ts H 0). revert Fr. generalize (from 0 ts) names. clear.
      induction l as [|[k t] l IH]; intros [|n ns] F; cbn [combine]; try constructor; inversion F; subst; [assumption|auto].
  Qed.
  Lemma no_entry v : mapped v = false -> has_entry (dtree v) = false.
  Proof.
    assert (F : forall vs, Forall (fun v => mapped v = false -> has_entry (dtree v) = false) vs -> existsb mapped vs = false ->
              Forall (fun t => has_entry t = false) (map dtree vs)).
    { clear. intros vs H E. rewrite existsb_false in E. rewrite Forall_map. rewrite Forall_forall in *. auto. }
    induction v using datum_ind'; intros M; cbn [mapped] in M; cbn [dtree]; try reflexivity.
    - cbn. auto.
    - cbn [has_entry]. rewrite existsb_false. auto.
    - cbn. change (existsb has_entry (map dtree vs) = false). rewrite existsb_false. auto.
    - cbn [has_entry]. rewrite existsb_false. specialize (F _ H M). rewrite Forall_map. revert F. generalize (map dtree vs) 0. clear.
      intros l z F. revert z. induction F; intros z; cbn [from]; constructor; auto.
    - destruct es; [reflexivity|discriminate M].
    - auto.
    - unfold data_tree. destruct (variant_of d i) as [[name s]|]; [|reflexivity]. specialize (F _ H M).
      destruct d; cbn [has_entry]; apply plain_entry; exact F.
  Qed.
  Definition clear_of_maps (m : member_at) : Prop := has_entry (ftree (m_value m)) = false.
  Lemma numbered_clear ms : Forall (fun lv => mapped (snd lv) = false) ms -> forall pos, Forall clear_of_maps (numbered pos ms).
  Proof.
    induction 1 as [|[l v] ms H _ IH]; intros pos; cbn [numbered]; constructor; [|apply IH]. unfold clear_of_maps, m_value. cbn [snd ftree]. apply no_entry. exact H.
  Qed.
  Lemma combine_clear names fs : existsb mapped fs = false -> Forall (fun lv => mapped (snd lv) = false) (combine (map field_label names) fs).
  Proof.
    rewrite existsb_false. intros H. revert names. induction H; intros [|n names]; cbn [map combine]; constructor; auto.
  Qed.
  Lemma plain_clear v : mapped_inside v = false -> forall pos, Forall clear_of_maps (plain_members pos v).
  Proof.
    induction v using datum_ind'; intros M pos; cbn [mapped_inside plain_members] in *; try apply Forall_nil; auto.
    - apply numbered_clear. rewrite existsb_false in M. rewrite Forall_map. exact M.
    - destruct d as [n [|[|[|k]]|names]|n vs]; try apply Forall_nil.
      + destruct fs as [|v [|? ?]]; try apply Forall_nil. inversion H; subst. auto.
      + apply numbered_clear, combine_clear. exact M.
      + destruct (nth_error vs i) as [[vn [|[|[|k]]|names]]|]; try (destruct fs; apply Forall_nil).
        * destruct fs as [|v [|? ?]]; try apply Forall_nil. apply Forall_cons; [|constructor]. unfold clear_of_maps, m_value. cbn [snd ftree]. apply no_entry.
          cbn [existsb] in M. apply orb_false_iff in M. tauto.
        * apply numbered_clear, combine_clear. exact M.
  Qed.

  (** ** Structs *)
  Definition trees (fs : list (bytes * bool * fdatum)) : list tree := map (fun f => match f with (_, _, v) => ftree v end) fs.
  Lemma placed_values cs : forall o k, map (fun x => s_value (slot_of x)) (placed o k cs) = map c_value cs.
  Proof. induction cs as [|c cs IH]; intros o k; [reflexivity|]. cbn [placed map slot_of s_value]. f_equal. apply IH. Qed.
  Lemma contexts_fields fs : Forall (fun f => snd (fst f) = true -> lands (snd f)) fs -> forall before pos,
    any_given before = false -> 0 <= pos -> fits I64 (after pos (written pos fs)) = true ->
    flat_map (slots_of (label_kept r64)) (contexts FRecTup before pos (combine (defs fs) (trees fs))) = map slot_at (written pos fs) /\
    (Forall (fun f => snd (fst f) = true -> forall pos, Forall clear_of_maps (members pos (snd f))) fs ->
     forallb (slots_ok FRecTup) (contexts FRecTup before pos (combine (defs fs) (trees fs))) = true).
  Proof.
    unfold written. induction 1 as [|[[n b] v] fs H HF IH]; intros before pos Bf Hp F; [split; reflexivity|].
    cbn [defs trees map combine contexts flat_map forallb written_with fst snd] in *.
    rewrite after_app in F. set (ms := if b then members pos v else [(pos, field_label n, v)]) in *.
    assert (Cl : climbs pos ms).
    { unfold ms. destruct b; [apply members_climbs|]. cbn [climbs]. unfold m_pos. cbn [fst]. split; [lia|exact I]. }
    assert (Cw : climbs (after pos ms) (written_with members (after pos ms) fs)).
    { apply written_climbs. rewrite Forall_forall. intros f _. apply members_climbs. }
    pose proof (climbs_after _ _ Cl) as A1. pose proof (climbs_after _ _ Cw) as A2.
    assert (Fm : fits I64 (after pos ms) = true) by (eapply fits_le; [|exact F]; lia).
    assert (Ad : advance FRecTup before pos (field_of n b) (ftree v) = after pos ms).
    { unfold advance, flattening, field_of. cbn [fd_flatten fd_index]. destruct b; cbn [flag].
      - destruct (H eq_refl) as (_ & L). destruct (L pos Hp Fm) as (_ & E & _). exact E.
      - unfold any_given in *. cbn [existsb absent negb orb]. rewrite Bf. reflexivity. }
    rewrite Ad. assert (Bf' : any_given (fd_index (field_of n b) :: before) = false) by (unfold any_given in *; cbn; exact Bf).
    destruct (IH _ (after pos ms) Bf' ltac:(lia) F) as (I1 & I2). split.
    - rewrite map_app, <- I1. f_equal. unfold slots_of, flattening, field_of. cbn [fd_flatten]. unfold ms in *. destruct b; cbn [flag].
      + destruct (H eq_refl) as (_ & L). destruct (L pos Hp Fm) as (E & _ & _). exact E.
      + cbn [map]. unfold own_slot, own_index. cbn [fd_tag fd_label fd_name fd_index fd_data_tag]. rewrite Bf. reflexivity.
    - intros C. inversion C as [|? ? C1 C2]; subst. cbn [fst snd] in C1. apply andb_true_iff. split; [|exact (I2 C2)].
      unfold slots_ok, flattening. replace (fd_flatten (field_of n b)) with (if b then Some true else None) by reflexivity. destruct b; cbn [flag].
      + destruct (H eq_refl) as (T & L). destruct (L pos Hp Fm) as (E & _ & R). rewrite T, R. cbn [negb andb].
        specialize (C1 eq_refl pos). apply forallb_forall. intros c Ic. apply negb_true_iff.
        assert (V : map c_value (children false (ftree v)) = map (fun m => ftree (m_value m)) (members pos v)).
        { apply (f_equal (map s_value)) in E. rewrite !map_map in E. cbn [slot_at s_value] in E. rewrite <- E. symmetry. apply placed_values. }
        assert (Ic' : In (c_value c) (map c_value (children false (ftree v)))) by (apply in_map; exact Ic). rewrite V in Ic'. apply in_map_iff in Ic' as (m & <- & Im).
        rewrite Forall_forall in C1. apply C1. exact Im.
      + rewrite Ad. exact Fm.
  Qed.
  Definition size_hint (fs : list (bytes * bool * fdatum)) : option N := if existsb (fun f => snd (fst f)) fs then None else Some (len fs).
  Lemma all_streamed fs : filter streamed (defs fs) = defs fs /\ streamed_fields (defs fs) (trees fs) = combine (defs fs) (trees fs).
  Proof.
    unfold streamed_fields. induction fs as [|[[n b] v] fs (I1 & I2)]; [split; reflexivity|].
    cbn [defs trees map combine filter fst]. change (streamed (field_of n b)) with true. cbv iota. fold (defs fs) (trees fs). rewrite I1, I2. split; reflexivity.
  Qed.
  Lemma fsize fs : size_of (defs fs) = size_hint fs.
  Proof.
    unfold size_of, size_hint, len. unfold defs at 2. rewrite map_length.
    replace (existsb flattening (defs fs)) with (existsb (fun f : bytes * bool * fdatum => snd (fst f)) fs); [reflexivity|].
    induction fs as [|[[n []] v] fs IH]; [reflexivity..|]. cbn [existsb defs map fst snd]. rewrite IH. reflexivity.
  Qed.
  Lemma fkind fs : fields_kind FRecTup plain_attrs (defs fs) = FRecTup.
  Proof. unfold fields_kind. rewrite (proj1 (all_streamed fs)). destruct fs as [|[[n b] v] fs]; reflexivity. Qed.
  Definition member_tree (m : member_at) : option tag * label * index * tree := (None, m_label m, place (m_pos m), ftree (m_value m)).
  Lemma fstruct_tree name fs : Forall (fun f => snd (fst f) = true -> lands (snd f)) fs -> fits I64 (after 0 (written 0 fs)) = true ->
    ftree (FStruct name fs) = TRecTup None (Some (name_label name)) None (size_hint fs) (map member_tree (written 0 fs)).
  Proof.
    intros H F. cbn [ftree fdef derived_tree body_tree]. fold (defs fs) (trees fs). unfold record_tree. rewrite fkind, (proj1 (all_streamed fs)), (proj2 (all_streamed fs)), fsize.
    cbn [fields_tree plain_attrs at_tag at_label at_index option_map type_label]. f_equal.
    unfold field_slots. rewrite (proj1 (contexts_fields fs H [] 0 eq_refl ltac:(lia) F)), map_map. reflexivity.
  Qed.

  (** Every stream gets the calls of [frust]. *)
  Lemma run_keep es : forall w, run keep w es = Ok (w ++ es).
  Proof.
    induction es as [|e es IH]; intros w; [rewrite app_nil_r; reflexivity|]. rewrite run_cons. unfold keep at 1. cbn [bind]. rewrite IH, <- app_assoc. reflexivity.
  Qed.
  Lemma fstruct_stream name fs m :
    derive (fdef name fs) = Some m ->
    Forall (fun f => snd (fst f) = true -> lands (snd f)) fs ->
    Forall (fun f => snd (fst f) = true -> forall pos, Forall clear_of_maps (members pos (snd f))) fs ->
    fits I64 (after 0 (written 0 fs)) = true ->
    Forall (fun f => streams (frust r64 (snd f)) (ftree (snd f))) fs ->
    forall W (out : W -> ev -> res W) w,
    derived_stream out r64 m 0 (map (fun f => match f with (_, _, v) => frust r64 v end) fs) w = run out w (emit (ftree (FStruct name fs))).
  Proof.
    intros D L C F S W out w. eapply (C38_derived_well_formed_partial W out r64 (fdef name fs) m 0 _ (trees fs)); [exact D| | | |].
    - unfold trees. clear - S. induction S as [|[[n b] v] fs H S IH]; constructor; assumption.
    - unfold trees, field_count. cbn [fdef fields_of field_list]. rewrite !map_length. reflexivity.
    - cbn [ftree]. fold (trees fs). cbn [fdef derived_tree]. reflexivity.
    - unfold flattens_well. cbn [fdef fields_of]. fold (defs fs). rewrite fkind, (proj2 (all_streamed fs)). unfold fields_ok.
      apply (proj2 (contexts_fields fs L [] 0 eq_refl ltac:(lia) F)). exact C.
  Qed.

  Lemma fit_shifted pos ms : forall next,
    fit pos next (map (fun m => match member_tree m with (t, l, i, v) => MkChild t (NLabel l) (Some i) v end) ms) (map (shift pos) ms).
  Proof.
    induction ms as [|[[k l'] v] ms IH]; intros next; cbn [map fit]; [exact I|].
    split; [|apply IH]. unfold member_tree, shift. cbn [c_tag c_name c_value c_index label_for].
    unfold m_pos, m_label, m_value. cbn [fst snd]. repeat split; try reflexivity. left. do 2 f_equal. lia.
  Qed.
  Record good (v : fdatum) : Prop := {
    g_holds : holds (frust r64 v) (ftree v);
    g_below : fenum v = false -> enum_below (ftree v) = false;
    g_lands : serde_flattens v = true -> fwrapped_enum v = false -> lands v;
    g_entry : fmapped false v = false -> has_entry (ftree v) = false;
    g_clear : fmapped true v = false -> forall pos, Forall clear_of_maps (members pos v) }.
  Lemma not_enum v : an_enum v = false -> wrapped_enum v = false.
  Proof.
    induction v using datum_ind'; cbn [an_enum wrapped_enum]; intros H0; auto; try reflexivity.
    destruct d as [n [|[|[|k]]|names]|n vs]; try reflexivity. destruct fs as [|v [|? ?]]; try reflexivity. exact H0.
  Qed.
  Lemma not_fenum v : fenum v = false -> fwrapped_enum v = false.
  Proof. destruct v; cbn [fenum fwrapped_enum]; auto using not_enum. Qed.
  Lemma all_fields (P : bytes -> Prop) (Q : fdatum -> Prop) fs :
    fold_right and True (map (fun f : bytes * bool * fdatum => match f with (n, _, v) => P n /\ Q v end) fs) -> Forall (fun f => P (fst (fst f)) /\ Q (snd f)) fs.
  Proof. induction fs as [|[[n b] v] fs IH]; cbn; intros H; constructor; tauto. Qed.
  Theorem all_good v : ftyped v -> flattened_all flattens_fine v = true -> good v.
  Proof.
    induction v using fdatum_ind'; intros T A; cbn [ftyped flattened_all] in T, A.
    - constructor; cbn [fenum serde_flattens fwrapped_enum fmapped members frust ftree].
      + apply rust_holds. exact T.
      + apply not_below. exact T.
      + apply plain_lands. exact T.
      + apply no_entry.
      + apply plain_clear.
    - destruct (IHv T A) as [Gh Gb Gl Ge Gc]. constructor; cbn [fenum serde_flattens fwrapped_enum fmapped members].
      + destruct Gh as (S & Wh). cbn [frust ftree]. split.
        * apply does_ce. apply does_cv; [exact S|reflexivity].
        * constructor; [constructor|]. constructor; [econstructor; eassumption|]. repeat constructor.
      + exact Gb.
      + intros F N. destruct (Gl F (not_fenum v N)) as (_ & L). split; [cbn; apply Gb; exact N|exact L].
      + exact Ge.
      + exact Gc.
    - destruct T as (_ & Sz & F & T). apply all_fields in T.
      assert (G : Forall (fun f => good (snd f) /\ (snd (fst f) = true -> flattens_fine (snd f) = true)) fs).
      { clear Sz F. induction fs as [|[[n b] v] fs IH]; [constructor|]. inversion H; inversion T; subst. cbn [forallb fst snd] in *.
        apply andb_true_iff in A as (A1 & A2). apply andb_true_iff in A1 as (A1 & A3). constructor; [|apply IH; assumption]. cbn [fst snd].
        split; [tauto|]. intros ->. exact A1. }
      assert (L : Forall (fun f => snd (fst f) = true -> lands (snd f)) fs).
      { eapply Forall_impl; [|exact G]. intros f (Gf & Fi) B. specialize (Fi B). unfold flattens_fine in Fi. apply andb_true_iff in Fi as (Fi & _). apply andb_true_iff in Fi as (F1 & F2).
        apply (g_lands _ Gf F1). apply negb_true_iff. exact F2. }
      assert (C : Forall (fun f => snd (fst f) = true -> forall pos, Forall clear_of_maps (members pos (snd f))) fs).
      { eapply Forall_impl; [|exact G]. intros f (Gf & Fi) B. specialize (Fi B). unfold flattens_fine in Fi. apply andb_true_iff in Fi as (_ & Fi).
        apply (g_clear _ Gf). apply negb_true_iff. exact Fi. }
      pose proof (fstruct_tree name fs L F) as ET.
      assert (Cl : fmapped false (FStruct name fs) = false -> forall pos, Forall clear_of_maps (members pos (FStruct name fs))).
      { cbn [fmapped members]. clear - G. induction G as [|[[n b] v] fs (Gf & _) _ IH]; cbn [existsb written_with fst snd] in *; intros M pos; [constructor|].
        apply orb_false_iff in M as (M1 & M2). apply Forall_app. split; [|apply IH; exact M2]. destruct b; [apply (g_clear _ Gf M1)|].
        constructor; [|constructor]. unfold clear_of_maps, m_value. cbn [snd]. apply (g_entry _ Gf M1). }
      constructor.
      + destruct (fderive name fs Sz) as (m & D).
        assert (E : frust r64 (FStruct name fs) = map CE (emit (ftree (FStruct name fs)))).
        { cbn [frust]. rewrite D. rewrite (fstruct_stream name fs m D L C F).
          - rewrite run_keep. reflexivity.
          - eapply Forall_impl; [|exact G]. intros f (Gf & _). apply (g_holds _ Gf). }
        split.
        * rewrite E. apply streams_calls_of.
        * rewrite E. unfold whole. apply Forall_forall. intros c Ic. apply in_map_iff in Ic as (e & <- & _). constructor.
      + intros _. rewrite ET. reflexivity.
      + intros _ _. split; [rewrite ET; reflexivity|]. intros pos Hp Fp. apply fit_lands; try assumption; [lia|apply members_climbs|].
        rewrite ET. cbn [children]. rewrite map_map. cbn [members].
        assert (E : written pos fs = map (shift pos) (written 0 fs)).
        { rewrite <- (Z.add_0_l pos) at 1. apply written_shift. apply Forall_forall. intros f _. apply members_shift. }
        change (written_with members pos fs) with (written pos fs). rewrite E.
        apply fit_shifted.
      + intros M. rewrite ET. cbn [has_entry]. rewrite existsb_false, Forall_map. specialize (Cl M 0). exact Cl.
      + exact Cl.
  Qed.
End Tree.
