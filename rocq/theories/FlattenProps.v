(** * FlattenProps: flattening (C32, C33, C34) *)

From Verif Require Import Base Event Tree LowerModel FlattenModel FlattenSpec FlattenProofs.

(** What the caller gets when the wrapped stream has been handed [es]. *)
Definition outcome {W} (r : res W) (offset : Z) : fres W :=
  match r with
  | Ok w => FOk w offset
  | Err w => FErr w
  | Panic => FPanic
  end.

Lemma flatten_streams {W} (out : W -> ev -> res W) r64 kind w v t offset : streams v t ->
  flatten_to out r64 kind w v offset =
  match run (f_step out r64 kind) (f_begin offset w) (emit t) with
  | Ok g => FOk (f_w g) (f_current g)
  | Err g => FErr (f_w g)
  | Panic => FPanic
  end.
Proof.
  intros H. unfold flatten_to, stream_value. unfold streams in H. rewrite H.
  destruct (run _ _ (emit t)); reflexivity.
Qed.

(** The label a key gets. *)
Definition label_kept (r64 : float -> bytes) (k : tree) : bytes := kept [] false (key_parts r64 k).

(** Exactly what flattening does, for every value except a tagged value around
    an enum, and as long as no index overflows: every child in order, with its
    documented name and position and, between the field's begin and end, its own
    calls with each nested map's key ends turned into key begins. *)
Theorem C32_flatten_exact : forall W (out : W -> ev -> res W) r64 kind w v t offset,
  streams v t -> tagged_enum t = false -> room offset offset (children false t) = true ->
  flatten_to out r64 kind w v offset =
  outcome (run out w (flattened (label_kept r64) kind (fun v => map key_end_as_begin (emit v)) offset t))
          (end_offset offset offset (children false t)).
Proof.
  intros W out r64 kind w v t offset H T R.
  rewrite (flatten_streams _ _ _ _ _ _ _ H).
  pose proof (root_does W out r64 kind offset t false offset (f_begin offset w)) as D. cbn [orb] in D.
  rewrite T in D. specialize (D eq_refl R). unfold flattened, label_kept.
  assert (RD : ready W offset 0 false offset (f_begin offset w)) by (repeat split).
  specialize (D RD). change (f_w (f_begin offset w)) with w in D.
  destruct (run out w _) as [w'|w'|]; cbn in D |- *.
  - destruct D as (g & -> & <- & (_ & _ & _ & _ & _ & -> & _)). reflexivity.
  - destruct D as (g & -> & <-). reflexivity.
  - rewrite D. reflexivity.
Qed.

(** The full statement: the children's calls arrive unchanged, whatever is
    flattened. *)
Definition C32_flatten_hoists : Prop :=
  forall W (out : W -> ev -> res W) r64 kind w v t offset,
  streams v t -> room offset offset (children false t) = true ->
  flatten_to out r64 kind w v offset =
  outcome (run out w (flattened (label_kept r64) kind emit offset t))
          (end_offset offset offset (children false t)).

Definition str (s : bytes) : tree := TText (Some (blen s)) [(true, s)].
Definition log (w : list ev) (e : ev) : res (list ev) := Ok (w ++ [e]).
Definition calls_of (t : tree) : list call := map CE (emit t).
Lemma streams_calls_of t : streams (calls_of t) t.
Proof. apply FlatProofs.flat_CE_false. Qed.

(** A record with a map inside: [{"a": {"k": 1}}]. *)
Definition map_in_record : tree :=
  TRecord None None None (Some 1%N)
    [(None, label_new (bs "a"), TMap (Some 1%N) [(str (bs "k"), TInt I64 1)])].

Theorem C32_flatten_hoists_refuted : ~ C32_flatten_hoists.
Proof.
  intros H.
  specialize (H _ log (fun _ => []) FRecord [] (calls_of map_in_record) map_in_record 0%Z
                (streams_calls_of _) eq_refl).
  vm_compute in H. discriminate H.
Qed.

Lemma no_entry_unchanged v : has_entry v = false -> map key_end_as_begin (emit v) = emit v.
Proof.
  induction v using tree_ind'; intros N; try reflexivity; cbn [emit has_entry] in *.
  - cbn. rewrite map_app, map_map. cbn. do 2 f_equal. apply map_ext. intros [[|] s]; reflexivity.
  - cbn. rewrite map_app, map_map. cbn. do 2 f_equal. apply map_ext. intros [[|] s]; reflexivity.
  - cbn. rewrite IHv by exact N. reflexivity.
  - cbn. rewrite map_app, IHv by exact N. reflexivity.
  - cbn. rewrite map_app, IHv by exact N. reflexivity.
  - cbn. rewrite map_app. cbn. do 2 f_equal.
    induction H as [|v vs Hv _ IH]; [reflexivity|]. cbn in N |- *. apply orb_false_iff in N as [N1 N2].
    rewrite !map_app. cbn. rewrite (Hv N1), (IH N2). reflexivity.
  - destruct es; [reflexivity|discriminate N].
  - cbn. rewrite map_app. cbn. do 2 f_equal.
    induction H as [|[[a b] v] vs Hv _ IH]; [reflexivity|]. cbn in N |- *. apply orb_false_iff in N as [N1 N2].
    cbn in Hv. rewrite !map_app. cbn. rewrite (Hv N1), (IH N2). reflexivity.
  - cbn. rewrite map_app. cbn. do 2 f_equal.
    induction H as [|[[a b] v] vs Hv _ IH]; [reflexivity|]. cbn in N |- *. apply orb_false_iff in N as [N1 N2].
    cbn in Hv. rewrite !map_app. cbn. rewrite (Hv N1), (IH N2). reflexivity.
  - cbn. rewrite map_app. cbn. do 2 f_equal.
    induction H as [|[[[a b] c] v] vs Hv _ IH]; [reflexivity|]. cbn in N |- *. apply orb_false_iff in N as [N1 N2].
    cbn in Hv. rewrite !map_app. cbn. rewrite (Hv N1), (IH N2). reflexivity.
Qed.

(** Proved part: no child holds a non-empty map, and no tagged value stands
    around an enum. *)
Theorem C32_flatten_hoists_partial : forall W (out : W -> ev -> res W) r64 kind w v t offset,
  streams v t -> room offset offset (children false t) = true ->
  tagged_enum t = false ->
  (forall c, In c (children false t) -> has_entry (c_value c) = false) ->
  flatten_to out r64 kind w v offset =
  outcome (run out w (flattened (label_kept r64) kind emit offset t))
          (end_offset offset offset (children false t)).
Proof.
  intros W out r64 kind w v t offset H R T N.
  rewrite (C32_flatten_exact _ _ _ _ _ _ _ _ H T R). do 2 f_equal.
  unfold flattened.
  assert (G : forall cs next, (forall c, In c cs -> has_entry (c_value c) = false) ->
    flat_map (field (label_kept r64) kind (fun v => map key_end_as_begin (emit v))) (placed offset next cs) =
    flat_map (field (label_kept r64) kind emit) (placed offset next cs)).
  { induction cs as [|c cs IH]; intros next HN; [reflexivity|]. cbn [placed flat_map].
    rewrite IH by (intros; apply HN; right; assumption). f_equal.
    unfold field. rewrite no_entry_unchanged by (apply HN; left; reflexivity). reflexivity. }
  apply G. exact N.
Qed.

(** A record flattened onto a map, a tuple onto a record, an enum variant onto
    a record: [streams], [room] and the conditions on children hold. *)
Definition pair_record : tree :=
  TRecord None None None (Some 2%N)
    [(None, label_new (bs "a"), TInt I32 1); (None, label_new (bs "b"), TSeq None [TBool true])].
Example C32_partial_applies :
  flatten_to log (fun _ => []) FMap [] (calls_of pair_record) 3 =
  FOk ([EMapKeyBegin] ++ emit (str (bs "a")) ++ [EMapKeyEnd; EMapValBegin; EInt I32 1; EMapValEnd] ++
       [EMapKeyBegin] ++ emit (str (bs "b")) ++ [EMapKeyEnd; EMapValBegin] ++ emit (TSeq None [TBool true]) ++ [EMapValEnd]) 5%Z.
Proof.
  rewrite (C32_flatten_hoists_partial _ _ _ _ _ _ pair_record); [reflexivity|apply streams_calls_of|reflexivity|reflexivity|].
  intros c [<-|[<-|[]]]; reflexivity.
Qed.
Definition variant : tree :=
  TEnum None (Some (label_new (bs "E"))) None (TTagged None (Some (label_new (bs "A"))) (Some (index_new 0)) (TInt I32 1)).
Example C32_variant :
  flatten_to log (fun _ => []) FRecord [] (calls_of variant) 3 =
  FOk [ERecordValBegin None (label_new (bs "A")); EInt I32 1; ERecordValEnd None (label_new (bs "A"))] 1%Z.
Proof.
  rewrite (C32_flatten_hoists_partial _ _ _ _ _ _ variant); [reflexivity|apply streams_calls_of|reflexivity|reflexivity|].
  intros c [<-|[]]; reflexivity.
Qed.

(** Values that are not containers add nothing. *)
Theorem C32_plain_values_ignored : forall W (out : W -> ev -> res W) r64 kind w v t offset,
  streams v t ->
  match t with
  | TNull | TBool _ | TInt _ _ | TF32 _ | TF64 _ | TText _ _ | TBin _ _ | TTag _ _ _ => True
  | _ => False
  end ->
  flatten_to out r64 kind w v offset = FOk w offset.
Proof.
  intros W out r64 kind w v t offset H P.
  rewrite (C32_flatten_exact _ _ _ _ _ _ t _ H); destruct t; try contradiction; reflexivity.
Qed.
Example C32_plain : flatten_to log (fun _ => []) FTuple [] (calls_of (str (bs "x"))) 3 = FOk [] 3%Z.
Proof. apply (C32_plain_values_ignored _ _ _ _ _ _ (str (bs "x"))); [apply streams_calls_of|exact I]. Qed.

(** Flattening never panics: the full statement, refuted. *)
Definition C32_flatten_no_panic : Prop :=
  forall W (out : W -> ev -> res W) r64 kind w v t offset,
  streams v t -> room offset offset (children false t) = true ->
  (forall w e, out w e <> Panic) ->
  flatten_to out r64 kind w v offset <> FPanic.

(** Every tagged value around an enum panics (a build with overflow checks), on
    a stream that never fails. *)
Theorem C32_tagged_enum_panics : forall W (out : W -> ev -> res W) r64 kind w v t offset,
  streams v t -> room offset offset (children false t) = true ->
  (forall w e, exists w', out w e = Ok w') ->
  tagged_enum t = true ->
  flatten_to out r64 kind w v offset = FPanic.
Proof.
  intros W out r64 kind w v t offset H R Inf T.
  rewrite (flatten_streams _ _ _ _ _ _ _ H).
  rewrite (tagged_enum_panics W out r64 kind offset t Inf offset); try assumption; [reflexivity|repeat split].
Qed.

(** [Some(E::A)] as an optional enum streams it: tagged [RUST_OPTION_SOME]. *)
Definition some_enum : tree := TTagged (Some RUST_OPTION_SOME) (Some (label_new (bs "Some"))) (Some (index_new 1)) variant.
Example C32_some_enum_panics : flatten_to log (fun _ => []) FRecord [] (calls_of some_enum) 0 = FPanic.
Proof.
  apply (C32_tagged_enum_panics _ _ _ _ _ _ some_enum); try reflexivity.
  intros w e. eexists; reflexivity.
Qed.
Theorem C32_flatten_no_panic_refuted : ~ C32_flatten_no_panic.
Proof.
  intros H. apply (H _ log (fun _ => []) FRecord [] (calls_of some_enum) some_enum 0%Z);
    [apply streams_calls_of|reflexivity|discriminate|apply C32_some_enum_panics].
Qed.
Theorem C32_flatten_no_panic_partial : forall W (out : W -> ev -> res W) r64 kind w v t offset,
  streams v t -> room offset offset (children false t) = true ->
  (forall w e, out w e <> Panic) ->
  tagged_enum t = false ->
  flatten_to out r64 kind w v offset <> FPanic.
Proof.
  intros W out r64 kind w v t offset H R NP T.
  rewrite (C32_flatten_exact _ _ _ _ _ _ _ _ H T R).
  assert (G : forall es w, run out w es <> Panic).
  { induction es as [|e es IH]; intros w0; [discriminate|]. rewrite run_cons.
    pose proof (NP w0 e). destruct (out w0 e); cbn [bind]; [apply IH|discriminate|congruence]. }
  specialize (G (flattened (label_kept r64) kind (fun v => map key_end_as_begin (emit v)) offset t) w).
  destruct (run out w _); cbn; congruence.
Qed.

(** ** C33: positions *)

(** Children numbered from [k] on. *)
Fixpoint numbered (k : Z) (cs : list child) : list (child * index) :=
  match cs with
  | [] => []
  | c :: cs' => (c, MkIndex k (Some VALUE_OFFSET)) :: numbered (k + 1) cs'
  end.
(** No child has an explicit index other than its own position (the form the
    derive macro writes for fields without an index attribute). *)
Fixpoint implicit (pos : Z) (cs : list child) : bool :=
  match cs with
  | [] => true
  | c :: cs' =>
      match c_index c with
      | None => true
      | Some i => otag_is (i_tag i) VALUE_OFFSET && (i_val i =? pos)%Z
      end && implicit (pos + 1) cs'
  end.

Lemma fits_between a b c : fits I64 a = true -> fits I64 c = true -> (a <= b <= c)%Z -> fits I64 b = true.
Proof. unfold fits. cbn [ity_min ity_max]. rewrite !andb_true_iff, !Z.leb_le. lia. Qed.

Lemma placed_numbered offset cs : forall pos,
  fits I64 offset = true -> (0 <= pos)%Z -> fits I64 (pos + Z.of_nat (length cs)) = true ->
  fits I64 (offset + pos + Z.of_nat (length cs)) = true -> implicit pos cs = true ->
  placed offset (offset + pos) cs = numbered (offset + pos) cs /\
  end_offset offset (offset + pos) cs = (offset + pos + Z.of_nat (length cs))%Z /\
  room offset (offset + pos) cs = true.
Proof.
  induction cs as [|c cs IH]; intros pos F0 P FP FE IM.
  - cbn in *. repeat split; lia.
  - cbn [placed numbered end_offset room implicit length] in *. rewrite Nat2Z.inj_succ in *.
    apply andb_prop in IM as [IM1 IM2].
    assert (EP : place offset (offset + pos) (c_index c) = MkIndex (offset + pos) (Some VALUE_OFFSET)).
    { destruct (c_index c) as [[z ta]|]; [|reflexivity]. cbn [i_tag i_val] in *. apply andb_prop in IM1 as [IT IV].
      apply Z.eqb_eq in IV. subst z. unfold place. cbn [i_tag i_val]. rewrite IT.
      rewrite (fits_between 0 pos (pos + Z.succ (Z.of_nat (length cs)))) by (try assumption; try reflexivity; lia).
      cbn [andb]. f_equal. lia. }
    rewrite EP. unfold next_free. cbn [i_val].
    rewrite (fits_between offset (offset + pos) (offset + pos + Z.succ (Z.of_nat (length cs)))) by (try assumption; lia).
    replace (offset + pos + 1)%Z with (offset + (pos + 1))%Z by lia.
    replace (offset + pos + Z.succ (Z.of_nat (length cs)))%Z with (offset + (pos + 1) + Z.of_nat (length cs))%Z in FE by lia.
    replace (pos + Z.succ (Z.of_nat (length cs)))%Z with (pos + 1 + Z.of_nat (length cs))%Z in FP by lia.
    assert (FP' := FP).
    destruct (IH (pos + 1)%Z F0 ltac:(lia) FP FE IM2) as (-> & -> & ->).
    split; [reflexivity|]. split; [lia|].
    rewrite (fits_between offset (offset + (pos + 1)) (offset + (pos + 1) + Z.of_nat (length cs))) by (try assumption; lia).
    destruct (c_index c) as [[z ta]|]; [|reflexivity]. cbn [i_tag i_val] in *. apply andb_prop in IM1 as [IT IV].
    apply Z.eqb_eq in IV. subst z. rewrite IT.
    rewrite (fits_between 0 pos (pos + 1 + Z.of_nat (length cs))) by (try assumption; try reflexivity; lia).
    cbn [andb].
    rewrite (fits_between offset (pos + offset) (offset + (pos + 1) + Z.of_nat (length cs))) by (try assumption; lia).
    reflexivity.
Qed.

(** Flattening from [offset] numbers the children [offset], [offset + 1], ...
    and returns [offset] plus their number. *)
Theorem C33_offsets_without_gaps : forall W (out : W -> ev -> res W) r64 kind w v t offset,
  let cs := children false t in
  let n := Z.of_nat (length cs) in
  streams v t -> tagged_enum t = false ->
  implicit 0 cs = true ->
  fits I64 offset = true -> fits I64 n = true -> fits I64 (offset + n) = true ->
  flatten_to out r64 kind w v offset =
  outcome (run out w (flat_map (field (label_kept r64) kind (fun v => map key_end_as_begin (emit v)))
                               (numbered offset cs)))
          (offset + n).
Proof.
  intros W out r64 kind w v t offset cs n H T IM F0 FN FE.
  destruct (placed_numbered offset cs 0 F0) as (P1 & P2 & P3); try assumption; try lia.
  { replace (offset + 0 + Z.of_nat (length cs))%Z with (offset + n)%Z by (unfold n; lia). exact FE. }
  rewrite Z.add_0_r in P1, P2, P3. fold n in P2.
  rewrite (C32_flatten_exact _ _ _ _ _ _ t _ H T P3). unfold flattened. fold cs. rewrite P1, P2. reflexivity.
Qed.

(** The same for every value, whenever flattening it succeeds. *)
Theorem C33_completed_flattening : forall W (out : W -> ev -> res W) r64 kind w v t offset w' offset',
  let cs := children false t in
  let n := Z.of_nat (length cs) in
  streams v t -> implicit 0 cs = true ->
  fits I64 offset = true -> fits I64 n = true -> fits I64 (offset + n) = true ->
  flatten_to out r64 kind w v offset = FOk w' offset' ->
  offset' = (offset + n)%Z /\
  run out w (flat_map (field (label_kept r64) kind (fun v => map key_end_as_begin (emit v)))
                      (numbered offset cs)) = Ok w'.
Proof.
  intros W out r64 kind w v t offset w' offset' cs n H IM F0 FN FE EQ.
  destruct (tagged_enum t) eqn:T.
  - exfalso. rewrite (flatten_streams _ _ _ _ _ _ _ H) in EQ.
    destruct (placed_numbered offset cs 0 F0) as (_ & _ & P3); try assumption; try lia.
    { replace (offset + 0 + Z.of_nat (length cs))%Z with (offset + n)%Z by (unfold n; lia). exact FE. }
    rewrite Z.add_0_r in P3.
    pose proof (tagged_enum_never_ok W out r64 kind offset t offset (f_begin offset w) T P3) as N.
    destruct (run _ _ (emit t)) as [g| |]; try discriminate EQ.
    apply (N (conj eq_refl (conj eq_refl (conj eq_refl (conj eq_refl (conj eq_refl (conj eq_refl eq_refl)))))) g eq_refl).
  - rewrite (C33_offsets_without_gaps _ _ _ _ _ _ t _ H T IM F0 FN FE) in EQ.
    fold cs n in EQ. destruct (run out w _); inversion EQ; subst. split; reflexivity.
Qed.

Example C33_applies :
  flatten_to log (fun _ => []) FTuple [] (calls_of (TSeq None [TBool true; TNull])) 5 =
  FOk [ETupleValBegin None (MkIndex 5 (Some VALUE_OFFSET)); EBool true; ETupleValEnd None (MkIndex 5 (Some VALUE_OFFSET));
       ETupleValBegin None (MkIndex 6 (Some VALUE_OFFSET)); ENull; ETupleValEnd None (MkIndex 6 (Some VALUE_OFFSET))] 7%Z.
Proof.
  rewrite (C33_offsets_without_gaps _ _ _ _ _ _ (TSeq None [TBool true; TNull])); reflexivity.
Qed.

Lemma numbered_app k a b : numbered k (a ++ b) = numbered k a ++ numbered (k + Z.of_nat (length a)) b.
Proof.
  revert k; induction a as [|c a IH]; intros k; cbn [app numbered length].
  - f_equal. cbn. lia.
  - rewrite IH. rewrite Nat2Z.inj_succ. cbn [app]. do 3 f_equal. lia.
Qed.

(** Flattening any number of values one after the other, each from the offset
    the previous one returned, numbers all their children consecutively. *)
Fixpoint flatten_all {W} (out : W -> ev -> res W) r64 kind (w : W) (vs : list (list call)) (offset : Z) : fres W :=
  match vs with
  | [] => FOk w offset
  | v :: vs' =>
      match flatten_to out r64 kind w v offset with
      | FOk w' offset' => flatten_all out r64 kind w' vs' offset'
      | r => r
      end
  end.

Theorem C33_consecutive_fields_never_collide : forall W (out : W -> ev -> res W) r64 kind vts w offset,
  let all := flat_map (fun vt => children false (snd vt)) vts in
  Forall (fun vt => streams (fst vt) (snd vt) /\ tagged_enum (snd vt) = false /\
                    implicit 0 (children false (snd vt)) = true) vts ->
  fits I64 offset = true -> fits I64 (Z.of_nat (length all)) = true ->
  fits I64 (offset + Z.of_nat (length all)) = true ->
  flatten_all out r64 kind w (map fst vts) offset =
  outcome (run out w (flat_map (field (label_kept r64) kind (fun v => map key_end_as_begin (emit v)))
                               (numbered offset all)))
          (offset + Z.of_nat (length all)).
Proof.
  intros W out r64 kind. induction vts as [|[v t] vts IH]; intros w offset all HF F0 FN FE.
  - cbn. rewrite Z.add_0_r. reflexivity.
  - inversion HF as [|? ? (HS & HT & HI) HF']; subst. cbn [fst snd] in *.
    unfold all in *. clear all. cbn [flat_map map flatten_all fst snd] in *. rewrite app_length, Nat2Z.inj_add in *.
    set (cs := children false t) in *. set (rest := flat_map (fun vt => children false (snd vt)) vts) in *.
    rewrite (C33_offsets_without_gaps _ _ _ _ _ _ t); fold cs; try assumption.
    2: { eapply (fits_between 0); [reflexivity|exact FN|lia]. }
    2: { eapply (fits_between offset); [exact F0|exact FE|lia]. }
    rewrite numbered_app, flat_map_app, run_app.
    destruct (run out w (flat_map _ (numbered offset cs))) as [w'|w'|]; cbn [outcome bind]; try reflexivity.
    rewrite IH; try assumption.
    + rewrite Z.add_assoc. reflexivity.
    + eapply (fits_between offset); [exact F0|exact FE|lia].
    + eapply (fits_between 0); [reflexivity|exact FN|lia].
    + rewrite <- Z.add_assoc. exact FE.
Qed.

Example C33_two_records :
  flatten_all log (fun _ => []) FRecTup [] [calls_of pair_record; calls_of pair_record] 0 =
  outcome (run log [] (flat_map (field (label_kept (fun _ => [])) FRecTup (fun v => map key_end_as_begin (emit v)))
             (numbered 0 (children false pair_record ++ children false pair_record)))) 4.
Proof.
  apply (C33_consecutive_fields_never_collide _ log (fun _ => []) FRecTup
           [(calls_of pair_record, pair_record); (calls_of pair_record, pair_record)]); try reflexivity.
  repeat constructor; apply streams_calls_of.
Qed.

(** ** C34: keys as labels *)

(** Flattening the map [{k: v}] onto a record gives one field. *)
Definition C34_key_texts : Prop :=
  forall W (out : W -> ev -> res W) r64 w v k x n offset,
  streams v (TMap n [(k, x)]) ->
  fits I64 offset = true -> fits I64 (offset + 1) = true ->
  has_entry x = false ->
  let l := label_new_computed (key_text r64 k) in
  flatten_to out r64 FRecord w v offset =
  outcome (run out w (ERecordValBegin None l :: emit x ++ [ERecordValEnd None l])) (offset + 1).

(** A key [("a", 1)] is not given the label [a1]. *)
Definition mixed_key : tree := TSeq None [str (bs "a"); TInt I64 1].
Theorem C34_key_texts_refuted : ~ C34_key_texts.
Proof.
  intros H.
  specialize (H _ log (fun _ => []) [] (calls_of (TMap None [(mixed_key, TNull)])) mixed_key TNull None 0%Z
                (streams_calls_of _) eq_refl eq_refl eq_refl).
  vm_compute in H. discriminate H.
Qed.

(** What labels keep: everything for keys made of text only, or of one part. *)
Definition numeric (p : part) : bool := match p with PNum _ => true | PText _ => false end.
Definition simple_key (r64 : float -> bytes) (k : tree) : bool :=
  forallb (fun p => negb (numeric p)) (key_parts r64 k) || (length (key_parts r64 k) <=? 1)%nat.

Lemma kept_text ps : forall s, forallb (fun p => negb (numeric p)) ps = true ->
  kept s false ps = s ++ concat (map part_text ps).
Proof.
  induction ps as [|[t|t] ps IH]; intros s H; cbn in *; try discriminate H.
  - rewrite app_nil_r. reflexivity.
  - rewrite IH by exact H. rewrite app_assoc. reflexivity.
Qed.
Lemma simple_kept r64 k : simple_key r64 k = true -> label_kept r64 k = key_text r64 k.
Proof.
  unfold simple_key, label_kept, key_text. intros H. apply orb_prop in H as [H|H].
  - rewrite kept_text by exact H. reflexivity.
  - apply Nat.leb_le in H. destruct (key_parts r64 k) as [|[t|t] [|p ps]]; cbn in *; try lia; try reflexivity;
      rewrite app_nil_r; reflexivity.
Qed.

(** In general the label is what follows the last number, or the last number. *)
Theorem C34_label_exact : forall W (out : W -> ev -> res W) r64 w v es n offset,
  streams v (TMap n es) ->
  fits I64 offset = true -> fits I64 (Z.of_nat (length es)) = true ->
  fits I64 (offset + Z.of_nat (length es)) = true ->
  flatten_to out r64 FRecord w v offset =
  outcome (run out w (flat_map (fun kv =>
     let l := label_new_computed (label_kept r64 (fst kv)) in
     ERecordValBegin None l :: map key_end_as_begin (emit (snd kv)) ++ [ERecordValEnd None l]) es))
   (offset + Z.of_nat (length es)).
Proof.
  intros W out r64 w v es n offset H F0 FN FE.
  rewrite (C33_offsets_without_gaps _ _ _ _ _ _ _ _ H); cbn [children tagged_enum]; rewrite ?map_length;
    try assumption; try reflexivity.
  - do 2 f_equal. clear. revert offset. induction es as [|[k x] es IH]; intros offset; [reflexivity|].
    cbn [map numbered flat_map]. rewrite IH. reflexivity.
  - clear. generalize 0%Z. induction es as [|[k x] es IH]; intros z; [reflexivity|]. cbn. apply IH.
Qed.

Theorem C34_key_texts_partial : forall W (out : W -> ev -> res W) r64 w v es n offset,
  streams v (TMap n es) ->
  fits I64 offset = true -> fits I64 (Z.of_nat (length es)) = true ->
  fits I64 (offset + Z.of_nat (length es)) = true ->
  forallb (fun kv => simple_key r64 (fst kv) && negb (has_entry (snd kv))) es = true ->
  flatten_to out r64 FRecord w v offset =
  outcome (run out w (flat_map (fun kv =>
     let l := label_new_computed (key_text r64 (fst kv)) in
     ERecordValBegin None l :: emit (snd kv) ++ [ERecordValEnd None l]) es))
   (offset + Z.of_nat (length es)).
Proof.
  intros W out r64 w v es n offset H F0 FN FE S.
  rewrite (C34_label_exact _ _ _ _ _ _ _ _ H F0 FN FE). do 2 f_equal. clear - S.
  induction es as [|[k x] es IH]; [reflexivity|]. cbn [forallb flat_map fst snd] in *.
  apply andb_prop in S as [S1 S2]. apply andb_prop in S1 as [S0 S1]. apply negb_true_iff in S1.
  rewrite (IH S2), (simple_kept _ _ S0), (no_entry_unchanged _ S1). reflexivity.
Qed.

Definition text_key : tree := TSeq None [str (bs "a"); TBool true; TNull].
Example C34_applies :
  flatten_to log (fun _ => []) FRecord [] (calls_of (TMap None [(text_key, TNull); (TInt U8 12, TNull)])) 0 =
  FOk [ERecordValBegin None (label_new_computed (bs "atruenull")); ENull;
       ERecordValEnd None (label_new_computed (bs "atruenull"));
       ERecordValBegin None (label_new_computed (bs "12")); ENull;
       ERecordValEnd None (label_new_computed (bs "12"))] 2%Z.
Proof.
  rewrite (C34_key_texts_partial _ _ _ _ _ [(text_key, TNull); (TInt U8 12, TNull)] None); reflexivity.
Qed.

Print Assumptions C32_flatten_exact.
Print Assumptions C32_flatten_hoists_refuted.
Print Assumptions C32_flatten_hoists_partial.
Print Assumptions C32_plain_values_ignored.
Print Assumptions C32_tagged_enum_panics.
Print Assumptions C32_flatten_no_panic_refuted.
Print Assumptions C32_flatten_no_panic_partial.
Print Assumptions C33_offsets_without_gaps.
Print Assumptions C33_completed_flattening.
Print Assumptions C33_consecutive_fields_never_collide.
Print Assumptions C34_key_texts_refuted.
Print Assumptions C34_label_exact.
Print Assumptions C34_key_texts_partial.
