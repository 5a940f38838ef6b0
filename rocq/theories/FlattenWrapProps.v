(** * FlattenWrapProps: flattening in builds without overflow checks (C84) *)

From Verif Require Import Base Event Tree FlatProofs LowerModel FlattenModel FlattenSpec FlattenProofs FlattenProps FlattenWrapModel FlattenWrapSpec FlattenWrapProofs FlattenWrapExactProofs
  JsonModel JsonGrammar JsonParse BufferHistProofs.

(** ** The full statement: overflow checks or not, a value is flattened the same.
    [top] is [usize::MAX]. *)
Definition C84_same_in_release : Prop :=
  forall W (out : W -> ev -> res W) r64 kind top w v t offset, (2 <= top)%nat ->
  streams v t -> flatten_to_w top out r64 kind w v offset = flatten_to out r64 kind w v offset.

Lemma flatten_w_streams {W} top (out : W -> ev -> res W) r64 kind w v t offset : streams v t ->
  flatten_to_w top out r64 kind w v offset =
  match run (f_step_w W out r64 kind top) (f_begin offset w) (emit t) with
  | Ok g => FOk (f_w g) (f_current g)
  | Err g => FErr (f_w g)
  | Panic => FPanic
  end.
Proof.
  intros H. unfold flatten_to_w, stream_value. unfold streams in H. rewrite H.
  destruct (run _ _ (emit t)); reflexivity.
Qed.

(** ** What holds: without a panic there is no difference *)
Theorem C84_same_in_release_partial : forall W (out : W -> ev -> res W) r64 kind top w v t offset,
  streams v t -> flatten_to out r64 kind w v offset <> FPanic ->
  flatten_to_w top out r64 kind w v offset = flatten_to out r64 kind w v offset.
Proof.
  intros W out r64 kind top w v t offset H. rewrite (flatten_w_streams _ _ _ _ _ _ _ _ H), (flatten_streams _ _ _ _ _ _ _ H). intros N.
  rewrite run_same; [reflexivity|]. intros Q. apply N. rewrite Q. reflexivity.
Qed.
Example C84_partial_applies : flatten_to_w 2 log (fun _ => []) FRecord [] (calls_of variant) 3 = flatten_to log (fun _ => []) FRecord [] (calls_of variant) 3.
Proof. apply (C84_same_in_release_partial _ _ _ _ _ _ _ variant); [apply streams_calls_of|rewrite C32_variant; discriminate]. Qed.

(** ** What happens otherwise

    As long as the tagged values around an enum are fewer than [usize::MAX]: the
    same fields arrive as without the tagged values, at positions that wrap around
    where they leave the range of [isize], and after them the end of each of those
    tagged values.  Nothing panics. *)
Theorem C84_wraps_exactly : forall W (out : W -> ev -> res W) r64 kind top w v t offset,
  streams v t -> (forall w e, out w e <> Panic) -> (length (stray_ends t) < top)%nat ->
  flatten_to_w top out r64 kind w v offset =
  outcome (run out w (flat_map (field (label_kept r64) kind (fun v => map key_end_as_begin (emit v)))
                               (placed_around offset offset (children false t)) ++ stray_ends t))
          (end_around offset offset (children false t)).
Proof.
  intros W out r64 kind top w v t offset H N L. rewrite (flatten_w_streams _ _ _ _ _ _ _ _ H).
  pose proof (strays_around W out r64 kind top offset N t offset (f_begin offset w) L ltac:(repeat split)) as D.
  change (f_w (f_begin offset w)) with w in D. unfold label_kept.
  destruct (run out w _) as [w'|w'|]; cbn in D |- *.
  - destruct D as (g & -> & <- & (_ & _ & _ & _ & _ & -> & _)). reflexivity.
  - destruct D as (g & -> & <-). reflexivity.
  - rewrite D. reflexivity.
Qed.
(** Wrapping around: the one number in the range of [isize] at a multiple of
    [2 ^ 64] from there. *)
Theorem C84_around_exactly : forall z r,
  around z = r <-> fits I64 r = true /\ exists k, (z = r + 2 ^ 64 * k)%Z.
Proof.
  intros z r. unfold fits. rewrite andb_true_iff, !Z.leb_le.
  change (ity_min I64) with (- 2 ^ 63)%Z. change (ity_max I64) with (2 ^ 63 - 1)%Z.
  change (2 ^ 64)%Z with (2 * 2 ^ 63)%Z. unfold around. change (2 ^ 64)%Z with (2 * 2 ^ 63)%Z.
  pose proof (Z.mod_pos_bound (z + 2 ^ 63) (2 * 2 ^ 63) eq_refl) as B.
  pose proof (Z.div_mod (z + 2 ^ 63) (2 * 2 ^ 63) ltac:(discriminate)) as M.
  split.
  - intros <-. split; [lia|]. exists ((z + 2 ^ 63) / (2 * 2 ^ 63))%Z. lia.
  - intros (Fr & k & ->). clear B M. change (2 * 2 ^ 63)%Z with 18446744073709551616%Z. change (2 ^ 63)%Z with 9223372036854775808%Z in *.
    rewrite <- (Z.div_unique (r + 18446744073709551616 * k + 9223372036854775808) 18446744073709551616 k (r + 9223372036854775808)); lia.
Qed.
Lemma around_fits z : fits I64 (around z) = true.
Proof. apply (proj1 (C84_around_exactly z _) eq_refl). Qed.
Lemma around_same z : fits I64 z = true -> around z = z.
Proof. intros F. apply C84_around_exactly. split; [exact F|]. exists 0%Z. lia. Qed.
Lemma around_plus a b : around (around a + b) = around (a + b).
Proof.
  apply C84_around_exactly. split; [apply around_fits|].
  destruct (proj1 (C84_around_exactly a _) eq_refl) as (_ & k & K). destruct (proj1 (C84_around_exactly (a + b) _) eq_refl) as (_ & j & J).
  exists (j - k)%Z. lia.
Qed.
(** Where nothing leaves the range the positions are those of the other build. *)
Theorem C84_room_enough : forall offset cs next, room offset next cs = true ->
  placed_around offset next cs = placed offset next cs /\ end_around offset next cs = end_offset offset next cs.
Proof.
  intros offset. induction cs as [|c cs IH]; intros next Ro; [split; reflexivity|].
  cbn [placed_around placed end_around end_offset room] in *.
  apply andb_prop in Ro as [Ro Ro3]. apply andb_prop in Ro as [Ro1 Ro2].
  assert (P : place_around offset next (c_index c) = place offset next (c_index c)).
  { unfold place_around, place. destruct (c_index c) as [i|]; [|reflexivity].
    destruct (otag_is (i_tag i) VALUE_OFFSET && fits I64 (i_val i)); [|reflexivity]. rewrite around_same by exact Ro1. reflexivity. }
  rewrite P. assert (E : next_around next (place offset next (c_index c)) = next_free next (place offset next (c_index c))).
  { unfold next_around. apply around_same. exact Ro2. }
  rewrite E. destruct (IH _ Ro3) as [-> ->]. split; reflexivity.
Qed.
Theorem C84_flatten_exact : forall W (out : W -> ev -> res W) r64 kind top w v t offset,
  streams v t -> (forall w e, out w e <> Panic) -> room offset offset (children false t) = true -> (length (stray_ends t) < top)%nat ->
  flatten_to_w top out r64 kind w v offset =
  outcome (run out w (flattened (label_kept r64) kind (fun v => map key_end_as_begin (emit v)) offset t ++ stray_ends t))
          (end_offset offset offset (children false t)).
Proof.
  intros W out r64 kind top w v t offset H N R L. rewrite (C84_wraps_exactly _ _ _ _ _ _ _ t _ H N L).
  destruct (C84_room_enough _ _ _ R) as [-> ->]. reflexivity.
Qed.

(** Children without an index of their own are counted on past the end of the
    range, and no two of them get the same position. *)
Fixpoint counted (k : Z) (cs : list child) : list (child * index) :=
  match cs with
  | [] => []
  | c :: cs' => (c, MkIndex (around k) (Some VALUE_OFFSET)) :: counted (k + 1) cs'
  end.
Lemma placed_counted offset cs : forall pos, (0 <= pos)%Z -> fits I64 (pos + Z.of_nat (length cs)) = true -> implicit pos cs = true ->
  placed_around offset (around (offset + pos)) cs = counted (offset + pos) cs /\
  end_around offset (around (offset + pos)) cs = around (offset + pos + Z.of_nat (length cs)).
Proof.
  induction cs as [|c cs IH]; intros pos P FP IM.
  - cbn. split; [reflexivity|f_equal; lia].
  - cbn [placed_around counted end_around implicit length] in *. rewrite Nat2Z.inj_succ in *.
    apply andb_prop in IM as [IM1 IM2].
    assert (EP : place_around offset (around (offset + pos)) (c_index c) = MkIndex (around (offset + pos)) (Some VALUE_OFFSET)).
    { destruct (c_index c) as [[z ta]|]; [|reflexivity]. cbn [i_tag i_val] in *. apply andb_prop in IM1 as [IT IV].
      apply Z.eqb_eq in IV. subst z. unfold place_around. cbn [i_tag i_val]. rewrite IT.
      rewrite (fits_between 0 pos (pos + Z.succ (Z.of_nat (length cs)))) by (try assumption; try reflexivity; lia).
      cbn [andb]. do 2 f_equal. lia. }
    rewrite EP. unfold next_around. cbn [i_val]. rewrite around_fits, around_plus.
    replace (offset + pos + 1)%Z with (offset + (pos + 1))%Z by lia.
    replace (pos + Z.succ (Z.of_nat (length cs)))%Z with (pos + 1 + Z.of_nat (length cs))%Z in FP by lia.
    destruct (IH (pos + 1)%Z ltac:(lia) FP IM2) as (-> & ->). split; [reflexivity|]. f_equal. lia.
Qed.
Theorem C84_positions_go_round : forall W (out : W -> ev -> res W) r64 kind top w v t offset,
  let cs := children false t in
  let n := Z.of_nat (length cs) in
  streams v t -> (forall w e, out w e <> Panic) -> (length (stray_ends t) < top)%nat ->
  implicit 0 cs = true -> fits I64 offset = true -> fits I64 n = true ->
  flatten_to_w top out r64 kind w v offset =
  outcome (run out w (flat_map (field (label_kept r64) kind (fun v => map key_end_as_begin (emit v))) (counted offset cs) ++ stray_ends t))
          (around (offset + n)) /\
  NoDup (map snd (counted offset cs)).
Proof.
  intros W out r64 kind top w v t offset cs n H N L IM FO FN. split.
  - rewrite (C84_wraps_exactly _ _ _ _ _ _ _ t _ H N L). fold cs.
    destruct (placed_counted offset cs 0 ltac:(lia) FN IM) as [P E]. rewrite Z.add_0_r, (around_same offset FO) in P, E.
    rewrite P, E. reflexivity.
  - assert (Far : forall cs k i, In i (map snd (counted k cs)) -> exists j, (k <= j < k + Z.of_nat (length cs))%Z /\ i = MkIndex (around j) (Some VALUE_OFFSET)).
    { clear. induction cs as [|c cs IH]; intros k i I; [destruct I|]. cbn [counted map snd] in I. destruct I as [<-|I].
      - exists k. split; [cbn [length]; lia|reflexivity].
      - destruct (IH _ _ I) as (j & B & ->). exists j. split; [cbn [length]; lia|reflexivity]. }
    clear - FN Far. unfold n in FN. clear n. revert offset. induction cs as [|c cs IH]; intros k; [constructor|]. cbn [counted map snd length] in *.
    rewrite Nat2Z.inj_succ in FN. constructor.
    + intros I. apply Far in I as (j & B & E).
      assert (E' : around k = around j) by congruence. clear E.
      destruct (proj1 (C84_around_exactly k _) eq_refl) as (_ & a & A). destruct (proj1 (C84_around_exactly j _) eq_refl) as (_ & b & B').
      rewrite E' in A. unfold fits in FN. apply andb_prop in FN as [_ FN]. apply Z.leb_le in FN. change (ity_max I64) with (2 ^ 63 - 1)%Z in FN.
      assert (D : (0 < j - k < 2 ^ 64)%Z) by (change (2 ^ 64)%Z with (2 ^ 63 * 2)%Z; lia).
      replace (j - k)%Z with (2 ^ 64 * (b - a))%Z in D by lia. clear - D. change (2 ^ 64)%Z with 18446744073709551616%Z in D. lia.
    + apply IH. eapply (fits_between 0); [reflexivity|exact FN|lia].
Qed.
(** The last position of the range, and then the first. *)
Example C84_goes_round :
  flatten_to_w 2 log (fun _ => []) FTuple [] (calls_of (TSeq None [TNull; TNull])) (2 ^ 63 - 1) =
    FOk [ETupleValBegin None (MkIndex (2 ^ 63 - 1) (Some VALUE_OFFSET)); ENull; ETupleValEnd None (MkIndex (2 ^ 63 - 1) (Some VALUE_OFFSET));
         ETupleValBegin None (MkIndex (- 2 ^ 63) (Some VALUE_OFFSET)); ENull; ETupleValEnd None (MkIndex (- 2 ^ 63) (Some VALUE_OFFSET))] (- 2 ^ 63 + 1) /\
  flatten_to log (fun _ => []) FTuple [] (calls_of (TSeq None [TNull; TNull])) (2 ^ 63 - 1) = FPanic.
Proof.
  split; [|vm_compute; reflexivity].
  destruct (C84_positions_go_round _ log (fun _ => []) FTuple 2 [] (calls_of (TSeq None [TNull; TNull])) (TSeq None [TNull; TNull]) (2 ^ 63 - 1)) as [-> _];
    [apply streams_calls_of|discriminate|cbn; lia|reflexivity|reflexivity|reflexivity|]. vm_compute. reflexivity.
Qed.
(** There are none unless a tagged value stands around an enum: those are the
    values on which a build with the checks panics (C32). *)
Theorem C84_strays_exactly : forall t, stray_ends t = [] <-> tagged_enum t = false.
Proof.
  induction t using tree_ind'; cbn [stray_ends tagged_enum]; try (split; reflexivity); try assumption.
  destruct (enum_below t0); [|split; reflexivity]. split; [|discriminate]. destruct (stray_ends t0); discriminate.
Qed.
Lemma quiet : forall w e, log w e <> Panic.
Proof. discriminate. Qed.
(** So something that nothing began is ended on the outer stream. *)
Theorem C84_ends_what_nothing_began : forall r64 kind top v t offset,
  streams v t -> room offset offset (children false t) = true -> (length (stray_ends t) < top)%nat -> tagged_enum t = true ->
  exists es tg l i, flatten_to_w top log r64 kind [] v offset = FOk (es ++ [ETaggedEnd tg l i]) (end_offset offset offset (children false t)) /\
  flatten_to log r64 kind [] v offset = FPanic.
Proof.
  intros r64 kind top v t offset H R L T.
  assert (X : exists ss tg l i, stray_ends t = ss ++ [ETaggedEnd tg l i]).
  { clear - T. induction t using tree_ind'; cbn [stray_ends tagged_enum] in *; try discriminate T; auto.
    rewrite T. do 4 eexists. reflexivity. }
  destruct X as (ss & tg & l & i & X).
  assert (Lg : forall es w, run log w es = Ok (w ++ es)).
  { clear. induction es as [|e es IH]; intros w; [rewrite app_nil_r; reflexivity|]. rewrite run_cons. cbn [log bind]. rewrite IH, <- app_assoc. reflexivity. }
  exists (flattened (label_kept r64) kind (fun v => map key_end_as_begin (emit v)) offset t ++ ss), tg, l, i. split.
  - rewrite (C84_flatten_exact _ log _ _ _ _ _ t _ H quiet R L), X, Lg. cbn [outcome app]. rewrite app_assoc. reflexivity.
  - apply (C32_tagged_enum_panics _ _ _ _ _ _ t); auto. intros w e. eexists. reflexivity.
Qed.
Theorem C84_same_in_release_refuted : ~ C84_same_in_release.
Proof.
  intros H. specialize (H _ log (fun _ => []) FRecord 2 [] (calls_of some_enum) some_enum 0%Z (le_n 2) (streams_calls_of _)).
  destruct (C84_ends_what_nothing_began (fun _ => []) FRecord 2 (calls_of some_enum) some_enum 0%Z) as (es & tg & l & i & A & B);
    [apply streams_calls_of|reflexivity|cbn; lia|reflexivity|]. rewrite A, B in H. discriminate H.
Qed.

(** ** What it can do to JSON

    [struct S { #[sval(flatten)] unit: Option<E>, c: i32 }] with [E::Unit] in it
    streams these calls. *)
Definition some_unit : tree :=
  TTagged (Some RUST_OPTION_SOME) (Some (label_new (bs "Some"))) (Some (index_new 1))
    (TEnum None (Some (label_new (bs "E"))) None (TTag None (Some (label_new (bs "Unit"))) (Some (index_new 0)))).
Definition outer_begin : list ev := [ERecTupBegin None (Some (label_new (bs "S"))) None None].
Definition outer_rest : list ev :=
  [ERecTupValBegin None (label_new (bs "c")) (index_new 0); EInt I32 1; ERecTupValEnd None (label_new (bs "c")) (index_new 0);
   ERecTupEnd None (Some (label_new (bs "S"))) None].
(** The text written is not JSON. *)
Theorem C84_json_broken : forall top, (2 <= top)%nat -> exists es,
  flatten_to_w top log (fun _ => []) FRecTup outer_begin (calls_of some_unit) 0 = FOk es 0%Z /\
  json_to_string (fun _ => []) (fun _ => []) (map CE (es ++ outer_rest)) = SOk (bs "{""Some"",""c"":1}") /\
  forall j, ~ json_text (bs "{""Some"",""c"":1}") j.
Proof.
  intros top T. eexists. split; [|split].
  - rewrite (C84_flatten_exact _ _ _ _ _ _ _ some_unit); [reflexivity|apply streams_calls_of|exact quiet|reflexivity|cbn; lia].
  - vm_compute. reflexivity.
  - apply not_json. vm_compute. reflexivity.
Qed.

Print Assumptions C84_same_in_release_partial.
Print Assumptions C84_wraps_exactly.
Print Assumptions C84_around_exactly.
Print Assumptions C84_room_enough.
Print Assumptions C84_flatten_exact.
Print Assumptions C84_positions_go_round.
Print Assumptions C84_strays_exactly.
Print Assumptions C84_ends_what_nothing_began.
Print Assumptions C84_same_in_release_refuted.
Print Assumptions C84_json_broken.
