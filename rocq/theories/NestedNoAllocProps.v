(** * NestedNoAllocProps: nested streams and [serde] without [alloc] (C66) *)

From Verif Require Import Base Event Tree DataModel DataProofs FragModel BufferModel BufferSpec NoAllocModel NestedSpec NestedModel NestedNoAllocModel NestedNoAllocSpec NestedNoAllocProofs
  SerdeModel SerdeSpec SerdeProofs SerdeProps StdModel StdSpec StdProps RustModel RustSpec RustProofs RustSerdeSpec RustSerdeProps.

(** ** Values that need no buffering *)

(** Streaming one into any nested stream, and serializing it with any serializer,
    does the same without [alloc] as with it, in release and debug builds. *)
Theorem C66_direct_streams_the_same :
  forall (dbg sa : bool) S v, direct v -> na_stream dbg sa S v = nested_stream S v.
Proof. intros dbg sa S v [x H _]. rewrite na_one, nested_one by exact H. reflexivity. Qed.
Theorem C66_direct_serializes_the_same :
  forall (dbg sa : bool) S, opaque_children S ->
  forall n v k, direct v -> na_serialize dbg sa S n v k = to_serialize S n v k.
Proof. intros dbg sa S OC n v k. apply serialize_direct. exact OC. Qed.

(** ** Other values

    In a release build every value, of whatever shape, ill-formed or failing, does
    the same as with [alloc], or it is an error.  A debug build may panic instead. *)
Theorem C66_same_or_error :
  forall (sa : bool) S v, na_stream false sa S v = nested_stream S v \/ na_stream false sa S v = OErr.
Proof. intros sa S v. destruct (value_lt false sa (S := S) false v) as [E|[E|(D & _)]]; [left; exact E|right; exact E|discriminate D]. Qed.
Theorem C66_debug_same_error_or_panic :
  forall (sa : bool) S v,
  na_stream true sa S v = nested_stream S v \/ na_stream true sa S v = OErr \/ na_stream true sa S v = OPanic.
Proof. intros sa S v. destruct (value_lt true sa (S := S) false v) as [E|[E|(_ & E)]]; auto. Qed.
(** The same for serializing, with any serializer that hands on the errors of the
    parts of a value. *)
Theorem C66_serializes_the_same_or_error :
  forall (sa : bool) S, hands_on_errors false S ->
  forall n v k, na_serialize false sa S n v k = to_serialize S n v k \/ na_serialize false sa S n v k = OErr.
Proof. intros sa S HE n v k. destruct (serialize_worse false sa S HE n v k) as [E|[E|(D & _)]]; [left; exact E|right; exact E|discriminate D]. Qed.
Theorem C66_debug_serializes_the_same_error_or_panic :
  forall (sa : bool) S, hands_on_errors true S -> forall n v k,
  na_serialize true sa S n v k = to_serialize S n v k \/ na_serialize true sa S n v k = OErr \/ na_serialize true sa S n v k = OPanic.
Proof. intros sa S HE n v k. destruct (serialize_worse true sa S HE n v k) as [E|[E|(_ & E)]]; auto. Qed.

(** Texts: one borrowed fragment that is not empty, at the end; or none. *)
Fixpoint one_piece (fs : list (bool * bytes)) : bool :=
  match fs with
  | [] => true
  | (borrowed, s) :: fs => borrowed && match s with [] => one_piece fs | _ => match fs with [] => true | _ => false end end
  end.
Definition text (n : option N) (fs : list (bool * bytes)) : list call :=
  CE (ETextBegin n) :: map (fun f => CE (text_frag f)) fs ++ [CE ETextEnd].
Definition in_text {S} (s : bytes) : fstream S := MkFS (Some (BText (frag_new s))) SAny.
Lemma text_pieces sa S fs :
  ended (na_calls false sa (map (fun f => CE (text_frag f)) fs ++ [CE ETextEnd]) false (in_text (S := S) [])) =
  if one_piece fs then n_text S true (content fs) else OErr.
Proof.
  assert (E : forall s, ended (na_calls false sa [CE ETextEnd] false (in_text (S := S) s)) = n_text S true s).
  { intros s. cbn. unfold buffer_or_with, in_text. cbn. destruct (n_text S true s); reflexivity. }
  induction fs as [|[[|] [|b s]] fs IH].
  - apply E.
  - exact IH.
  - destruct fs as [|f fs].
    + specialize (E (b :: s)). cbn in E |- *. rewrite app_nil_r. exact E.
    + destruct f as [[|] s']; reflexivity.
  - reflexivity.
  - reflexivity.
Qed.
Theorem C66_texts_exactly :
  forall (sa : bool) S n fs,
  na_stream false sa S (text n fs) = if one_piece fs then n_text S true (content fs) else OErr.
Proof. intros sa S n fs. exact (text_pieces sa S fs). Qed.

(** ** Plain Rust data *)
Lemma flat_map_map {A B C} (f : B -> list C) (g : A -> B) l : flat_map f (map g l) = flat_map (fun a => f (g a)) l.
Proof. induction l as [|a l IH]; [reflexivity|]. cbn [map flat_map]. rewrite IH. reflexivity. Qed.
Definition named_fields (names : list bytes) (vs : list (list call)) : list (option tag * label * index * list call) :=
  map (fun p => let '(n, (k, v)) := p in (None, name_label n, place k, v)) (combine names (from 0 vs)).
Definition numbered_fields (vs : list (list call)) : list (option tag * index * list call) :=
  map (fun p => (None, place (fst p), snd p)) (from 0 vs).
Definition plain_level (name : bytes) (i : option index) (s : style) (vs : list (list call)) : level :=
  let l := Some (name_label name) in
  match s with
  | PUnit => LTag None l i
  | PTuple 1 => LTagged None l i (nth 0 vs [])
  | PTuple n => LTuple None l i (Some (N.of_nat n)) (numbered_fields vs)
  | PNamed names => LRecTup None l i (Some (len names)) (named_fields names vs)
  end.
Lemma plain_level_calls name i s vs : plain_calls name i s vs = level_calls (plain_level name i s vs).
Proof.
  destruct s as [|[|[|n]]|names]; cbn [plain_calls plain_level level_calls]; try reflexivity;
    unfold numbered_fields, named_fields; rewrite flat_map_map; do 2 f_equal.
  apply flat_map_ext. intros [n [k v]]. reflexivity.
Qed.
Lemma plain_level_ok name i s vs : level_static (plain_level name i s vs) = true /\ is_variant (plain_level name i s vs) = true.
Proof.
  destruct s as [|[|[|n]]|names]; split; try reflexivity. cbn. unfold named_fields. rewrite forallb_map. apply forallb_forall. intros [n [k v]] _. reflexivity.
Qed.
Lemma from_in {A} (l : list A) : forall z p, In p (from z l) -> In (snd p) l.
Proof. induction l as [|a l IH]; intros z p H; [destruct H|]. destruct H as [<-|H]; [left; reflexivity|right; exact (IH _ _ H)]. Qed.
Lemma plain_level_children name i s vs : Forall direct vs -> List.length vs = arity s -> Forall direct (level_children (plain_level name i s vs)).
Proof.
  intros H L. rewrite Forall_forall in H. destruct s as [|[|[|n]]|names]; cbn [plain_level level_children]; try (constructor; fail).
  - apply Forall_forall. intros c I. unfold numbered_fields in I. rewrite map_map in I. apply in_map_iff in I as (p & <- & I). apply H, (from_in _ _ _ I).
  - destruct vs as [|v [|? ?]]; try discriminate L. constructor; [|constructor]. apply H. left. reflexivity.
  - apply Forall_forall. intros c I. unfold numbered_fields in I. rewrite map_map in I. apply in_map_iff in I as (p & <- & I). apply H, (from_in _ _ _ I).
  - apply Forall_forall. intros c I. unfold named_fields in I. rewrite map_map in I. apply in_map_iff in I as ([m [k v]] & <- & I).
    apply in_combine_r in I. exact (H _ (from_in _ _ _ I)).
Qed.

Lemma rust_direct v : typed v -> has_char v = false -> direct (rust v).
Proof.
  assert (F : forall vs, Forall (fun v => typed v -> has_char v = false -> direct (rust v)) vs ->
    fold_right and True (map typed vs) -> existsb has_char vs = false -> Forall direct (map rust vs)).
  { clear v. induction 1 as [|v vs Hv _ IH]; cbn; intros T N; [constructor|]. apply orb_false_iff in N. constructor; [apply Hv; tauto|apply IH; tauto]. }
  assert (Q : forall vs, Forall direct (map rust vs) -> direct (seq_calls (fun c => [CV c]) (map calls (map (fun v => elem (rust v)) vs)))).
  { clear. intros vs H. rewrite map_map. cbn [calls elem]. unfold seq_calls.
    apply (direct_level (Bare (LSeq (Some (N.of_nat (List.length (map (fun x => rust x) vs)))) (map rust vs))) eq_refl). exact H. }
  induction v using datum_ind'; intros T N; cbn [typed has_char] in T, N; try discriminate.
  - exact (direct_level (Bare (LTag _ _ _)) eq_refl (Forall_nil _)).
  - exact (direct_level (Bare (LBool _)) eq_refl (Forall_nil _)).
  - exact (direct_level (Bare (LInt _ _)) eq_refl (Forall_nil _)).
  - exact (direct_level (Bare (LF32 _)) eq_refl (Forall_nil _)).
  - exact (direct_level (Bare (LF64 _)) eq_refl (Forall_nil _)).
  - exact (direct_level (Bare (LText _ _)) eq_refl (Forall_nil _)).
  - exact (direct_level (Bare (LTag _ _ _)) eq_refl (Forall_nil _)).
  - exact (direct_level (Bare (LTagged (Some RUST_OPTION_SOME) (Some (ident "Some")) (Some (offset 1)) (rust v))) eq_refl (Forall_cons _ (IHv T N) (Forall_nil _))).
  - cbn [rust calls]. apply Q, F; assumption.
  - exact (direct_level (Bare (LTagged (Some CONSTANT_SIZE) None None _)) eq_refl (Forall_cons _ (Q _ (F _ H T N)) (Forall_nil _))).
  - destruct T as (L & T). specialize (F _ H T N). cbn [rust calls]. unfold tuple_calls. rewrite !map_length, (tuple_impl_spec _ L).
    rewrite map_map. cbn [calls elem].
    set (is := map Z.of_nat (seq 0 (List.length vs))).
    pose (x := LTuple None None None (Some (N.of_nat (List.length vs))) (map (fun p => (None, offset (fst p), snd p)) (combine is (map rust vs)))).
    replace (_ :: _) with (value1_calls (Bare x)); [|cbn [value1_calls level_calls x]; rewrite flat_map_map; reflexivity].
    apply direct_level; [reflexivity|]. cbn [value1_children level_children x]. rewrite map_map. apply Forall_forall. intros c I.
    apply in_map_iff in I as ([k c'] & <- & I). apply in_combine_r in I. rewrite Forall_forall in F. apply F. exact I.
  - assert (G : Forall (fun kv => direct (rust (fst kv)) /\ direct (rust (snd kv))) es).
    { clear F Q. induction es as [|[k v] es IH]; [constructor|]. inversion H as [|? ? (Hk & Hv) H']; subst. cbn [map fold_right existsb fst snd] in *.
      destruct T as ((Tk & Tv) & T). apply orb_false_iff in N as (N1 & N). apply orb_false_iff in N1.
      constructor; [cbn [fst snd]; split; [apply Hk|apply Hv]; tauto|apply IH; assumption]. }
    cbn [rust calls]. rewrite map_map. unfold map_calls. set (l := map _ es).
    apply (direct_level (Bare (LMap (Some (N.of_nat (List.length l))) l)) eq_refl). cbn [value1_children level_children]. unfold l. clear - G.
    induction G as [|[k v] es (A & B) _ IH]; [constructor|]. cbn [map flat_map fst snd app elem calls] in *. constructor; [exact A|]. constructor; [exact B|exact IH].
  - exact (IHv T N).
  - destruct T as (D & L & T). destruct (variant_of d i) as [[name s]|] eqn:V; [|contradiction].
    assert (L' : List.length (map rust fs) = arity s) by (rewrite map_length; exact L).
    cbn [rust]. destruct (derived_calls d i (map rust fs) name s D V L') as (m & -> & ->). unfold data_calls. rewrite V.
    specialize (F _ H T N). destruct d as [? ?|e ?].
    + rewrite plain_level_calls. apply (direct_level (Bare _)); [apply plain_level_ok|]. apply plain_level_children; assumption.
    + rewrite plain_level_calls. apply (direct_level (Variant None (Some (name_label e)) None _)).
      * cbn [value1_ok]. destruct (plain_level_ok name (Some (place (Z.of_nat i))) s (map rust fs)) as (-> & ->). reflexivity.
      * apply plain_level_children; assumption.
Qed.

(** "Types that derive [sval::Value] automatically can be streamed through [serde]
    without requiring any buffering": what a serializer is told does not depend on
    [alloc]. *)
Definition C66_no_buffering : Prop :=
  forall (dbg sa : bool) S, opaque_children S ->
  forall v, typed v -> forall n k, na_serialize dbg sa S n (rust v) k = to_serialize S n (rust v) k.
(** So it is, unless there is a [char] in it... *)
Theorem C66_no_buffering_partial :
  forall (dbg sa : bool) S, opaque_children S ->
  forall v, typed v -> has_char v = false -> forall n k, na_serialize dbg sa S n (rust v) k = to_serialize S n (rust v) k.
Proof. intros dbg sa S OC v T N n k. apply serialize_direct; [exact OC|]. apply rust_direct; assumption. Qed.
(** ... and without arrays, which [sval_serde] never accepts, the serializer is driven as by
    [#[derive(Serialize)]]... *)
Theorem C66_like_derive_serialize_partial :
  forall (dbg sa : bool) S, opaque_children S ->
  forall v, typed v -> few_variants v = true -> has_array v = false -> has_char v = false ->
  exists n, forall m, n <= m -> forall k, na_serialize dbg sa S m (rust v) k = ser S (serde_of v) k.
Proof.
  intros dbg sa S OC v T A N C. destruct (C64_same_as_derive_serialize_partial S OC v T A N C) as (n & H). exists n. intros m L k.
  rewrite C66_no_buffering_partial by assumption. apply H. exact L.
Qed.
(** ... whereas a [char] is always an error, or a panic in a debug build. *)
Theorem C66_chars_fail :
  forall (dbg sa : bool) S c n k, na_serialize dbg sa S (Datatypes.S n) (rust (VChar c)) k = if dbg then OPanic else OErr.
Proof. intros dbg sa S c n k. destruct dbg; reflexivity. Qed.
Theorem C66_no_buffering_refuted : ~ C66_no_buffering.
Proof.
  intros H. assert (T : typed (VChar 65)) by (left; reflexivity). specialize (H false false rebuild rebuild_opaque (VChar 65) T 1 tt). discriminate H.
Qed.

(** "Without the [alloc] feature, any values that require buffering will instead
    produce errors": not in a debug build. *)
Definition C66_errors_instead : Prop :=
  forall (dbg sa : bool) S v, na_stream dbg sa S v = nested_stream S v \/ na_stream dbg sa S v = OErr.
Theorem C66_errors_instead_refuted : ~ C66_errors_instead.
Proof. intros H. destruct (H true true (reader (fun _ => OErr)) (rust (VChar 65))) as [E|E]; discriminate E. Qed.

Lemma rebuild_hands_on dbg : hands_on_errors dbg rebuild.
Proof.
  constructor; intros; cbn; try (apply worse_bind, H; fail); destruct s as [[n es] [x|]]; first [apply worse_bind, H|left; reflexivity].
Qed.
(** A [char] inside a list is an error for all of it. *)
Example C66_error_inside :
  let v := rust (VVec [VBool true; VChar 65]) in
  na_serialize false false rebuild 3 v tt = OErr /\ to_serialize rebuild 3 v tt = OOk (DSeq (Some 2%N) [DBool true; DStr (bs "A")]).
Proof. split; reflexivity. Qed.
(** The sample of C64, rebuilt without [alloc]; and a value that is not direct but does
    not need a buffer of more than a slot. *)
Example C66_sample : typed serde_sample /\ has_char serde_sample = false /\
  na_serialize true false rebuild 20 (rust serde_sample) tt = OOk (serde_of serde_sample).
Proof. split; [exact serde_sample_typed|]. split; vm_compute; reflexivity. Qed.
Example C66_empty_inside :
  let v := [CE (ESeqBegin None); CE ESeqValBegin; CE (ESeqBegin None); CE ESeqEnd; CE ESeqValEnd; CE ESeqEnd] in
  nested_stream (reader (read 2)) v = OOk (NestedSpec.RSeq None [NestedSpec.RSeq None []]) /\
  na_stream false false (reader (read 2)) v = OOk (NestedSpec.RSeq None [NestedSpec.RSeq None []]) /\
  na_stream false false (reader (read 2)) [CE (ESeqBegin None); CE ESeqValBegin; CE (ESeqBegin None); CE ESeqValBegin; CE ENull; CE ESeqValEnd; CE ESeqEnd; CE ESeqValEnd; CE ESeqEnd] = OErr.
Proof. repeat split; reflexivity. Qed.
Example C66_texts : one_piece [(true, []); (true, bs "ab")] = true /\ one_piece [(true, bs "ab"); (true, [])] = false /\ one_piece [(false, bs "a")] = false.
Proof. repeat split; reflexivity. Qed.

Print Assumptions C66_direct_streams_the_same.
Print Assumptions C66_direct_serializes_the_same.
Print Assumptions C66_same_or_error.
Print Assumptions C66_debug_same_error_or_panic.
Print Assumptions C66_serializes_the_same_or_error.
Print Assumptions C66_debug_serializes_the_same_error_or_panic.
Print Assumptions C66_texts_exactly.
Print Assumptions C66_no_buffering_partial.
Print Assumptions C66_like_derive_serialize_partial.
Print Assumptions C66_chars_fail.
Print Assumptions C66_no_buffering_refuted.
Print Assumptions C66_errors_instead_refuted.
