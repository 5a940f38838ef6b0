(** * WrittenProps: the JSON text every ordinary value has, and exactly when it is right (C72) *)

From Verif Require Import Base Event Tree LowerModel LowerSpec JsonModel JsonGrammar JsonParse JsonSpec JsonProofs JsonProps
  JsonTextSpec JsonTextProofs JsonTextProps WrittenSpec WrittenProofs CountProofs.

(** Writing an ordinary value never fails, and the text is that of WrittenSpec.v,
    also for the shapes whose text is wrong. *)
Theorem C72_text_of_any_value :
  forall r32 r64, json_printer r32 -> json_printer r64 ->
  forall v t, streams v t -> ordinary t ->
  json_to_string r32 r64 v = SOk (written r32 r64 false t).
Proof.
  intros r32 r64 P32 P64 v t H O. rewrite (to_string_run _ _ _ _ H).
  destruct (all_written r32 r64 P32 P64 t O false true []) as (it & R & _). rewrite R. reflexivity.
Qed.

(** The compact text of the specification denotes the image, for every ordinary value. *)
Theorem C72_compact_denotes : forall r32 r64 t j, ordinary t -> image r32 r64 false t j ->
  json_text (compact r32 r64 false t) j.
Proof. intros r32 r64 t j O I. apply jt_of, compact_denotes; assumption. Qed.

Definition colons (b : byte) : Z := if is_byte 58 b then 1%Z else 0%Z.
Definition brace (b : byte) : Z := (if is_byte 123 b then 1 else if is_byte 125 b then -1 else 0)%Z.
Lemma quiet_colons : quiet colons.
Proof. intros b _ H _ _. unfold colons. rewrite H. reflexivity. Qed.
Lemma quiet_brace : quiet brace.
Proof. intros b _ _ H1 H2. unfold brace. rewrite H1, H2. reflexivity. Qed.
Lemma adds_whole w a z : adds w a z -> count w Outside a = z.
Proof. intros H. specialize (H []). rewrite app_nil_r in H. cbn [count] in H. lia. Qed.
Lemma brace_parts j : parts brace j = 0%Z.
Proof.
  revert j. fix IH 1. intros [| | | |vs|ms]; try reflexivity; cbn [parts].
  - induction vs as [|v vs IHv]; [reflexivity|]. cbn [map total fold_right]. unfold total in IHv. rewrite IHv, IH. reflexivity.
  - assert (E : total (map (fun m : bytes * jv => let (_, v) := m in (brace (ascii_of_N 34) + brace (ascii_of_N 58) + parts brace v)%Z) ms) = 0%Z).
    { induction ms as [|[k v] ms IHm]; [reflexivity|]. cbn [map total fold_right]. unfold total in IHm. rewrite IHm, IH. reflexivity. }
    rewrite E. reflexivity.
Qed.

(** ** The braces of the text *)
Theorem C72_braces_of_json : forall s j, json_text s j -> braces s = 0%Z.
Proof. intros s j H. rewrite <- (brace_parts j). apply adds_whole, (text_parts _ quiet_brace), H. Qed.
Theorem C72_braces_of_written :
  forall r32 r64, json_printer r32 -> json_printer r64 ->
  forall t, ordinary t -> braces (written r32 r64 false t) = (leaks t - closings t)%Z.
Proof.
  intros r32 r64 P32 P64 t O. destruct (C20_ordinary_values_have_images r32 r64 P32 P64 t O false) as (j & I).
  pose proof (adds_whole _ _ _ (written_adds brace quiet_brace r32 r64 t O j I)) as H. rewrite brace_parts in H.
  unfold braces. change (fun b : byte => if is_byte 123 b then 1%Z else if is_byte 125 b then (-1)%Z else 0%Z) with brace. rewrite H. unfold wrong.
  change (brace (ascii_of_N 123)) with 1%Z. change (brace (ascii_of_N 125)) with (-1)%Z.
  change (brace (ascii_of_N 34)) with 0%Z. change (brace (ascii_of_N 58)) with 0%Z. lia.
Qed.

(** ** When the text is right

    The text of an ordinary value is a JSON text of its image if and only if the value
    has no named value after a named key, and no unnamed enum with a named content
    inside an enum. *)
Theorem C72_right_iff_safe :
  forall r32 r64, json_printer r32 -> json_printer r64 ->
  forall v t, streams v t -> ordinary t ->
  (exists s j, json_to_string r32 r64 v = SOk s /\ image r32 r64 false t j /\ json_text s j) <-> safe t.
Proof.
  intros r32 r64 P32 P64 v t H O. split.
  - intros (s & j & R & I & T). rewrite (C72_text_of_any_value r32 r64 P32 P64 v t H O) in R. injection R as <-.
    apply safe_counts; [exact O|].
    pose proof (adds_whole _ _ _ (text_parts colons quiet_colons _ _ T)) as A1.
    pose proof (adds_whole _ _ _ (written_adds colons quiet_colons r32 r64 t O j I)) as A2.
    rewrite A1 in A2. unfold wrong in A2.
    change (colons (ascii_of_N 123)) with 0%Z in A2. change (colons (ascii_of_N 125)) with 0%Z in A2.
    change (colons (ascii_of_N 34)) with 0%Z in A2. change (colons (ascii_of_N 58)) with 1%Z in A2.
    pose proof (C72_braces_of_json _ _ T) as B. rewrite (C72_braces_of_written r32 r64 P32 P64 t O) in B. lia.
  - intros S. destruct (C20_ordinary_values_have_images r32 r64 P32 P64 t O false) as (j & I).
    destruct (C20_json_denotes_value_partial r32 r64 P32 P64 v t j H I S) as (s & R & T). eauto 6.
Qed.
(** And then, and only then, it is the compact text. *)
Theorem C72_compact_iff_safe :
  forall r32 r64, json_printer r32 -> json_printer r64 ->
  forall v t, streams v t -> ordinary t ->
  json_to_string r32 r64 v = SOk (compact r32 r64 false t) <-> safe t.
Proof.
  intros r32 r64 P32 P64 v t H O. split.
  - intros E. apply (C72_right_iff_safe r32 r64 P32 P64 v t H O).
    destruct (C20_ordinary_values_have_images r32 r64 P32 P64 t O false) as (j & I).
    exists (compact r32 r64 false t), j. split; [exact E|split; [exact I|apply C72_compact_denotes; assumption]].
  - intros S. apply (C20_compact_text_partial r32 r64 P32 P64 v t H (ordinary_writable t O) S).
Qed.

(** ** When the text is JSON at all

    Every leak leaves a brace open, every enum of the other kind closes one too many.
    With one kind of trouble only, the text is JSON exactly when there is none. *)
Theorem C72_json_iff_no_leak :
  forall r32 r64, json_printer r32 -> json_printer r64 ->
  forall v t, streams v t -> ordinary t -> closings t = 0%Z ->
  (exists s j, json_to_string r32 r64 v = SOk s /\ json_text s j) <-> leaks t = 0%Z.
Proof.
  intros r32 r64 P32 P64 v t H O C. split.
  - intros (s & j & R & T). rewrite (C72_text_of_any_value r32 r64 P32 P64 v t H O) in R. injection R as <-.
    pose proof (C72_braces_of_json _ _ T) as B. rewrite (C72_braces_of_written r32 r64 P32 P64 t O) in B. lia.
  - intros L. destruct (proj2 (C72_right_iff_safe r32 r64 P32 P64 v t H O)) as (s & j & R & _ & T); [|eauto].
    apply safe_counts; auto.
Qed.
Theorem C72_json_iff_no_closing :
  forall r32 r64, json_printer r32 -> json_printer r64 ->
  forall v t, streams v t -> ordinary t -> leaks t = 0%Z ->
  (exists s j, json_to_string r32 r64 v = SOk s /\ json_text s j) <-> closings t = 0%Z.
Proof.
  intros r32 r64 P32 P64 v t H O C. split.
  - intros (s & j & R & T). rewrite (C72_text_of_any_value r32 r64 P32 P64 v t H O) in R. injection R as <-.
    pose proof (C72_braces_of_json _ _ T) as B. rewrite (C72_braces_of_written r32 r64 P32 P64 t O) in B. lia.
  - intros L. destruct (proj2 (C72_right_iff_safe r32 r64 P32 P64 v t H O)) as (s & j & R & _ & T); [|eauto].
    apply safe_counts; auto.
Qed.
Theorem C72_unbalanced_is_not_json :
  forall r32 r64, json_printer r32 -> json_printer r64 ->
  forall v t s j, streams v t -> ordinary t -> leaks t <> closings t ->
  json_to_string r32 r64 v = SOk s -> ~ json_text s j.
Proof.
  intros r32 r64 P32 P64 v t s j H O N R T. rewrite (C72_text_of_any_value r32 r64 P32 P64 v t H O) in R. injection R as <-.
  pose proof (C72_braces_of_json _ _ T) as B. rewrite (C72_braces_of_written r32 r64 P32 P64 t O) in B. lia.
Qed.

(** ** Samples *)

(** A map from an enum to a struct. *)
Definition leaking : tree :=
  TSeq None [TMap None [(TEnum None (lab "K") None (TTag None (lab "A") None), TRecord None (lab "P") None None [(None, label_new (bs "x"), TInt U8 1)]);
                        (txt "b", TTuple None (lab "Q") None None [])];
             TText None [(true, bs "{""}")]].
Example C72_leak_sample : ordinary leaking /\ leaks leaking = 1%Z /\ closings leaking = 0%Z /\
  json_to_string exact_print exact_print (map CE (emit leaking)) = SOk (bs "[{""A"":{""P"":{""x"":1},""b"":[]},""{\""}""]") /\
  braces (bs "[{""A"":{""P"":{""x"":1},""b"":[]},""{\""}""]") = 1%Z.
Proof. split; [cbn; repeat split; discriminate|]. repeat split; vm_compute; reflexivity. Qed.
(** An enum in an enum without a name. *)
Definition closing : tree :=
  TSeq None [TEnum None (lab "E") None (TEnum None None None (TTagged None (lab "N") None (TInt U8 1)))].
Example C72_closing_sample : ordinary closing /\ leaks closing = 0%Z /\ closings closing = 1%Z /\
  json_to_string exact_print exact_print (map CE (emit closing)) = SOk (bs "[{""N"":1}}]").
Proof. split; [cbn; repeat split|]. repeat split; vm_compute; reflexivity. Qed.
(** Both: the braces match, and the text is JSON of another value. *)
Definition cancelled : tree :=
  TEnum None (lab "E") None (TEnum None None None (TTagged None (lab "N") None
    (TMap None [(TEnum None (lab "K") None (TTag None (lab "A") None), TTagged None (lab "V") None (TInt U8 1))]))).
Example C72_cancelled_sample : ordinary cancelled /\ leaks cancelled = 1%Z /\ closings cancelled = 1%Z /\ ~ safe cancelled /\
  json_to_string exact_print exact_print (map CE (emit cancelled)) = SOk (bs "{""N"":{""A"":{""V"":1}}}") /\
  compact exact_print exact_print false cancelled = bs "{""N"":{""A"":1}}".
Proof.
  split; [cbn; repeat split; discriminate|]. split; [vm_compute; reflexivity|]. split; [vm_compute; reflexivity|].
  split; [intros S; apply safe_counts in S; [destruct S as (S & _); vm_compute in S; discriminate|cbn; repeat split; discriminate]|].
  split; vm_compute; reflexivity.
Qed.
(** A value with all shapes and no trouble: [text_sample] (JsonTextProps.v). *)
Example C72_safe_sample : ordinary text_sample /\ leaks text_sample = 0%Z /\ closings text_sample = 0%Z /\ safe text_sample.
Proof. split; [cbn; repeat split; discriminate|]. split; [vm_compute; reflexivity|]. split; [vm_compute; reflexivity|cbn; repeat split]. Qed.

Print Assumptions C72_text_of_any_value.
Print Assumptions C72_compact_denotes.
Print Assumptions C72_braces_of_json.
Print Assumptions C72_braces_of_written.
Print Assumptions C72_right_iff_safe.
Print Assumptions C72_compact_iff_safe.
Print Assumptions C72_json_iff_no_leak.
Print Assumptions C72_json_iff_no_closing.
Print Assumptions C72_unbalanced_is_not_json.
