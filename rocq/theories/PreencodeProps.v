(** * PreencodeProps: JSON encoded in parts, and into a byte buffer (C67) *)

From Coq Require Import Relations.
From Verif Require Import Base Event Tree LowerModel LowerSpec FlatProofs LowerProofs MethProofs DataModel
  JsonModel JsonGrammar JsonSpec JsonMethProofs JsonProofs JsonImageProofs JsonSimProofs JsonProps JsonLocalProofs JsonLocalProps
  AdapterModel AdapterProps PreencodeModel PreencodeSpec PreencodeProofs.

(** ** Into a byte buffer *)

Definition vec_is (w : iow bytes) (s : bytes) : Prop := io_st bytes w = s /\ io_err bytes w = false /\ io_fuel bytes w = 1.
Lemma vec_write_all w s b : vec_is w b -> exists w', io_write_str bytes vec_write w s = Ok w' /\ vec_is w' (b ++ s).
Proof.
  intros (A & B & C). unfold io_write_str. rewrite C. cbn [Nat.mul]. rewrite Nat.add_0_r.
  destruct s as [|c s]; [exists w; rewrite app_nil_r; split; [reflexivity|repeat split; auto]|].
  cbn [List.length io_loop]. change (vec_write (io_st bytes w) (c :: s)) with (io_st bytes w ++ c :: s, IoN (S (List.length s))). cbv beta iota zeta. cbn [List.length]. rewrite Nat.leb_refl.
  change (skipn (S (List.length s)) (c :: s)) with (skipn (List.length s) s). rewrite skipn_all.
  match goal with |- exists w', io_loop _ _ ?n ?w [] = _ /\ _ => replace (io_loop bytes vec_write n w []) with (@Ok (iow bytes) w) by (destruct n; reflexivity) end.
  eexists. split; [reflexivity|]. repeat split; cbn; congruence.
Qed.
(** Streaming to a byte buffer is streaming to a string, errors and panics included. *)
Theorem C67_vec_is_string : forall r32 r64 v, json_to_vec r32 r64 v = json_to_string r32 r64 v.
Proof.
  intros r32 r64 v.
  destruct (op_value (iow bytes) bytes (io_write_str bytes vec_write) string_write r32 r64 vec_is (fun _ _ => False) False (fun _ => False)
    ltac:(intros w1 w2 s H; destruct (vec_write_all w1 s w2 H) as (w' & -> & H'); exact H') ltac:(intros w1 w2 []) ltac:(intros w1 w2 s []) v) as (A & _).
  specialize (A (fm_new (iow bytes) (MkIo bytes [] [] false 1)) (fm_new bytes []) ltac:(repeat split)).
  unfold json_to_vec, json_to_io, json_to_string, json_to_fmt.
  set (q := run_impl json_over (json_step (iow bytes) (io_write_str bytes vec_write) r32 r64) _ v) in *.
  set (r := run_impl json_over (json_step bytes string_write r32 r64) _ v) in *.
  destruct q as [f|f|], r as [g|g|]; cbn [sim] in A; try contradiction;
    try (destruct A as [A|A]; [|contradiction]); try discriminate A; try reflexivity.
  - destruct A as (_ & _ & _ & _ & _ & A & _). congruence.
  - destruct A as (_ & _ & _ & _ & E & _ & A & _). rewrite A, E. reflexivity.
Qed.

(** ** In parts *)

Lemma kept r32 r64 : json_printer r32 -> json_printer r64 ->
  forall t t', preencoded r32 r64 t t' -> alone r32 r64 t = alone r32 r64 t'.
Proof.
  intros P32 P64 t t' H. induction H as [t t' H| |t u t' _ A _ B]; [|reflexivity|congruence].
  apply (preencode_run r32 r64 P32 P64 _ _ _ H). reflexivity.
Qed.
(** The full claim: whatever values stand in its place, a part can be encoded ahead. *)
Definition C67_any_map_value_can_be_encoded_ahead : Prop :=
  forall r32 r64, json_printer r32 -> json_printer r64 ->
  forall n k t s, alone r32 r64 t = SOk s ->
  alone r32 r64 (TMap n [(k, t)]) = alone r32 r64 (TMap n [(k, json_tree None [(true, s)])]).
Definition C67_any_key_can_be_encoded_ahead : Prop :=
  forall r32 r64, json_printer r32 -> json_printer r64 ->
  forall n k t s, alone r32 r64 k = SOk s ->
  alone r32 r64 (TMap n [(k, t)]) = alone r32 r64 (TMap n [(json_tree None [(true, s)], t)]).
(** After a key that is a named enum, a struct gets an extra name, which its own text does
    not have. *)
Theorem C67_any_map_value_can_be_encoded_ahead_refuted : ~ C67_any_map_value_can_be_encoded_ahead.
Proof.
  intros H. specialize (H _ _ exact_print_json exact_print_json None
    (TEnum None (lab "E") None (TTag None (lab "A") None))
    (TRecord None (lab "S") None None [(None, label_new (bs "x"), TInt U8 1)]) (bs "{""x"":1}") eq_refl).
  vm_compute in H. discriminate H.
Qed.
(** A key gets quotes of its own. *)
Theorem C67_any_key_can_be_encoded_ahead_refuted : ~ C67_any_key_can_be_encoded_ahead.
Proof.
  intros H. specialize (H _ _ exact_print_json exact_print_json None (txt "a") TNull (bs """a""") eq_refl).
  vm_compute in H. discriminate H.
Qed.
(** Missing: keys, variants directly inside an enum, and named values after keys that are
    named enums or tagged values (see [preencode]). *)
Theorem C67_parts_encoded_ahead_partial :
  forall r32 r64, json_printer r32 -> json_printer r64 ->
  forall v v' t t', streams v t -> streams v' t' -> preencoded r32 r64 t t' ->
  json_to_string r32 r64 v' = json_to_string r32 r64 v.
Proof.
  intros r32 r64 P32 P64 v v' t t' H H' K. rewrite (to_string_alone _ _ _ _ H), (to_string_alone _ _ _ _ H').
  symmetry. apply kept; assumption.
Qed.
(** The whole, whatever it is and however it is streamed: encoding it and encoding the
    outcome gives the same text. *)
Theorem C67_encoding_twice :
  forall r32 r64 v s, json_to_string r32 r64 v = SOk s ->
  exists cs, encoded r32 r64 v = Some cs /\ json_to_string r32 r64 cs = SOk s.
Proof.
  intros r32 r64 v s H. unfold encoded, json_to_json_str. rewrite H. exists (json_str s). split; [reflexivity|apply C60_json_str_verbatim].
Qed.
(** What [encoded] makes of a value may stand for it as a part. *)
Theorem C67_encoded_is_a_part :
  forall r32 r64 v t cs, streams v t -> encoded r32 r64 v = Some cs ->
  exists t', streams cs t' /\ preencode r32 r64 false t t'.
Proof.
  intros r32 r64 v t cs H E. unfold encoded, json_to_json_str in E. rewrite (to_string_alone _ _ _ _ H) in E.
  destruct (alone r32 r64 t) as [s|e|] eqn:A; try discriminate. injection E as <-.
  exists (json_tree (Some (blen s)) [(true, s)]). split; [apply json_str_streams|]. apply pe_part with (s := s); [exact A|].
  cbn. apply app_nil_r.
Qed.

Definition part : tree := TMap None [(txt "k", TSeq None [TInt U8 1; txt "a"""])].
Definition nest (p : tree) : tree :=
  TEnum None (lab "E") None (TRecord None (lab "V") None None [(None, label_new (bs "x"), TNull); (None, label_new (bs "y"), TMap None [(TInt U8 3, TSeq None [TBool true; p])])]).
Example C67_sample :
  let s := bs "{""k"":[1,""a\""""]}" in
  alone exact_print exact_print part = SOk s /\
  preencoded exact_print exact_print (nest part) (nest (json_tree None [(true, s)])) /\
  alone exact_print exact_print (nest (json_tree None [(true, s)])) = SOk (bs "{""V"":{""x"":null,""y"":{""3"":[true,{""k"":[1,""a\""""]}]}}}") /\
  json_to_vec exact_print exact_print (map CE (emit part)) = SOk s /\
  json_to_vec exact_print exact_print (map CE (emit (TMap None [(part, TNull)]))) = SErr EInvalidKey.
Proof.
  cbv zeta. split; [vm_compute; reflexivity|]. split; [|split; [vm_compute; reflexivity|split; vm_compute; reflexivity]].
  apply rt_step. unfold nest. apply pe_enum; [reflexivity|].
  apply (pe_record _ _ true None (lab "V") None None [(None, label_new (bs "x"), TNull)]).
  apply (pe_map _ _ None []); [reflexivity|reflexivity|].
  apply (pe_seq _ _ None [TBool true]). apply pe_part with (s := bs "{""k"":[1,""a\""""]}"); [vm_compute; reflexivity|reflexivity].
Qed.

Print Assumptions C67_vec_is_string.
Print Assumptions C67_any_map_value_can_be_encoded_ahead_refuted.
Print Assumptions C67_any_key_can_be_encoded_ahead_refuted.
Print Assumptions C67_parts_encoded_ahead_partial.
Print Assumptions C67_encoding_twice.
Print Assumptions C67_encoded_is_a_part.
