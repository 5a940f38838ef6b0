(** * JsonTextProps: the exact JSON text of a value (C20) *)

From Verif Require Import Base Event Tree LowerModel LowerSpec JsonModel JsonGrammar JsonSpec JsonProofs JsonImageProofs JsonProps JsonTextSpec JsonTextProofs.

Lemma ordinary_writable t : ordinary t -> writable t.
Proof.
  induction t using tree_ind'; cbn [ordinary writable]; intros O; auto.
  - destruct O as [-> O]. exact (IHt O).
  - destruct O as [V O]. auto.
  - induction H as [|v vs Hv HF IH]; [exact I|]. destruct O as [O1 O2]. split; [apply Hv, O1|apply IH, O2].
  - induction H as [|[k v] es [_ Hv] HF IH]; [exact I|]. destruct O as (K & O1 & O2). split; [exact K|split; [apply Hv, O1|apply IH, O2]].
  - induction H as [|[[ft fl] v] fs Hv HF IH]; [exact I|]. destruct O as (K & O1 & O2). split; [exact K|split; [apply Hv, O1|apply IH, O2]].
  - induction H as [|[[ft fi] v] fs Hv HF IH]; [exact I|]. destruct O as (O1 & O2). split; [apply Hv, O1|apply IH, O2].
  - induction H as [|[[[ft fl] fi] v] fs Hv HF IH]; [exact I|]. destruct O as (K & O1 & O2). split; [exact K|split; [apply Hv, O1|apply IH, O2]].
Qed.

(** Outside the shapes [safe] excludes, the text of a value is the compact text, byte
    for byte; values with texts that are numbers or JSON already included. *)
Theorem C20_compact_text_partial :
  forall r32 r64, json_printer r32 -> json_printer r64 ->
  forall v t, streams v t -> writable t -> safe t ->
  json_to_string r32 r64 v = SOk (compact r32 r64 false t).
Proof.
  intros r32 r64 P32 P64 v t H O S. rewrite (to_string_run _ _ _ _ H).
  destruct (outside r32 r64 t (all_text r32 r64 P32 P64 t) O S false true [] (or_introl eq_refl)) as (it & R).
  rewrite R. reflexivity.
Qed.

(** In particular a text that is a number: the number is written as it stands, without
    a plus sign or needless zeroes. *)
Corollary C24_number_text_exact_partial :
  forall r32 r64, json_printer r32 -> json_printer r64 ->
  forall v n fs, streams v (TTagged (Some NUMBER) None None (TText n fs)) ->
  number_text (frags_text fs) -> ~ zero_exp (frags_text fs) ->
  json_to_string r32 r64 v = SOk (number_out (frags_text fs)).
Proof.
  intros r32 r64 P32 P64 v n fs H Nu Nz.
  apply (C20_compact_text_partial r32 r64 P32 P64 v (TTagged (Some NUMBER) None None (TText n fs)) H).
  - exists (frags_text fs). auto.
  - intros _ s Q. injection Q as <-. exact Nz.
Qed.
Example C24_number_samples : map number_out [bs "+007.50"; bs "-000"; bs "-00.5e+03"; bs "-12E9"] = [bs "7.50"; bs "0"; bs "-0.5e+03"; bs "-12E9"].
Proof. reflexivity. Qed.
Example C20_raw_sample :
  let t := TSeq None [TTagged (Some JSON_VALUE) None None (TText None [(true, bs "[1,"); (false, bs " 2]")]);
                      TEnum None (lab "E") None (TTagged (Some JSON_TEXT) (lab "T") None (TText None [(true, bs "a\n")]));
                      TTagged (Some JSON_NUMBER) None None (TText None [(true, bs "1e2")])] in
  writable t /\ safe t /\ json_to_string exact_print exact_print (map CE (emit t)) = SOk (bs "[[1, 2],{""T"":""a\n""},1e2]").
Proof.
  cbv zeta. split; [|split].
  - repeat split; eexists; (split; [reflexivity|discriminate]).
  - repeat split; discriminate.
  - vm_compute. reflexivity.
Qed.

(** A record with a map keyed by unit variants, options, bytes and nested enums. *)
Definition text_sample : tree :=
  TRecord None (lab "R") None (Some 3%N)
    [ (None, label_new (bs "a"),
       TMap None
         [ (TEnum None (lab "K") None (TTag None (lab "U") None), TBin None [(true, bs "x"); (false, bs "y")]);
           (TInt U8 7, TF64 (S754_finite true 3 (-1))) ]);
      (None, label_with_tag (label_new (bs "b")) VALUE_IDENT,
       TEnum None (lab "E") None (TEnum None (lab "In") None
         (TTuple None (lab "T") None (Some 2%N) [(None, index_new 0, TBool true); (None, index_new 1, TNull)])));
      (None, label_new_computed (bs """"),
       TSeq None [TInt I128 (-2^127); TText None [(true, bs "a\"); (false, [ascii_of_N 10; ascii_of_N 31])]; TF32 S754_nan]) ].
Example C20_compact_sample : ordinary text_sample /\ safe text_sample /\
  json_to_string exact_print exact_print (map CE (emit text_sample)) =
  SOk (bs "{""a"":{""U"":[120,121],""7"":-15e-1},""b"":{""In"":{""T"":[true,null]}},""\"""":[-170141183460469231731687303715884105728,""a\\\n\u001f"",null]}").
Proof.
  assert (O : ordinary text_sample) by (cbn; repeat split; discriminate).
  assert (S : safe text_sample) by (cbn; repeat split).
  split; [exact O|split; [exact S|]].
  rewrite (C20_compact_text_partial _ _ exact_print_json exact_print_json _ text_sample); [vm_compute; reflexivity|apply FlatProofs.flat_CE_false|apply ordinary_writable, O|exact S].
Qed.

Print Assumptions C20_compact_text_partial.
Print Assumptions C24_number_text_exact_partial.
