(** * JsonProps: the JSON text of a value (C20, C21, C23, C24, C26, C43) *)

From Verif Require Import Base Event Tree LowerModel LowerSpec FlatProofs LowerProofs MethProofs DecProofs
  DataModel JsonModel JsonGrammar JsonSpec JsonNumProofs JsonMethProofs JsonProofs JsonImageProofs JsonParse.

(** ** From a value to its calls *)
Lemma to_string_run r32 r64 v t : streams v t ->
  json_to_string r32 r64 v =
  match run (meth json_over (json_step bytes string_write r32 r64)) (st false true []) (emit t) with
  | Ok f => SOk (f_out f)
  | Err f => SErr (match f_err f with Some e => e | None => EGeneric end)
  | Panic => SPanic
  end.
Proof.
  intros H. unfold json_to_string, json_to_fmt. rewrite run_impl_meth.
  unfold streams in H. rewrite !H. cbn [fst snd].
  change (fm_new bytes []) with (st false true []).
  set (r := run (meth json_over (json_step bytes string_write r32 r64)) (st false true []) (emit t)).
  destruct r; reflexivity.
Qed.

(** ** C20 *)

(** The full claim. *)
Definition C20_json_denotes_value : Prop :=
  forall r32 r64, json_printer r32 -> json_printer r64 ->
  forall v t j, streams v t -> image r32 r64 false t j ->
  exists s, json_to_string r32 r64 v = SOk s /\ json_text s j.

(** The claim outside the four shapes [safe] excludes. *)
Theorem C20_json_denotes_value_partial :
  forall r32 r64, json_printer r32 -> json_printer r64 ->
  forall v t j, streams v t -> image r32 r64 false t j -> safe t ->
  exists s, json_to_string r32 r64 v = SOk s /\ json_text s j.
Proof.
  intros r32 r64 P32 P64 v t j H I S. rewrite (to_string_run _ _ _ _ H).
  destruct (all_write r32 r64 P32 P64 t false j I S false true [] (or_introl eq_refl)) as (s & it & R & T & _).
  rewrite R. exists s. split; [reflexivity|]. cbn [closer andb] in T. rewrite app_nil_r in T. exact T.
Qed.

(** A JSON text stands for one value, numbers compared by value. *)
Theorem C20_json_text_has_one_value :
  forall s j j', json_text s j -> json_text s j' -> jv_eq j j'.
Proof. exact text_value_unique. Qed.

(** Every ordinary value has an image. *)
Lemma key_text_some r32 r64 q32 q64 k : forall inside,
  key_text q32 q64 inside k <> None -> exists s, key_text r32 r64 inside k = Some s.
Proof.
  induction k using tree_ind'; intros inside H'; cbn [key_text] in *; eauto; try congruence.
  - destruct (otag_is t RUST_OPTION_NONE); [eauto|]. destruct (name_of l i); eauto.
  - destruct (is_raw t || inside && is_named l i); [congruence|eauto].
  - destruct (negb (is_variant k) || inside && is_named l i); [congruence|eauto].
Qed.
Lemma ex_under {A B} (f : A -> B) (P : A -> Prop) : (exists a, P a) -> exists b a, b = f a /\ P a.
Proof. intros (a & H). eauto. Qed.
Theorem C20_ordinary_values_have_images :
  forall r32 r64, json_printer r32 -> json_printer r64 ->
  forall t, ordinary t -> forall inside, exists j, image r32 r64 inside t j.
Proof.
  intros r32 r64 P32 P64.
  assert (F : forall r f, json_printer r -> exists j, float_image r f j).
  { intros r f P. unfold float_image. destruct (is_nan f) eqn:N; [exists JNull; reflexivity|].
    destruct (is_infinite f) eqn:I; [exists JNull; reflexivity|]. cbn [orb]. destruct (P f N I) as (m & e & X). eauto 6. }
  induction t using tree_ind'; intros O inside; cbn [image ordinary] in *; eauto.
  - destruct O as (-> & O). destruct (IHt O false) as (c & C). eauto.
  - destruct O as (V & O). destruct (IHt O true) as (c & C). eauto 6.
  - apply ex_under.
    induction H as [|v vs Hv Hvs IH]; [exists []; exact I|].
    destruct O as (O1 & O2). destruct (Hv O1 false) as (j & J). destruct (IH O2) as (js & Js). exists (j :: js). auto.
  - apply ex_under.
    induction H as [|[k v] es (_ & Hv) Hvs IH]; [exists []; exact I|]. cbn [fst snd] in *.
    destruct O as (K & O1 & O2). destruct (key_text_some r32 r64 _ _ _ _ K) as (s & Ks).
    destruct (Hv O1 false) as (j & J). destruct (IH O2) as (js & Js). exists ((s, j) :: js). auto.
  - apply ex_under.
    induction H as [|[[? lb] v] es Hv Hvs IH]; [exists []; exact I|]. cbn [fst snd] in *.
    destruct O as (K & O1 & O2).
    destruct (Hv O1 false) as (j & J). destruct (IH O2) as (js & Js). exists ((l_text lb, j) :: js). auto.
  - apply ex_under.
    induction H as [|[[? ix] v] es Hv Hvs IH]; [exists []; exact I|]. cbn [fst snd] in *.
    destruct O as (O1 & O2).
    destruct (Hv O1 false) as (j & J). destruct (IH O2) as (js & Js). exists (j :: js). auto.
  - apply ex_under.
    induction H as [|[[[? lb] ix] v] es Hv Hvs IH]; [exists []; exact I|]. cbn [fst snd] in *.
    destruct O as (K & O1 & O2).
    destruct (Hv O1 false) as (j & J). destruct (IH O2) as (js & Js). exists ((l_text lb, j) :: js). auto.
Qed.

(** An exact printer: [m * 2^e] as an integer, or as [m * 5^k] times [10^-k]. *)
Definition exact_print (f : float) : bytes :=
  match f with
  | S754_finite s m (Zneg k) => dec (cond_Zopp s (Zpos m * 5 ^ Zpos k)) ++ bs "e-" ++ dec_N (Npos k)
  | S754_finite s m e => dec (cond_Zopp s (Zpos m * 2 ^ e))
  | _ => bs "0.0"
  end.
Lemma exact_print_json : json_printer exact_print.
Proof.
  intros [s|s| |s m e] N I; try discriminate.
  - exists 0%Z, (-1)%Z. exists (MkLit NoSign (bs "0") (Some (bs "0")) None).
    split; [split; [|split; [discriminate|left; reflexivity]]|split; reflexivity].
    repeat split; discriminate.
  - destruct e as [|k|k]; cbn [exact_print]; [do 2 eexists; apply json_number_dec..|].
    set (z := cond_Zopp s (Zpos m * 5 ^ Zpos k)). do 2 eexists.
    exists (MkLit (if (z <? 0)%Z then Minus else NoSign) (dec_N (Z.abs_N z)) None (Some ("e"%char, Minus, dec_N (Npos k)))).
    split; [|split; [|apply dec_eq_refl]].
    + split; [|split].
      * split; [apply dec_N_digits1|split; [exact Logic.I|split; [left; reflexivity|apply dec_N_digits1]]].
      * cbn. destruct (z <? 0)%Z; discriminate.
      * apply canonical_json, dec_N_canonical.
    + unfold lit_text, dec. cbn [lt_sign lt_int lt_frac lt_exp frac_text exp_text app].
      destruct (z <? 0)%Z; reflexivity.
Qed.

(** A value with most shapes in it: nested enums, an enum key, bytes, a number as
    text, a big integer, a float. *)
Definition lab (s : string) : option label := Some (label_new (bs s)).
Definition txt (s : string) : tree := TText (Some (blen (bs s))) [(true, bs s)].
Definition json_sample : tree :=
  TRecord None (lab "R") None (Some 4%N)
    [ (None, label_new (bs "a"),
       TMap None
         [ (TEnum None (lab "K") None (TTag None (lab "U") None), TBin None [(true, bs "x"); (false, bs "y")]);
           (TInt U8 7, TF64 (S754_finite true 3 (-1))) ]);
      (Some NUMBER, label_with_tag (label_new (bs "b")) VALUE_IDENT,
       TEnum None (lab "E") None (TEnum None (lab "In") None
         (TTuple None (lab "T") None (Some 2%N)
           [(None, index_new 0, TTagged (Some NUMBER) None None (TText None [(false, bs "-00"); (true, bs "7.50e+3")]));
            (None, index_new 1, TNull)])));
      (None, label_new_computed (bs """"),
       TSeq None [TInt I128 (-2^127); TText None [(true, bs "a\"); (false, [ascii_of_N 10; ascii_of_N 31])]; TF32 S754_nan]);
      (None, label_new (bs "o"), TEnum None None None (TTag (Some RUST_OPTION_NONE) (lab "None") None)) ].
Definition json_sample_image : jv :=
  JObj
    [ (bs "a", JObj [(bs "U", JArr [JNum 120 0; JNum 121 0]); (bs "7", JNum (-15) (-1))]);
      (bs "b", JObj [(bs "In", JObj [(bs "T", JArr [JNum (-750) 1; JNull])])]);
      (bs """", JArr [JNum (-2^127) 0; JStr (bs "a\" ++ [ascii_of_N 10; ascii_of_N 31]); JNull]);
      (bs "o", JNull) ].

Example C20_sample_image : image exact_print exact_print false json_sample json_sample_image.
Proof.
  cbn [image json_sample].
  eexists; split; [reflexivity|]. split; [reflexivity|split; [reflexivity|split]].
  { eexists; split; [reflexivity|]. split; [reflexivity|split; [reflexivity|]]. split; [reflexivity|split; [|exact I]].
    cbn. exists (-15)%Z, (-1)%Z. split; [|reflexivity].
    exists (MkLit Minus (bs "15") None (Some ("e"%char, Minus, bs "1"))). split; [|split; vm_compute; reflexivity].
    split; [repeat split; try discriminate; auto|split; [discriminate|right; discriminate]]. }
  split; [reflexivity|split; [reflexivity|split]].
  { split; [reflexivity|]. eexists; split; [reflexivity|]. split; [reflexivity|]. eexists; split; [reflexivity|].
    eexists; split; [reflexivity|]. split; [|split; [reflexivity|exact I]]. eexists; split; [reflexivity|].
    cbn. eexists; split; [reflexivity|].
    exists (MkLit Minus (bs "007") (Some (bs "50")) (Some ("e"%char, Plus, bs "3"))).
    split; [repeat split; try discriminate; auto|split; reflexivity]. }
  split; [reflexivity|split; [reflexivity|split]].
  { eexists; split; [reflexivity|]. repeat split. }
  split; [reflexivity|split; [reflexivity|split; [|exact I]]].
  split; [reflexivity|]. eexists; split; reflexivity.
Qed.
Example C20_sample_safe : safe json_sample.
Proof.
  cbn. repeat split. intros _ s [= <-] (l & Ok & E & Z & F & _).
  pose proof (parse_lit_text l Ok) as P. rewrite <- E in P. vm_compute in P. injection P as <-. discriminate.
Qed.
Example C20_sample_text :
  json_to_string exact_print exact_print (map CE (emit json_sample)) =
  SOk (bs "{""a"":{""U"":[120,121],""7"":-15e-1},""b"":{""In"":{""T"":[-7.50e+3,null]}},""\"""":[-170141183460469231731687303715884105728,""a\\\n\u001f"",null],""o"":null}").
Proof. vm_compute. reflexivity. Qed.

(** The four shapes. *)
Ltac not_json_text := intros (s & E & T); vm_compute in E; injection E as <-; revert T; apply not_json; vm_compute; reflexivity.

(** An enum key leaks its name state into the labelled value that follows: one
    closing brace is missing. *)
Definition leak_tree : tree :=
  TMap None [(TEnum None (lab "E") None (TTag None (lab "A") None),
              TRecord None (lab "S") None None [(None, label_new (bs "x"), TInt U8 1)])].
Definition leak_image : jv := JObj [(bs "A", JObj [(bs "x", JNum 1 0)])].
Example leak_text : json_to_string exact_print exact_print (map CE (emit leak_tree)) = SOk (bs "{""A"":{""S"":{""x"":1}}").
Proof. vm_compute. reflexivity. Qed.
Theorem C20_json_denotes_value_refuted : ~ C20_json_denotes_value.
Proof.
  intros H. specialize (H exact_print exact_print exact_print_json exact_print_json (map CE (emit leak_tree)) leak_tree leak_image).
  assert (X : exists s, json_to_string exact_print exact_print (map CE (emit leak_tree)) = SOk s /\ json_text s leak_image).
  { apply H; [apply flat_CE_false|]. cbn. eexists; split; [reflexivity|]. split; [reflexivity|split; [|exact I]].
    eexists; split; [reflexivity|]. repeat split. }
  clear H. revert X. not_json_text.
Qed.
(** A zero with an exponent loses its digit. *)
Definition zero_exp_tree : tree := TTagged (Some NUMBER) None None (txt "0e5").
Example C20_zero_exponent_fails :
  image exact_print exact_print false zero_exp_tree (JNum 0 5) /\
  ~ (exists s, json_to_string exact_print exact_print (map CE (emit zero_exp_tree)) = SOk s /\ json_text s (JNum 0 5)).
Proof.
  split; [|not_json_text]. exists (JNum 0 5). split; [reflexivity|]. cbn. eexists; split; [reflexivity|].
  exists (MkLit NoSign (bs "0") None (Some ("e"%char, NoSign, bs "5"))). repeat split; try discriminate; auto.
Qed.
(** A named number variant is taken for a map key. *)
Definition named_number_tree : tree :=
  TEnum None (lab "E") None (TTagged (Some NUMBER) (lab "N") None (txt "1")).
Example C20_named_number_fails :
  image exact_print exact_print false named_number_tree (JObj [(bs "N", JNum 1 0)]) /\
  json_to_string exact_print exact_print (map CE (emit named_number_tree)) = SErr EInvalidKey.
Proof.
  split; [|vm_compute; reflexivity]. split; [reflexivity|]. eexists; split; [reflexivity|].
  exists (JNum 1 0). split; [reflexivity|]. cbn. eexists; split; [reflexivity|].
  exists (MkLit NoSign (bs "1") None None). repeat split; try discriminate; auto.
Qed.
(** An unnamed enum inside an enum closes a brace too many. *)
Definition unnamed_enum_tree : tree :=
  TEnum None (lab "E") None (TEnum None None None (TTagged None (lab "N") None (TInt U8 1))).
Example C20_unnamed_enum_fails :
  image exact_print exact_print false unnamed_enum_tree (JObj [(bs "N", JNum 1 0)]) /\
  ~ (exists s, json_to_string exact_print exact_print (map CE (emit unnamed_enum_tree)) = SOk s /\
               json_text s (JObj [(bs "N", JNum 1 0)])).
Proof.
  split; [|not_json_text].
  split; [reflexivity|]. eexists; split; [reflexivity|]. split; [reflexivity|]. eexists; split; [reflexivity|].
  exists (JNum 1 0). split; reflexivity.
Qed.

(** ** C21 *)

Lemma esc_no_control s : Forall (fun b => (32 <= N_of_ascii b)%N) (esc s).
Proof.
  induction s as [|b s IH]; [constructor|]. change (esc (b :: s)) with (escb b ++ esc s).
  apply Forall_app. split; [|exact IH].
  apply Forall_forall. intros c I. apply N.leb_le.
  assert (X : forallb (fun c => (32 <=? N_of_ascii c)%N) (escb b) = true)
    by (destruct b as [[] [] [] [] [] [] [] []]; vm_compute; reflexivity).
  rewrite forallb_forall in X. apply X, I.
Qed.

(** Whatever the text and its fragments: one JSON string, decoding to the text. *)
Theorem C21_strings_round_trip :
  forall r32 r64 v n fs, streams v (TText n fs) ->
  exists body, json_to_string r32 r64 v = SOk (quoted body) /\
    unescape body = Some (List.concat (map snd fs)) /\
    Forall (fun b => (32 <= N_of_ascii b)%N) body.
Proof.
  intros r32 r64 v n fs H. rewrite (to_string_run _ _ _ _ H), text_run. exists (esc (frags_text fs)).
  split; [reflexivity|split; [apply unescape_esc|apply esc_no_control]].
Qed.
(** Field labels, whatever bytes they have, are written as strings decoding to them. *)
Theorem C21_labels_round_trip :
  forall r32 r64 v t l i n ft fl z, otag_is (l_tag fl) VALUE_IDENT = false ->
  streams v (TRecord t l i n [(ft, fl, TInt I64 z)]) ->
  exists body, json_to_string r32 r64 v = SOk (bs "{" ++ quoted body ++ bs ":" ++ dec z ++ bs "}") /\
    unescape body = Some (l_text fl).
Proof.
  intros r32 r64 v t l i n ft fl z T H. rewrite (to_string_run _ _ _ _ H). exists (esc (l_text fl)).
  split; [|apply unescape_esc]. cbn [emit flat_map app].
  rewrite run_cons, jm_over by reflexivity. cbn [json_step]. unfold j_record_begin. rewrite itb_skip by (left; reflexivity).
  cbn [bind]. unfold j_map_begin. cbn [f_tq set_it st]. rewrite put_pure. cbn [bind].
  rewrite run_cons, jm_over by reflexivity. cbn [json_step]. unfold j_record_value_begin. cbn [f_cde set_it set_out set_cde st bind].
  rewrite put_pure. cbn [bind]. rewrite T. cbn [f_out set_out]. rewrite escape_str_pure. cbn [lift bind]. rewrite put_pure. cbn [bind].
  rewrite run_cons, jm_over by reflexivity. cbn [json_step]. unfold j_int. rewrite put_pure. cbn [bind].
  rewrite run_cons, jm_record_val_end. cbn [bind]. rewrite run_one, jm_over by reflexivity. cbn [json_step]. unfold j_record_end, j_map_end.
  rewrite put_pure. cbn [bind]. rewrite ite. unfold quoted.
  cbv beta iota zeta delta [set_out set_it set_cde set_tq set_th set_err st f_it f_cde f_tq f_th f_err f_out].
  f_equal. rewrite <- !app_assoc. reflexivity.
Qed.
Example C21_sample :
  streams [CE (ETextBegin None); CE (ETextFrag (bs "a""\" ++ [ascii_of_N 0])); CVC [CE (ETextFrag (bs "/é"))]; CE ETextEnd]
    (TText None [(true, bs "a""\" ++ [ascii_of_N 0]); (false, bs "/é")]) /\
  json_to_string exact_print exact_print
    [CE (ETextBegin None); CE (ETextFrag (bs "a""\" ++ [ascii_of_N 0])); CVC [CE (ETextFrag (bs "/é"))]; CE ETextEnd] =
  SOk (bs """a\""\\\u0000/é""").
Proof. split; vm_compute; reflexivity. Qed.

(** ** C23 *)

Theorem C23_integers_exact :
  forall r32 r64 v ty z, streams v (TInt ty z) ->
  json_to_string r32 r64 v = SOk (dec z) /\ numeral_val (dec z) = Some z /\ json_number (dec z) z 0.
Proof.
  intros r32 r64 v ty z H. rewrite (to_string_run _ _ _ _ H). cbn [emit]. rewrite run_one, jm_over by reflexivity.
  cbn [json_step]. unfold j_int. rewrite put_pure.
  split; [reflexivity|split; [apply numeral_val_dec|apply json_number_dec]].
Qed.
Theorem C23_nonfinite_floats_are_null :
  forall r32 r64 v f, streams v (TF32 f) \/ streams v (TF64 f) ->
  is_nan f = true \/ is_infinite f = true -> json_to_string r32 r64 v = SOk (bs "null").
Proof.
  intros r32 r64 v f H N. assert (X : is_nan f || is_infinite f = true) by (apply orb_true_iff, N).
  destruct H as [H|H]; rewrite (to_string_run _ _ _ _ H); cbn [emit]; rewrite run_one, jm_over by reflexivity;
    cbn [json_step]; unfold j_float; rewrite X; reflexivity.
Qed.
Theorem C23_finite_floats_are_printed :
  forall r32 r64 v f, is_nan f = false -> is_infinite f = false ->
  (streams v (TF32 f) -> json_to_string r32 r64 v = SOk (r32 f)) /\
  (streams v (TF64 f) -> json_to_string r32 r64 v = SOk (r64 f)).
Proof.
  intros r32 r64 v f N I.
  split; intros H; rewrite (to_string_run _ _ _ _ H); cbn [emit]; rewrite run_one, jm_over by reflexivity;
    cbn [json_step]; unfold j_float; rewrite N, I; reflexivity.
Qed.
Example C23_samples :
  json_to_string exact_print exact_print [CE (EInt U128 (2^128 - 1))] = SOk (bs "340282366920938463463374607431768211455") /\
  json_to_string exact_print exact_print [CV [CE (EInt I8 (-128))]] = SOk (bs "-128") /\
  json_to_string exact_print exact_print [CE (EF64 (S754_infinity true))] = SOk (bs "null") /\
  json_to_string exact_print exact_print [CE (EF32 (S754_finite false 3 (-2)))] = SOk (bs "75e-2") /\
  json_to_string exact_print exact_print (map CE (emit (TMap None [(TInt U8 3, TNull); (TF64 S754_nan, TNull)]))) =
    SOk (bs "{""3"":null,""null"":null}").
Proof. vm_compute. auto. Qed.

(** ** C24 *)

(** The full claim: a text in the documented grammar, however it is cut, becomes a
    JSON number of the same value. *)
Definition C24_number_text_becomes_number : Prop :=
  forall r32 r64 v w l, streams v (TTagged (Some NUMBER) None None w) -> lit_ok l -> text_of w = Some (lit_text l) ->
  exists s, json_to_string r32 r64 v = SOk s /\ json_number s (lit_m l) (lit_e l).

(** Literals are the documented grammar. *)
Theorem C24_literals_are_the_documented_grammar :
  forall s, number_text s <-> exists l, lit_ok l /\ s = lit_text l.
Proof. exact number_text_lit. Qed.

Theorem C24_number_text_becomes_number_partial :
  forall r32 r64 v w l, streams v (TTagged (Some NUMBER) None None w) -> lit_ok l -> text_of w = Some (lit_text l) ->
  ~ zero_exp (lit_text l) ->
  exists s, json_to_string r32 r64 v = SOk s /\ json_number s (lit_m l) (lit_e l).
Proof.
  intros r32 r64 v w l H Ok Tx Nz. rewrite (to_string_run _ _ _ _ H).
  destruct (text_of_run r32 r64 _ _ Tx) as (n & fs & Fs & Rv).
  destruct (nbs_lit l 0 Ok Nz) as (h & o & Hn & Ho).
  exists (lit_text (norm_lit l)).
  split; [|exists (norm_lit l); split; [apply norm_lit_json, Ok|split; [reflexivity|apply norm_lit_val; assumption]]].
  cbn [emit]. rewrite run_cons, jm_over by reflexivity. cbn [json_step]. unfold j_tagged_begin. cbv zeta.
  change (otag_is (Some NUMBER) JSON_TEXT) with false. change (otag_is (Some NUMBER) JSON_VALUE) with false.
  change (otag_is (Some NUMBER) NUMBER) with true. cbv iota.
  cbn [f_th set_tq st]. rewrite itb_skip by (left; reflexivity). cbn [bind].
  rewrite run_app, Rv, run_cons, jm_over by reflexivity. cbn [json_step]. unfold j_text_begin. cbn [f_tq set_cde set_it set_th set_tq bind].
  rewrite run_app.
  rewrite (frag_run_number _ _ fs _ (MkNum true false 0 false) h o) by (try reflexivity; rewrite Fs; exact Hn).
  cbn [bind]. rewrite run_one, jm_over by reflexivity. cbn [json_step]. unfold j_text_end. cbn [f_tq set_cde set_it set_th set_tq set_out bind].
  rewrite run_one, jm_over by reflexivity. cbn [json_step]. unfold j_tagged_end.
  change (otag_is (Some NUMBER) JSON_TEXT) with false. change (otag_is (Some NUMBER) JSON_VALUE) with false.
  change (otag_is (Some NUMBER) NUMBER) with true. cbv iota zeta. cbn [f_th set_tq set_th]. unfold num_end. rewrite <- Ho.
  destruct (n_start h); reflexivity || (rewrite app_nil_r; reflexivity).
Qed.
Theorem C24_number_text_becomes_number_refuted : ~ C24_number_text_becomes_number.
Proof.
  intros H. destruct (H exact_print exact_print (map CE (emit zero_exp_tree)) (txt "0e5")
    (MkLit NoSign (bs "0") None (Some ("e"%char, NoSign, bs "5")))) as (s & E & T).
  - apply flat_CE_false.
  - repeat split; try discriminate; auto.
  - reflexivity.
  - vm_compute in E. injection E as <-. apply jv_num, jt_value in T. revert T. apply not_json. vm_compute. reflexivity.
Qed.
(** "[snan], [nan], [inf] in any casing should write [null]" ([json/src/to_fmt.rs:629]). *)
Definition sign_or_zero (c : byte) : bool := let n := N_of_ascii c in (n =? 48)%N || (n =? 43)%N || (n =? 45)%N.
Definition nan_letter (c : byte) : bool := existsb (Ascii.eqb c) (bs "sniSNI").
Lemma nan_letter_cases c : nan_letter c = true ->
  let n := N_of_ascii c in
  (n =? 48)%N = false /\ ((48 <=? n)%N && (n <=? 57)%N) = false /\ (n =? 46)%N = false /\ (n =? 45)%N = false /\ (n =? 43)%N = false /\
  ((n =? 115)%N || (n =? 110)%N || (n =? 105)%N || (n =? 83)%N || (n =? 78)%N || (n =? 73)%N) = true.
Proof.
  unfold nan_letter. cbn [existsb bs]. intros H.
  repeat (apply orb_true_iff in H as [H|H]; [apply Ascii.eqb_eq in H; subst c; vm_compute; repeat split|]). discriminate H.
Qed.
Lemma num_loop_signs p : forall rest h a w, n_start h = true -> forallb sign_or_zero p = true -> exists h', n_start h' = true /\ n_nan h' = n_nan h /\
  num_loop bytes string_write (p ++ rest) h a a w = num_loop bytes string_write rest h' (a + List.length p) (a + List.length p) w.
Proof.
  induction p as [|c p IH]; intros rest h a w Hs F.
  - exists h. rewrite Nat.add_0_r. auto.
  - cbn [forallb] in F. apply andb_true_iff in F as (F1 & F2). cbn [app num_loop List.length]. cbv zeta. rewrite Hs, !andb_true_r.
    unfold sign_or_zero in F1. cbv zeta in F1.
    replace (a + S (List.length p)) with (S a + List.length p) by lia.
    destruct (N_of_ascii c =? 48)%N eqn:E0.
    { destruct (IH rest (MkNum true (n_neg h) (n_zeroes h + 1) (n_nan h)) (S a) w eq_refl F2) as (h' & A & B & C). eauto. }
    destruct (N_of_ascii c =? 43)%N eqn:E1.
    { apply N.eqb_eq in E1. rewrite E1. cbn [N.eqb Pos.eqb N.leb N.compare Pos.compare Pos.compare_cont andb].
      destruct (IH rest h (S a) w Hs F2) as (h' & A & B & C). eauto. }
    cbn [orb] in F1. rewrite F1. apply N.eqb_eq in F1. rewrite F1. cbn [N.eqb Pos.eqb N.leb N.compare Pos.compare Pos.compare_cont andb].
    destruct (IH rest (MkNum true true (n_zeroes h) (n_nan h)) (S a) w eq_refl F2) as (h' & A & B & C). eauto.
Qed.
Lemma num_loop_letter c rest h a b w : nan_letter c = true ->
  num_loop bytes string_write (c :: rest) h a b w = Ok (MkNum false (n_neg h) (n_zeroes h) true, 0, 0, w ++ bs "null").
Proof.
  intros H. apply nan_letter_cases in H as (H0 & H1 & H2 & H3 & H4 & H5). cbn [num_loop]. cbv zeta. rewrite H0, H1, H2, H3, H4. cbn [andb]. rewrite H5. reflexivity.
Qed.
Lemma boundary_end v : char_boundary v (List.length v) = true.
Proof.
  unfold char_boundary. destruct (List.length v) as [|n] eqn:E; [reflexivity|].
  assert (X : nth_error v (S n) = None) by (apply nth_error_None; lia). rewrite X. apply Nat.eqb_refl.
Qed.
Lemma slice_empty v n : char_boundary v n = true -> str_slice v n n = Some [].
Proof. intros H. unfold str_slice. rewrite Nat.leb_refl, H, Nat.sub_diag. reflexivity. Qed.
Lemma nan_run r32 r64 fs : forall f h, f_th f = Some (HNumber h) -> n_nan h = true ->
  run (meth json_over (json_step bytes string_write r32 r64)) f (map text_frag fs) = Ok f.
Proof.
  induction fs as [|[b s] fs IH]; intros f h Hf Hn; [reflexivity|]. cbn [map]. rewrite run_cons.
  assert (E : meth json_over (json_step bytes string_write r32 r64) f (text_frag (b, s)) = text_fragment_computed bytes string_write s f).
  { unfold text_frag; destruct b; cbn [fst snd]; [apply jm_text_frag|rewrite jm_over by reflexivity; reflexivity]. }
  rewrite E. unfold text_fragment_computed, num_fragment. rewrite Hf, Hn. cbn [bind].
  assert (X : set_th bytes (Some (HNumber h)) (set_out bytes (f_out f) f) = f) by (destruct f; cbn in *; subst; reflexivity). rewrite X.
  eapply IH; eassumption.
Qed.
Lemma nonfinite_run r32 r64 fs : forall f h p c r, f_th f = Some (HNumber h) -> n_start h = true -> n_nan h = false ->
  frags_text fs = p ++ c :: r -> forallb sign_or_zero p = true -> nan_letter c = true ->
  exists h', n_start h' = false /\
  run (meth json_over (json_step bytes string_write r32 r64)) f (map text_frag fs) =
    Ok (set_th bytes (Some (HNumber h')) (set_out bytes (f_out f ++ bs "null") f)).
Proof.
  induction fs as [|[b s] fs IH]; intros f h p c r Hf Hs Hn E P C; [destruct p; discriminate E|].
  cbn [map]. rewrite run_cons.
  assert (E' : meth json_over (json_step bytes string_write r32 r64) f (text_frag (b, s)) = text_fragment_computed bytes string_write s f).
  { unfold text_frag; destruct b; cbn [fst snd]; [apply jm_text_frag|rewrite jm_over by reflexivity; reflexivity]. }
  rewrite E'. unfold frags_text in E. cbn [map List.concat snd] in E. fold (frags_text fs) in E.
  unfold text_fragment_computed, num_fragment. rewrite Hf, Hn.
  assert (K : (exists q, s = p ++ c :: q) \/ (exists q, p = s ++ q /\ frags_text fs = q ++ c :: r)).
  { clear -E. revert p E. induction s as [|x s IH]; intros p E; cbn in E; [right; exists p; auto|].
    destruct p as [|y p]; cbn in E; injection E as -> E; [left; exists s; reflexivity|].
    destruct (IH _ E) as [(q & ->)|(q & -> & F)]; [left; exists q; reflexivity|right; exists q; auto]. }
  destruct K as [(q & ->)|(q & -> & Eq)].
  - destruct (num_loop_signs p (c :: q) h 0 (f_out f) Hs P) as (h' & A & B & L). rewrite L, num_loop_letter by exact C.
    rewrite slice_empty by reflexivity. cbn [string_write bind]. rewrite app_nil_r.
    eexists. split; [|eapply nan_run; reflexivity]. reflexivity.
  - rewrite forallb_app in P. apply andb_true_iff in P as (P1 & P2).
    destruct (num_loop_signs s [] h 0 (f_out f) Hs P1) as (h' & A & B & L). rewrite app_nil_r in L. rewrite L. cbn [num_loop Nat.add].
    rewrite slice_empty by apply boundary_end. cbn [string_write bind]. rewrite app_nil_r.
    match goal with |- exists _, _ /\ run _ ?g _ = _ => destruct (IH g h' q c r) as (h2 & S2 & R2) end;
      [reflexivity|exact A|congruence|exact Eq|exact P2|exact C|]. exists h2. split; [exact S2|]. rewrite R2. destruct f; reflexivity.
Qed.
Theorem C24_nonfinite_text_is_null :
  forall r32 r64 v w p c r, streams v (TTagged (Some NUMBER) None None w) -> text_of w = Some (p ++ c :: r) ->
  forallb sign_or_zero p = true -> nan_letter c = true ->
  json_to_string r32 r64 v = SOk (bs "null").
Proof.
  intros r32 r64 v w p c r H Tx P C. rewrite (to_string_run _ _ _ _ H).
  destruct (text_of_run r32 r64 _ _ Tx) as (n & fs & Fs & Rv).
  cbn [emit]. rewrite run_cons, jm_over by reflexivity. cbn [json_step]. unfold j_tagged_begin. cbv zeta.
  change (otag_is (Some NUMBER) JSON_TEXT) with false. change (otag_is (Some NUMBER) JSON_VALUE) with false.
  change (otag_is (Some NUMBER) NUMBER) with true. cbv iota.
  cbn [f_th set_tq st]. rewrite itb_skip by (left; reflexivity). cbn [bind].
  rewrite run_app, Rv, run_cons, jm_over by reflexivity. cbn [json_step]. unfold j_text_begin. cbn [f_tq set_cde set_it set_th set_tq bind].
  rewrite run_app.
  match goal with |- context [run _ ?g (map text_frag fs)] => destruct (nonfinite_run r32 r64 fs g (MkNum true false 0 false) p c r) as (h' & A & R) end;
    [reflexivity|reflexivity|reflexivity|exact Fs|exact P|exact C|]. rewrite R.
  cbn [bind]. rewrite run_one, jm_over by reflexivity. cbn [json_step]. unfold j_text_end. cbn [f_tq set_cde set_it set_th set_tq set_out bind].
  rewrite run_one, jm_over by reflexivity. cbn [json_step]. unfold j_tagged_end.
  change (otag_is (Some NUMBER) JSON_TEXT) with false. change (otag_is (Some NUMBER) JSON_VALUE) with false.
  change (otag_is (Some NUMBER) NUMBER) with true. cbv iota zeta. cbn [f_th set_tq set_th]. unfold num_end. rewrite A. reflexivity.
Qed.
Lemma num_loop_digits ds : forall rest h a b w, n_neg h = false -> forallb is_digit ds = true -> exists h' a' b', n_neg h' = false /\
  num_loop bytes string_write (ds ++ rest) h a b w = num_loop bytes string_write rest h' a' b' w.
Proof.
  induction ds as [|c ds IH]; intros rest h a b w Hs F; [eauto|]. cbn [forallb] in F. apply andb_true_iff in F as (F1 & F2).
  cbn [app num_loop]. cbv zeta. unfold is_digit in F1. cbv zeta in F1. rewrite F1, Hs, andb_false_r.
  destruct ((N_of_ascii c =? 48)%N && n_start h); apply IH; auto.
Qed.
(** An unsigned text in one piece: what came before the letters is dropped. *)
Theorem C24_letters_after_digits_are_null :
  forall r32 r64 v b ds c r, streams v (TTagged (Some NUMBER) None None (TText None [(b, ds ++ c :: r)])) ->
  forallb is_digit ds = true -> nan_letter c = true ->
  json_to_string r32 r64 v = SOk (bs "null").
Proof.
  intros r32 r64 v b ds c r H P C. rewrite (to_string_run _ _ _ _ H).
  cbn [emit map]. rewrite run_cons, jm_over by reflexivity. cbn [json_step]. unfold j_tagged_begin. cbv zeta.
  change (otag_is (Some NUMBER) JSON_TEXT) with false. change (otag_is (Some NUMBER) JSON_VALUE) with false.
  change (otag_is (Some NUMBER) NUMBER) with true. cbv iota.
  cbn [f_th set_tq st]. rewrite itb_skip by (left; reflexivity). cbn [bind].
  cbn [app]. rewrite run_cons, jm_over by reflexivity. cbn [json_step]. unfold j_text_begin. cbn [f_tq set_cde set_it set_th set_tq bind].
  rewrite run_cons.
  assert (E' : forall f s, meth json_over (json_step bytes string_write r32 r64) f (text_frag (b, s)) = text_fragment_computed bytes string_write s f).
  { intros f s. unfold text_frag; destruct b; cbn [fst snd]; [apply jm_text_frag|rewrite jm_over by reflexivity; reflexivity]. }
  rewrite E'. unfold text_fragment_computed at 1. cbn [f_th set_cde set_it set_th handler_number f_out]. unfold num_fragment. cbn [n_nan].
  destruct (num_loop_digits ds (c :: r) (MkNum true false 0 false) 0 0 [] eq_refl P) as (h' & a' & b' & A & L).
  change (f_out (set_tq bytes false (st false true []))) with (@nil ascii). rewrite L, num_loop_letter by exact C.
  rewrite slice_empty by reflexivity. cbn [string_write bind]. rewrite app_nil_r.
  rewrite run_cons, jm_over by reflexivity. cbn [json_step]. unfold j_text_end. cbn [f_tq set_cde set_it set_th set_tq set_out bind].
  rewrite run_one, jm_over by reflexivity. reflexivity.
Qed.
Example C24_nonfinite_samples :
  json_to_string exact_print exact_print (map CE (emit (TTagged (Some NUMBER) None None (TText None [(false, bs "-"); (true, bs "Inf")])))) = SOk (bs "null") /\
  nan_letter "I"%char = true /\ forallb sign_or_zero (bs "-") = true /\
  json_to_string exact_print exact_print (map CE (emit (TTagged (Some NUMBER) None None (TText None [(true, bs "12nan")])))) = SOk (bs "null").
Proof. vm_compute. repeat split. Qed.
(** The second half of the claim: other texts never break JSON. *)
Definition C24_other_text_is_json : Prop :=
  forall r32 r64 v w, streams v (TTagged (Some NUMBER) None None w) -> text_of w <> None ->
  exists s j, json_to_string r32 r64 v = SOk s /\ json_text s j.
(** Two words do, and so does "nan" after a digit in another fragment. *)
Theorem C24_other_text_is_json_refuted : ~ C24_other_text_is_json.
Proof.
  intros H. destruct (H exact_print exact_print (map CE (emit (TTagged (Some NUMBER) None None
    (TText None [(true, bs "1"); (true, bs "nan")])))) (TText None [(true, bs "1"); (true, bs "nan")])) as (s & j & E & T).
  - apply flat_CE_false.
  - discriminate.
  - vm_compute in E. injection E as <-. revert T. apply not_json. vm_compute. reflexivity.
Qed.
(** Not a number, no sign, no fraction: [é0] makes the formatter panic (a slice off a
    character boundary). *)
Theorem C24_other_text_panics :
  json_to_string exact_print exact_print
    (map CE (emit (TTagged (Some NUMBER) None None (TText None [(true, [ascii_of_N 195; ascii_of_N 169] ++ bs "0")])))) = SPanic.
Proof. vm_compute. reflexivity. Qed.
Example C24_sample :
  json_to_string exact_print exact_print
    (map CE (emit (TTagged (Some NUMBER) None None (THint CONSTANT_SIZE (TText None [(true, bs "-0"); (false, bs "0"); (true, bs ".50E"); (true, bs "+07")]))))) =
  SOk (bs "-0.50E+07").
Proof. vm_compute. reflexivity. Qed.

(** ** C26 *)

Section Enums.
  Variable r32 r64 : float -> bytes.
  Hypothesis P32 : json_printer r32.
  Hypothesis P64 : json_printer r64.
  Notation image := (image r32 r64).

  (** A unit variant is its label, as a string. *)
  Theorem C26_unit_variant :
    forall v t l i t' l' i', streams v (TEnum t l i (TTag t' (Some l') i')) -> otag_is t' RUST_OPTION_NONE = false ->
    exists s, json_to_string r32 r64 v = SOk s /\ json_text s (JStr (l_text l')).
  Proof.
    intros v t l i t' l' i' H N. apply (C20_json_denotes_value_partial r32 r64 P32 P64 _ _ _ H).
    - split; [reflexivity|]. exists (JStr (l_text l')). split; [reflexivity|]. cbn. unfold tag_image. rewrite N. reflexivity.
    - cbn. destruct (is_named l i); auto.
  Qed.
  (** A variant with one unnamed value. *)
  Theorem C26_newtype_variant :
    forall v t l i t' l' i' w c, streams v (TEnum t l i (TTagged t' (Some l') i' w)) ->
    is_raw t' = false -> image false w c -> safe w ->
    exists s, json_to_string r32 r64 v = SOk s /\ json_text s (JObj [(l_text l', c)]).
  Proof.
    intros v t l i t' l' i' w c H N I S. apply (C20_json_denotes_value_partial r32 r64 P32 P64 _ _ _ H).
    - split; [reflexivity|]. exists (JObj [(l_text l', c)]). split; [reflexivity|]. cbn. rewrite N. exists c. auto.
    - cbn. rewrite N. auto.
  Qed.
  (** A variant with unnamed fields. *)
  Theorem C26_tuple_variant :
    forall v t l i t' l' i' n fs cs, streams v (TEnum t l i (TTuple t' (Some l') i' n fs)) ->
    Forall2 (fun f c => image false (snd f) c /\ safe (snd f)) fs cs ->
    exists s, json_to_string r32 r64 v = SOk s /\ json_text s (JObj [(l_text l', JArr cs)]).
  Proof.
    intros v t l i t' l' i' n fs cs H F. apply (C20_json_denotes_value_partial r32 r64 P32 P64 _ _ _ H).
    - split; [reflexivity|]. exists (JObj [(l_text l', JArr cs)]). split; [reflexivity|]. exists cs. split; [reflexivity|].
      clear H. induction F as [|[[? ?] w] c fs cs (I & S) F IH]; [exact Logic.I|]. split; [exact I|exact IH].
    - cbn. split; [|auto]. clear H. induction F as [|[[? ?] w] c fs cs (I & S) F IH]; [exact Logic.I|]. split; [exact S|exact IH].
  Qed.
  (** A variant with named fields. *)
  Theorem C26_record_variant :
    forall v t l i t' l' i' n fs cs, streams v (TEnum t l i (TRecord t' (Some l') i' n fs)) ->
    Forall2 (fun f c => ident_ok (snd (fst f)) = true /\ image false (snd f) c /\ safe (snd f)) fs cs ->
    exists s, json_to_string r32 r64 v = SOk s /\
      json_text s (JObj [(l_text l', JObj (combine (map (fun f => l_text (snd (fst f))) fs) cs))]).
  Proof.
    intros v t l i t' l' i' n fs cs H F. apply (C20_json_denotes_value_partial r32 r64 P32 P64 _ _ _ H).
    - split; [reflexivity|]. eexists. split; [reflexivity|]. eexists. split; [reflexivity|].
      clear H. induction F as [|[[? ?] w] c fs cs (Id & I & S) F IH]; [exact Logic.I|]. cbn. auto.
    - cbn. split; [|auto]. clear H. induction F as [|[[? ?] w] c fs cs (Id & I & S) F IH]; [exact Logic.I|]. split; [exact S|exact IH].
  Qed.
  (** Without a label or index the variant is its content. *)
  Theorem C26_unnamed_variant :
    forall v t l i t' w c, streams v (TEnum t l i (TTagged t' None None w)) ->
    is_raw t' = false -> image false w c -> safe w ->
    exists s, json_to_string r32 r64 v = SOk s /\ json_text s c.
  Proof.
    intros v t l i t' w c H N I S. apply (C20_json_denotes_value_partial r32 r64 P32 P64 _ _ _ H).
    - split; [reflexivity|]. exists c. split; [reflexivity|]. cbn. rewrite N. exists c. auto.
    - cbn. rewrite N. rewrite ?andb_false_r. auto.
  Qed.
  (** A named enum inside an enum. *)
  Theorem C26_nested_enum :
    forall v t l i t' l' i' w c, streams v (TEnum t l i (TEnum t' (Some l') i' w)) ->
    is_variant w = true -> image true w c -> safe (TEnum t' (Some l') i' w) ->
    exists s, json_to_string r32 r64 v = SOk s /\ json_text s (JObj [(l_text l', c)]).
  Proof.
    intros v t l i t' l' i' w c H V I S. apply (C20_json_denotes_value_partial r32 r64 P32 P64 _ _ _ H).
    - split; [reflexivity|]. exists (JObj [(l_text l', c)]). split; [reflexivity|]. split; [exact V|]. exists c. auto.
    - cbn in S |- *. tauto.
  Qed.
End Enums.

(** The claim for every variant, at any place in a value, is the image of
    JsonSpec.v; it fails for the shapes of C20. *)
Definition C26_enums_externally_tagged : Prop :=
  forall r32 r64, json_printer r32 -> json_printer r64 ->
  forall v t l i w j, streams v (TEnum t l i w) -> is_variant w = true -> image r32 r64 true w j ->
  exists s, json_to_string r32 r64 v = SOk s /\ json_text s j.
Theorem C26_enums_externally_tagged_refuted : ~ C26_enums_externally_tagged.
Proof.
  intros H. destruct (C20_unnamed_enum_fails) as (_ & N). apply N.
  apply (H _ _ exact_print_json exact_print_json _ None (lab "E") None
           (TEnum None None None (TTagged None (lab "N") None (TInt U8 1)))).
  - apply flat_CE_false.
  - reflexivity.
  - split; [reflexivity|]. eexists; split; [reflexivity|]. exists (JNum 1 0). split; reflexivity.
Qed.
Theorem C26_enums_externally_tagged_partial :
  forall r32 r64, json_printer r32 -> json_printer r64 ->
  forall v t l i w j, streams v (TEnum t l i w) -> is_variant w = true -> image r32 r64 true w j ->
  safe w -> named_unquoted w = false -> unnamed_enum_of_named w = false ->
  exists s, json_to_string r32 r64 v = SOk s /\ json_text s j.
Proof.
  intros r32 r64 P32 P64 v t l i w j H V I S N U. apply (C20_json_denotes_value_partial r32 r64 P32 P64 _ _ _ H).
  - split; [exact V|]. exists j. auto.
  - split; [exact S|auto].
Qed.
Example C26_samples :
  json_to_string exact_print exact_print (map CE (emit (TSeq None
    [TEnum None (lab "E") None (TTag None (lab "A") (Some (index_new 0)));
     TEnum None (lab "E") None (TTagged None (lab "B") None (TInt U8 1));
     TEnum None (lab "E") None (TTuple None (lab "C") None None [(None, index_new 0, TNull)]);
     TEnum None (lab "E") None (TRecord None (lab "D") None None [(None, label_new (bs "x"), TBool true)]);
     TEnum None (lab "E") None (TTagged None None None (TInt U8 1));
     TEnum None (lab "E") None (TTagged None None (Some (index_new 4)) TNull)]))) =
  SOk (bs "[""A"",{""B"":1},{""C"":[null]},{""D"":{""x"":true}},1,{""4"":null}]").
Proof. vm_compute. reflexivity. Qed.

(** ** C43 *)

(** A text tagged as a JSON value, with or without a label, is written byte for byte;
    one tagged as JSON text, byte for byte between quotes. *)
Theorem C43_json_value_verbatim :
  forall r32 r64 v l i w s, streams v (TTagged (Some JSON_VALUE) l i w) -> text_of w = Some s ->
  json_to_string r32 r64 v = SOk s.
Proof.
  intros r32 r64 v l i w s H Tx. rewrite (to_string_run _ _ _ _ H).
  destruct (text_of_run r32 r64 _ _ Tx) as (n & fs & Fs & Rv).
  cbn [emit]. rewrite run_cons, jm_over by reflexivity. cbn [json_step]. unfold j_tagged_begin. cbv zeta.
  change (otag_is (Some JSON_VALUE) JSON_TEXT) with false. change (otag_is (Some JSON_VALUE) JSON_VALUE) with true. cbv iota.
  rewrite itb_skip by (left; reflexivity). cbn [bind].
  rewrite run_app, Rv, run_cons, jm_over by reflexivity. cbn [json_step]. unfold j_text_begin. cbn [f_tq set_cde set_it set_th set_tq st bind].
  rewrite run_app, frag_run_native by reflexivity. cbn [bind].
  rewrite run_one, jm_over by reflexivity. cbn [json_step]. unfold j_text_end. cbn [f_tq set_cde set_it set_th set_tq set_out bind].
  rewrite run_one, jm_over by reflexivity. cbn [json_step]. unfold j_tagged_end.
  change (otag_is (Some JSON_VALUE) JSON_TEXT) with false. change (otag_is (Some JSON_VALUE) JSON_VALUE) with true. cbv iota.
  cbn [bind f_cde set_cde set_it set_th set_tq set_out]. rewrite ite, Fs. reflexivity.
Qed.
Theorem C43_json_text_verbatim :
  forall r32 r64 v l i w s, streams v (TTagged (Some JSON_TEXT) l i w) -> text_of w = Some s ->
  json_to_string r32 r64 v = SOk (quoted s).
Proof.
  intros r32 r64 v l i w s H Tx. rewrite (to_string_run _ _ _ _ H).
  destruct (text_of_run r32 r64 _ _ Tx) as (n & fs & Fs & Rv).
  cbn [emit]. rewrite run_cons, jm_over by reflexivity. cbn [json_step]. unfold j_tagged_begin. cbv zeta.
  change (otag_is (Some JSON_TEXT) JSON_TEXT) with true. cbv iota.
  rewrite itb_skip by (left; reflexivity). cbn [bind].
  rewrite run_app, Rv, run_cons, jm_over by reflexivity. cbn [json_step]. unfold j_text_begin. cbn [f_tq set_cde set_it set_th set_tq st bind].
  rewrite put_pure. cbn [bind].
  rewrite run_app, frag_run_native by reflexivity. cbn [bind].
  rewrite run_one, jm_over by reflexivity. cbn [json_step]. unfold j_text_end. cbn [f_tq set_cde set_it set_th set_tq set_out st bind].
  rewrite put_pure. cbn [bind].
  rewrite run_one, jm_over by reflexivity. cbn [json_step]. unfold j_tagged_end.
  change (otag_is (Some JSON_TEXT) JSON_TEXT) with true. cbv iota.
  cbn [bind f_cde set_cde set_it set_th set_tq set_out]. rewrite ite, Fs.
  unfold quoted. cbn. rewrite <- ?app_assoc. reflexivity.
Qed.
Example C43_sample :
  json_to_string exact_print exact_print (map CE (emit (TSeq None
    [TTagged (Some JSON_VALUE) None None (TText None [(true, bs "{""a"" : "); (false, bs "[1]}")]);
     TTagged (Some JSON_TEXT) None None (txt "A")]))) = SOk (bs "[{""a"" : [1]},""A""]").
Proof. vm_compute. reflexivity. Qed.

Print Assumptions C20_json_denotes_value_partial.
Print Assumptions C20_json_text_has_one_value.
Print Assumptions C20_ordinary_values_have_images.
Print Assumptions C20_json_denotes_value_refuted.
Print Assumptions C21_strings_round_trip.
Print Assumptions C21_labels_round_trip.
Print Assumptions C23_integers_exact.
Print Assumptions C23_nonfinite_floats_are_null.
Print Assumptions C23_finite_floats_are_printed.
Print Assumptions C24_literals_are_the_documented_grammar.
Print Assumptions C24_number_text_becomes_number_partial.
Print Assumptions C24_number_text_becomes_number_refuted.
Print Assumptions C24_other_text_is_json_refuted.
Print Assumptions C24_nonfinite_text_is_null.
Print Assumptions C24_letters_after_digits_are_null.
Print Assumptions C26_enums_externally_tagged_refuted.
Print Assumptions C26_enums_externally_tagged_partial.
Print Assumptions C43_json_value_verbatim.
Print Assumptions C43_json_text_verbatim.
