(** * MinifyProps: reading a JSON text and writing it again (C71) *)

From Verif Require Import Base Event Tree LowerModel FlatProofs MethProofs LowerSpec JsonModel JsonGrammar JsonParse JsonSpec JsonNumProofs DataModel JsonProofs JsonImageProofs JsonProps JsonTextSpec JsonTextProofs JsonTextProps
  StackModel StackProps StackExactProps Utf8 ReaderModel ReaderSpec ReaderProofs ReaderProps ReaderFateSpec ReaderFateProofs ReaderFateProps MinifySpec MinifyProofs.

Section Again.
  Variable r32 r64 : float -> bytes.
  Notation same_run := (same_run r32 r64).
  Notation J := (run (meth json_over (json_step bytes string_write r32 r64))).
  Definition written_again (t : tree) : Prop :=
    exists t', same_run t t' /\ writable t' /\ safe t' /\ takes_name t' = false /\ compact r32 r64 false t' = again t.
  Lemma stands_again : forall t j, stands_for t j -> written_again t.
  Proof.
    fix IH 3. intros t j [| b | s m e Nu | t' s (fs & -> & Ef) | ts vs H | es ms H].
    - exists TNull. repeat split.
    - exists (TBool b). repeat split.
    - exists (TTagged (Some JSON_NUMBER) None None (TText (Some (blen s)) [(true, s)])).
      split; [intros f; apply number_run|]. split; [|split; [intros Q; discriminate Q|split; reflexivity]].
      exists (frags_text [(true, s)]). split; [reflexivity|discriminate].
    - exists (TText None fs). repeat split.
    - assert (X : exists ts', (forall f, J f (flat_map elem_calls ts) = J f (flat_map elem_calls ts')) /\
                    writable (TSeq None ts') /\ safe (TSeq None ts') /\ map (compact r32 r64 false) ts' = map again ts).
      { induction H as [|u v ts vs T Ts (ts' & R & Wr & Sf & Co)].
        - exists []. repeat split.
        - destruct (IH u v T) as (t' & R' & Wr' & Sf' & Tn & Co'). exists (t' :: ts'). split; [|split; [|split]].
          + cbn [flat_map]. unfold elem_calls at 1 3. apply same_app; [|exact R]. apply same_cons. apply same_app; [exact R'|reflexivity].
          + split; [exact Wr'|exact Wr].
          + split; [exact Sf'|exact Sf].
          + cbn [map]. rewrite Co', Co. reflexivity. }
      destruct X as (ts' & R & Wr & Sf & Co). exists (TSeq None ts'). split; [|split; [exact Wr|split; [exact Sf|split; [reflexivity|]]]].
      + intros f. rewrite !emit_seq. apply same_cons. apply same_app; [exact R|reflexivity].
      + cbn [compact again]. rewrite Co. reflexivity.
    - assert (X : exists es', (forall f, J f (flat_map entry_calls es) = J f (flat_map entry_calls es')) /\
                    writable (TMap None es') /\ safe (TMap None es') /\
                    map (fun kv : tree * tree => let (k, v) := kv in
                      member (match key_text r32 r64 false k with Some s => s | None => [] end) (compact r32 r64 false v)) es' = map pair_again es).
      { induction H as [|[k u] [s v] es ms [(fs & Ek & Ef) T] Ts (es' & R & Wr & Sf & Co)].
        - exists []. repeat split.
        - cbn [fst snd] in *. destruct (IH u v T) as (t' & R' & Wr' & Sf' & Tn & Co'). subst k. exists ((TText None fs, t') :: es'). split; [|split; [|split]].
          + cbn [flat_map]. unfold entry_calls at 1 3. cbn [fst snd]. apply same_app; [|exact R]. apply same_cons. apply same_app; [reflexivity|].
            apply same_cons, same_cons. apply same_app; [exact R'|reflexivity].
          + split; [discriminate|]. split; [exact Wr'|exact Wr].
          + split; [reflexivity|]. split; [exact Sf'|exact Sf].
          + cbn [map key_text pair_again again]. rewrite Co', Co. reflexivity. }
      destruct X as (es' & R & Wr & Sf & Co). exists (TMap None es'). split; [|split; [exact Wr|split; [exact Sf|split; [reflexivity|]]]].
      2: { cbn [compact again]. rewrite Co. reflexivity. }
      intros f. rewrite !emit_map. apply same_cons. apply same_app; [exact R|reflexivity].
  Qed.
End Again.

(** Written again, a text that was read is the text itself without the white space
    outside of its strings: byte for byte, numbers and escapes included. *)
Theorem C71_minified : forall r32 r64, json_printer r32 -> json_printer r64 ->
  forall s j, json_text s j -> fate_of s = Reads ->
  json_to_string r32 r64 (slice_calls s) = SOk (minify s).
Proof.
  intros r32 r64 P32 P64 s j T F. pose proof (all_fate s j T [] PRoot [] ltac:(split; reflexivity) I I) as X. rewrite app_nil_r in X. fold (fate_of s) in X.
  destruct X as [(N & _) | (_ & t & Sf & Sp & R)]; [congruence|].
  assert (E : from_slice s = (emit t, MOk tt)).
  { specialize (R [] (MOk tt)). cbn [pre app] in R. rewrite app_nil_r in R. apply from_slice_runs, R. exists 1. reflexivity. }
  destruct (stands_again r32 r64 t j Sf) as (t' & Rn & Wr & Sa & _ & Co). unfold slice_calls. rewrite E.
  rewrite (stripped_minify _ _ Sp), <- Co, <- (C20_compact_text_partial r32 r64 P32 P64 (map CE (emit t')) t' (flat_CE_false _) Wr Sa).
  rewrite (to_string_run _ _ _ t (flat_CE_false _)), (to_string_run _ _ _ t' (flat_CE_false _)), Rn. reflexivity.
Qed.
(** Any other text gives no JSON. *)
Lemma fails_unwritten r32 r64 es s : json_to_string r32 r64 (map CE es ++ [CFail]) <> SOk s.
Proof.
  unfold json_to_string, json_to_fmt. rewrite run_impl_meth, flat_app, flat_CE_false. cbn [flat flat1 fst snd]. rewrite app_nil_r.
  destruct (run _ _ es); cbn [bind]; discriminate.
Qed.
Theorem C71_written_iff_read : forall r32 r64, json_printer r32 -> json_printer r64 ->
  forall s j, json_text s j -> forall s',
  json_to_string r32 r64 (slice_calls s) = SOk s' <-> fate_of s = Reads /\ s' = minify s.
Proof.
  intros r32 r64 P32 P64 s j T s'. split.
  - intros E. destruct (fate_of s) eqn:F.
    + rewrite (C71_minified r32 r64 P32 P64 s j T F) in E. injection E as <-. auto.
    + exfalso. pose proof (C70_outcome s j T) as O. rewrite F in O. destruct O as (es & O). unfold slice_calls in E. rewrite O in E. exact (fails_unwritten _ _ _ _ E).
    + exfalso. pose proof (C70_outcome s j T) as O. rewrite F in O. destruct O as (es & O). unfold slice_calls in E. rewrite O in E. exact (fails_unwritten _ _ _ _ E).
  - intros (F & ->). exact (C71_minified r32 r64 P32 P64 s j T F).
Qed.

(** White space changes neither how reading ends nor the value; and once it is gone,
    reading and writing changes nothing. *)
Lemma piece_minify s : piece (minify_from LStr s) = piece s.
Proof.
  induction s as [|b s IH]; [reflexivity|]. cbn [minify_from piece]. destruct (N_of_ascii b =? 34)%N; [reflexivity|].
  destruct (N_of_ascii b =? 92)%N; [reflexivity|]. cbn [orb]. rewrite IH. reflexivity.
Qed.
Lemma ws_out ks b s : is_ws b = true -> fate_from LOut ks (b :: s) = fate_from LOut ks s.
Proof. intros W. apply (fate_ws ks [b] s). unfold ws. cbn [forallb]. rewrite W. reflexivity. Qed.
Lemma fate_minify_from s : forall l ks, fate_from l ks (minify_from l s) = fate_from l ks s.
Proof.
  induction s as [|b s IH]; intros l ks; [destruct l; reflexivity|]. destruct l; cbn [minify_from].
  - destruct (is_ws b) eqn:W; [rewrite (ws_out ks b s W); apply IH|]. cbn [fate_from].
    destruct (N_of_ascii b =? 69)%N; [reflexivity|]. destruct (N_of_ascii b =? 34)%N; [rewrite piece_minify, IH; reflexivity|].
    destruct (bracket b) as [o|]; [|apply IH]. destruct (counted_op ks o); [apply IH|reflexivity|reflexivity].
  - cbn [fate_from]. destruct (N_of_ascii b =? 34)%N; [apply IH|]. destruct (N_of_ascii b =? 92)%N; apply IH.
  - cbn [fate_from]. rewrite piece_minify, IH. reflexivity.
Qed.
Lemma minify_twice s : forall l, minify_from l (minify_from l s) = minify_from l s.
Proof.
  induction s as [|b s IH]; intros l; [reflexivity|]. destruct l; cbn [minify_from].
  - destruct (is_ws b) eqn:W; [apply IH|]. cbn [minify_from]. rewrite W, IH. reflexivity.
  - rewrite IH. reflexivity.
  - rewrite IH. reflexivity.
Qed.
Theorem C71_written_again_is_fixed : forall r32 r64, json_printer r32 -> json_printer r64 ->
  forall s j, json_text s j -> forall s', json_to_string r32 r64 (slice_calls s) = SOk s' ->
  json_text s' j /\ fate_of s' = Reads /\ json_to_string r32 r64 (slice_calls s') = SOk s'.
Proof.
  intros r32 r64 P32 P64 s j T s' E. pose proof E as E'. apply (C71_written_iff_read r32 r64 P32 P64 s j T) in E' as (F & ->).
  assert (T' : json_text (minify s) j).
  { pose proof (C70_outcome s j T) as O. rewrite F in O. destruct O as (t & Sf & O).
    destruct (C56_read_values_write r32 r64 P32 P64 (slice_calls s) t j) as (s2 & E2 & T2); [unfold slice_calls; rewrite O; apply flat_CE_false|exact Sf|].
    rewrite E in E2. injection E2 as <-. exact T2. }
  assert (F' : fate_of (minify s) = Reads) by (unfold fate_of, minify in *; rewrite fate_minify_from; exact F).
  split; [exact T'|]. split; [exact F'|]. rewrite (C71_minified r32 r64 P32 P64 _ j T' F'). unfold minify. rewrite minify_twice. reflexivity.
Qed.

(** Compact texts have no white space to lose: what is written for an ordinary value
    comes back as the same bytes, if it can be read at all. *)
Section Compact.
  Variable r32 r64 : float -> bytes.
  Hypothesis P32 : json_printer r32.
  Hypothesis P64 : json_printer r64.
  Definition solid (s : bytes) : Prop := stripped s s.
  Lemma solid_app a b : solid a -> solid b -> solid (a ++ b).
  Proof. apply stripped_app. Qed.
  Lemma solid_number s m e : json_number s m e -> solid s.
  Proof. intros (l & (Ok & _) & -> & _). apply num_stripped, lit_num, Ok. Qed.
  Lemma solid_commas xs : Forall solid xs -> solid (commas xs).
  Proof.
    induction 1 as [|x xs H HF IH]; [intros rest; reflexivity|]. destruct xs as [|y xs]; [exact H|].
    apply solid_app; [exact H|]. apply (solid_app (bs ",")); [apply stripped_plain; reflexivity|exact IH].
  Qed.
  Lemma solid_array xs : Forall solid xs -> solid (array xs).
  Proof. intros H. apply (solid_app (bs "[")); [apply stripped_plain; reflexivity|]. apply solid_app; [apply solid_commas, H|apply stripped_plain; reflexivity]. Qed.
  Lemma solid_object xs : Forall solid xs -> solid (object xs).
  Proof. intros H. apply (solid_app (bs "{")); [apply stripped_plain; reflexivity|]. apply solid_app; [apply solid_commas, H|apply stripped_plain; reflexivity]. Qed.
  Lemma solid_member k x : solid x -> solid (member k x).
  Proof. intros H. apply solid_app; [apply string_stripped|]. apply (solid_app (bs ":")); [apply stripped_plain; reflexivity|exact H]. Qed.
  Lemma solid_under inside l i x : solid x -> solid (under inside l i x).
  Proof. intros H. unfold under. destruct inside; [|exact H]. destruct (name_of l i); [|exact H]. apply solid_object. repeat constructor. apply solid_member, H. Qed.
  Lemma solid_float r f : json_printer r -> solid (float_key r f).
  Proof.
    intros P. unfold float_key. destruct (is_nan f || is_infinite f) eqn:E; [apply stripped_plain; reflexivity|].
    apply orb_false_iff in E as [E1 E2]. destruct (P f E1 E2) as (m & e & N). eapply solid_number, N.
  Qed.
  Lemma solid_dec z : solid (dec z).
  Proof. eapply solid_number, json_number_dec. Qed.
  Lemma compact_solid t : ordinary t -> forall inside, solid (compact r32 r64 inside t).
  Proof.
    induction t using tree_ind'; intros O inside; cbn [compact ordinary] in *.
    - apply stripped_plain; reflexivity.
    - destruct b; apply stripped_plain; reflexivity.
    - apply solid_dec.
    - apply solid_float, P32.
    - apply solid_float, P64.
    - apply string_stripped.
    - apply solid_array. rewrite Forall_map. apply Forall_forall. intros b _. apply solid_dec.
    - destruct (otag_is t RUST_OPTION_NONE); [apply stripped_plain; reflexivity|]. destruct l as [l|]; [apply string_stripped|].
      destruct i as [i|]; [match goal with |- context [if ?c then _ else _] => destruct c end; [apply solid_dec|]|]; apply stripped_plain; reflexivity.
    - apply IHt, O.
    - destruct O as [-> O]. apply solid_under, IHt, O.
    - apply solid_under, IHt, O.
    - apply solid_array. rewrite Forall_map. induction H as [|v vs Hv HF IH]; constructor; [apply Hv, O|apply IH, O].
    - apply solid_object. rewrite Forall_map. induction H as [|[k v] es [_ Hv] HF IH]; constructor; [apply solid_member, Hv, O|apply IH, O].
    - apply solid_under, solid_object. rewrite Forall_map. induction H as [|[[ft fl] v] fs Hv HF IH]; constructor; [apply solid_member, Hv, O|apply IH, O].
    - apply solid_under, solid_array. rewrite Forall_map. induction H as [|[[ft fi] v] fs Hv HF IH]; constructor; [apply Hv, O|apply IH, O].
    - apply solid_under, solid_object. rewrite Forall_map. induction H as [|[[[ft fl] fi] v] fs Hv HF IH]; constructor; [apply solid_member, Hv, O|apply IH, O].
  Qed.
End Compact.
Theorem C71_written_read_written : forall r32 r64, json_printer r32 -> json_printer r64 ->
  forall v t, streams v t -> ordinary t -> safe t ->
  forall s, json_to_string r32 r64 v = SOk s -> fate_of s = Reads ->
  json_to_string r32 r64 (slice_calls s) = SOk s.
Proof.
  intros r32 r64 P32 P64 v t H O Sa s E F.
  destruct (C20_ordinary_values_have_images r32 r64 P32 P64 t O false) as (j & Im).
  destruct (C20_json_denotes_value_partial r32 r64 P32 P64 v t j H Im Sa) as (s' & E' & T). rewrite E in E'. injection E' as <-.
  rewrite (C71_minified r32 r64 P32 P64 s j T F). f_equal.
  pose proof (C20_compact_text_partial r32 r64 P32 P64 v t H (ordinary_writable t O) Sa) as C. rewrite E in C. injection C as ->.
  apply stripped_minify, compact_solid; assumption.
Qed.

(** Spaces, a number with an exponent, escapes and white space in a string. *)
Definition spaced : bytes := bs " [ -2.50e+07 , ""\"" \n"" ] ".
Example C71_minified_case : (exists j, json_text spaced j) /\ fate_of spaced = Reads /\
  json_to_string exact_print exact_print (slice_calls spaced) = SOk (bs "[-2.50e+07,""\"" \n""]").
Proof.
  split; [|split; vm_compute; reflexivity]. eexists.
  apply (jt (bs " ") (bs "[" ++ ((bs " " ++ bs "-2.50e+07" ++ bs " ") ++ bs "," ++ (bs " " ++ quoted (bs "\"" \n") ++ bs " ")) ++ bs "]") (bs " ")); [reflexivity|reflexivity|].
  apply jv_arr, je_more; [|apply je_one]; (constructor; [reflexivity|reflexivity|]).
  - apply jv_num. exists (MkLit Minus (bs "2") (Some (bs "50")) (Some ("e"%char, Plus, bs "07"))).
    repeat split; try discriminate; auto. right. discriminate.
  - apply jv_str. reflexivity.
Qed.

Print Assumptions C71_minified.
Print Assumptions C71_written_iff_read.
Print Assumptions C71_written_again_is_fixed.
Print Assumptions C71_written_read_written.
