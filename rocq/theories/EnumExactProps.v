(** * EnumExactProps: exactly what an enum is written as, whatever it holds (C26) *)

From Verif Require Import Base Event Tree LowerModel MethProofs LowerSpec JsonModel JsonGrammar JsonParse JsonSpec JsonMethProofs JsonProofs JsonProps JsonLocalProofs JsonLocalProps
  JsonTextSpec JsonTextProofs WrittenSpec EntryProps.

(** ** Specification

    Whether the last thing written had a name.  [x]: what was so before.  Plain
    values do not count, containers without a name count as what they end with. *)
Fixpoint ends_named (x : bool) (v : tree) : bool :=
  match v with
  | TNull | TBool _ | TInt _ _ | TF32 _ | TF64 _ | TText _ _ => x
  | TBin _ fs => match frags_text fs with [] => x | _ => false end
  | TTag _ _ _ => false
  | THint _ v => ends_named x v
  | TTagged _ l i _ | TRecord _ l i _ _ | TTuple _ l i _ _ | TRecTup _ l i _ _ => is_named l i
  | TEnum _ l i v => ends_named true v || is_named l i
  | TSeq _ vs => fold_left (fun _ v => ends_named false v) vs x
  | TMap _ es => fold_left (fun _ kv => match kv with (k, v) => ends_named (ends_named false k) v end) es x
  end.
(** A text and a brace after it. *)
Definition closed (b : bool) (r : sresult) : sresult :=
  match r with SOk s => SOk (s ++ if b then bs "}" else []) | _ => r end.

(** ** Proofs *)
Section Proofs.
  Variable r32 r64 : float -> bytes.
  Notation step := (json_step bytes string_write r32 r64).
  Notation jm := (meth json_over step).
  Notation J := (run jm).

  Definition same_flag (op : fm bytes -> res (fm bytes)) : Prop := forall f g, op f = Ok g -> f_it g = f_it f.
  Lemma put_flag s : same_flag (put bytes string_write s).
  Proof. intros f g. rewrite put_pure. intros [= <-]. reflexivity. Qed.
  Lemma text_flag s : same_flag (text_fragment_computed bytes string_write s).
  Proof.
    intros f g. unfold text_fragment_computed. destruct (f_th f) as [[|n]|].
    - apply put_flag.
    - destruct (num_fragment _ _ s n (f_out f)) as [[n1 w]|[n1 w]|]; [intros [= <-]; reflexivity|discriminate|discriminate].
    - rewrite escape_str_pure. intros [= <-]. reflexivity.
  Qed.
  Lemma begin_flag b s : same_flag (fun f => if f_tq f then put bytes string_write s (set_cde bytes b f) else invalid_key bytes f).
  Proof. intros f g. destruct (f_tq f); [|discriminate]. intros H. apply put_flag in H. exact H. Qed.
  Lemma seq_val_flag f g : j_seq_value_begin bytes string_write f = Ok g -> f_it g = false.
  Proof. unfold j_seq_value_begin. cbv zeta. cbn [f_cde set_it]. destruct (f_cde f); [intros [= <-]; reflexivity|]. intros H. apply put_flag in H. exact H. Qed.
  Lemma key_flag f g : j_map_key_begin bytes string_write f = Ok g -> f_it g = false.
  Proof. unfold j_map_key_begin. cbv zeta. destruct (f_cde _); intros H; apply put_flag in H; exact H. Qed.
  Lemma key_end_flag : same_flag (j_map_key_end bytes string_write).
  Proof. intros f g. unfold j_map_key_end. rewrite put_pure. cbn [bind]. intros [= <-]. reflexivity. Qed.
  Lemma ite_flag l i f g : internally_tagged_end bytes l i f = Ok g -> f_it g = is_named l i.
  Proof. unfold internally_tagged_end. intros [= <-]. cbn [f_it set_it]. unfold is_named. rewrite index_i64_named. destruct l; [reflexivity|]. destruct (index_i64 i); reflexivity. Qed.
  Lemma end_flag s l i f g : (put bytes string_write s (set_cde bytes false f) >>= internally_tagged_end bytes l i) = Ok g -> f_it g = is_named l i.
  Proof. intros H. apply bind_inv in H as (h & _ & H). eapply ite_flag, H. Qed.

  Lemma flag_after v : forall f g, J f (emit v) = Ok g -> f_it g = ends_named (f_it f) v.
  Proof.
    induction v using tree_ind'; intros q g R; cbn [emit ends_named] in *.
    1-5: rewrite run_one, jm_over in R by reflexivity; cbn [json_step] in R; unfold j_null, j_bool, j_int, j_float in R; cbv zeta in R;
      try match type of R with context [if ?b then j_null _ _ _ else _] => destruct b end; try unfold j_null in R; apply put_flag in R; exact R.
    - rewrite run_cons in R. apply bind_inv in R as (h & R1 & R2). rewrite jm_over in R1 by reflexivity. cbn [json_step] in R1.
      apply run_inv in R2 as (h2 & R2 & R3). rewrite jm_over in R3 by reflexivity. cbn [json_step] in R3.
      assert (A : f_it h = f_it q). { unfold j_text_begin in R1. cbv zeta in R1. cbn [f_tq set_cde] in R1. destruct (f_tq q); [apply put_flag in R1; exact R1|injection R1 as <-; reflexivity]. }
      assert (B : f_it g = f_it h2). { unfold j_text_end in R3. destruct (f_tq h2); [apply put_flag in R3; exact R3|injection R3 as <-; reflexivity]. }
      rewrite B, <- A. clear - R2. revert h R2. induction fs as [|[b s] fs IH]; intros h R; cbn [map] in R; [injection R as <-; reflexivity|].
      rewrite run_cons in R. apply bind_inv in R as (h1 & R1 & R2). rewrite (IH _ R2).
      unfold text_frag in R1; destruct b; cbn [fst snd] in R1; [rewrite jm_text_frag in R1|rewrite jm_over in R1 by reflexivity]; apply text_flag in R1; exact R1.
    - rewrite run_cons in R. apply bind_inv in R as (h & R1 & R2). rewrite jm_bin_begin in R1.
      apply run_inv in R2 as (h2 & R2 & R3). rewrite jm_bin_end in R3. rewrite bin_blocks in R2.
      apply (begin_flag true (bs "[")) in R1. apply put_flag in R3. cbn [f_it set_cde] in R3. rewrite R3. rewrite <- R1. clear - R2.
      revert h R2. induction (frags_text fs) as [|b s IH]; intros h R; cbn [map List.concat app] in R; [injection R as <-; reflexivity|].
      rewrite !run_cons in R. apply bind_inv in R as (h1 & A & R). apply bind_inv in R as (h3 & B & R). apply bind_inv in R as (h4 & C & R).
      rewrite jm_over in A, B, C by reflexivity. cbn [json_step] in A, B, C. apply seq_val_flag in A. apply put_flag in B. injection C as <-. cbn [f_it set_cde] in B.
      rewrite (IH _ R). destruct s; congruence.
    - rewrite run_one, jm_over in R by reflexivity. cbn [json_step] in R. unfold j_tag in R. cbv zeta in R.
      assert (N : forall f g, j_null bytes string_write f = Ok g -> f_it g = f_it f) by (intros ? ? X; apply put_flag in X; exact X).
      destruct (otag_is t RUST_OPTION_NONE); [apply N in R; exact R|]. destruct l as [l|].
      + unfold j_str in R. apply bind_inv in R as (h & R1 & R2). apply bind_inv in R1 as (h2 & R1 & R3). unfold j_text_begin in R1. cbv zeta in R1. cbn [f_tq set_cde set_it] in R1.
        apply text_flag in R3. unfold j_text_end in R2.
        assert (E : f_it h2 = false) by (destruct (f_tq q); [apply put_flag in R1; exact R1|injection R1 as <-; reflexivity]).
        destruct (f_tq h); [apply put_flag in R2|injection R2 as <-]; congruence.
      + destruct (index_i64 i); [apply put_flag in R; exact R|apply N in R; exact R].
    - rewrite run_cons, jm_hint in R. apply IHv, R.
    - rewrite run_cons in R. apply bind_inv in R as (h & R1 & R2). apply run_inv in R2 as (h2 & R2 & R3). rewrite jm_over in R3 by reflexivity. cbn [json_step] in R3.
      unfold j_tagged_end in R3. apply bind_inv in R3 as (h3 & _ & R3). apply bind_inv in R3 as (h4 & _ & R3). eapply ite_flag, R3.
    - rewrite run_cons in R. apply bind_inv in R as (h & R1 & R2). apply run_inv in R2 as (h2 & R2 & R3). rewrite jm_over in R1, R3 by reflexivity. cbn [json_step] in R1, R3.
      unfold j_enum_begin in R1. apply bind_inv in R1 as (h0 & _ & R1). injection R1 as <-.
      pose proof (all_settle r32 r64 v _ _ R2) as (_ & C). apply IHv in R2. cbn [f_it set_cde set_it] in R2. unfold j_enum_end in R3. rewrite C in R3. cbn [bind] in R3. rewrite R2 in R3.
      destruct (ends_named true v); [apply put_flag in R3; cbn [f_it set_cde] in R3; rewrite R3; exact R2|]. eapply ite_flag, R3.
    - rewrite run_cons in R. apply bind_inv in R as (h & R1 & R2). apply run_inv in R2 as (h2 & R2 & R3). rewrite jm_over in R1, R3 by reflexivity. cbn [json_step] in R1, R3.
      apply (begin_flag true (bs "[")) in R1. apply put_flag in R3. cbn [f_it set_cde] in R3. rewrite R3, <- R1. clear - R2 H.
      revert h R2. induction vs as [|v vs IH]; intros h R; cbn [flat_map fold_left app] in *; [injection R as <-; reflexivity|].
      inversion_clear H as [|? ? P Q]. rewrite run_cons in R. apply bind_inv in R as (h1 & A & R). rewrite <- app_assoc, run_app in R. apply bind_inv in R as (h3 & B & R).
      cbn [app] in R. rewrite run_cons in R. apply bind_inv in R as (h4 & C & R). rewrite jm_over in A, C by reflexivity. cbn [json_step] in A, C. apply seq_val_flag in A. injection C as <-.
      apply P in B. rewrite A in B. rewrite (IH Q _ R), B. reflexivity.
    - rewrite run_cons in R. apply bind_inv in R as (h & R1 & R2). apply run_inv in R2 as (h2 & R2 & R3). rewrite jm_over in R1, R3 by reflexivity. cbn [json_step] in R1, R3.
      apply (begin_flag true (bs "{")) in R1. apply put_flag in R3. cbn [f_it set_cde] in R3. rewrite R3, <- R1. clear - R2 H.
      revert h R2. induction es as [|[k v] es IH]; intros h R; cbn [flat_map fold_left fst snd] in *; [injection R as <-; reflexivity|].
      inversion_clear H as [|? ? [Pk Pv] Q]. cbn [fst snd] in Pk, Pv. cbn [app] in R. rewrite <- !app_assoc in R. rewrite run_cons in R. apply bind_inv in R as (h1 & A & R). rewrite run_app in R. apply bind_inv in R as (h3 & B & R).
      cbn [app] in R. rewrite !run_cons in R. apply bind_inv in R as (h4 & C & R). apply bind_inv in R as (h5 & D & R). rewrite <- app_assoc, run_app in R. apply bind_inv in R as (h6 & E & R).
      cbn [app] in R. rewrite run_cons in R. apply bind_inv in R as (h7 & F & R). rewrite jm_over in A, C, D, F by reflexivity. cbn [json_step] in A, C, D, F.
      apply key_flag in A. apply key_end_flag in C. injection D as <-. injection F as <-. apply Pk in B. apply Pv in E. rewrite (IH Q _ R), E, C, B, A. reflexivity.
    - rewrite run_cons in R. apply bind_inv in R as (h & _ & R). apply run_inv in R as (h2 & _ & R). rewrite jm_over in R by reflexivity. apply (end_flag (bs "}")) in R. exact R.
    - rewrite run_cons in R. apply bind_inv in R as (h & _ & R). apply run_inv in R as (h2 & _ & R). rewrite jm_over in R by reflexivity. apply (end_flag (bs "]")) in R. exact R.
    - rewrite run_cons in R. apply bind_inv in R as (h & _ & R). apply run_inv in R as (h2 & _ & R). rewrite jm_rectup_end in R. apply (end_flag (bs "}")) in R. exact R.
  Qed.

  (** A value where names are written. *)
  Lemma named_value x cde out : nameless x = false ->
    match alone r32 r64 x with
    | SOk s => J (st true cde out) (emit x) = Ok (st (ends_named true x) false (out ++ name_before x ++ s))
    | SErr e => exists g, J (st true cde out) (emit x) = Err g /\ err_of g = e
    | SPanic => J (st true cde out) (emit x) = Panic
    end.
  Proof.
    intros N.
    assert (Y : yields r32 r64 (st true cde out) (emit x) (out ++ name_before x) (alone r32 r64 x)).
    { destruct (takes_name x) eqn:T.
      - destruct (opens r32 r64 x cde out T N) as (c & E). unfold yields. rewrite E. apply (local r32 r64).
      - rewrite (no_name x T), app_nil_r. apply local_it. exact T. }
    unfold yields in Y. destruct (alone r32 r64 x); [|exact Y|exact Y]. destruct Y as (it & Y).
    pose proof (flag_after x _ _ Y) as F. cbn [f_it st] in F. rewrite Y, F, <- app_assoc. reflexivity.
  Qed.
End Proofs.

(** ** What every enum is written as

    What it holds, after its name if it has one, and a brace if what was written
    last had a name.  A number or a piece of JSON with a name of its own cannot be
    written there. *)
Theorem C26_enum_exactly :
  forall r32 r64 v t l i x, streams v (TEnum t l i x) ->
  json_to_string r32 r64 v =
  if nameless x then SErr EInvalidKey else closed (ends_named true x) (after (name_before x) (alone r32 r64 x)).
Proof.
  intros r32 r64 v t l i x H. rewrite (to_string_alone _ _ _ _ H), alone_run. cbn [emit]. rewrite run_cons, jm_over by reflexivity. cbn [json_step]. unfold j_enum_begin.
  rewrite itb_skip by (left; reflexivity). cbn [bind]. change (set_cde bytes true (set_it bytes true (set_it bytes false (st false true [])))) with (st true true []). rewrite run_app.
  destruct (nameless x) eqn:N.
  { destruct (cannot_open r32 r64 x true [] N) as (g & -> & E). cbn [bind sres]. unfold err_of. rewrite E. reflexivity. }
  pose proof (named_value r32 r64 x true [] N) as X. destruct (alone r32 r64 x) as [s|e|]; cbn [after closed].
  - rewrite X. cbn [bind app]. rewrite run_one, jm_over by reflexivity. cbn [json_step]. unfold j_enum_end. cbn [f_cde st bind f_it].
    destruct (ends_named true x).
    + unfold j_map_end. rewrite put_pure. reflexivity.
    + rewrite app_nil_r. reflexivity.
  - destruct X as (g & -> & <-). reflexivity.
  - rewrite X. reflexivity.
Qed.
(** So it is what C26 says exactly if the brace after it belongs to the name before
    it: for every content that can be written. *)
Theorem C26_enums_externally_tagged_exactly :
  forall r32 r64 v t l i x s, streams v (TEnum t l i x) -> alone r32 r64 x = SOk s ->
  (json_to_string r32 r64 v = SOk (name_before x ++ s ++ if takes_name x then bs "}" else []) <->
   nameless x = false /\ ends_named true x = takes_name x).
Proof.
  intros r32 r64 v t l i x s H A. rewrite (C26_enum_exactly _ _ _ _ _ _ _ H), A. destruct (nameless x); [split; [discriminate|intros [X _]; discriminate X]|].
  cbn [after closed]. rewrite <- app_assoc. split; [|intros [_ ->]; reflexivity]. intros E. split; [reflexivity|].
  apply (f_equal (fun r => match r with SOk y => length y | _ => 0%nat end)) in E. cbv beta iota in E. rewrite !app_length in E.
  destruct (ends_named true x), (takes_name x); try reflexivity; cbn in E; lia.
Qed.
Example C26_enum_cases :
  alone exact_print exact_print (TEnum None (lab "E") None (TTagged None (lab "A") None (TInt U8 1))) = SOk (bs "{""A"":1}") /\
  alone exact_print exact_print (TEnum None (lab "E") None (TInt U8 1)) = SOk (bs "1}") /\
  alone exact_print exact_print (TEnum None (lab "E") None (TSeq None [TInt U8 1])) = SOk (bs "[1]") /\
  alone exact_print exact_print (TEnum None (lab "E") None (TSeq None [])) = SOk (bs "[]}") /\
  alone exact_print exact_print (TEnum None (lab "E") None (TEnum None None None (TTuple None (lab "S") None None []))) = SOk (bs "{""S"":[]}}") /\
  alone exact_print exact_print (TEnum None (lab "E") None (TTagged (Some NUMBER) (lab "A") None (txt "5"))) = SErr EInvalidKey.
Proof. vm_compute. repeat split. Qed.

Print Assumptions C26_enum_exactly.
Print Assumptions C26_enums_externally_tagged_exactly.
