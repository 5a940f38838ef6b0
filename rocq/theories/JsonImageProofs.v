(** * JsonImageProofs: keys and values, by induction on the tree *)

From Verif Require Import Base Event Tree LowerModel FlatProofs LowerProofs MethProofs LowerSpec DataModel DataProofs DecProofs
  JsonModel JsonGrammar JsonSpec JsonNumProofs JsonMethProofs JsonProofs.

Lemma digits_plain s : forallb is_digit s = true -> forallb plain_byte s = true.
Proof.
  induction s as [|b s IH]; [reflexivity|]. cbn [forallb]. intros H. apply andb_true_iff in H as [H1 H2].
  rewrite (IH H2), andb_true_r. destruct b as [[] [] [] [] [] [] [] []]; (reflexivity || discriminate).
Qed.
Lemma lit_plain l : lit_ok l -> forallb plain_byte (lit_text l) = true.
Proof.
  intros ((_ & A) & B & C). unfold lit_text. rewrite !forallb_app.
  assert (S : forall s, forallb plain_byte (sgn_text s) = true) by (intros []; reflexivity).
  repeat (apply andb_true_iff; split).
  - apply S.
  - apply digits_plain, A.
  - destruct (lt_frac l) as [d|]; [|reflexivity]. exact (digits_plain _ (proj2 B)).
  - destruct (lt_exp l) as [[[e s] d]|]; [|reflexivity]. cbn [exp_text forallb].
    destruct C as (E & D). apply andb_true_iff; split; [destruct E as [->| ->]; reflexivity|].
    rewrite forallb_app. apply andb_true_iff; split; [apply S|apply digits_plain, D].
Qed.
Lemma json_number_plain s m e : json_number s m e -> forallb plain_byte s = true.
Proof. intros (l & (Ok & _) & -> & _). apply lit_plain, Ok. Qed.

Section Image.
  Variable ryu32 ryu64 : float -> bytes.
  Hypothesis P32 : json_printer ryu32.
  Hypothesis P64 : json_printer ryu64.
  Notation step := (json_step bytes string_write ryu32 ryu64).
  Notation jm := (meth json_over step).
  Notation J := (run jm).
  Notation image := (image ryu32 ryu64).
  Notation key_text := (key_text ryu32 ryu64).

  Ltac cb := cbn [f_it f_cde f_tq f_th f_err f_out set_out set_it set_cde set_tq set_th st kst bind].
  Ltac fin := cbv beta iota zeta delta [set_out set_it set_cde set_tq set_th set_err st kst f_it f_cde f_tq f_th f_err f_out bind];
    rewrite <- ?app_assoc; reflexivity.

  Lemma float_esc ryu f : json_printer ryu -> esc (float_key ryu f) = float_key ryu f.
  Proof.
    intros P. unfold float_key. destruct (is_nan f) eqn:N; [reflexivity|]. destruct (is_infinite f) eqn:I; [reflexivity|].
    cbn [orb]. destruct (P f N I) as (m & e & H). apply plain_esc. eapply json_number_plain, H.
  Qed.

  (** A key written between quotes. *)
  Lemma key_run k : forall inside s, key_text inside k = Some s -> (inside = true -> is_variant k = true) ->
    forall it cde out, it = inside ->
    J (kst it cde out) (emit k) = Ok (kst (key_leaks k) false (out ++ esc s)).
  Proof.
    induction k using tree_ind'; intros inside s Hk Hi it cde out Hit; cbn [JsonSpec.key_text] in Hk; try discriminate.
    1-5: destruct inside; [discriminate (Hi eq_refl)|]; subst it; inversion Hk; subst; cbn [emit];
         rewrite run_one, jm_over by reflexivity; cbn [json_step].
    - unfold j_null. rewrite put_pure. fin.
    - unfold j_bool. rewrite put_pure. destruct b; fin.
    - unfold j_int. rewrite put_pure, esc_dec. fin.
    - rewrite float_esc by exact P32. unfold j_float, float_key. cbv zeta.
      destruct (is_nan f || is_infinite f); [unfold j_null|]; rewrite put_pure; fin.
    - rewrite float_esc by exact P64. unfold j_float, float_key. cbv zeta.
      destruct (is_nan f || is_infinite f); [unfold j_null|]; rewrite put_pure; fin.
    - destruct inside; [discriminate (Hi eq_refl)|]; subst it; inversion Hk; subst; cbn [emit].
      rewrite run_cons, jm_over by reflexivity. cbn [json_step]. unfold j_text_begin. cb.
      rewrite run_app, frag_run by reflexivity. cb. rewrite run_one, jm_over by reflexivity. cbn [json_step].
      unfold j_text_end. fin.
    - cbn [emit key_leaks]. rewrite run_one, jm_over by reflexivity. cbn [json_step]. unfold j_tag.
      destruct (otag_is t RUST_OPTION_NONE).
      + inversion Hk; subst. unfold j_null. cb. rewrite put_pure. fin.
      + rewrite index_i64_named in Hk. destruct l as [l|].
        * inversion Hk; subst. unfold j_str, j_text_begin, text_fragment_computed, j_text_end. cb.
          rewrite escape_str_pure. cbn [lift bind]. cb. fin.
        * destruct (index_i64 i) as [z|]; cbn [option_map] in Hk; inversion Hk; subst.
          -- unfold j_int. cb. rewrite put_pure, esc_dec. fin.
          -- unfold j_null. cb. rewrite put_pure. fin.
    - cbn [emit key_leaks]. rewrite run_cons, jm_hint. cbn [bind].
      destruct inside; [discriminate (Hi eq_refl)|]. apply IHk with (inside := false); auto; discriminate.
    - destruct (is_raw t) eqn:Rw; [discriminate|]. cbn [orb] in Hk.
      destruct (inside && is_named l i) eqn:En; [discriminate|].
      cbn [emit key_leaks]. rewrite run_cons, jm_over by reflexivity. cbn [json_step]. unfold j_tagged_begin.
      unfold is_raw in Rw. apply orb_false_iff in Rw as [Rw R4]. apply orb_false_iff in Rw as [Rw R3].
      apply orb_false_iff in Rw as [R1 R2]. rewrite R1, R2, R3, R4. cbv zeta.
      rewrite itb_skip by (cb; apply andb_false_iff in En; destruct En; [left; congruence|right; assumption]).
      cb. rewrite run_app.
      change (set_cde bytes true (set_it bytes false (kst it cde out))) with (kst false true out).
      rewrite (IHk false s Hk ltac:(discriminate) false true out eq_refl). cb.
      rewrite run_one, jm_over by reflexivity. cbn [json_step]. unfold j_tagged_end.
      rewrite R1, R2, R3, R4. cb. rewrite ite. fin.
    - destruct (is_variant k) eqn:V; [|discriminate]. cbn [negb orb] in Hk.
      destruct (inside && is_named l i) eqn:En; [discriminate|].
      cbn [emit key_leaks]. rewrite run_cons, jm_over by reflexivity. cbn [json_step]. unfold j_enum_begin.
      rewrite itb_skip by (cb; apply andb_false_iff in En; destruct En; [left; congruence|right; assumption]).
      cb. rewrite run_app.
      change (set_cde bytes true (set_it bytes true (set_it bytes false (kst it cde out)))) with (kst true true out).
      rewrite (IHk true s Hk (fun _ => eq_refl) true true out eq_refl). cb.
      rewrite run_one, jm_over by reflexivity. cbn [json_step]. unfold j_enum_end. cb.
      assert (Kl : key_leaks k = false).
      { destruct k; try discriminate V; try reflexivity; cbn [JsonSpec.key_text] in Hk; cbn [key_leaks].
        - destruct (is_raw t0); [discriminate|]. cbn [orb andb] in Hk. destruct (is_named l0 i0); [discriminate|reflexivity].
        - destruct (negb (is_variant k)); [discriminate|]. cbn [orb andb] in Hk. destruct (is_named l0 i0); [discriminate|reflexivity]. }
      rewrite Kl. rewrite ite. fin.
  Qed.

  (** Texts under the tags that give them a meaning in JSON. *)
  Lemma text_of_run v s : text_of v = Some s -> exists n fs, frags_text fs = s /\
    forall f, J f (emit v) = J f (ETextBegin n :: map text_frag fs ++ [ETextEnd]).
  Proof.
    induction v using tree_ind'; cbn [text_of]; intros E; try discriminate.
    - inversion E; subst. exists n, fs. auto.
    - destruct (IHv E) as (n & fs & F & R). exists n, fs. split; [exact F|].
      intros f. cbn [emit]. rewrite run_cons, jm_hint. cbn [bind]. apply R.
  Qed.

  Lemma raw_run t l i v s c : is_raw t = true -> text_of v = Some s -> raw_image t s c ->
    (otag_is t NUMBER = true -> ~ zero_exp s) ->
    forall it cde out inside, starts inside it l i -> (inside = true -> otag_is t JSON_TEXT = true \/ is_named l i = false) ->
    exists s', J (st it cde out) (emit (TTagged t l i v)) = Ok (st (is_named l i) false (out ++ opened inside l i ++ s')) /\
      json_text s' c.
  Proof.
    intros Rw Tx Ri Nz it cde out inside Hs Hin.
    destruct (text_of_run _ _ Tx) as (n & fs & Fs & Rv).
    cbn [emit]. rewrite run_cons, jm_over by reflexivity. cbn [json_step]. unfold j_tagged_begin.
    unfold raw_image in Ri.
    destruct (otag_is t JSON_TEXT) eqn:A1.
    - destruct Ri as (x & U & ->). cbv zeta.
      assert (B : exists cde', internally_tagged_begin bytes string_write l i (set_th bytes (Some HNative) (st it cde out)) =
                  Ok (MkF false cde' true (Some HNative) None (out ++ opened inside l i))).
      { unfold starts, opened in *. destruct inside.
        - subst it. apply itb_true.
        - exists cde. rewrite itb_skip by exact Hs. cb. rewrite app_nil_r. reflexivity. }
      destruct B as (cde' & ->). cb. exists (quoted s). split; [|apply jt_value, jv_str, U].
      rewrite run_app, Rv, run_cons, jm_over by reflexivity. cbn [json_step]. unfold j_text_begin. cb.
      rewrite put_pure. cb. rewrite run_app, frag_run_native by reflexivity. cb.
      rewrite run_one, jm_over by reflexivity. cbn [json_step]. unfold j_text_end. cb. rewrite put_pure. cb.
      rewrite run_one, jm_over by reflexivity. cbn [json_step]. unfold j_tagged_end. rewrite A1. cb. rewrite ite, Fs.
      unfold quoted. fin.
    - assert (Sk : it = false \/ is_named l i = false).
      { unfold starts in Hs. destruct inside; [|exact Hs]. destruct (Hin eq_refl); [discriminate|auto]. }
      assert (Op : opened inside l i = []).
      { unfold opened. destruct inside; [|reflexivity]. destruct (Hin eq_refl) as [X|X]; [discriminate|].
        unfold name_open. unfold is_named in X. destruct (name_of l i); [discriminate|reflexivity]. }
      rewrite Op. cbn [app].
      destruct (otag_is t JSON_VALUE) eqn:A2.
      + cbv zeta. rewrite itb_skip by exact Sk. cb. exists s. split; [|exact Ri].
        rewrite run_app, Rv, run_cons, jm_over by reflexivity. cbn [json_step]. unfold j_text_begin. cb.
        rewrite run_app, frag_run_native by reflexivity. cb.
        rewrite run_one, jm_over by reflexivity. cbn [json_step]. unfold j_text_end. cb.
        rewrite run_one, jm_over by reflexivity. cbn [json_step]. unfold j_tagged_end. rewrite A1, A2. cb. rewrite ite, Fs. fin.
      + destruct (otag_is t NUMBER) eqn:A3.
        * cbv zeta. cb. rewrite itb_skip by exact Sk. cb.
          destruct Ri as (lt & Lok & -> & ->). specialize (Nz eq_refl).
          destruct (nbs_lit lt 0 Lok Nz) as (h & o & Hn & Ho).
          exists (lit_text (norm_lit lt)).
          split; [|apply jt_value, jv_num; exists (norm_lit lt); split; [apply norm_lit_json, Lok|split; [reflexivity|apply norm_lit_val; assumption]]].
          rewrite run_app, Rv, run_cons, jm_over by reflexivity. cbn [json_step]. unfold j_text_begin. cb.
          rewrite run_app. rewrite (frag_run_number _ _ fs _ (MkNum true false 0 false) h o) by (try reflexivity; rewrite Fs; exact Hn). cb.
          rewrite run_one, jm_over by reflexivity. cbn [json_step]. unfold j_text_end. cb.
          rewrite run_one, jm_over by reflexivity. cbn [json_step]. unfold j_tagged_end. rewrite A1, A2, A3. cbv zeta. cb.
          unfold num_end. rewrite <- Ho.
          destruct (n_start h).
          { unfold string_write at 1. cbn [lift bind]. cb. rewrite ite. 
 fin. }
          { cbn [lift bind]. cb. rewrite ite, app_nil_r. fin. }
        * assert (A4 : otag_is t JSON_NUMBER = true).
          { unfold is_raw in Rw. rewrite A1, A2, A3 in Rw. exact Rw. }
          rewrite A4. cbv zeta. rewrite itb_skip by exact Sk. cb.
          destruct Ri as (m & e & Nu & ->). exists s. split; [|apply jt_value, jv_num, Nu].
          rewrite run_app, Rv, run_cons, jm_over by reflexivity. cbn [json_step]. unfold j_text_begin. cb.
          rewrite run_app, frag_run_native by reflexivity. cb.
          rewrite run_one, jm_over by reflexivity. cbn [json_step]. unfold j_text_end. cb.
          rewrite run_one, jm_over by reflexivity. cbn [json_step]. unfold j_tagged_end. rewrite A1, A2, A3, A4. cb. rewrite ite, Fs. fin.
  Qed.

  (** ** Values *)
  Definition ctx (inside it : bool) (t : tree) : Prop :=
    if inside then it = true /\ is_variant t = true /\ named_unquoted t = false /\ unnamed_enum_of_named t = false
    else it = false \/ takes_name t = false.
  Definition writes_image (t : tree) : Prop :=
    forall inside j, image inside t j -> safe t -> forall it cde out, ctx inside it t ->
    exists s it', J (st it cde out) (emit t) = Ok (st it' false (out ++ s)) /\
      json_text (s ++ closer inside (takes_name t)) j /\ (inside = true -> it' = takes_name t).

  Lemma ctx_starts inside it l i t : ctx inside it t -> takes_name t = is_named l i -> starts inside it l i.
  Proof. unfold ctx, starts. destruct inside; [intros (H & _) _; exact H|intros H <-; exact H]. Qed.
  Lemma not_inside (t : tree) inside it : ctx inside it t -> is_variant t = false -> inside = false.
  Proof. unfold ctx. destruct inside; [intros (_ & V & _) H; congruence|reflexivity]. Qed.

  (** A value as an element and as a member. *)
  Lemma value_block v j b e (Hb : forall f, jm f b = j_seq_value_begin bytes string_write f) (He : forall f, jm f e = Ok f) :
    writes_image v -> image false v j -> safe v -> elem_block ryu32 ryu64 (b :: emit v ++ [e]) j.
  Proof.
    intros P I S it cde out. rewrite run_cons, Hb.
    assert (B : j_seq_value_begin bytes string_write (st it cde out) = Ok (st false cde (out ++ sep cde))).
    { unfold j_seq_value_begin. cbv zeta. cbn [set_it f_cde st]. destruct cde; cbn [sep]; [rewrite app_nil_r; reflexivity|]. reflexivity. }
    rewrite B. cbn [bind]. rewrite run_app.
    destruct (P false j I S false cde (out ++ sep cde) (or_introl eq_refl)) as (s & it' & R & T & _).
    rewrite R. cbn [bind]. rewrite run_one, He. exists s, it'. rewrite <- app_assoc. split; [reflexivity|].
    cbn [closer andb] in T. rewrite app_nil_r in T. exact T.
  Qed.
  Lemma field_block v j b e fl (Hb : forall f, jm f b = j_record_value_begin bytes string_write fl f) (He : forall f, jm f e = Ok f) :
    writes_image v -> image false v j -> safe v -> ident_ok fl = true ->
    member_block ryu32 ryu64 (b :: emit v ++ [e]) (l_text fl, j).
  Proof.
    intros P I S Id it cde out. rewrite run_cons, Hb.
    assert (B : j_record_value_begin bytes string_write fl (st it cde out) =
                Ok (st false cde (out ++ sep cde ++ quoted (esc (l_text fl)) ++ bs ":"))).
    { unfold j_record_value_begin. cbv zeta. cbn [set_it f_cde st].
      assert (X : forall f : fm bytes, (if otag_is (l_tag fl) VALUE_IDENT then put bytes string_write (l_text fl) f
                     else lift bytes f (escape_str bytes string_write (l_text fl) (f_out f))) =
                  Ok (set_out bytes (f_out f ++ esc (l_text fl)) f)).
      { intros f. rewrite escape_str_pure. unfold ident_ok in Id. destruct (otag_is (l_tag fl) VALUE_IDENT); [|reflexivity].
        cbn [negb orb] in Id. rewrite put_pure. rewrite plain_esc by exact Id. reflexivity. }
      destruct cde; rewrite put_pure; cbn [bind]; rewrite X; cbn [bind]; rewrite put_pure; unfold quoted; cbn [sep]; fin. }
    rewrite B. cbn [bind]. rewrite run_app.
    destruct (P false j I S false cde (out ++ sep cde ++ quoted (esc (l_text fl)) ++ bs ":") (or_introl eq_refl)) as (s & it' & R & T & _).
    rewrite R. cbn [bind]. rewrite run_one, He.
    exists (esc (l_text fl)), s, it'. rewrite <- !app_assoc. split; [reflexivity|]. split; [apply unescape_esc|].
    cbn [closer andb] in T. rewrite app_nil_r in T. exact T.
  Qed.
  Lemma entry_block k v s j :
    writes_image v -> key_text false k = Some s -> image false v j -> safe v -> key_leaks k && takes_name v = false ->
    member_block ryu32 ryu64 (EMapKeyBegin :: emit k ++ EMapKeyEnd :: EMapValBegin :: emit v ++ [EMapValEnd]) (s, j).
  Proof.
    intros P K I S Lk it cde out. rewrite run_cons, jm_over by reflexivity. cbn [json_step].
    assert (B : j_map_key_begin bytes string_write (st it cde out) = Ok (kst false cde (out ++ sep cde ++ [dquote]))).
    { unfold j_map_key_begin. cbv zeta. cbn [set_it set_tq f_cde st]. destruct cde; reflexivity. }
    rewrite B. cbn [bind]. rewrite run_app.
    rewrite (key_run k false s K ltac:(discriminate) false cde _ eq_refl). cbn [bind].
    rewrite run_cons, jm_over by reflexivity. cbn [json_step].
    assert (E : forall it cde out, j_map_key_end bytes string_write (kst it cde out) = Ok (st it cde (out ++ [dquote; ":"%char]))) by reflexivity.
    rewrite E. cbn [bind]. rewrite run_cons, jm_over by reflexivity. cbn [json_step bind]. rewrite run_app.
    destruct (P false j I S (key_leaks k) false (((out ++ sep cde ++ [dquote]) ++ esc s) ++ [dquote; ":"%char])) as (s1 & it' & R & T & _).
    { unfold ctx. destruct (key_leaks k); [right|left]; auto. }
    rewrite R. cbn [bind]. rewrite run_one, jm_over by reflexivity. cbn [json_step].
    exists (esc s), s1, it'. split; [unfold quoted; rewrite <- !app_assoc; reflexivity|]. split; [apply unescape_esc|].
    cbn [closer andb] in T. rewrite app_nil_r in T. exact T.
  Qed.

  (** A named container: opening, body, closing. *)
  Lemma named_run inside it cde out l i (t : tree) (body : fm bytes -> res (fm bytes)) c :
    ctx inside it t -> takes_name t = is_named l i ->
    (forall cde out, exists s it', body (st false cde out) = Ok (st it' false (out ++ s)) /\ json_text s c) ->
    exists s it', (internally_tagged_begin bytes string_write l i (st it cde out) >>= body >>= internally_tagged_end bytes l i) =
      Ok (st it' false (out ++ s)) /\
      json_text (s ++ closer inside (takes_name t)) (wrap inside l i c) /\ (inside = true -> it' = takes_name t).
  Proof.
    intros C Tn B. destruct (itb inside l i it cde out (ctx_starts _ _ _ _ _ C Tn)) as (cde' & O). rewrite O. cbn [bind].
    destruct (B cde' (out ++ opened inside l i)) as (s & it' & R & T). rewrite R. cbn [bind]. rewrite ite.
    exists (opened inside l i ++ s), (is_named l i). split; [fin|]. rewrite Tn. split; [apply wrap_text, T|reflexivity].
  Qed.

  Lemma flat_map_blocks {A} (f : A -> list ev) xs : flat_map f xs = List.concat (map f xs).
  Proof. apply flat_map_concat_map. Qed.

  Lemma bind_assoc {A} (r : res A) f g : (r >>= f) >>= g = r >>= (fun x => f x >>= g).
  Proof. destruct r; reflexivity. Qed.

  Lemma all_write t : writes_image t.
  Proof.
    induction t using tree_ind'; intros inside j I S it cde out C; cbn [JsonSpec.image] in I.
    (* scalars *)
    1-7: pose proof (not_inside _ _ _ C eq_refl) as ->; cbn [closer andb takes_name].
    - subst j. exists (bs "null"), it. rewrite app_nil_r. split; [|split; [apply jt_value, jv_null|discriminate]].
      cbn [emit]. rewrite run_one, jm_over by reflexivity. cbn [json_step]. unfold j_null. rewrite put_pure. fin.
    - subst j. exists (if b then bs "true" else bs "false"), it. rewrite app_nil_r.
      split; [|split; [apply jt_value; destruct b; constructor|discriminate]].
      cbn [emit]. rewrite run_one, jm_over by reflexivity. cbn [json_step]. unfold j_bool. rewrite put_pure. fin.
    - subst j. exists (dec z), it. rewrite app_nil_r. split; [|split; [apply jt_value, jv_num, json_number_dec|discriminate]].
      cbn [emit]. rewrite run_one, jm_over by reflexivity. cbn [json_step]. unfold j_int. rewrite put_pure. fin.
    - exists (float_key ryu32 f), it. rewrite app_nil_r. split; [|split; [apply jt_value|discriminate]].
      + cbn [emit]. rewrite run_one, jm_over by reflexivity. cbn [json_step]. unfold j_float, float_key. cbv zeta.
        destruct (is_nan f || is_infinite f); [unfold j_null|]; rewrite put_pure; fin.
      + unfold float_image in I. unfold float_key. destruct (is_nan f || is_infinite f); [subst j; constructor|].
        destruct I as (m & e & N & ->). apply jv_num, N.
    - exists (float_key ryu64 f), it. rewrite app_nil_r. split; [|split; [apply jt_value|discriminate]].
      + cbn [emit]. rewrite run_one, jm_over by reflexivity. cbn [json_step]. unfold j_float, float_key. cbv zeta.
        destruct (is_nan f || is_infinite f); [unfold j_null|]; rewrite put_pure; fin.
      + unfold float_image in I. unfold float_key. destruct (is_nan f || is_infinite f); [subst j; constructor|].
        destruct I as (m & e & N & ->). apply jv_num, N.
    - subst j. exists (quoted (esc (frags_text fs))), it. rewrite app_nil_r.
      split; [apply text_run|split; [apply jt_value, jv_str, unescape_esc|discriminate]].
    - subst j. cbn [emit]. rewrite run_cons, jm_bin_begin.
      destruct (array_run ryu32 ryu64 _ (map (fun b => JNum (byte_val b) 0) (frags_text fs)) it cde out
                  ltac:(instantiate (1 := map (fun b => [ESeqValBegin; EInt U8 (byte_val b); ESeqValEnd]) (frags_text fs));
                        induction (frags_text fs); cbn [map]; constructor; [apply byte_block|assumption]))
        as (s & it' & R & T).
      exists s, it'. rewrite app_nil_r. split; [|split; [exact T|discriminate]].
      rewrite <- R. destruct (j_seq_begin bytes string_write (st it cde out)); cbn [bind]; [|reflexivity..].
      rewrite run_app, bin_blocks. destruct (J a _); cbn [bind]; [|reflexivity..]. rewrite run_one, jm_bin_end. reflexivity.
    - (* tag *)
      subst j. cbn [emit takes_name]. rewrite run_one, jm_over by reflexivity. cbn [json_step]. unfold j_tag, tag_image.
      assert (Cl : closer inside false = []) by (unfold closer; rewrite andb_false_r; reflexivity). rewrite Cl.
      destruct (otag_is t RUST_OPTION_NONE).
      + exists (bs "null"), false. rewrite app_nil_r. split; [|split; [apply jt_value, jv_null|reflexivity]].
        unfold j_null. cbv zeta. rewrite put_pure. fin.
      + destruct l as [l|].
        * exists (quoted (esc (l_text l))), false. rewrite app_nil_r.
          split; [|split; [apply jt_value, jv_str, unescape_esc|reflexivity]].
          unfold j_str, j_text_begin, text_fragment_computed, j_text_end. cb. cbv zeta. rewrite put_pure. cb.
          rewrite escape_str_pure. cbn [lift bind]. cb. rewrite put_pure. unfold quoted. fin.
        * unfold index_i64. destruct i as [i|]; [rewrite index_to_spec by discriminate; destruct (fits I64 (i_val i))|].
          -- exists (dec (i_val i)), false. rewrite app_nil_r. split; [|split; [apply jt_value, jv_num, json_number_dec|reflexivity]].
             unfold j_int. cbv zeta. rewrite put_pure. fin.
          -- exists (bs "null"), false. rewrite app_nil_r. split; [|split; [apply jt_value, jv_null|reflexivity]].
             unfold j_null. cbv zeta. rewrite put_pure. fin.
          -- exists (bs "null"), false. rewrite app_nil_r. split; [|split; [apply jt_value, jv_null|reflexivity]].
             unfold j_null. cbv zeta. rewrite put_pure. fin.
    - (* hint *)
      pose proof (not_inside _ _ _ C eq_refl) as ->.
      cbn [emit takes_name safe] in *. rewrite run_cons, jm_hint. cbn [bind]. apply IHt; assumption.
    - (* tagged *)
      destruct I as (c & -> & I). cbn [safe] in S. destruct (is_raw t) eqn:Rw.
      + destruct I as (s0 & Tx & Ri).
        destruct (raw_run t l i t0 s0 c Rw Tx Ri (fun h => S h s0 Tx) it cde out inside (ctx_starts _ _ _ _ _ C eq_refl)) as (s' & R & T).
        { intros ->. destruct C as (_ & _ & C & _). cbn [named_unquoted] in C. rewrite Rw in C.
          destruct (otag_is t JSON_TEXT); [left; reflexivity|right; exact C]. }
        exists (opened inside l i ++ s'), (is_named l i). split; [exact R|]. split; [|reflexivity].
        apply wrap_text, T.
      + cbn [emit]. rewrite run_cons, jm_over by reflexivity. cbn [json_step]. unfold j_tagged_begin.
        pose proof Rw as Rw'. unfold is_raw in Rw. apply orb_false_iff in Rw as [Rw R4]. apply orb_false_iff in Rw as [Rw R3].
        apply orb_false_iff in Rw as [R1 R2]. rewrite R1, R2, R3, R4. cbv zeta.
        destruct (named_run inside it cde out l i (TTagged t l i t0)
                    (fun f => J (set_cde bytes true f) (emit t0)) c C eq_refl) as (s & it' & R & T & E).
        { intros cde0 out0. destruct (IHt false c I S false true out0 (or_introl eq_refl)) as (s & it' & R & T & _).
          exists s, it'. split; [exact R|]. cbn [closer andb] in T. rewrite app_nil_r in T. exact T. }
        exists s, it'. split; [|split; [exact T|exact E]]. rewrite <- R.
        destruct (internally_tagged_begin bytes string_write l i (st it cde out)) as [f| |] eqn:Ib; cbn [bind]; [|reflexivity..].
        rewrite run_app.
        destruct (J (set_cde bytes true f) (emit t0)) as [f1| |] eqn:Jb; cbn [bind]; [|reflexivity..].
        rewrite run_one, jm_over by reflexivity. cbn [json_step]. unfold j_tagged_end. rewrite R1, R2, R3, R4. cbn [bind].
        cbn [bind] in R. rewrite Jb in R. cbn [bind] in R. rewrite ite in R.
        assert (Cd : f_cde f1 = false) by (apply (f_equal (fun r => match r with Ok f => f_cde f | _ => false end)) in R; exact R).
        rewrite Cd. reflexivity.
    - (* enum *)
      destruct I as (V & c & -> & I). cbn [safe] in S. destruct S as (S & Nu & Un).
      cbn [emit]. rewrite run_cons, jm_over by reflexivity. cbn [json_step]. unfold j_enum_begin.
      destruct (itb inside l i it cde out (ctx_starts _ _ _ _ _ C eq_refl)) as (cde' & O). rewrite O. cbn [bind].
      change (set_cde bytes true (set_it bytes true (st false cde' (out ++ opened inside l i)))) with (st true true (out ++ opened inside l i)).
      rewrite run_app.
      destruct (IHt true c I S true true (out ++ opened inside l i) (conj eq_refl (conj V (conj Nu Un)))) as (s & it' & R & T & E).
      rewrite R. cbn [bind]. rewrite run_one, jm_over by reflexivity. cbn [json_step]. unfold j_enum_end. cb.
      rewrite (E eq_refl). clear E R.
      exists (opened inside l i ++ s ++ closer true (takes_name t0)), (if takes_name t0 then true else is_named l i).
      split; [|split].
      + destruct (takes_name t0); cbn [closer andb].
        * unfold j_map_end. rewrite put_pure. fin.
        * rewrite ite, app_nil_r. fin.
      + cbn [takes_name]. apply wrap_text, T.
      + intros ->. destruct C as (_ & _ & _ & C). cbn [unnamed_enum_of_named] in C. cbn [takes_name].
        destruct (takes_name t0); [|reflexivity]. destruct (is_named l i); [reflexivity|discriminate].
    - (* seq *)
      pose proof (not_inside _ _ _ C eq_refl) as ->. cbn [closer andb takes_name].
      destruct I as (js & -> & I). cbn [safe] in S. cbn [emit]. rewrite run_cons, jm_over by reflexivity. cbn [json_step].
      destruct (array_run ryu32 ryu64 (map (fun v => ESeqValBegin :: emit v ++ [ESeqValEnd]) vs) js it cde out) as (s & it' & R & T).
      { clear C. revert js I. induction H as [|v vs Hv HF IH]; intros [|j js] I; try contradiction; cbn [map]; constructor.
        - apply value_block; try (intros; apply jm_over; reflexivity); [exact Hv|apply I|apply S].
        - apply IH; [apply S|apply I]. }
      exists s, it'. rewrite app_nil_r. split; [|split; [exact T|discriminate]].
      rewrite <- R. destruct (j_seq_begin bytes string_write (st it cde out)); cbn [bind]; [|reflexivity..].
      rewrite run_app, flat_map_blocks. destruct (J a _); cbn [bind]; [|reflexivity..]. rewrite run_one, jm_over by reflexivity. reflexivity.
    - (* map *)
      pose proof (not_inside _ _ _ C eq_refl) as ->. cbn [closer andb takes_name].
      destruct I as (ms & -> & I). cbn [safe] in S. cbn [emit]. rewrite run_cons, jm_over by reflexivity. cbn [json_step].
      set (blk := fun kv : tree * tree => let (k, v) := kv in EMapKeyBegin :: emit k ++ EMapKeyEnd :: EMapValBegin :: emit v ++ [EMapValEnd]).
      destruct (object_run ryu32 ryu64 (map blk es) ms it cde out) as (s & it' & R & T).
      { clear C. revert ms I. induction H as [|[k v] es [Hk Hv] HF IH]; intros [|[s j] ms] I; try contradiction; cbn [map]; constructor.
        - destruct I as (K & I & _), S as (Lk & S & _). apply entry_block; assumption.
        - apply IH; [apply S|apply I]. }
      exists s, it'. rewrite app_nil_r. split; [|split; [exact T|discriminate]].
      rewrite <- R. destruct (j_map_begin bytes string_write (st it cde out)); cbn [bind]; [|reflexivity..].
      rewrite run_app, flat_map_blocks. destruct (J a _); cbn [bind]; [|reflexivity..]. rewrite run_one, jm_over by reflexivity. reflexivity.
    - (* record *)
      destruct I as (ms & -> & I). cbn [safe] in S. cbn [emit]. rewrite run_cons, jm_over by reflexivity. cbn [json_step].
      set (blk := fun f : option tag * label * tree => let (p, v) := f in let (ft, fl) := p in ERecordValBegin ft fl :: emit v ++ [ERecordValEnd ft fl]).
      assert (Bl : Forall2 (member_block ryu32 ryu64) (map blk fs) ms).
      { clear C. revert ms I. induction H as [|[[ft fl] v] fs Hv HF IH]; intros [|[s j] ms] I; try contradiction; cbn [map]; constructor.
        - destruct I as (Id & -> & I & _), S as (S & _). apply field_block; try assumption; [intros; apply jm_over; reflexivity|intros; apply jm_record_val_end].
        - apply IH; [apply S|apply I]. }
      destruct (named_run inside it cde out l i (TRecord t l i n fs)
        (fun f => j_map_begin bytes string_write f >>= fun f => J f (List.concat (map blk fs)) >>= j_map_end bytes string_write)
        (JObj ms) C eq_refl (fun c o => object_run _ _ _ _ false c o Bl)) as (s & it' & R & T & E).
      exists s, it'. split; [|split; [exact T|exact E]]. rewrite <- R. unfold j_record_begin.
      rewrite !bind_assoc. destruct (internally_tagged_begin bytes string_write l i (st it cde out)); cbn [bind]; [|reflexivity..].
      rewrite !bind_assoc. destruct (j_map_begin bytes string_write a); cbn [bind]; [|reflexivity..].
      rewrite run_app, flat_map_blocks. fold blk. destruct (J a0 _); cbn [bind]; [|reflexivity..].
      rewrite run_one, jm_over by reflexivity. reflexivity.
    - (* tuple *)
      destruct I as (js & -> & I). cbn [safe] in S. cbn [emit]. rewrite run_cons, jm_over by reflexivity. cbn [json_step].
      set (blk := fun f : option tag * index * tree => let (p, v) := f in let (ft, fi) := p in ETupleValBegin ft fi :: emit v ++ [ETupleValEnd ft fi]).
      assert (Bl : Forall2 (elem_block ryu32 ryu64) (map blk fs) js).
      { clear C. revert js I. induction H as [|[[ft fi] v] fs Hv HF IH]; intros [|j js] I; try contradiction; cbn [map]; constructor.
        - destruct I as (I & _), S as (S & _). apply value_block; try assumption; [intros; apply jm_tuple_val_begin|intros; apply jm_tuple_val_end].
        - apply IH; [apply S|apply I]. }
      destruct (named_run inside it cde out l i (TTuple t l i n fs)
        (fun f => j_seq_begin bytes string_write f >>= fun f => J f (List.concat (map blk fs)) >>= j_seq_end bytes string_write)
        (JArr js) C eq_refl (fun c o => array_run _ _ _ _ false c o Bl)) as (s & it' & R & T & E).
      exists s, it'. split; [|split; [exact T|exact E]]. rewrite <- R. unfold j_tuple_begin.
      rewrite !bind_assoc. destruct (internally_tagged_begin bytes string_write l i (st it cde out)); cbn [bind]; [|reflexivity..].
      rewrite !bind_assoc. destruct (j_seq_begin bytes string_write a); cbn [bind]; [|reflexivity..].
      rewrite run_app, flat_map_blocks. fold blk. destruct (J a0 _); cbn [bind]; [|reflexivity..].
      rewrite run_one, jm_over by reflexivity. reflexivity.
    - (* record tuple *)
      destruct I as (ms & -> & I). cbn [safe] in S. cbn [emit]. rewrite run_cons, jm_rectup_begin.
      set (blk := fun f : option tag * label * index * tree => let (p, v) := f in let (p, fi) := p in let (ft, fl) := p in
                    ERecTupValBegin ft fl fi :: emit v ++ [ERecTupValEnd ft fl fi]).
      assert (Bl : Forall2 (member_block ryu32 ryu64) (map blk fs) ms).
      { clear C. revert ms I. induction H as [|[[[ft fl] fi] v] fs Hv HF IH]; intros [|[s j] ms] I; try contradiction; cbn [map]; constructor.
        - destruct I as (Id & -> & I & _), S as (S & _). apply field_block; try assumption; [intros; apply jm_rectup_val_begin|intros; apply jm_rectup_val_end].
        - apply IH; [apply S|apply I]. }
      destruct (named_run inside it cde out l i (TRecTup t l i n fs)
        (fun f => j_map_begin bytes string_write f >>= fun f => J f (List.concat (map blk fs)) >>= j_map_end bytes string_write)
        (JObj ms) C eq_refl (fun c o => object_run _ _ _ _ false c o Bl)) as (s & it' & R & T & E).
      exists s, it'. split; [|split; [exact T|exact E]]. rewrite <- R. unfold j_record_begin.
      rewrite !bind_assoc. destruct (internally_tagged_begin bytes string_write l i (st it cde out)); cbn [bind]; [|reflexivity..].
      rewrite !bind_assoc. destruct (j_map_begin bytes string_write a); cbn [bind]; [|reflexivity..].
      rewrite run_app, flat_map_blocks. fold blk. destruct (J a0 _); cbn [bind]; [|reflexivity..].
      rewrite run_one, jm_rectup_end. reflexivity.
  Qed.
End Image.
