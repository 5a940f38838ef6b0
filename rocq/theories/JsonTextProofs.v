(** * JsonTextProofs: the formatter writes the compact text *)

From Verif Require Import Base Event Tree LowerModel FlatProofs LowerProofs MethProofs LowerSpec DataModel DataProofs DecProofs
  JsonModel JsonGrammar JsonSpec JsonNumProofs JsonMethProofs JsonProofs JsonImageProofs JsonTextSpec.

Lemma json_char_escb b : json_char b = escb b.
Proof. destruct b as [[] [] [] [] [] [] [] []]; reflexivity. Qed.
Lemma json_string_esc s : json_string s = quoted (esc s).
Proof.
  unfold json_string, quoted, esc. replace (flat_map json_char s) with (flat_map escb s); [reflexivity|].
  induction s as [|b s IH]; [reflexivity|]. cbn [flat_map]. rewrite IH, json_char_escb. reflexivity.
Qed.

Lemma no_zeroes_strip s : no_zeroes s = strip0 s.
Proof. induction s as [|c s IH]; [reflexivity|]. cbn [no_zeroes strip0]. rewrite IH. reflexivity. Qed.
Lemma strip0_app a b : forallb is_digit a = true ->
  strip0 (a ++ b) = match strip0 a with [] => strip0 b | d => d ++ b end.
Proof.
  induction a as [|c a IH]; [reflexivity|]. cbn [forallb app strip0]. intros H. apply andb_true_iff in H as [H1 H2].
  destruct (N_of_ascii c =? 48)%N; [apply IH, H2|reflexivity].
Qed.
Lemma digit_not n b : is_digit b = true -> (n < 48)%N -> (N_of_ascii b =? n)%N = false.
Proof. unfold is_digit. intros H L. apply andb_true_iff in H as [H _]. apply N.leb_le in H. apply N.eqb_neq. lia. Qed.
Lemma number_out_lit l : lit_ok l -> ~ zero_exp (lit_text l) -> number_out (lit_text l) = lit_text (norm_lit l).
Proof.
  intros Ok Nz. pose proof Ok as (Di & Df & De). destruct Di as [Dn Dd].
  set (tl := frac_text (lt_frac l) ++ exp_text (lt_exp l)).
  assert (E : number_out (lit_text l) =
    match no_zeroes (lt_int l ++ tl) with
    | [] => bs "0"
    | c :: d => (if match lt_sign l with Minus => true | _ => false end then bs "-" else []) ++ (if is_digit c then [] else bs "0") ++ c :: d
    end).
  { unfold lit_text. fold tl. unfold number_out. destruct (lt_sign l); cbn [sgn_text app]; [|reflexivity..].
    destruct (lt_int l) as [|c i]; [congruence|]. cbn [app]. cbn [forallb] in Dd. apply andb_true_iff in Dd as [Dc _].
    rewrite (digit_not 45 c Dc), (digit_not 43 c Dc) by reflexivity. reflexivity. }
  rewrite E, no_zeroes_strip, (strip0_app _ _ Dd). unfold norm_lit. destruct (strip0 (lt_int l)) as [|c r] eqn:Z.
  - unfold tl, lit_text. cbn [lt_sign lt_int lt_frac lt_exp]. destruct (lt_frac l) as [f|] eqn:Lf.
    + cbn [frac_text]. change (strip0 ((bs "." ++ f) ++ exp_text (lt_exp l))) with ("."%char :: f ++ exp_text (lt_exp l)). change (is_digit "."%char) with false. cbv iota.
      destruct (lt_sign l); reflexivity.
    + destruct (lt_exp l) as [[[e sg] d]|] eqn:Le; [|reflexivity]. exfalso. apply Nz. exists l. split; [exact Ok|]. split; [reflexivity|].
      split; [apply strip0_nil, Z|]. split; [exact Lf|]. rewrite Le. discriminate.
  - assert (Dc : is_digit c = true).
    { pose proof (strip0_digits _ Dd) as D. rewrite Z in D. cbn [forallb] in D. apply andb_true_iff in D as [D _]. exact D. }
    cbn [app]. rewrite Dc. unfold lit_text, tl. cbn [lt_sign lt_int lt_frac lt_exp]. destruct (lt_sign l); reflexivity.
Qed.

Section Text.
  Variable ryu32 ryu64 : float -> bytes.
  Hypothesis P32 : json_printer ryu32.
  Hypothesis P64 : json_printer ryu64.
  Notation step := (json_step bytes string_write ryu32 ryu64).
  Notation jm := (meth json_over step).
  Notation J := (run jm).
  Notation compact := (compact ryu32 ryu64).
  Notation key_text := (key_text ryu32 ryu64).

  Ltac cb := cbn [f_it f_cde f_tq f_th f_err f_out set_out set_it set_cde set_tq set_th st kst bind].
  Ltac fin := cbv beta iota zeta delta [set_out set_it set_cde set_tq set_th set_err st kst f_it f_cde f_tq f_th f_err f_out bind];
    rewrite <- ?app_assoc; reflexivity.

  Definition block (b : list ev) (x : bytes) : Prop :=
    forall it cde out, exists it', J (st it cde out) b = Ok (st it' false (out ++ sep cde ++ x)).
  Lemma blocks_run bs' xs : Forall2 block bs' xs -> forall it cde out, exists it' cde',
    J (st it cde out) (List.concat bs') =
    Ok (st it' cde' (out ++ match xs with [] => [] | _ => sep cde ++ commas xs end)).
  Proof.
    induction 1 as [|b x bs' xs H HF IH]; intros it cde out.
    - exists it, cde. rewrite app_nil_r. reflexivity.
    - cbn [List.concat]. destruct (H it cde out) as (it1 & R). rewrite run_app, R. cbn [bind].
      destruct (IH it1 false (out ++ sep cde ++ x)) as (it2 & cde2 & R2). rewrite R2. exists it2, cde2.
      f_equal. f_equal. destruct xs; cbn [commas sep]; rewrite <- ?app_assoc, ?app_nil_r; reflexivity.
  Qed.
  Lemma array_text bs' xs it cde out : Forall2 block bs' xs -> exists it',
    (j_seq_begin bytes string_write (st it cde out) >>= fun f => J f (List.concat bs') >>= j_seq_end bytes string_write) =
    Ok (st it' false (out ++ array xs)).
  Proof.
    intros H. change (j_seq_begin bytes string_write (st it cde out)) with (Ok (st it true (out ++ bs "["))).
    cbn [bind]. destruct (blocks_run _ _ H it true (out ++ bs "[")) as (it' & cde' & R). rewrite R. cbn [bind].
    exists it'. unfold j_seq_end. rewrite put_pure. unfold array. destruct xs; fin.
  Qed.
  Lemma object_text bs' xs it cde out : Forall2 block bs' xs -> exists it',
    (j_map_begin bytes string_write (st it cde out) >>= fun f => J f (List.concat bs') >>= j_map_end bytes string_write) =
    Ok (st it' false (out ++ object xs)).
  Proof.
    intros H. change (j_map_begin bytes string_write (st it cde out)) with (Ok (st it true (out ++ bs "{"))).
    cbn [bind]. destruct (blocks_run _ _ H it true (out ++ bs "{")) as (it' & cde' & R). rewrite R. cbn [bind].
    exists it'. unfold j_map_end. rewrite put_pure. unfold object. destruct xs; fin.
  Qed.
  Lemma byte_text b : block [ESeqValBegin; EInt U8 (byte_val b); ESeqValEnd] (dec (byte_val b)).
  Proof.
    intros it cde out. exists false.
    cbn [run]. rewrite jm_over by reflexivity. cbn [json_step]. unfold j_seq_value_begin. cbn [set_it f_cde st].
    destruct cde; cbn [bind sep app]; rewrite ?put_pure; cbn [bind];
      rewrite jm_over by reflexivity; cbn [json_step]; unfold j_int; rewrite put_pure; cbn [bind];
      rewrite jm_over by reflexivity; cbn [json_step bind]; unfold set_out, set_cde, set_it, st; cbn [f_it f_cde f_tq f_th f_err f_out];
      rewrite <- ?app_assoc; reflexivity.
  Qed.
  Lemma under_opened inside l i x : (opened inside l i ++ x) ++ closer inside (is_named l i) = under inside l i x.
  Proof.
    unfold opened, closer, under, name_open, is_named. destruct inside; cbn [andb].
    - destruct (name_of l i) as [k|]; [|cbn [app]; rewrite app_nil_r; reflexivity].
      unfold object, member. cbn [commas]. rewrite json_string_esc, <- !app_assoc. reflexivity.
    - cbn [app]. rewrite app_nil_r. reflexivity.
  Qed.

  (** Ordinary values; [ordinary] (JsonSpec.v) asks for keys with any printer. *)
  Lemma key_some k : forall inside, JsonSpec.key_text (fun _ => []) (fun _ => []) inside k <> None ->
    exists s, key_text inside k = Some s.
  Proof.
    induction k using tree_ind'; intros inside H0; cbn [JsonSpec.key_text] in *; try (eexists; reflexivity); try congruence; eauto.
    - destruct (otag_is t RUST_OPTION_NONE); [eauto|]. destruct (name_of l i); eauto.
    - destruct (is_raw t || inside && is_named l i); [congruence|eauto].
    - destruct (negb (is_variant k) || inside && is_named l i); [congruence|eauto].
  Qed.

  Definition writes_text (t : tree) : Prop :=
    writable t -> safe t -> forall inside it cde out, ctx inside it t ->
    exists s it', J (st it cde out) (emit t) = Ok (st it' false (out ++ s)) /\
      s ++ closer inside (takes_name t) = compact inside t /\ (inside = true -> it' = takes_name t).

  Lemma outside t : writes_text t -> writable t -> safe t -> forall it cde out, it = false \/ takes_name t = false ->
    exists it', J (st it cde out) (emit t) = Ok (st it' false (out ++ compact false t)).
  Proof.
    intros P O S it cde out C. destruct (P O S false it cde out C) as (s & it' & R & T & _).
    cbn [closer andb] in T. rewrite app_nil_r in T. subst s. eauto.
  Qed.
  Lemma value_text v b e (Hb : forall f, jm f b = j_seq_value_begin bytes string_write f) (He : forall f, jm f e = Ok f) :
    writes_text v -> writable v -> safe v -> block (b :: emit v ++ [e]) (compact false v).
  Proof.
    intros P O S it cde out. rewrite run_cons, Hb.
    assert (B : j_seq_value_begin bytes string_write (st it cde out) = Ok (st false cde (out ++ sep cde))).
    { unfold j_seq_value_begin. cbv zeta. cbn [set_it f_cde st]. destruct cde; cbn [sep]; [rewrite app_nil_r; reflexivity|]. reflexivity. }
    rewrite B. cbn [bind]. rewrite run_app.
    destruct (outside v P O S false cde (out ++ sep cde) (or_introl eq_refl)) as (it' & R).
    rewrite R. cbn [bind]. rewrite run_one, He. exists it'. rewrite <- app_assoc. reflexivity.
  Qed.
  Lemma field_text v b e fl (Hb : forall f, jm f b = j_record_value_begin bytes string_write fl f) (He : forall f, jm f e = Ok f) :
    writes_text v -> writable v -> safe v -> ident_ok fl = true ->
    block (b :: emit v ++ [e]) (member (l_text fl) (compact false v)).
  Proof.
    intros P O S Id it cde out. rewrite run_cons, Hb.
    assert (B : j_record_value_begin bytes string_write fl (st it cde out) =
                Ok (st false cde (out ++ sep cde ++ quoted (esc (l_text fl)) ++ bs ":"))).
    { unfold j_record_value_begin. cbv zeta. cbn [set_it f_cde st].
      assert (X : forall f : fm bytes, (if otag_is (l_tag fl) VALUE_IDENT then put bytes string_write (l_text fl) f
                     else lift bytes f (escape_str bytes string_write (l_text fl) (f_out f))) =
                  Ok (set_out bytes (f_out f ++ esc (l_text fl)) f)).
      { intros f. rewrite escape_str_pure. unfold ident_ok in Id. destruct (otag_is (l_tag fl) VALUE_IDENT); [|reflexivity].
        cbn [negb orb] in Id. rewrite put_pure. rewrite plain_esc by exact Id. reflexivity. }
      destruct cde; rewrite put_pure; cbn [bind]; rewrite X; cbn [bind]; rewrite put_pure; unfold quoted; cbn [sep]; fin. }
    rewrite B. cbn [bind]. rewrite run_app.
    destruct (outside v P O S false cde (out ++ sep cde ++ quoted (esc (l_text fl)) ++ bs ":") (or_introl eq_refl)) as (it' & R).
    rewrite R. cbn [bind]. rewrite run_one, He. exists it'. unfold member. rewrite json_string_esc, <- !app_assoc. reflexivity.
  Qed.
  Lemma entry_text k v s :
    writes_text v -> key_text false k = Some s -> writable v -> safe v -> key_leaks k && takes_name v = false ->
    block (EMapKeyBegin :: emit k ++ EMapKeyEnd :: EMapValBegin :: emit v ++ [EMapValEnd]) (member s (compact false v)).
  Proof.
    intros P K O S Lk it cde out. rewrite run_cons, jm_over by reflexivity. cbn [json_step].
    assert (B : j_map_key_begin bytes string_write (st it cde out) = Ok (kst false cde (out ++ sep cde ++ [dquote]))).
    { unfold j_map_key_begin. cbv zeta. cbn [set_it set_tq f_cde st]. destruct cde; reflexivity. }
    rewrite B. cbn [bind]. rewrite run_app.
    rewrite (key_run ryu32 ryu64 P32 P64 k false s K ltac:(discriminate) false cde _ eq_refl). cbn [bind].
    rewrite run_cons, jm_over by reflexivity. cbn [json_step].
    assert (E : forall it cde out, j_map_key_end bytes string_write (kst it cde out) = Ok (st it cde (out ++ [dquote; ":"%char]))) by reflexivity.
    rewrite E. cbn [bind]. rewrite run_cons, jm_over by reflexivity. cbn [json_step bind]. rewrite run_app.
    destruct (outside v P O S (key_leaks k) false (((out ++ sep cde ++ [dquote]) ++ esc s) ++ [dquote; ":"%char])) as (it' & R).
    { destruct (key_leaks k); [right|left]; auto. }
    rewrite R. cbn [bind]. rewrite run_one, jm_over by reflexivity. cbn [json_step].
    exists it'. unfold member. rewrite json_string_esc. unfold quoted. rewrite <- !app_assoc. reflexivity.
  Qed.

  Lemma named_text inside it cde out l i (t : tree) (body : fm bytes -> res (fm bytes)) x :
    ctx inside it t -> takes_name t = is_named l i ->
    (forall cde out, exists it', body (st false cde out) = Ok (st it' false (out ++ x))) ->
    exists s it', (internally_tagged_begin bytes string_write l i (st it cde out) >>= body >>= internally_tagged_end bytes l i) =
      Ok (st it' false (out ++ s)) /\
      s ++ closer inside (takes_name t) = under inside l i x /\ (inside = true -> it' = takes_name t).
  Proof.
    intros C Tn B. destruct (itb inside l i it cde out (ctx_starts _ _ _ _ _ C Tn)) as (cde' & O). rewrite O. cbn [bind].
    destruct (B cde' (out ++ opened inside l i)) as (it' & R). rewrite R. cbn [bind]. rewrite ite.
    exists (opened inside l i ++ x), (is_named l i). split; [fin|]. rewrite Tn. split; [apply under_opened|reflexivity].
  Qed.

  Lemma raw_text t l i v s inside it cde out : is_raw t = true -> text_of v = Some s ->
    (otag_is t NUMBER = true -> number_text s /\ ~ zero_exp s) ->
    starts inside it l i -> (inside = true -> otag_is t JSON_TEXT = true \/ is_named l i = false) ->
    J (st it cde out) (emit (TTagged t l i v)) = Ok (st (is_named l i) false (out ++ opened inside l i ++ raw_out t s)).
  Proof.
    intros Rw Tx Nt Hs Hin.
    destruct (text_of_run ryu32 ryu64 _ _ Tx) as (n & fs & Fs & Rv).
    cbn [emit]. rewrite run_cons, jm_over by reflexivity. cbn [json_step]. unfold j_tagged_begin, raw_out.
    destruct (otag_is t JSON_TEXT) eqn:A1.
    - cbv zeta.
      assert (B : exists cde', internally_tagged_begin bytes string_write l i (set_th bytes (Some HNative) (st it cde out)) =
                  Ok (MkF false cde' true (Some HNative) None (out ++ opened inside l i))).
      { unfold starts, opened in *. destruct inside.
        - subst it. apply itb_true.
        - exists cde. rewrite itb_skip by exact Hs. cb. rewrite app_nil_r. reflexivity. }
      destruct B as (cde' & ->). cb.
      rewrite run_app, Rv, run_cons, jm_over by reflexivity. cbn [json_step]. unfold j_text_begin. cb.
      rewrite put_pure. cb. rewrite run_app, frag_run_native by reflexivity. cb.
      rewrite run_one, jm_over by reflexivity. cbn [json_step]. unfold j_text_end. cb. rewrite put_pure. cb.
      rewrite run_one, jm_over by reflexivity. cbn [json_step]. unfold j_tagged_end. rewrite A1. cb. rewrite ite, Fs. fin.
    - assert (Sk : it = false \/ is_named l i = false).
      { unfold starts in Hs. destruct inside; [|exact Hs]. destruct (Hin eq_refl); [discriminate|auto]. }
      assert (Op : opened inside l i = []).
      { unfold opened. destruct inside; [|reflexivity]. destruct (Hin eq_refl) as [X|X]; [discriminate|].
        unfold name_open. unfold is_named in X. destruct (name_of l i); [discriminate|reflexivity]. }
      rewrite Op. cbn [app].
      destruct (otag_is t JSON_VALUE) eqn:A2.
      + assert (A3 : otag_is t NUMBER = false).
        { destruct t as [t|]; [|reflexivity]. apply bytes_eqb_eq in A2. subst t. reflexivity. }
        rewrite A3.
        cbv zeta. rewrite itb_skip by exact Sk. cb.
        rewrite run_app, Rv, run_cons, jm_over by reflexivity. cbn [json_step]. unfold j_text_begin. cb.
        rewrite run_app, frag_run_native by reflexivity. cb.
        rewrite run_one, jm_over by reflexivity. cbn [json_step]. unfold j_text_end. cb.
        rewrite run_one, jm_over by reflexivity. cbn [json_step]. unfold j_tagged_end. rewrite A1, A2. cb. rewrite ite, Fs. fin.
      + destruct (otag_is t NUMBER) eqn:A3.
        * cbv zeta. cb. rewrite itb_skip by exact Sk. cb.
          destruct (Nt eq_refl) as (Nu & Nz). apply number_text_lit in Nu as (lt & Lok & ->).
          destruct (nbs_lit lt 0 Lok Nz) as (h & o & Hn & Ho).
          rewrite (number_out_lit lt Lok Nz).
          rewrite run_app, Rv, run_cons, jm_over by reflexivity. cbn [json_step]. unfold j_text_begin. cb.
          rewrite run_app. rewrite (frag_run_number _ _ fs _ (MkNum true false 0 false) h o) by (try reflexivity; rewrite Fs; exact Hn). cb.
          rewrite run_one, jm_over by reflexivity. cbn [json_step]. unfold j_text_end. cb.
          rewrite run_one, jm_over by reflexivity. cbn [json_step]. unfold j_tagged_end. rewrite A1, A2, A3. cbv zeta. cb.
          unfold num_end. rewrite <- Ho.
          destruct (n_start h).
          { unfold string_write at 1. cbn [lift bind]. cb. rewrite ite. fin. }
          { cbn [lift bind]. cb. rewrite ite, app_nil_r. fin. }
        * assert (A4 : otag_is t JSON_NUMBER = true).
          { unfold is_raw in Rw. rewrite A1, A2, A3 in Rw. exact Rw. }
          rewrite A4. cbv zeta. rewrite itb_skip by exact Sk. cb.
          rewrite run_app, Rv, run_cons, jm_over by reflexivity. cbn [json_step]. unfold j_text_begin. cb.
          rewrite run_app, frag_run_native by reflexivity. cb.
          rewrite run_one, jm_over by reflexivity. cbn [json_step]. unfold j_text_end. cb.
          rewrite run_one, jm_over by reflexivity. cbn [json_step]. unfold j_tagged_end. rewrite A1, A2, A3, A4. cb. rewrite ite, Fs. fin.
  Qed.

  Lemma all_text t : writes_text t.
  Proof.
    induction t using tree_ind'; intros O S inside it cde out C; cbn [writable safe] in O, S.
    (* scalars *)
    1-7: pose proof (not_inside _ _ _ C eq_refl) as ->; cbn [closer andb takes_name JsonTextSpec.compact].
    1-5: cbn [emit]; rewrite run_one, jm_over by reflexivity; cbn [json_step].
    - exists (bs "null"), it. unfold j_null. rewrite put_pure. split; [fin|split; [reflexivity|discriminate]].
    - exists (if b then bs "true" else bs "false"), it. unfold j_bool. rewrite put_pure, app_nil_r. split; [fin|split; [reflexivity|discriminate]].
    - exists (dec z), it. unfold j_int. rewrite put_pure, app_nil_r. split; [fin|split; [reflexivity|discriminate]].
    - exists (float_key ryu32 f), it. rewrite app_nil_r. split; [|split; [reflexivity|discriminate]].
      unfold j_float, float_key. cbv zeta. destruct (is_nan f || is_infinite f); [unfold j_null|]; rewrite put_pure; fin.
    - exists (float_key ryu64 f), it. rewrite app_nil_r. split; [|split; [reflexivity|discriminate]].
      unfold j_float, float_key. cbv zeta. destruct (is_nan f || is_infinite f); [unfold j_null|]; rewrite put_pure; fin.
    - exists (quoted (esc (frags_text fs))), it. rewrite app_nil_r.
      split; [apply text_run|split; [symmetry; apply json_string_esc|discriminate]].
    - cbn [emit]. rewrite run_cons, jm_bin_begin.
      destruct (array_text (map (fun b => [ESeqValBegin; EInt U8 (byte_val b); ESeqValEnd]) (frags_text fs))
                  (map (fun b => dec (byte_val b)) (frags_text fs)) it cde out) as (it' & R).
      { induction (frags_text fs); cbn [map]; constructor; [apply byte_text|assumption]. }
      eexists _, it'. split; [|split; [apply app_nil_r|discriminate]].
      rewrite <- R. destruct (j_seq_begin bytes string_write (st it cde out)); cbn [bind]; [|reflexivity..].
      rewrite run_app, bin_blocks. destruct (J a _); cbn [bind]; [|reflexivity..]. rewrite run_one, jm_bin_end. reflexivity.
    - (* tag *)
      cbn [emit takes_name JsonTextSpec.compact]. rewrite run_one, jm_over by reflexivity. cbn [json_step]. unfold j_tag.
      assert (Cl : closer inside false = []) by (unfold closer; rewrite andb_false_r; reflexivity). rewrite Cl.
      destruct (otag_is t RUST_OPTION_NONE).
      + exists (bs "null"), false. split; [|split; reflexivity]. unfold j_null. cbv zeta. rewrite put_pure. fin.
      + destruct l as [l|].
        * exists (quoted (esc (l_text l))), false. rewrite app_nil_r.
          split; [|split; [symmetry; apply json_string_esc|reflexivity]].
          unfold j_str, j_text_begin, text_fragment_computed, j_text_end. cb. cbv zeta. rewrite put_pure. cb.
          rewrite escape_str_pure. cbn [lift bind]. cb. rewrite put_pure. unfold quoted. fin.
        * unfold index_i64. destruct i as [i|]; [rewrite index_to_spec by discriminate; destruct (fits I64 (i_val i))|].
          -- exists (dec (i_val i)), false. rewrite app_nil_r. split; [|split; reflexivity].
             unfold j_int. cbv zeta. rewrite put_pure. fin.
          -- exists (bs "null"), false. split; [|split; reflexivity]. unfold j_null. cbv zeta. rewrite put_pure. fin.
          -- exists (bs "null"), false. split; [|split; reflexivity]. unfold j_null. cbv zeta. rewrite put_pure. fin.
    - (* hint *)
      pose proof (not_inside _ _ _ C eq_refl) as ->.
      cbn [emit takes_name JsonTextSpec.compact] in *. rewrite run_cons, jm_hint. cbn [bind]. apply IHt; assumption.
    - (* tagged *)
      destruct (is_raw t) eqn:Rw.
      { destruct O as (s & Tx & Nu). exists (opened inside l i ++ raw_out t s), (is_named l i).
        assert (Hin : inside = true -> otag_is t JSON_TEXT = true \/ is_named l i = false).
        { intros ->. destruct C as (_ & _ & C & _). cbn [named_unquoted] in C. rewrite Rw in C. cbn [andb] in C.
          destruct (otag_is t JSON_TEXT); [auto|]. right. exact C. }
        split; [|split; [|reflexivity]].
        - apply raw_text; [exact Rw|exact Tx| |exact (ctx_starts _ _ _ _ _ C eq_refl)|exact Hin].
          intros N. split; [apply Nu, N|apply S; [exact N|exact Tx]].
        - cbn [takes_name JsonTextSpec.compact]. rewrite Rw, Tx. apply under_opened. }
      cbn [JsonTextSpec.compact]. rewrite Rw. cbn [emit]. rewrite run_cons, jm_over by reflexivity. cbn [json_step]. unfold j_tagged_begin.
      unfold is_raw in Rw. apply orb_false_iff in Rw as [Rw R4]. apply orb_false_iff in Rw as [Rw R3].
      apply orb_false_iff in Rw as [R1 R2]. rewrite R1, R2, R3, R4. cbv zeta.
      destruct (named_text inside it cde out l i (TTagged t l i t0)
                  (fun f => J (set_cde bytes true f) (emit t0)) (compact false t0) C eq_refl) as (s & it' & R & T & E).
      { intros cde0 out0. exact (outside t0 IHt O S false true out0 (or_introl eq_refl)). }
      exists s, it'. split; [|split; [exact T|exact E]]. rewrite <- R.
      destruct (internally_tagged_begin bytes string_write l i (st it cde out)) as [f| |] eqn:Ib; cbn [bind]; [|reflexivity..].
      rewrite run_app.
      destruct (J (set_cde bytes true f) (emit t0)) as [f1| |] eqn:Jb; cbn [bind]; [|reflexivity..].
      rewrite run_one, jm_over by reflexivity. cbn [json_step]. unfold j_tagged_end. rewrite R1, R2, R3, R4. cbn [bind].
      cbn [bind] in R. rewrite Jb in R. cbn [bind] in R. rewrite ite in R.
      assert (Cd : f_cde f1 = false) by (apply (f_equal (fun r => match r with Ok f => f_cde f | _ => false end)) in R; exact R).
      rewrite Cd. reflexivity.
    - (* enum *)
      destruct O as [V O]. destruct S as (S & Nu & Un).
      cbn [emit]. rewrite run_cons, jm_over by reflexivity. cbn [json_step]. unfold j_enum_begin.
      destruct (itb inside l i it cde out (ctx_starts _ _ _ _ _ C eq_refl)) as (cde' & Op). rewrite Op. cbn [bind].
      change (set_cde bytes true (set_it bytes true (st false cde' (out ++ opened inside l i)))) with (st true true (out ++ opened inside l i)).
      rewrite run_app.
      destruct (IHt O S true true true (out ++ opened inside l i) (conj eq_refl (conj V (conj Nu Un)))) as (s & it' & R & T & E).
      rewrite R. cbn [bind]. rewrite run_one, jm_over by reflexivity. cbn [json_step]. unfold j_enum_end. cb.
      rewrite (E eq_refl). clear E R.
      exists (opened inside l i ++ s ++ closer true (takes_name t0)), (if takes_name t0 then true else is_named l i).
      split; [|split].
      + destruct (takes_name t0); cbn [closer andb].
        * unfold j_map_end. rewrite put_pure. fin.
        * rewrite ite, app_nil_r. fin.
      + cbn [takes_name JsonTextSpec.compact]. rewrite T. apply under_opened.
      + intros ->. destruct C as (_ & _ & _ & C). cbn [unnamed_enum_of_named] in C. cbn [takes_name].
        destruct (takes_name t0); [|reflexivity]. destruct (is_named l i); [reflexivity|discriminate].
    - (* seq *)
      pose proof (not_inside _ _ _ C eq_refl) as ->. cbn [closer andb takes_name JsonTextSpec.compact].
      cbn [emit]. rewrite run_cons, jm_over by reflexivity. cbn [json_step].
      destruct (array_text (map (fun v => ESeqValBegin :: emit v ++ [ESeqValEnd]) vs) (map (compact false) vs) it cde out) as (it' & R).
      { clear C. induction H as [|v vs Hv HF IH]; cbn [map]; constructor.
        - apply value_text; try (intros; apply jm_over; reflexivity); [exact Hv|apply O|apply S].
        - apply IH; [apply O|apply S]. }
      eexists _, it'. split; [|split; [apply app_nil_r|discriminate]].
      rewrite <- R. destruct (j_seq_begin bytes string_write (st it cde out)); cbn [bind]; [|reflexivity..].
      rewrite run_app, flat_map_blocks. destruct (J a _); cbn [bind]; [|reflexivity..]. rewrite run_one, jm_over by reflexivity. reflexivity.
    - (* map *)
      pose proof (not_inside _ _ _ C eq_refl) as ->. cbn [closer andb takes_name JsonTextSpec.compact].
      cbn [emit]. rewrite run_cons, jm_over by reflexivity. cbn [json_step].
      set (blk := fun kv : tree * tree => let (k, v) := kv in EMapKeyBegin :: emit k ++ EMapKeyEnd :: EMapValBegin :: emit v ++ [EMapValEnd]).
      set (txt := fun kv : tree * tree => let (k, v) := kv in member (match key_text false k with Some s => s | None => [] end) (compact false v)).
      destruct (object_text (map blk es) (map txt es) it cde out) as (it' & R).
      { clear C. induction H as [|[k v] es [Hk Hv] HF IH]; cbn [map]; constructor.
        - destruct O as (K & O & _), S as (Lk & S & _). cbn [blk txt]. destruct (key_some k false K) as (s & E). rewrite E.
          apply entry_text; assumption.
        - apply IH; [apply O|apply S]. }
      eexists _, it'. split; [|split; [apply app_nil_r|discriminate]].
      rewrite <- R. destruct (j_map_begin bytes string_write (st it cde out)); cbn [bind]; [|reflexivity..].
      rewrite run_app, flat_map_blocks. fold blk. destruct (J a _); cbn [bind]; [|reflexivity..]. rewrite run_one, jm_over by reflexivity. reflexivity.
    - (* record *)
      cbn [emit JsonTextSpec.compact]. rewrite run_cons, jm_over by reflexivity. cbn [json_step].
      set (blk := fun f : option tag * label * tree => let (p, v) := f in let (ft, fl) := p in ERecordValBegin ft fl :: emit v ++ [ERecordValEnd ft fl]).
      set (txt := fun f : option tag * label * tree => let (p, v) := f in let (ft, fl) := p in member (l_text fl) (compact false v)).
      assert (Bl : Forall2 block (map blk fs) (map txt fs)).
      { clear C. induction H as [|[[ft fl] v] fs Hv HF IH]; cbn [map]; constructor.
        - destruct O as (Id & O & _), S as (S & _). apply field_text; try assumption; [intros; apply jm_over; reflexivity|intros; apply jm_record_val_end].
        - apply IH; [apply O|apply S]. }
      destruct (named_text inside it cde out l i (TRecord t l i n fs)
        (fun f => j_map_begin bytes string_write f >>= fun f => J f (List.concat (map blk fs)) >>= j_map_end bytes string_write)
        _ C eq_refl (fun c o => object_text _ _ false c o Bl)) as (s & it' & R & T & E).
      exists s, it'. split; [|split; [exact T|exact E]]. rewrite <- R. unfold j_record_begin.
      rewrite !bind_assoc. destruct (internally_tagged_begin bytes string_write l i (st it cde out)); cbn [bind]; [|reflexivity..].
      rewrite !bind_assoc. destruct (j_map_begin bytes string_write a); cbn [bind]; [|reflexivity..].
      rewrite run_app, flat_map_blocks. fold blk. destruct (J a0 _); cbn [bind]; [|reflexivity..].
      rewrite run_one, jm_over by reflexivity. reflexivity.
    - (* tuple *)
      cbn [emit JsonTextSpec.compact]. rewrite run_cons, jm_over by reflexivity. cbn [json_step].
      set (blk := fun f : option tag * index * tree => let (p, v) := f in let (ft, fi) := p in ETupleValBegin ft fi :: emit v ++ [ETupleValEnd ft fi]).
      set (txt := fun f : option tag * index * tree => let (p, v) := f in let (ft, fi) := p in compact false v).
      assert (Bl : Forall2 block (map blk fs) (map txt fs)).
      { clear C. induction H as [|[[ft fi] v] fs Hv HF IH]; cbn [map]; constructor.
        - destruct O as (O & _), S as (S & _). apply value_text; try assumption; [intros; apply jm_tuple_val_begin|intros; apply jm_tuple_val_end].
        - apply IH; [apply O|apply S]. }
      destruct (named_text inside it cde out l i (TTuple t l i n fs)
        (fun f => j_seq_begin bytes string_write f >>= fun f => J f (List.concat (map blk fs)) >>= j_seq_end bytes string_write)
        _ C eq_refl (fun c o => array_text _ _ false c o Bl)) as (s & it' & R & T & E).
      exists s, it'. split; [|split; [exact T|exact E]]. rewrite <- R. unfold j_tuple_begin.
      rewrite !bind_assoc. destruct (internally_tagged_begin bytes string_write l i (st it cde out)); cbn [bind]; [|reflexivity..].
      rewrite !bind_assoc. destruct (j_seq_begin bytes string_write a); cbn [bind]; [|reflexivity..].
      rewrite run_app, flat_map_blocks. fold blk. destruct (J a0 _); cbn [bind]; [|reflexivity..].
      rewrite run_one, jm_over by reflexivity. reflexivity.
    - (* record tuple *)
      cbn [emit JsonTextSpec.compact]. rewrite run_cons, jm_rectup_begin.
      set (blk := fun f : option tag * label * index * tree => let (p, v) := f in let (p, fi) := p in let (ft, fl) := p in
                    ERecTupValBegin ft fl fi :: emit v ++ [ERecTupValEnd ft fl fi]).
      set (txt := fun f : option tag * label * index * tree => let (p, v) := f in let (p, fi) := p in let (ft, fl) := p in member (l_text fl) (compact false v)).
      assert (Bl : Forall2 block (map blk fs) (map txt fs)).
      { clear C. induction H as [|[[[ft fl] fi] v] fs Hv HF IH]; cbn [map]; constructor.
        - destruct O as (Id & O & _), S as (S & _). apply field_text; try assumption; [intros; apply jm_rectup_val_begin|intros; apply jm_rectup_val_end].
        - apply IH; [apply O|apply S]. }
      destruct (named_text inside it cde out l i (TRecTup t l i n fs)
        (fun f => j_map_begin bytes string_write f >>= fun f => J f (List.concat (map blk fs)) >>= j_map_end bytes string_write)
        _ C eq_refl (fun c o => object_text _ _ false c o Bl)) as (s & it' & R & T & E).
      exists s, it'. split; [|split; [exact T|exact E]]. rewrite <- R. unfold j_record_begin.
      rewrite !bind_assoc. destruct (internally_tagged_begin bytes string_write l i (st it cde out)); cbn [bind]; [|reflexivity..].
      rewrite !bind_assoc. destruct (j_map_begin bytes string_write a); cbn [bind]; [|reflexivity..].
      rewrite run_app, flat_map_blocks. fold blk. destruct (J a0 _); cbn [bind]; [|reflexivity..].
      rewrite run_one, jm_rectup_end. reflexivity.
  Qed.
End Text.
