(** * JsonProofs: the JSON text of a value denotes its image *)

From Verif Require Import Base Event Tree LowerModel FlatProofs LowerProofs MethProofs LowerSpec DataModel DataProofs DecProofs
  JsonModel JsonGrammar JsonSpec JsonNumProofs JsonMethProofs.

(** ** Escaping *)
Definition escb (b : byte) : bytes := match escape_of b with None => [b] | Some es => List.concat es end.
Definition esc (s : bytes) : bytes := flat_map escb s.

Lemma esc_app a b : esc (a ++ b) = esc a ++ esc b.
Proof. apply flat_map_app. Qed.

Lemma writes_pure ss : forall w, writes bytes string_write w ss = Ok (w ++ List.concat ss).
Proof.
  induction ss as [|s ss IH]; intros w; cbn [writes List.concat]; [rewrite app_nil_r; reflexivity|].
  unfold string_write at 1. cbn [bind]. rewrite IH, app_assoc. reflexivity.
Qed.
Lemma escape_loop_pure rest : forall pending w,
  escape_loop bytes string_write rest pending w = Ok (w ++ pending ++ esc rest).
Proof.
  assert (P : forall pending w, match pending with [] => Ok w | _ :: _ => string_write w pending end = Ok (w ++ pending))
    by (intros [|c p] w; [rewrite app_nil_r|]; reflexivity).
  induction rest as [|b rest IH]; intros pending w; cbn [escape_loop esc flat_map].
  - rewrite P, app_nil_r. reflexivity.
  - unfold escb. destruct (escape_of b) as [es|].
    + rewrite P. cbn [bind]. rewrite writes_pure. cbn [bind]. rewrite IH. cbn [app].
      unfold esc, escb. rewrite <- !app_assoc. reflexivity.
    + rewrite IH. unfold esc, escb. rewrite <- !app_assoc. reflexivity.
Qed.
Lemma escape_str_pure v w : escape_str bytes string_write v w = Ok (w ++ esc v).
Proof. apply escape_loop_pure. Qed.

Lemma unescape_escb b r : unescape (escb b ++ r) = option_map (cons b) (unescape r).
Proof. destruct b as [[] [] [] [] [] [] [] []]; reflexivity. Qed.
Lemma unescape_esc s : unescape (esc s) = Some s.
Proof.
  induction s as [|b s IH]; [reflexivity|]. change (esc (b :: s)) with (escb b ++ esc s).
  rewrite unescape_escb, IH. reflexivity.
Qed.
Lemma digit_escb b : is_digit b = true -> escb b = [b].
Proof. destruct b as [[] [] [] [] [] [] [] []]; (reflexivity || discriminate). Qed.
Lemma digits_esc s : forallb is_digit s = true -> esc s = s.
Proof.
  induction s as [|b s IH]; [reflexivity|]. cbn [forallb]. intros H. apply andb_true_iff in H as [H1 H2].
  change (esc (b :: s)) with (escb b ++ esc s). rewrite digit_escb, IH by assumption. reflexivity.
Qed.
Lemma esc_dec z : esc (dec z) = dec z.
Proof.
  unfold dec. destruct (z <? 0)%Z; [|apply digits_esc, dec_N_digits1].
  change (esc ("-"%char :: ?x)) with ("-"%char :: esc x). rewrite digits_esc; [reflexivity|apply dec_N_digits1].
Qed.
(** A text with nothing to escape. *)
Definition plain_byte (b : byte) : bool := let n := N_of_ascii b in negb (n =? 34)%N && negb (n =? 92)%N && (32 <=? n)%N.
Lemma plain_escb b : plain_byte b = true -> escb b = [b].
Proof. destruct b as [[] [] [] [] [] [] [] []]; (reflexivity || discriminate). Qed.
Lemma plain_esc s : forallb plain_byte s = true -> esc s = s.
Proof.
  induction s as [|b s IH]; [reflexivity|]. cbn [forallb]. intros H. apply andb_true_iff in H as [H1 H2].
  change (esc (b :: s)) with (escb b ++ esc s). rewrite plain_escb, IH by assumption. reflexivity.
Qed.

(** ** Grammar *)
Lemma ws_nil : ws []. Proof. reflexivity. Qed.
Lemma jt_value s v : json_value s v -> json_text s v.
Proof. intros H. pose proof (jt [] s [] v ws_nil ws_nil H) as T. rewrite app_nil_r in T. exact T. Qed.
Lemma jm_one' b k s v : unescape b = Some k -> json_text s v -> json_members (quoted b ++ bs ":" ++ s) [(k, v)].
Proof. intros A B. exact (jm_one [] [] b k s v ws_nil ws_nil A B). Qed.
Lemma jm_more' b k s v r ms : unescape b = Some k -> json_text s v -> json_members r ms ->
  json_members (quoted b ++ bs ":" ++ s ++ bs "," ++ r) ((k, v) :: ms).
Proof. intros A B C. exact (jm_more [] [] b k s v r ms ws_nil ws_nil A B C). Qed.

(** ** The formatter writing to a [String] *)
Section Pure.
  Variable ryu32 ryu64 : float -> bytes.
  Notation step := (json_step bytes string_write ryu32 ryu64).
  Notation jm := (meth json_over step).
  Notation J := (run jm).

  (** A formatter between two values; [kst] inside a key. *)
  Definition st (it cde : bool) (out : bytes) : fm bytes := MkF it cde true None None out.
  Definition kst (it cde : bool) (out : bytes) : fm bytes := MkF it cde false None None out.

  Lemma put_pure s f : put bytes string_write s f = Ok (set_out bytes (f_out f ++ s) f).
  Proof. reflexivity. Qed.

  Definition name_open (l : option label) (i : option index) : bytes :=
    match name_of l i with Some k => bs "{" ++ quoted (esc k) ++ bs ":" | None => [] end.

  Lemma index_i64_named l i : name_of l i =
    match l with Some l => Some (l_text l) | None => option_map dec (index_i64 i) end.
  Proof.
    unfold name_of, index_i64. destruct l; [reflexivity|]. destruct i; [|reflexivity].
    rewrite index_to_spec by discriminate. destruct (fits I64 (i_val i)); reflexivity.
  Qed.

  Lemma itb_true l i cde th out : exists cde',
    internally_tagged_begin bytes string_write l i (MkF true cde true th None out) =
    Ok (MkF false cde' true th None (out ++ name_open l i)).
  Proof.
    unfold internally_tagged_begin, name_open. rewrite index_i64_named. cbn [f_it].
    destruct l as [l|].
    - exists true. unfold tagged_map_begin_label, j_map_begin, j_map_key_begin, j_map_key_end, set_it, set_cde, set_tq.
      unfold put, lift, string_write, set_out. cbn [bind f_tq f_it f_cde f_th f_err f_out].
      fold string_write. rewrite escape_str_pure. cbn [bind lift f_tq f_it f_cde f_th f_err f_out set_out].
      unfold quoted. rewrite <- !app_assoc. reflexivity.
    - destruct (index_i64 i) as [z|].
      + exists false. unfold tagged_map_begin_index, j_map_begin, j_map_key_begin, j_map_key_end, j_int, set_it, set_cde, set_tq.
        unfold put, lift, string_write, set_out. cbn [bind f_tq f_it f_cde f_th f_err f_out option_map].
        unfold quoted. rewrite esc_dec, <- !app_assoc. reflexivity.
      + exists cde. cbn [option_map]. rewrite app_nil_r. reflexivity.
  Qed.
  Lemma itb_skip l i f : f_it f = false \/ is_named l i = false ->
    internally_tagged_begin bytes string_write l i f = Ok (set_it bytes false f).
  Proof.
    unfold is_named. rewrite index_i64_named. unfold internally_tagged_begin.
    destruct f as [it cde tq th er out]. cbn [f_it]. destruct it; [|reflexivity].
    intros [H|H]; [discriminate|]. destruct l; [discriminate|]. destruct (index_i64 i); [discriminate|]. reflexivity.
  Qed.
  (** Opening a possibly named value. *)
  Definition opened (inside : bool) (l : option label) (i : option index) : bytes :=
    if inside then name_open l i else [].
  Definition starts (inside it : bool) (l : option label) (i : option index) : Prop :=
    if inside then it = true else it = false \/ is_named l i = false.
  Lemma itb inside l i it cde out : starts inside it l i -> exists cde',
    internally_tagged_begin bytes string_write l i (st it cde out) = Ok (st false cde' (out ++ opened inside l i)).
  Proof.
    unfold starts, opened. destruct inside.
    - intros ->. apply itb_true.
    - intros H. exists cde. rewrite itb_skip by exact H. rewrite app_nil_r. reflexivity.
  Qed.
  Lemma ite l i f : internally_tagged_end bytes l i f = Ok (set_it bytes (is_named l i) f).
  Proof.
    unfold internally_tagged_end, is_named. rewrite index_i64_named. f_equal. f_equal.
    destruct l; [reflexivity|]. destruct (index_i64 i); reflexivity.
  Qed.

  (** Texts. *)
  Lemma frag_run fs : forall f, f_th f = None ->
    J f (map text_frag fs) = Ok (set_out bytes (f_out f ++ esc (frags_text fs)) f).
  Proof.
    induction fs as [|[b s] fs IH]; intros f Hf; cbn [map].
    - unfold frags_text. cbn. rewrite app_nil_r. destruct f; reflexivity.
    - rewrite run_cons. unfold text_frag at 1. cbn [fst snd].
      assert (E : forall e, e = (if b then ETextFrag s else ETextFragC s) -> jm f e = Ok (set_out bytes (f_out f ++ esc s) f)).
      { intros e ->. destruct b; [rewrite jm_text_frag|rewrite jm_over by reflexivity; cbn [json_step]];
          unfold text_fragment_computed; rewrite Hf, escape_str_pure; reflexivity. }
      rewrite (E _ eq_refl). cbn [bind]. rewrite IH by (destruct f; exact Hf).
      unfold frags_text. cbn [map List.concat snd]. rewrite esc_app, app_assoc. destruct f; reflexivity.
  Qed.
  Lemma frag_run_native fs : forall f, f_th f = Some HNative ->
    J f (map text_frag fs) = Ok (set_out bytes (f_out f ++ frags_text fs) f).
  Proof.
    induction fs as [|[b s] fs IH]; intros f Hf; cbn [map].
    - unfold frags_text. cbn. rewrite app_nil_r. destruct f; reflexivity.
    - rewrite run_cons. unfold text_frag at 1. cbn [fst snd].
      assert (E : forall e, e = (if b then ETextFrag s else ETextFragC s) -> jm f e = Ok (set_out bytes (f_out f ++ s) f)).
      { intros e ->. destruct b; [rewrite jm_text_frag|rewrite jm_over by reflexivity; cbn [json_step]];
          unfold text_fragment_computed; rewrite Hf; reflexivity. }
      rewrite (E _ eq_refl). cbn [bind]. rewrite IH by (destruct f; exact Hf).
      unfold frags_text. cbn [map List.concat snd]. rewrite app_assoc. destruct f; reflexivity.
  Qed.
  Lemma frag_run_number fs : forall f h h' o, f_th f = Some (HNumber h) -> n_nan h = false ->
    nbs h (frags_text fs) = Some (h', o) ->
    J f (map text_frag fs) = Ok (set_th bytes (Some (HNumber h')) (set_out bytes (f_out f ++ o) f)).
  Proof.
    induction fs as [|[b s] fs IH]; intros f h h' o Hf Hn Ho; cbn [map].
    - unfold frags_text in Ho. cbn in Ho. inversion Ho; subst. rewrite app_nil_r.
      destruct f; cbn in *; rewrite Hf; reflexivity.
    - rewrite run_cons. unfold text_frag at 1. cbn [fst snd].
      unfold frags_text in Ho. cbn [map List.concat snd] in Ho. fold (frags_text fs) in Ho.
      rewrite nbs_app in Ho. destruct (nbs h s) as [[h1 o1]|] eqn:E1; [|discriminate].
      destruct (nbs h1 (frags_text fs)) as [[h2 o2]|] eqn:E2; [|discriminate]. inversion Ho; subst.
      pose proof (num_fragment_nb s h (f_out f) h1 o1 Hn E1) as F1.
      assert (E : forall e, e = (if b then ETextFrag s else ETextFragC s) ->
        jm f e = Ok (set_th bytes (Some (HNumber h1)) (set_out bytes (f_out f ++ o1) f))).
      { intros e ->. destruct b; [rewrite jm_text_frag|rewrite jm_over by reflexivity; cbn [json_step]];
          unfold text_fragment_computed; rewrite Hf, F1; reflexivity. }
      rewrite (E _ eq_refl). cbn [bind].
      rewrite (IH _ h1 h' o2) by (try reflexivity; try assumption; rewrite <- Hn; eapply nbs_nan; eassumption).
      cbn [f_out set_th set_out]. rewrite app_assoc. reflexivity.
  Qed.

  Lemma text_run n fs it cde out :
    J (st it cde out) (emit (TText n fs)) = Ok (st it false (out ++ quoted (esc (frags_text fs)))).
  Proof.
    cbn [emit]. rewrite run_cons, jm_over by reflexivity. cbn [json_step]. unfold j_text_begin.
    cbn [f_tq st set_cde]. rewrite put_pure. cbn [bind]. rewrite run_app, frag_run by reflexivity. cbn [bind].
    rewrite run_one, jm_over by reflexivity. cbn [json_step]. unfold j_text_end.
    cbn [f_tq st set_cde set_out]. rewrite put_pure. unfold quoted, st, set_out. cbn.
    rewrite <- !app_assoc. reflexivity.
  Qed.

  (** ** Opening and closing names *)
  Definition closer (inside named : bool) : bytes := if inside && named then bs "}" else [].
  Lemma wrap_text inside l i s c : json_text s c ->
    json_text ((opened inside l i ++ s) ++ closer inside (is_named l i)) (wrap inside l i c).
  Proof.
    intros H. unfold opened, closer, wrap, name_open, is_named. destruct inside; cbn [andb].
    - destruct (name_of l i) as [k|]; [|cbn [app]; rewrite app_nil_r; exact H].
      rewrite <- !app_assoc. apply jt_value.
      pose proof (jv_obj _ _ (jm_one' _ _ _ _ (unescape_esc k) H)) as X. rewrite <- !app_assoc in X. exact X.
    - cbn [app]. rewrite app_nil_r. exact H.
  Qed.

  (** ** Arrays and objects *)
  Definition sep (cde : bool) : bytes := if cde then [] else bs ",".

  Definition elem_block (b : list ev) (j : jv) : Prop :=
    forall it cde out, exists s it', J (st it cde out) b = Ok (st it' false (out ++ sep cde ++ s)) /\ json_text s j.
  Lemma elem_blocks bs' js : Forall2 elem_block bs' js -> forall it cde out, exists s it' cde',
    J (st it cde out) (List.concat bs') = Ok (st it' cde' (out ++ s)) /\
    match js with [] => s = [] | _ => exists s', s = sep cde ++ s' /\ json_elems s' js end.
  Proof.
    induction 1 as [|b j bs' js H HF IH]; intros it cde out.
    - exists [], it, cde. rewrite app_nil_r. auto.
    - cbn [List.concat]. destruct (H it cde out) as (s & it1 & R & T). rewrite run_app, R. cbn [bind].
      destruct (IH it1 false (out ++ sep cde ++ s)) as (s2 & it2 & cde2 & R2 & T2).
      exists (sep cde ++ s ++ s2), it2, cde2. rewrite R2. split; [rewrite <- !app_assoc; reflexivity|].
      exists (s ++ s2). split; [reflexivity|].
      destruct js as [|j2 js].
      + subst s2. rewrite app_nil_r. apply je_one, T.
      + destruct T2 as (s' & -> & T2). apply je_more; assumption.
  Qed.
  Lemma array_run bs' js it cde out : Forall2 elem_block bs' js -> exists s it',
    (j_seq_begin bytes string_write (st it cde out) >>= fun f => J f (List.concat bs') >>= j_seq_end bytes string_write) =
    Ok (st it' false (out ++ s)) /\ json_text s (JArr js).
  Proof.
    intros H. change (j_seq_begin bytes string_write (st it cde out)) with (Ok (st it true (out ++ bs "["))).
    cbn [bind]. destruct (elem_blocks _ _ H it true (out ++ bs "[")) as (s & it' & cde' & R & T).
    rewrite R. cbn [bind]. exists (bs "[" ++ s ++ bs "]"), it'.
    split; [unfold j_seq_end; rewrite put_pure; unfold set_out, set_cde, st; cbn [f_it f_cde f_tq f_th f_err f_out]; rewrite <- !app_assoc; reflexivity|].
    apply jt_value. destruct js; [subst s; apply (jv_arr0 [] ws_nil)|].
    destruct T as (s' & -> & T). apply jv_arr. exact T.
  Qed.

  Definition member_block (b : list ev) (m : bytes * jv) : Prop :=
    forall it cde out, exists q s it',
      J (st it cde out) b = Ok (st it' false (out ++ sep cde ++ quoted q ++ bs ":" ++ s)) /\
      unescape q = Some (fst m) /\ json_text s (snd m).
  Lemma member_blocks bs' ms : Forall2 member_block bs' ms -> forall it cde out, exists s it' cde',
    J (st it cde out) (List.concat bs') = Ok (st it' cde' (out ++ s)) /\
    match ms with [] => s = [] | _ => exists s', s = sep cde ++ s' /\ json_members s' ms end.
  Proof.
    induction 1 as [|b [k j] bs' ms H HF IH]; intros it cde out.
    - exists [], it, cde. rewrite app_nil_r. auto.
    - cbn [List.concat]. destruct (H it cde out) as (q & s & it1 & R & U & T). cbn [fst snd] in U, T.
      rewrite run_app, R. cbn [bind].
      destruct (IH it1 false (out ++ sep cde ++ quoted q ++ bs ":" ++ s)) as (s2 & it2 & cde2 & R2 & T2).
      exists (sep cde ++ quoted q ++ bs ":" ++ s ++ s2), it2, cde2. rewrite R2. split; [rewrite <- !app_assoc; reflexivity|].
      exists (quoted q ++ bs ":" ++ s ++ s2). split; [reflexivity|].
      destruct ms as [|m2 ms].
      + subst s2. rewrite app_nil_r. apply jm_one'; assumption.
      + destruct T2 as (s' & -> & T2). apply jm_more'; assumption.
  Qed.
  Lemma object_run bs' ms it cde out : Forall2 member_block bs' ms -> exists s it',
    (j_map_begin bytes string_write (st it cde out) >>= fun f => J f (List.concat bs') >>= j_map_end bytes string_write) =
    Ok (st it' false (out ++ s)) /\ json_text s (JObj ms).
  Proof.
    intros H. change (j_map_begin bytes string_write (st it cde out)) with (Ok (st it true (out ++ bs "{"))).
    cbn [bind]. destruct (member_blocks _ _ H it true (out ++ bs "{")) as (s & it' & cde' & R & T).
    rewrite R. cbn [bind]. exists (bs "{" ++ s ++ bs "}"), it'.
    split; [unfold j_map_end; rewrite put_pure; unfold set_out, set_cde, st; cbn [f_it f_cde f_tq f_th f_err f_out]; rewrite <- !app_assoc; reflexivity|].
    apply jt_value. destruct ms; [subst s; apply (jv_obj0 [] ws_nil)|].
    destruct T as (s' & -> & T). apply jv_obj. exact T.
  Qed.

  (** Bytes, as the default methods stream them. *)
  Lemma bin_blocks fs : forall f, J f (map bin_frag fs) =
    J f (List.concat (map (fun b => [ESeqValBegin; EInt U8 (byte_val b); ESeqValEnd]) (frags_text fs))).
  Proof.
    induction fs as [|[b s] fs IH]; intros f; [reflexivity|]. cbn [map]. rewrite run_cons.
    unfold frags_text. cbn [map List.concat snd]. rewrite map_app, concat_app, run_app.
    assert (E : jm f (bin_frag (b, s)) = J f (List.concat (map (fun b => [ESeqValBegin; EInt U8 (byte_val b); ESeqValEnd]) s))).
    { rewrite <- flat_map_concat_map. unfold bin_frag; destruct b; cbn [fst snd]; [apply jm_bin_frag|apply jm_bin_fragc]. }
    rewrite E. destruct (J f _); cbn [bind]; auto.
  Qed.
  Lemma byte_block b : elem_block [ESeqValBegin; EInt U8 (byte_val b); ESeqValEnd] (JNum (byte_val b) 0).
  Proof.
    intros it cde out. exists (dec (byte_val b)), false.
    split; [|apply jt_value, jv_num, json_number_dec].
    cbn [run]. rewrite jm_over by reflexivity. cbn [json_step]. unfold j_seq_value_begin. cbn [set_it f_cde st].
    destruct cde; cbn [bind sep app]; rewrite ?put_pure; cbn [bind];
      rewrite jm_over by reflexivity; cbn [json_step]; unfold j_int; rewrite put_pure; cbn [bind];
      rewrite jm_over by reflexivity; cbn [json_step bind]; unfold set_out, set_cde, set_it, st; cbn [f_it f_cde f_tq f_th f_err f_out];
      rewrite <- ?app_assoc; reflexivity.
  Qed.
End Pure.
