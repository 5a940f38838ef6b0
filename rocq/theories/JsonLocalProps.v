(** * JsonLocalProps: the text of an element is its own (C27)

    Theorems about [json_to_string] on containers, for all element trees, whether
    their texts are valid JSON or not. *)

From Verif Require Import Base Event Tree LowerModel LowerSpec FlatProofs LowerProofs MethProofs DataModel
  JsonModel JsonGrammar JsonSpec JsonMethProofs JsonProofs JsonImageProofs JsonSimProofs JsonProps JsonLocalProofs.

(** ** Specification *)

(** The text of a tree on its own. *)
Definition alone (r32 r64 : float -> bytes) (t : tree) : sresult := json_to_string r32 r64 (map CE (emit t)).

(** All the texts, or the first failure. *)
Fixpoint gather (rs : list sresult) : list bytes + sresult :=
  match rs with
  | [] => inl []
  | SOk s :: rs => match gather rs with inl ss => inl (s :: ss) | inr r => inr r end
  | r :: _ => inr r
  end.
Fixpoint join (sep : bytes) (ss : list bytes) : bytes :=
  match ss with
  | [] => []
  | [s] => s
  | s :: ss => s ++ sep ++ join sep ss
  end.
Definition framed (o c : bytes) (rs : list sresult) : sresult :=
  match gather rs with inl ss => SOk (o ++ join (bs ",") ss ++ c) | inr r => r end.
(** [r] after the text [p]. *)
Definition after (p : bytes) (r : sresult) : sresult := match r with SOk s => SOk (p ++ s) | _ => r end.
(** A label as it is written: one tagged as an identifier is copied. *)
Definition label_text (l : label) : bytes :=
  quoted (if otag_is (l_tag l) VALUE_IDENT then l_text l else esc (l_text l)) ++ bs ":".

(** ** Proofs *)
Section Local.
  Variable r32 r64 : float -> bytes.
  Notation step := (json_step bytes string_write r32 r64).
  Notation jm := (meth json_over step).
  Notation J := (run jm).

  Definition err_of (f : fm bytes) : jerr := match f_err f with Some e => e | None => EGeneric end.
  Definition sres (r : res (fm bytes)) : sresult :=
    match r with Ok f => SOk (f_out f) | Err f => SErr (err_of f) | Panic => SPanic end.
  Lemma alone_run t : alone r32 r64 t = sres (J (st false true []) (emit t)).
  Proof. apply to_string_run, flat_CE_false. Qed.
  Lemma to_string_alone v t : streams v t -> json_to_string r32 r64 v = alone r32 r64 t.
  Proof. intros H. rewrite alone_run. apply to_string_run, H. Qed.

  Definition sep (cde : bool) : bytes := if cde then [] else bs ",".
  (** [es] behaves as [r] after [p], from [f]. *)
  Definition yields (f : fm bytes) (es : list ev) (p : bytes) (r : sresult) : Prop :=
    match r with
    | SOk s => exists it, J f es = Ok (st it false (p ++ s))
    | SErr e => exists g, J f es = Err g /\ err_of g = e
    | SPanic => J f es = Panic
    end.
  Definition writes_as (es : list ev) (r : sresult) : Prop :=
    forall it cde out, yields (st it cde out) es (out ++ sep cde) r.

  Lemma st_eta f : f_th f = None -> f_tq f = true -> f_err f = None -> f_cde f = false -> f = st (f_it f) false (f_out f).
  Proof. destruct f; cbn. intros -> -> -> ->. reflexivity. Qed.

  Lemma local t cde out : yields (st false cde out) (emit t) out (alone r32 r64 t).
  Proof.
    rewrite alone_run. pose proof (emit_cde r32 r64 t (st false cde out) true) as S.
    change (set_cde bytes true (st false cde out)) with (st false true out) in S.
    rewrite <- (app_nil_r out) in S at 2. rewrite st_pre, pre_run in S.
    pose proof (all_settle r32 r64 t (st false cde out)) as K.
    set (r := J (st false true []) (emit t)) in *. destruct r as [b|b|]; cbn [rmap same] in S;
      cbn [sres yields]; set (q := J (st false cde out) (emit t)) in *; destruct q as [a|a|]; cbn [rmap same] in S; try contradiction.
    - exists (f_it a). f_equal. destruct (K a eq_refl) as ((K1 & K2 & K3 & _) & K4). subst a.
      rewrite (st_eta (pre out b)); auto.
    - exists a. split; [reflexivity|]. unfold err_of. destruct S as (S & _). rewrite S. reflexivity.
    - reflexivity.
  Qed.

  Lemma yields_after f es p q r : yields f es (p ++ q) r -> yields f es p (after q r).
  Proof. destruct r; cbn [after yields]; auto. rewrite app_assoc. auto. Qed.

  Lemma blocks_run blocks rs : Forall2 writes_as blocks rs -> forall it cde out,
    match gather rs with
    | inl ss => exists it' cde', J (st it cde out) (List.concat blocks) = Ok (st it' cde' (out ++ (match ss with [] => [] | _ => sep cde end) ++ join (bs ",") ss))
    | inr r => yields (st it cde out) (List.concat blocks) [] r /\ forall s, r <> SOk s
    end.
  Proof.
    induction 1 as [|es r blocks rs H HF IH]; intros it cde out; cbn [List.concat gather].
    - exists it, cde. rewrite app_nil_r. reflexivity.
    - specialize (H it cde out). destruct r as [s|e|]; cbn [yields] in H.
      + destruct H as (it1 & R). specialize (IH it1 false ((out ++ sep cde) ++ s)).
        destruct (gather rs) as [ss|r].
        * destruct IH as (it2 & cde2 & R2). exists it2, cde2. rewrite run_app, R. cbn [bind]. rewrite R2.
          f_equal. f_equal. destruct ss as [|s' ss]; cbn [join sep]; rewrite <- ?app_assoc; cbn [app]; rewrite ?app_nil_r; reflexivity.
        * destruct IH as (R2 & N). split; [|exact N]. destruct r as [s'|e|]; cbn [yields] in *.
          -- destruct (N s' eq_refl).
          -- rewrite run_app, R. cbn [bind]. exact R2.
          -- rewrite run_app, R. cbn [bind]. exact R2.
      + destruct H as (g & R & E). split; [|discriminate]. exists g. split; [|exact E]. rewrite run_app, R. reflexivity.
      + split; [|discriminate]. cbn [yields]. rewrite run_app, H. reflexivity.
  Qed.

  Lemma framed_run b e o c blocks rs : Forall2 writes_as blocks rs ->
    jm (st false true []) b = Ok (st false true o) ->
    (forall it cde out, exists it', jm (st it cde out) e = Ok (st it' false (out ++ c))) ->
    sres (J (st false true []) (b :: List.concat blocks ++ [e])) = framed o c rs.
  Proof.
    intros H B E. rewrite run_cons, B. cbn [bind]. rewrite run_app.
    pose proof (blocks_run _ _ H false true o) as R. unfold framed. destruct (gather rs) as [ss|r].
    - destruct R as (it & cde & R). rewrite R. cbn [bind]. rewrite run_one.
      destruct (E it cde (o ++ (match ss with [] => [] | _ => sep true end) ++ join (bs ",") ss)) as (it' & E'). rewrite E'.
      cbn [sres st f_out]. f_equal. destruct ss; cbn [sep app]; rewrite <- app_assoc; reflexivity.
    - destruct R as (R & N). destruct r as [s|x|]; [destruct (N s eq_refl)| |]; cbn [yields] in R.
      + destruct R as (g & R & X). rewrite R. cbn [bind sres]. f_equal. exact X.
      + rewrite R. reflexivity.
  Qed.

  Lemma elem_writes b e t p :
    (forall it cde out, jm (st it cde out) b = Ok (st false cde (out ++ sep cde ++ p))) ->
    (forall f, jm f e = Ok f) ->
    writes_as (b :: emit t ++ [e]) (after p (alone r32 r64 t)).
  Proof.
    intros B E it cde out. apply yields_after.
    pose proof (local t cde ((out ++ sep cde) ++ p)) as L. unfold yields in *.
    rewrite run_cons, B. cbn [bind]. rewrite run_app. rewrite <- app_assoc in *.
    destruct (alone r32 r64 t).
    - destruct L as (it' & L). exists it'. rewrite L. cbn [bind]. rewrite run_one, E. rewrite <- app_assoc. reflexivity.
    - destruct L as (g & L & X). exists g. rewrite L. auto.
    - rewrite L. reflexivity.
  Qed.
  Lemma after_nil r : after [] r = r. Proof. destruct r; reflexivity. Qed.

  Lemma seq_val_st it cde out : j_seq_value_begin bytes string_write (st it cde out) = Ok (st false cde (out ++ sep cde ++ [])).
  Proof. unfold j_seq_value_begin. cbv zeta. cbn [f_cde set_it st]. destruct cde; cbn [sep app]; rewrite ?app_nil_r; reflexivity. Qed.
  Lemma record_val_st l it cde out : j_record_value_begin bytes string_write l (st it cde out) = Ok (st false cde (out ++ sep cde ++ label_text l)).
  Proof.
    unfold j_record_value_begin, label_text, quoted. cbv zeta. cbn [f_cde set_it st].
    destruct cde; rewrite put_pure; cbn [bind]; destruct (otag_is (l_tag l) VALUE_IDENT);
      rewrite ?put_pure; cbn [bind f_out set_out]; rewrite ?escape_str_pure; cbn [lift bind]; rewrite ?put_pure;
      unfold set_out, set_it, st; cbn [f_it f_cde f_tq f_th f_err f_out sep]; rewrite <- !app_assoc; reflexivity.
  Qed.
  Lemma Forall2_map {A B C} (P : B -> C -> Prop) (f : A -> B) (g : A -> C) l : (forall a, P (f a) (g a)) -> Forall2 P (map f l) (map g l).
  Proof. intros H. induction l; cbn; constructor; auto. Qed.

  Definition entry_evs (e : tree * tree) : list ev := EMapKeyBegin :: emit (fst e) ++ EMapKeyEnd :: EMapValBegin :: emit (snd e) ++ [EMapValEnd].
  Lemma entry_writes e : writes_as (entry_evs e) (sres (J (st false true []) (entry_evs e))).
  Proof.
    destruct e as [k v]. intros it cde out.
    assert (S : same (J (st it cde out) (entry_evs (k, v))) (J (pre (out ++ sep cde) (st false true [])) (entry_evs (k, v)))).
    { unfold entry_evs. cbn [fst snd]. rewrite !run_cons, !jm_over by reflexivity. cbn [json_step].
      assert (A : j_map_key_begin bytes string_write (st it cde out) = Ok (kst false cde (out ++ sep cde ++ [dquote]))).
      { unfold j_map_key_begin. cbv zeta. cbn [f_cde set_it set_tq st]. destruct cde; reflexivity. }
      assert (B : j_map_key_begin bytes string_write (pre (out ++ sep cde) (st false true [])) = Ok (kst false true (out ++ sep cde ++ [dquote]))).
      { unfold j_map_key_begin, pre. cbv zeta. cbn [f_cde set_it set_tq set_out st]. rewrite put_pure.
        unfold set_out, set_it, set_tq, kst. cbn [f_it f_cde f_tq f_th f_err f_out]. rewrite app_nil_r, <- app_assoc. reflexivity. }
      rewrite A, B. cbn [bind]. rewrite !run_app. apply same_bind.
      apply (emit_cde r32 r64 k (kst false cde (out ++ sep cde ++ [dquote])) true). }
    rewrite pre_run in S.
    assert (K : forall a, J (st it cde out) (entry_evs (k, v)) = Ok a -> f_th a = None /\ f_tq a = true /\ f_err a = None /\ f_cde a = false).
    { intros a R. unfold entry_evs in R. cbn [fst snd] in R. rewrite run_cons in R. apply bind_inv in R as (h1 & R1 & R2).
      rewrite run_app in R2. apply bind_inv in R2 as (h2 & R2 & R3).
      rewrite run_cons in R3. apply bind_inv in R3 as (h3 & R3 & R4). rewrite run_cons in R4. apply bind_inv in R4 as (h4 & R4 & R5).
      apply run_inv in R5 as (h5 & R5 & R6). rewrite jm_over in R1, R3, R4, R6 by reflexivity. cbn [json_step] in R1, R3, R4, R6.
      injection R6 as <-. injection R4 as <-. apply all_settle in R2 as ((A1 & A2 & A3 & _) & _). apply all_settle in R5 as ((B1 & B2 & B3 & _) & B4).
      assert (B : f_err h1 = None /\ f_th h1 = None) by (unfold j_map_key_begin in R1; cbv zeta in R1; destruct (f_cde _); injection R1 as <-; auto).
      assert (C : f_err h3 = f_err h2 /\ f_th h3 = f_th h2 /\ f_tq h3 = true) by (injection R3 as <-; auto).
      destruct B as (C1 & C2), C as (C3 & C4 & C5). rewrite C4 in B3. repeat split; auto; congruence. }
    set (q := J (st it cde out) (entry_evs (k, v))) in *. set (r := J (st false true []) (entry_evs (k, v))) in *.
    unfold yields. fold q. destruct r as [b|b|]; cbn [rmap same sres] in *; destruct q as [a|a|]; cbn [rmap same] in S; try contradiction.
    - exists (f_it a). f_equal. destruct (K a eq_refl) as (K1 & K2 & K3 & K4). rewrite (st_eta a) by auto. subst a. reflexivity.
    - exists a. split; [reflexivity|]. unfold err_of. destruct S as (S & _). rewrite S. reflexivity.
    - reflexivity.
  Qed.
  Lemma map_alone n es : alone r32 r64 (TMap n es) = framed (bs "{") (bs "}") (map (fun e => sres (J (st false true []) (entry_evs e))) es).
  Proof.
    rewrite alone_run. cbn [emit]. rewrite flat_map_concat_map.
    rewrite (map_ext _ entry_evs) by (intros []; reflexivity).
    apply framed_run.
    - apply Forall2_map. intros e. apply entry_writes.
    - rewrite jm_over by reflexivity. reflexivity.
    - intros it cde out. exists it. rewrite jm_over by reflexivity. reflexivity.
  Qed.
End Local.

(** ** C27 *)
Section Props.
  Variable r32 r64 : float -> bytes.
  Notation alone := (alone r32 r64).
  Notation json_to_string := (json_to_string r32 r64).

  (** A sequence or tuple is the elements' own texts, separated by commas; it fails as
      the first element that fails on its own. *)
  Theorem C27_seq :
    forall v n vs, streams v (TSeq n vs) ->
    json_to_string v = framed (bs "[") (bs "]") (map alone vs).
  Proof.
    intros v n vs H. rewrite (to_string_alone _ _ _ _ H), alone_run. cbn [emit]. rewrite flat_map_concat_map.
    apply framed_run.
    - apply Forall2_map. intros t. rewrite <- (after_nil (alone t)). apply elem_writes.
      + intros it cde out. rewrite jm_over by reflexivity. apply seq_val_st.
      + intros f. rewrite jm_over by reflexivity. reflexivity.
    - rewrite jm_over by reflexivity. reflexivity.
    - intros it cde out. exists it. rewrite jm_over by reflexivity. reflexivity.
  Qed.
  Theorem C27_tuple :
    forall v t l i n fs, streams v (TTuple t l i n fs) ->
    json_to_string v = framed (bs "[") (bs "]") (map (fun f => alone (snd f)) fs).
  Proof.
    intros v t l i n fs H. rewrite (to_string_alone _ _ _ _ H), alone_run. cbn [emit]. rewrite flat_map_concat_map.
    apply framed_run.
    - apply Forall2_map. intros [[ft fi] x]. rewrite <- (after_nil (alone _)). apply elem_writes.
      + intros it cde out. rewrite jm_tuple_val_begin. apply seq_val_st.
      + intros f. apply jm_tuple_val_end.
    - rewrite jm_over by reflexivity. reflexivity.
    - intros it cde out. rewrite jm_over by reflexivity. eexists. reflexivity.
  Qed.
  (** A record is the fields' own texts after their labels. *)
  Theorem C27_record :
    forall v t l i n fs, streams v (TRecord t l i n fs) ->
    json_to_string v = framed (bs "{") (bs "}") (map (fun f => after (label_text (snd (fst f))) (alone (snd f))) fs).
  Proof.
    intros v t l i n fs H. rewrite (to_string_alone _ _ _ _ H), alone_run. cbn [emit]. rewrite flat_map_concat_map.
    apply framed_run.
    - apply Forall2_map. intros [[ft fl] x]. apply elem_writes.
      + intros it cde out. rewrite jm_over by reflexivity. apply record_val_st.
      + intros f. apply jm_record_val_end.
    - rewrite jm_over by reflexivity. reflexivity.
    - intros it cde out. rewrite jm_over by reflexivity. eexists. reflexivity.
  Qed.
  Theorem C27_record_tuple :
    forall v t l i n fs, streams v (TRecTup t l i n fs) ->
    json_to_string v = framed (bs "{") (bs "}") (map (fun f => after (label_text (snd (fst (fst f)))) (alone (snd f))) fs).
  Proof.
    intros v t l i n fs H. rewrite (to_string_alone _ _ _ _ H), alone_run. cbn [emit]. rewrite flat_map_concat_map.
    apply framed_run.
    - apply Forall2_map. intros [[[ft fl] fi] x]. apply elem_writes.
      + intros it cde out. rewrite jm_rectup_val_begin. apply record_val_st.
      + intros f. apply jm_rectup_val_end.
    - rewrite jm_rectup_begin. reflexivity.
    - intros it cde out. rewrite jm_rectup_end. eexists. reflexivity.
  Qed.

  (** The text of a map entry is what is written for the map with only that entry,
      without the braces. *)
  Definition entry_alone (e : tree * tree) (r : sresult) : Prop :=
    match r with
    | SOk s => alone (TMap (Some 1%N) [e]) = SOk (bs "{" ++ s ++ bs "}")
    | _ => alone (TMap (Some 1%N) [e]) = r
    end.
  Lemma entry_alone_is e r : entry_alone e r <-> r = sres (run (meth json_over (json_step bytes string_write r32 r64)) (st false true []) (entry_evs e)).
  Proof.
    unfold entry_alone. rewrite map_alone. cbn [map]. unfold framed. cbn [gather].
    set (x := sres _). destruct r as [s|er|], x as [s'|er'|]; cbn [join]; split; intros H; try congruence.
    injection H as H. apply app_inv_tail in H. congruence.
  Qed.
  Theorem C27_map_entries_have_texts : forall e, exists r, entry_alone e r.
  Proof. intros e. eexists. apply entry_alone_is. reflexivity. Qed.
  (** A map is its entries' own texts, separated by commas. *)
  Theorem C27_map :
    forall v n es rs, streams v (TMap n es) -> Forall2 entry_alone es rs ->
    json_to_string v = framed (bs "{") (bs "}") rs.
  Proof.
    intros v n es rs H F. rewrite (to_string_alone _ _ _ _ H), map_alone. f_equal. clear H.
    induction F as [|e r es rs E F IH]; [reflexivity|]. apply entry_alone_is in E. cbn [map]. rewrite <- E.
    f_equal. apply IH.
  Qed.
End Props.

(** ** Keys and the values after them *)
Section KeyProofs.
  Variable r32 r64 : float -> bytes.
  Notation step := (json_step bytes string_write r32 r64).
  Notation jm := (meth json_over step).
  Notation J := (run jm).

  (** Equal but for [is_internally_tagged]. *)
  Definition same_it (r1 r2 : res (fm bytes)) : Prop :=
    match r1, r2 with
    | Ok a, Ok b => exists x, b = set_it bytes x a
    | Err a, Err b => f_err a = f_err b /\ f_out a = f_out b
    | Panic, Panic => True
    | _, _ => False
    end.
  Lemma same_it_refl r : same_it r r.
  Proof. destruct r as [f|f|]; cbn; auto. exists (f_it f). destruct f; reflexivity. Qed.
  Lemma same_it_blocks b0 e blocks :
    (forall f x, jm (set_it bytes x f) b0 = jm f b0) -> (forall f x, same_it (jm f e) (jm (set_it bytes x f) e)) ->
    (forall es, In es blocks -> exists es', es = b0 :: es') ->
    forall f x, same_it (J f (List.concat blocks ++ [e])) (J (set_it bytes x f) (List.concat blocks ++ [e])).
  Proof.
    intros B E I f x. destruct blocks as [|es blocks].
    - cbn [List.concat app]. rewrite !run_one. apply E.
    - destruct (I es (or_introl eq_refl)) as (es' & ->). cbn [List.concat app]. rewrite !run_cons, B. apply same_it_refl.
  Qed.
  Lemma open_it (o : fm bytes -> res (fm bytes)) f x k :
    (forall f x, o (set_it bytes x f) = rmap (set_it bytes x) (o f)) ->
    (forall f f', o f = Err f' -> True) ->
    (forall f x, same_it (k f) (k (set_it bytes x f))) ->
    same_it (o f >>= k) (o (set_it bytes x f) >>= k).
  Proof.
    intros O _ K. rewrite O. destruct (o f) as [a|a|]; cbn [rmap bind]; [apply K|cbn; auto|exact I].
  Qed.
  Lemma map_begin_it f x : j_map_begin bytes string_write (set_it bytes x f) = rmap (set_it bytes x) (j_map_begin bytes string_write f).
  Proof. unfold j_map_begin. cbn [f_tq set_it]. destruct (f_tq f); reflexivity. Qed.
  Lemma seq_begin_it f x : j_seq_begin bytes string_write (set_it bytes x f) = rmap (set_it bytes x) (j_seq_begin bytes string_write f).
  Proof. unfold j_seq_begin. cbn [f_tq set_it]. destruct (f_tq f); reflexivity. Qed.
  Lemma text_it s f x : text_fragment_computed bytes string_write s (set_it bytes x f) = rmap (set_it bytes x) (text_fragment_computed bytes string_write s f).
  Proof.
    unfold text_fragment_computed. cbn [f_th set_it f_out]. destruct (f_th f) as [[|n]|]; [reflexivity| |rewrite escape_str_pure; reflexivity].
    destruct (num_fragment _ _ s n (f_out f)) as [[? ?]|[? ?]|]; reflexivity.
  Qed.

  Lemma emit_it v : takes_name v = false -> forall f x, same_it (J f (emit v)) (J (set_it bytes x f) (emit v)).
  Proof.
    induction v using tree_ind'; cbn [takes_name]; intros Tn g x; cbn [emit].
    1-5: rewrite !run_one, !jm_over by reflexivity; cbn [json_step]; unfold j_float; cbv zeta;
         try match goal with |- context [if ?b then j_null _ _ _ else _] => destruct b end; exists x; reflexivity.
    - assert (R : J (set_it bytes x g) (ETextBegin n :: map text_frag fs ++ [ETextEnd]) = rmap (set_it bytes x) (J g (ETextBegin n :: map text_frag fs ++ [ETextEnd]))).
      { rewrite !run_cons, !jm_over by reflexivity. cbn [json_step]. unfold j_text_begin. cbv zeta. cbn [f_tq set_it set_cde].
        assert (X : forall g, J (set_it bytes x g) (map text_frag fs ++ [ETextEnd]) = rmap (set_it bytes x) (J g (map text_frag fs ++ [ETextEnd]))).
        { clear. induction fs as [|[b s] fs IH]; intros g; cbn [map app].
          - rewrite !run_one, !jm_over by reflexivity. cbn [json_step]. unfold j_text_end. cbn [f_tq set_it]. destruct (f_tq g); reflexivity.
          - rewrite !run_cons. assert (Y : forall g, jm g (text_frag (b, s)) = text_fragment_computed bytes string_write s g).
            { intros h. unfold text_frag; destruct b; cbn [fst snd]; [rewrite jm_text_frag|rewrite jm_over by reflexivity]; reflexivity. }
            rewrite !Y, text_it. destruct (text_fragment_computed bytes string_write s g); cbn [bind rmap]; auto. }
        destruct (f_tq g); rewrite ?put_pure; cbn [bind].
        - apply (X (set_out bytes (f_out (set_cde bytes false g) ++ [dquote]) (set_cde bytes false g))).
        - apply (X (set_cde bytes false g)). }
      rewrite R. destruct (J g _) as [a|a|]; cbn; eauto.
    - rewrite !run_cons, !jm_bin_begin. apply open_it; [apply seq_begin_it|auto|].
      intros f y. rewrite !run_app, !bin_blocks, <- !run_app. apply same_it_blocks with (b0 := ESeqValBegin).
      + intros f0 x0. rewrite !jm_over by reflexivity. reflexivity.
      + intros f0 x0. rewrite !jm_bin_end. exists x0. reflexivity.
      + intros es I. apply in_map_iff in I as (b & <- & _). eauto.
    - rewrite !run_one, !jm_over by reflexivity. apply same_it_refl.
    - rewrite !run_cons, !jm_hint. cbn [bind]. apply IHv, Tn.
    - rewrite !run_cons, !jm_over by reflexivity. cbn [json_step]. unfold j_tagged_begin. cbv zeta.
      rewrite !itb_skip by (right; exact Tn). cbn [bind].
      match goal with |- same_it (J ?a ?es) (J ?b ?es) => assert (X : a = b) end.
      { destruct (otag_is t JSON_TEXT); [reflexivity|]. destruct (otag_is t JSON_VALUE); [reflexivity|].
        destruct (otag_is t NUMBER); [cbn [f_th set_tq set_it]; destruct (f_th g); reflexivity|].
        destruct (otag_is t JSON_NUMBER); reflexivity. }
      rewrite X. apply same_it_refl.
    - rewrite !run_cons, !jm_over by reflexivity. cbn [json_step]. unfold j_enum_begin.
      rewrite !itb_skip by (right; exact Tn). apply same_it_refl.
    - rewrite !run_cons, !jm_over by reflexivity. apply open_it; [apply seq_begin_it|auto|].
      intros f y. rewrite flat_map_concat_map. apply same_it_blocks with (b0 := ESeqValBegin).
      + intros f0 x0. rewrite !jm_over by reflexivity. reflexivity.
      + intros f0 x0. rewrite !jm_over by reflexivity. exists x0. reflexivity.
      + intros es I. apply in_map_iff in I as (b & <- & _). eauto.
    - rewrite !run_cons, !jm_over by reflexivity. apply open_it; [apply map_begin_it|auto|].
      intros f y. rewrite flat_map_concat_map. apply same_it_blocks with (b0 := EMapKeyBegin).
      + intros f0 x0. rewrite !jm_over by reflexivity. reflexivity.
      + intros f0 x0. rewrite !jm_over by reflexivity. exists x0. reflexivity.
      + intros es0 I. apply in_map_iff in I as ([k v] & <- & _). eauto.
    - rewrite !run_cons, !jm_over by reflexivity. cbn [json_step]. unfold j_record_begin.
      rewrite !itb_skip by (right; exact Tn). apply same_it_refl.
    - rewrite !run_cons, !jm_over by reflexivity. cbn [json_step]. unfold j_tuple_begin.
      rewrite !itb_skip by (right; exact Tn). apply same_it_refl.
    - rewrite !run_cons, !jm_rectup_begin. unfold j_record_begin.
      rewrite !itb_skip by (right; exact Tn). apply same_it_refl.
  Qed.

  (** The value after a key that left [is_internally_tagged] at [x]. *)
  Lemma local_it v x cde out : x && takes_name v = false -> yields r32 r64 (st x cde out) (emit v) out (alone r32 r64 v).
  Proof.
    intros H. destruct x; [|apply local]. cbn [andb] in H.
    pose proof (local r32 r64 v cde out) as L. pose proof (emit_it v H (st false cde out) true) as S.
    change (set_it bytes true (st false cde out)) with (st true cde out) in S. unfold yields in *.
    destruct (alone r32 r64 v).
    - destruct L as (it & L). rewrite L in S. set (q := J (st true cde out) (emit v)) in *. destruct q as [a|a|]; cbn [same_it] in S; try contradiction.
      destruct S as (y & ->). exists y. reflexivity.
    - destruct L as (g & L & E). rewrite L in S. set (q := J (st true cde out) (emit v)) in *. destruct q as [a|a|]; cbn [same_it] in S; try contradiction.
      exists a. split; [reflexivity|]. unfold err_of in *. destruct S as (<- & _). exact E.
    - rewrite L in S. set (q := J (st true cde out) (emit v)) in *. destruct q as [a|a|]; cbn [same_it] in S; try contradiction. reflexivity.
  Qed.

  Section Printers.
  Hypothesis P32 : json_printer r32.
  Hypothesis P64 : json_printer r64.
  Lemma entry_split k v s : key_text r32 r64 false k = Some s ->
    J (st false true []) (entry_evs (k, v)) = J (st (key_leaks k) false (quoted (esc s) ++ bs ":")) (emit v ++ [EMapValEnd]).
  Proof.
    intros K. unfold entry_evs. cbn [fst snd]. rewrite run_cons, jm_over by reflexivity. cbn [json_step].
    change (j_map_key_begin bytes string_write (st false true [])) with (Ok (kst false true [dquote])). cbn [bind].
    rewrite run_app, (key_run r32 r64 P32 P64 k false s K ltac:(discriminate) false true [dquote] eq_refl). cbn [bind].
    rewrite run_cons, jm_over by reflexivity. cbn [json_step]. unfold j_map_key_end. rewrite put_pure. cbn [bind].
    rewrite run_cons, jm_over by reflexivity. cbn [json_step bind].
    f_equal. unfold kst, st, set_tq, set_out, quoted. cbn [f_it f_cde f_tq f_th f_err f_out].
    rewrite <- !app_assoc. reflexivity.
  Qed.
  End Printers.

  (** Containers as keys. *)
  Definition fails_key (f : fm bytes) (es : list ev) : Prop := exists g, J f es = Err g /\ f_err g = Some EInvalidKey.
  Lemma fails_bind f e es : (exists g, jm f e = Err g /\ f_err g = Some EInvalidKey) -> fails_key f (e :: es).
  Proof. intros (g & R & E). exists g. rewrite run_cons, R. auto. Qed.
  Lemma fails_app f es es' : fails_key f es -> fails_key f (es ++ es').
  Proof. intros (g & R & E). exists g. rewrite run_app, R. auto. Qed.
  Lemma map_begin_fails f : f_tq f = false -> j_map_begin bytes string_write f = Err (set_err bytes (Some EInvalidKey) f).
  Proof. unfold j_map_begin. intros ->. reflexivity. Qed.
  Lemma seq_begin_fails f : f_tq f = false -> j_seq_begin bytes string_write f = Err (set_err bytes (Some EInvalidKey) f).
  Proof. unfold j_seq_begin. intros ->. reflexivity. Qed.
  Lemma itb_key l i f : f_tq f = false ->
    (f_it f = true /\ is_named l i = true /\ exists g, internally_tagged_begin bytes string_write l i f = Err g /\ f_err g = Some EInvalidKey) \/
    (f_it f && is_named l i = false /\ internally_tagged_begin bytes string_write l i f = Ok (set_it bytes false f)).
  Proof.
    intros Q. destruct (f_it f && is_named l i) eqn:E.
    - left. apply andb_true_iff in E as (E1 & E2). split; [auto|split; [auto|]].
      unfold is_named in E2. rewrite index_i64_named in E2. unfold internally_tagged_begin. rewrite E1. cbv zeta.
      destruct l as [l|].
      + unfold tagged_map_begin_label. rewrite map_begin_fails by exact Q. eexists. split; reflexivity.
      + destruct (index_i64 i); [|discriminate]. unfold tagged_map_begin_index. rewrite map_begin_fails by exact Q. eexists. split; reflexivity.
    - right. split; [reflexivity|]. apply itb_skip. apply andb_false_iff in E. destruct E; auto.
  Qed.
  Lemma tagged_begin_key t l i f : f_tq f = false ->
    (f_it f = true /\ is_named l i = true /\ exists g, j_tagged_begin bytes string_write t l i f = Err g /\ f_err g = Some EInvalidKey) \/
    (f_it f && is_named l i = false /\ exists g, j_tagged_begin bytes string_write t l i f = Ok g /\ f_tq g = false /\ f_it g = false).
  Proof.
    intros Q. unfold j_tagged_begin. cbv zeta.
    match goal with |- context [internally_tagged_begin bytes string_write l i ?g] => assert (X : f_tq g = false /\ f_it g = f_it f) end.
    { destruct (otag_is t JSON_TEXT); [auto|]. destruct (otag_is t JSON_VALUE); [auto|].
      destruct (otag_is t NUMBER); [cbn [f_th set_tq]; destruct (f_th f); auto|].
      destruct (otag_is t JSON_NUMBER); auto. }
    destruct X as (X1 & X2). destruct (itb_key l i _ X1) as [(A & B & g & C & D)|(A & C)]; rewrite X2 in A; rewrite C; cbn [bind].
    - left. eauto.
    - right. split; [exact A|]. eexists. split; [reflexivity|]. split; [exact X1|reflexivity].
  Qed.
End KeyProofs.

(** Keys that are arrays or objects, possibly tagged or wrapped in enums. *)
Fixpoint container_key (k : tree) : bool :=
  match k with
  | TBin _ _ | TSeq _ _ | TMap _ _ | TRecord _ _ _ _ _ | TTuple _ _ _ _ _ | TRecTup _ _ _ _ _ => true
  | THint _ k | TTagged _ _ _ k | TEnum _ _ _ k => container_key k
  | _ => false
  end.
(** Keys without embedded JSON, with variants in enums. *)
Fixpoint proper_key (k : tree) : bool :=
  match k with
  | THint _ k => proper_key k
  | TTagged t _ _ k => negb (is_raw t) && proper_key k
  | TEnum _ _ _ k => is_variant k && proper_key k
  | _ => true
  end.

Section KeyFails.
  Variable r32 r64 : float -> bytes.
  Notation step := (json_step bytes string_write r32 r64).
  Notation jm := (meth json_over step).
  Notation J := (run jm).

  Ltac rec_fails Q :=
    apply fails_bind; rewrite ?jm_rectup_begin, ?jm_over by reflexivity; cbn [json_step]; unfold j_record_begin, j_tuple_begin;
    match goal with |- context [internally_tagged_begin bytes string_write ?l ?i ?g] =>
      destruct (itb_key l i g Q) as [(_ & _ & ? & -> & ?)|(_ & ->)] end; cbn [bind]; [eauto|];
    rewrite ?map_begin_fails, ?seq_begin_fails by exact Q; eexists; split; reflexivity.
  Lemma container_fails k : container_key k = true -> forall f, f_tq f = false -> fails_key r32 r64 f (emit k).
  Proof.
    induction k using tree_ind'; cbn [container_key]; intros C; try discriminate; intros g Q; cbn [emit].
    - apply fails_bind. rewrite jm_bin_begin, seq_begin_fails by exact Q. eexists; split; reflexivity.
    - destruct (IHk C g Q) as (h & R & E). exists h. rewrite run_cons, jm_hint. auto.
    - destruct (tagged_begin_key t l i g Q) as [(_ & _ & H)|(_ & h & R & Q' & _)].
      + apply fails_bind. rewrite jm_over by reflexivity. exact H.
      + destruct (fails_app _ _ _ _ [ETaggedEnd t l i] (IHk C h Q')) as (m & R' & E). exists m. rewrite run_cons, jm_over by reflexivity. cbn [json_step]. rewrite R. auto.
    - destruct (itb_key l i g Q) as [(_ & _ & h & H & E)|(_ & R)].
      + apply fails_bind. rewrite jm_over by reflexivity. cbn [json_step]. unfold j_enum_begin. rewrite H. cbn [bind]. eauto.
      + destruct (fails_app _ _ _ _ [EEnumEnd t l i] (IHk C (set_cde bytes true (set_it bytes true (set_it bytes false g))) Q)) as (m & R' & E).
        exists m. rewrite run_cons, jm_over by reflexivity. cbn [json_step]. unfold j_enum_begin. rewrite R. auto.
    - apply fails_bind. rewrite jm_over by reflexivity. cbn [json_step]. rewrite seq_begin_fails by exact Q. eexists; split; reflexivity.
    - apply fails_bind. rewrite jm_over by reflexivity. cbn [json_step]. rewrite map_begin_fails by exact Q. eexists; split; reflexivity.
    - rec_fails Q.
    - rec_fails Q.
    - rec_fails Q.
  Qed.
  Lemma other_key_fails k : proper_key k = true -> forall inside, key_text r32 r64 inside k = None ->
    (inside = true -> is_variant k = true) ->
    forall f, f_tq f = false -> f_it f = inside -> fails_key r32 r64 f (emit k).
  Proof.
    induction k using tree_ind'; cbn [proper_key JsonSpec.key_text]; intros P inside K Hi g Q Hit; cbn [emit]; try discriminate K.
    - apply (container_fails (TBin n fs)); auto.
    - destruct (otag_is t RUST_OPTION_NONE); [discriminate|]. destruct (name_of l i); discriminate.
    - destruct inside; [discriminate (Hi eq_refl)|].
      destruct (IHk P false K ltac:(discriminate) g Q Hit) as (h & R & E). exists h. rewrite run_cons, jm_hint. auto.
    - apply andb_true_iff in P as (P1 & P2). apply negb_true_iff in P1. rewrite P1 in K. cbn [orb] in K.
      destruct (tagged_begin_key t l i g Q) as [(_ & _ & H)|(N & h & R & Q' & I)].
      + apply fails_bind. rewrite jm_over by reflexivity. exact H.
      + rewrite Hit in N. rewrite N in K.
        destruct (fails_app _ _ _ _ [ETaggedEnd t l i] (IHk P2 false K ltac:(discriminate) h Q' I)) as (m & R' & E).
        exists m. rewrite run_cons, jm_over by reflexivity. cbn [json_step]. rewrite R. auto.
    - apply andb_true_iff in P as (P1 & P2). rewrite P1 in K. cbn [negb orb] in K.
      destruct (itb_key l i g Q) as [(_ & _ & h & H & E)|(N & R)].
      + apply fails_bind. rewrite jm_over by reflexivity. cbn [json_step]. unfold j_enum_begin. rewrite H. cbn [bind]. eauto.
      + rewrite Hit in N. rewrite N in K.
        destruct (fails_app _ _ _ _ [EEnumEnd t l i] (IHk P2 true K (fun _ => P1) (set_cde bytes true (set_it bytes true (set_it bytes false g))) Q eq_refl)) as (m & R' & E).
        exists m. rewrite run_cons, jm_over by reflexivity. cbn [json_step]. unfold j_enum_begin. rewrite R. auto.
    - apply (container_fails (TSeq n vs)); auto.
    - apply (container_fails (TMap n es)); auto.
    - apply (container_fails (TRecord t l i n fs)); auto.
    - apply (container_fails (TTuple t l i n fs)); auto.
    - apply (container_fails (TRecTup t l i n fs)); auto.
  Qed.
  Lemma fails_entry k v : (forall f, f_tq f = false -> f_it f = false -> fails_key r32 r64 f (emit k)) ->
    entry_alone r32 r64 (k, v) (SErr EInvalidKey).
  Proof.
    intros H. apply entry_alone_is. unfold entry_evs. cbn [fst snd]. rewrite run_cons, jm_over by reflexivity. cbn [json_step].
    change (j_map_key_begin bytes string_write (st false true [])) with (Ok (kst false true [dquote])). cbn [bind].
    rewrite run_app. destruct (H (kst false true [dquote]) eq_refl eq_refl) as (g & -> & E). cbn [bind sres]. unfold err_of. rewrite E. reflexivity.
  Qed.
End KeyFails.

(** ** C27, continued: a value does not depend on its key *)
Definition C27_values_do_not_depend_on_keys : Prop :=
  forall r32 r64, json_printer r32 -> json_printer r64 ->
  forall k v s, key_text r32 r64 false k = Some s ->
  entry_alone r32 r64 (k, v) (after (quoted (esc s) ++ bs ":") (alone r32 r64 v)).
Theorem C27_values_do_not_depend_on_keys_refuted : ~ C27_values_do_not_depend_on_keys.
Proof.
  intros H. specialize (H exact_print exact_print exact_print_json exact_print_json
    (TEnum None (lab "E") None (TTag None (lab "A") None))
    (TRecord None (lab "S") None None [(None, label_new (bs "x"), TInt U8 1)]) (bs "A") eq_refl).
  unfold entry_alone in H. vm_compute in H. discriminate H.
Qed.
(** Missing: a named enum or tagged key followed by a named struct, tuple, enum or tagged value. *)
Theorem C27_values_do_not_depend_on_keys_partial :
  forall r32 r64, json_printer r32 -> json_printer r64 ->
  forall k v s, key_text r32 r64 false k = Some s -> key_leaks k && takes_name v = false ->
  entry_alone r32 r64 (k, v) (after (quoted (esc s) ++ bs ":") (alone r32 r64 v)).
Proof.
  intros r32 r64 P32 P64 k v s K N. apply entry_alone_is. rewrite (entry_split r32 r64 P32 P64 k v s K), run_app.
  pose proof (local_it r32 r64 v (key_leaks k) false (quoted (esc s) ++ bs ":") N) as L. unfold yields in L.
  destruct (alone r32 r64 v).
  - destruct L as (it & ->). cbn [bind after]. rewrite run_one, jm_over by reflexivity. reflexivity.
  - destruct L as (g & -> & <-). reflexivity.
  - rewrite L. reflexivity.
Qed.

Definition sib_sample : tree := TSeq None [txt "a"; leak_tree; TMap None [(TInt U8 1, TBool true); (txt "k", TNull)]].
Example C27_sample : alone exact_print exact_print sib_sample =
  SOk (bs "[""a"",{""A"":{""S"":{""x"":1}},{""1"":true,""k"":null}]").
Proof. vm_compute. reflexivity. Qed.
Example C27_failing_sibling :
  alone exact_print exact_print (TSeq None [txt "a"; TMap None [(TSeq None [], TNull)]; txt "b"]) = SErr EInvalidKey.
Proof. vm_compute. reflexivity. Qed.
Example C27_key_sample :
  key_text exact_print exact_print false (TEnum None (lab "E") None (TTag None (lab "A") None)) = Some (bs "A") /\
  key_leaks (TEnum None (lab "E") None (TTag None (lab "A") None)) && takes_name (txt "v") = false /\
  alone exact_print exact_print (TMap None [(TEnum None (lab "E") None (TTag None (lab "A") None), txt "v")]) = SOk (bs "{""A"":""v""}").
Proof. vm_compute. repeat split. Qed.

(** ** C25 *)

(** Texts, numbers, booleans, null and unit variants as keys: the entry, if its value
    can be written, starts with the key as a string. *)
Theorem C25_textual_keys_are_strings :
  forall r32 r64, json_printer r32 -> json_printer r64 ->
  forall k v s e, key_text r32 r64 false k = Some s -> entry_alone r32 r64 (k, v) (SOk e) ->
  exists body w, e = quoted body ++ bs ":" ++ w /\ unescape body = Some s.
Proof.
  intros r32 r64 P32 P64 k v s e K H. apply entry_alone_is in H. rewrite (entry_split r32 r64 P32 P64 k v s K) in H.
  rewrite <- (app_nil_r (quoted (esc s) ++ bs ":")), st_pre, pre_run in H.
  set (q := run _ _ (emit v ++ [EMapValEnd])) in H. destruct q as [a|a|]; cbn [rmap sres] in H; try discriminate.
  injection H as ->. exists (esc s), (f_out a). split; [|apply unescape_esc]. cbn [pre set_out f_out]. rewrite <- app_assoc. reflexivity.
Qed.
Fixpoint textual (k : tree) : bool :=
  match k with
  | TNull | TBool _ | TInt _ _ | TF32 _ | TF64 _ | TText _ _ | TTag _ _ _ => true
  | THint _ k => textual k
  | TEnum _ _ _ (TTag _ _ _) => true
  | TTagged t _ _ k => negb (is_raw t) && textual k
  | _ => false
  end.
Theorem C25_textual_keys_have_text :
  forall r32 r64 k, textual k = true -> exists s, key_text r32 r64 false k = Some s.
Proof.
  intros r32 r64 k. induction k using tree_ind'; cbn [textual JsonSpec.key_text]; intros T; try discriminate; eauto.
  - destruct (otag_is t RUST_OPTION_NONE); [eauto|]. destruct (name_of l i); eauto.
  - apply andb_true_iff in T as (T1 & T2). apply negb_true_iff in T1. rewrite T1. cbn. auto.
  - destruct k; try discriminate. cbn [is_variant negb orb andb JsonSpec.key_text].
    destruct (otag_is t0 RUST_OPTION_NONE); [eauto|]. destruct (name_of l0 i0); eauto.
Qed.
(** Sequences, maps, structs, tuples and bytes as keys: the stream fails. *)
Theorem C25_container_keys_fail :
  forall r32 r64 k v, container_key k = true -> entry_alone r32 r64 (k, v) (SErr EInvalidKey).
Proof. intros r32 r64 k v C. apply fails_entry. intros f Q _. apply container_fails; assumption. Qed.
(** In a map: the first such key fails the whole stream, once what comes before it can
    be written. *)
Theorem C25_container_key_fails_the_stream :
  forall r32 r64 v n es k x es' ss, streams v (TMap n (es ++ (k, x) :: es')) -> container_key k = true ->
  Forall2 (entry_alone r32 r64) es (map SOk ss) ->
  json_to_string r32 r64 v = SErr EInvalidKey.
Proof.
  intros r32 r64 v n es k x es' ss H C F.
  assert (X : exists rs, Forall2 (entry_alone r32 r64) es' rs).
  { clear. induction es' as [|e es' (rs & IH)]; [exists []; constructor|].
    destruct (C27_map_entries_have_texts r32 r64 e) as (r & R). exists (r :: rs). constructor; assumption. }
  destruct X as (rs & X).
  rewrite (C27_map r32 r64 v n _ (map SOk ss ++ SErr EInvalidKey :: rs) H).
  - unfold framed. assert (G : gather (map SOk ss ++ SErr EInvalidKey :: rs) = inr (SErr EInvalidKey)).
    { clear. induction ss as [|s ss IH]; [reflexivity|]. cbn [map app gather]. rewrite IH. reflexivity. }
    rewrite G. reflexivity.
  - apply Forall2_app; [exact F|]. constructor; [apply C25_container_keys_fail, C|exact X].
Qed.
(** Any key without embedded JSON either has a text, and is written as that string, or
    fails the stream. *)
Theorem C25_proper_keys_are_strings_or_fail :
  forall r32 r64, json_printer r32 -> json_printer r64 ->
  forall k v, proper_key k = true ->
  (exists s, key_text r32 r64 false k = Some s /\
     forall e, entry_alone r32 r64 (k, v) (SOk e) -> exists body w, e = quoted body ++ bs ":" ++ w /\ unescape body = Some s) \/
  entry_alone r32 r64 (k, v) (SErr EInvalidKey).
Proof.
  intros r32 r64 P32 P64 k v P. destruct (key_text r32 r64 false k) as [s|] eqn:K.
  - left. exists s. split; [reflexivity|]. intros e H. exact (C25_textual_keys_are_strings r32 r64 P32 P64 k v s e K H).
  - right. apply fails_entry. intros f Q I. apply (other_key_fails r32 r64 k P false K); [discriminate|exact Q|exact I].
Qed.
(** Not so for a key that is embedded JSON: its quotes are doubled. *)
Definition C25_all_keys_are_strings_or_fail : Prop :=
  forall r32 r64, json_printer r32 -> json_printer r64 ->
  forall k v e, entry_alone r32 r64 (k, v) (SOk e) ->
  exists body w s, e = quoted body ++ bs ":" ++ w /\ unescape body = Some s.
Definition embedded_key : tree := TTagged (Some JSON_VALUE) None None (txt """a""").
Example embedded_key_text : entry_alone exact_print exact_print (embedded_key, TNull) (SOk (bs """""a"""":null")).
Proof. vm_compute. reflexivity. Qed.
Theorem C25_all_keys_are_strings_or_fail_refuted : ~ C25_all_keys_are_strings_or_fail.
Proof.
  intros H. destruct (H _ _ exact_print_json exact_print_json _ _ _ embedded_key_text) as (body & w & s & E & U).
  destruct body as [|b body]; [discriminate E|]. cbn in E. injection E as <- _. discriminate U.
Qed.
Example C25_samples :
  alone exact_print exact_print (TMap None [(TBool true, TNull); (TInt I8 (-3), TNull); (TNull, TNull); (TTag None (lab "U") None, TNull)]) =
    SOk (bs "{""true"":null,""-3"":null,""null"":null,""U"":null}") /\
  alone exact_print exact_print (TMap None [(txt "a", TNull); (TTagged None (lab "T") None (TMap None []), TNull)]) = SErr EInvalidKey.
Proof. vm_compute. repeat split. Qed.

Print Assumptions C27_values_do_not_depend_on_keys_refuted.
Print Assumptions C27_values_do_not_depend_on_keys_partial.
Print Assumptions C25_textual_keys_are_strings.
Print Assumptions C25_textual_keys_have_text.
Print Assumptions C25_container_keys_fail.
Print Assumptions C25_container_key_fails_the_stream.
Print Assumptions C25_proper_keys_are_strings_or_fail.
Print Assumptions C25_all_keys_are_strings_or_fail_refuted.
