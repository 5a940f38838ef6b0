(** * JsonLocalProofs: the text of a value does not depend on what was written before *)

From Verif Require Import Base Event Tree LowerModel FlatProofs LowerProofs MethProofs DataModel
  JsonModel JsonGrammar JsonSpec JsonMethProofs JsonProofs JsonSimProofs JsonProps.

Section Local.
  Variable ryu32 ryu64 : float -> bytes.
  Notation step := (json_step bytes string_write ryu32 ryu64).
  Notation jm := (meth json_over step).
  Notation J := (run jm).

  (** ** Writing after [p] *)
  Definition pre (p : bytes) (f : fm bytes) : fm bytes := set_out bytes (p ++ f_out f) f.
  Definition rmap {A B} (g : A -> B) (r : res A) : res B :=
    match r with Ok a => Ok (g a) | Err a => Err (g a) | Panic => Panic end.
  Lemma pre_run p f es : J (pre p f) es = rmap (pre p) (J f es).
  Proof.
    destruct (op_meths bytes bytes string_write string_write ryu32 ryu64 (fun a b => a = p ++ b) (fun _ _ => False) False (fun _ => False)
      ltac:(intros w1 w2 s ->; cbn; apply eq_sym, app_assoc) ltac:(intros w1 w2 []) ltac:(intros w1 w2 s []) es) as (A & _).
    assert (X : fR bytes bytes (fun a b => a = p ++ b) (pre p f) f) by (repeat split).
    specialize (A _ _ X).
    assert (Y : forall a b, fR bytes bytes (fun a b => a = p ++ b) a b -> a = pre p b).
    { intros [] [] (? & ? & ? & ? & ? & ?). cbn in *. unfold pre, set_out. cbn. congruence. }
    unfold sim, fF in A. destruct (J (pre p f) es) as [a|a|], (J f es) as [b|b|]; cbn [rmap]; try contradiction.
    - f_equal. auto.
    - f_equal. destruct A as [A|A]; [auto|contradiction].
    - destruct A; [discriminate|contradiction].
    - destruct A; [discriminate|contradiction].
    - reflexivity.
  Qed.
  Lemma pre_jm p f e : jm (pre p f) e = rmap (pre p) (jm f e).
  Proof. rewrite <- !run_one. apply (pre_run p f [e]). Qed.
  Lemma st_pre it cde out s : st it cde (out ++ s) = pre out (st it cde s).
  Proof. reflexivity. Qed.

  (** ** [is_current_depth_empty] is set before it is read *)
  Definition same (r1 r2 : res (fm bytes)) : Prop :=
    match r1, r2 with
    | Ok a, Ok b => a = b
    | Err a, Err b => f_err a = f_err b /\ f_out a = f_out b
    | Panic, Panic => True
    | _, _ => False
    end.
  Lemma same_refl r : same r r.
  Proof. destruct r; cbn; auto. Qed.
  Lemma same_bind r1 r2 k : same r1 r2 -> same (r1 >>= k) (r2 >>= k).
  Proof.
    destruct r1, r2; cbn; try contradiction; auto. intros ->. apply same_refl.
  Qed.
  Lemma same_trans r1 r2 r3 : same r1 r2 -> same r2 r3 -> same r1 r3.
  Proof.
    destruct r1, r2, r3; cbn; try contradiction; auto; try congruence. intros (? & ?) (? & ?). split; congruence.
  Qed.
  Lemma same_bind_cde r1 r2 k : same r1 r2 -> same (r1 >>= k) (r2 >>= k).
  Proof. apply same_bind. Qed.

  (** [internally_tagged_begin] does not read it; what follows sets it. *)
  Definition cdeq (r1 r2 : res (fm bytes)) : Prop :=
    match r1, r2 with
    | Ok a, Ok b => exists c, b = set_cde bytes c a
    | Err a, Err b => f_err a = f_err b /\ f_out a = f_out b
    | Panic, Panic => True
    | _, _ => False
    end.
  Lemma cdeq_bind r1 r2 k : cdeq r1 r2 -> (forall f c, same (k f) (k (set_cde bytes c f))) -> same (r1 >>= k) (r2 >>= k).
  Proof. destruct r1, r2; cbn; try contradiction; auto. intros (c & ->) K. apply K. Qed.
  Lemma itb_cde l i f c : cdeq (internally_tagged_begin bytes string_write l i f) (internally_tagged_begin bytes string_write l i (set_cde bytes c f)).
  Proof.
    unfold internally_tagged_begin. cbn [f_it set_cde]. destruct f as [it cde tq th er out]. cbn [f_it].
    destruct it; [|exists c; reflexivity].
    destruct l as [l|].
    - unfold tagged_map_begin_label, j_map_begin. cbn [f_tq set_it set_cde f_it f_cde f_th f_err f_out].
      destruct tq; [|cbn; auto].
      match goal with |- cdeq ?a ?b => assert (E : a = b) by reflexivity; rewrite E; destruct b; cbn; auto end.
      exists (f_cde a). destruct a; reflexivity.
    - destruct (index_i64 i) as [z|]; [|exists c; reflexivity].
      unfold tagged_map_begin_index, j_map_begin. cbn [f_tq set_it set_cde f_it f_cde f_th f_err f_out].
      destruct tq; [|cbn; auto].
      match goal with |- cdeq ?a ?b => assert (E : a = b) by reflexivity; rewrite E; destruct b; cbn; auto end.
      exists (f_cde a). destruct a; reflexivity.
  Qed.
  Lemma seq_begin_cde f c : same (j_seq_begin bytes string_write f) (j_seq_begin bytes string_write (set_cde bytes c f)).
  Proof. unfold j_seq_begin. cbn [f_tq set_cde]. destruct f as [it cde tq th er out]; cbn [f_tq]. destruct tq; cbn; auto. Qed.
  Lemma map_begin_cde f c : same (j_map_begin bytes string_write f) (j_map_begin bytes string_write (set_cde bytes c f)).
  Proof. unfold j_map_begin. cbn [f_tq set_cde]. destruct f as [it cde tq th er out]; cbn [f_tq]. destruct tq; cbn; auto. Qed.

  Lemma emit_cde t : forall f c, same (J f (emit t)) (J (set_cde bytes c f) (emit t)).
  Proof.
    induction t using tree_ind'; intros g c; cbn [emit]; rewrite ?run_cons.
    1-5: rewrite !jm_over by reflexivity; apply same_refl.
    - rewrite !jm_over by reflexivity. apply same_refl.
    - rewrite !jm_bin_begin. apply same_bind, seq_begin_cde.
    - rewrite !jm_over by reflexivity. apply same_refl.
    - rewrite !jm_hint. cbn [bind]. apply IHt.
    - rewrite !jm_over by reflexivity. apply same_bind. cbn [json_step]. unfold j_tagged_begin. cbv zeta.
      assert (X : forall f c, same (internally_tagged_begin bytes string_write l i f >>= fun f => Ok (set_cde bytes true f))
                           (internally_tagged_begin bytes string_write l i (set_cde bytes c f) >>= fun f => Ok (set_cde bytes true f))).
      { intros f0 c0. apply cdeq_bind; [apply itb_cde|]. intros f1 c1. reflexivity. }
      destruct (otag_is t JSON_TEXT); [apply (X (set_th bytes (Some HNative) g) c)|].
      destruct (otag_is t JSON_VALUE); [apply (X (set_th bytes (Some HNative) (set_tq bytes false g)) c)|].
      destruct (otag_is t NUMBER).
      { cbn [f_th set_tq set_cde]. destruct (f_th g).
        - apply (X (set_tq bytes false g) c).
        - apply (X (set_th bytes (Some handler_number) (set_tq bytes false g)) c). }
      destruct (otag_is t JSON_NUMBER); [apply (X (set_th bytes (Some HNative) (set_tq bytes false g)) c)|].
      apply X.
    - rewrite !jm_over by reflexivity. apply same_bind. cbn [json_step]. unfold j_enum_begin.
      apply cdeq_bind; [apply itb_cde|]. reflexivity.
    - rewrite !jm_over by reflexivity. apply same_bind. apply seq_begin_cde.
    - rewrite !jm_over by reflexivity. apply same_bind. apply map_begin_cde.
    - rewrite !jm_over by reflexivity. apply same_bind. cbn [json_step]. unfold j_record_begin.
      apply cdeq_bind; [apply itb_cde|]. apply map_begin_cde.
    - rewrite !jm_over by reflexivity. apply same_bind. cbn [json_step]. unfold j_tuple_begin.
      apply cdeq_bind; [apply itb_cde|]. apply seq_begin_cde.
    - rewrite !jm_rectup_begin. apply same_bind. unfold j_record_begin.
      apply cdeq_bind; [apply itb_cde|]. apply map_begin_cde.
  Qed.

  (** ** What a finished value leaves behind *)
  Definition nonnum (f : fm bytes) : bool := match f_th f with Some (HNumber _) => false | _ => true end.
  Definition keeps (f f' : fm bytes) : Prop :=
    f_err f' = f_err f /\ (f_tq f = true -> f_tq f' = true) /\ (f_th f = None -> f_th f' = None) /\ (nonnum f = true -> nonnum f' = true).
  Lemma keeps_refl f : keeps f f. Proof. repeat split; auto. Qed.
  Lemma keeps_trans f g h : keeps f g -> keeps g h -> keeps f h.
  Proof. intros (A & B & C & A') (D & E & G & D'). repeat split; [congruence|auto|auto|auto]. Qed.
  Definition kop (o : fm bytes -> res (fm bytes)) : Prop := forall f f', o f = Ok f' -> keeps f f'.
  Lemma kop_bind o p : kop o -> kop p -> kop (fun f => o f >>= p).
  Proof.
    intros A B f f' H. destruct (o f) as [g|g|] eqn:E; try discriminate. cbn [bind] in H.
    eapply keeps_trans; [apply A, E|apply B, H].
  Qed.
  Lemma kop_ok : kop (fun f => Ok f). Proof. intros f f' [= <-]. apply keeps_refl. Qed.
  Lemma kop_put s : kop (put bytes string_write s). Proof. intros f f' [= <-]. repeat split; auto. Qed.
  Lemma kop_esc s : kop (fun f => lift bytes f (escape_str bytes string_write s (f_out f))).
  Proof. intros f f' H. rewrite escape_str_pure in H. injection H as <-. repeat split; auto. Qed.
  Lemma kop_it x o : kop o -> kop (fun f => o (set_it bytes x f)).
  Proof. intros A f f' H. apply A in H. exact H. Qed.
  Lemma kop_cde x o : kop o -> kop (fun f => o (set_cde bytes x f)).
  Proof. intros A f f' H. apply A in H. exact H. Qed.
  Lemma kop_text s : kop (text_fragment_computed bytes string_write s).
  Proof.
    intros f f' H. unfold text_fragment_computed in H. destruct (f_th f) as [[|n]|] eqn:E.
    - injection H as <-. repeat split; auto.
    - destruct (num_fragment _ _ s n (f_out f)) as [[n' w]|[n' w]|]; try discriminate. injection H as <-.
      repeat split; [auto| |]; unfold nonnum; rewrite ?E; intros X; congruence.
    - rewrite escape_str_pure in H. injection H as <-. repeat split; auto.
  Qed.
  Lemma kop_if (b : fm bytes -> bool) o p : kop o -> kop p -> kop (fun f => if b f then o f else p f).
  Proof. intros A B f f' H. destruct (b f); auto. Qed.
  Lemma kop_null : kop (j_null bytes string_write).
  Proof. apply (kop_cde false (put bytes string_write _)), kop_put. Qed.
  Lemma kop_int z : kop (j_int bytes string_write z).
  Proof. apply (kop_cde false (put bytes string_write _)), kop_put. Qed.
  Lemma kop_text_begin : kop (j_text_begin bytes string_write).
  Proof.
    apply (kop_cde false (fun f => if f_tq f then put bytes string_write [dquote] f else Ok f)), kop_if; [apply kop_put|apply kop_ok].
  Qed.
  Lemma kop_text_end : kop (j_text_end bytes string_write).
  Proof. apply (kop_if f_tq); [apply kop_put|apply kop_ok]. Qed.
  Lemma kop_map_begin : kop (j_map_begin bytes string_write).
  Proof.
    apply (kop_if f_tq); [apply (kop_cde true (put bytes string_write _)), kop_put|]. intros f f' H. discriminate.
  Qed.
  Lemma kop_seq_begin : kop (j_seq_begin bytes string_write).
  Proof.
    apply (kop_if f_tq); [apply (kop_cde true (put bytes string_write _)), kop_put|]. intros f f' H. discriminate.
  Qed.
  Lemma kop_end s : kop (fun f => put bytes string_write s (set_cde bytes false f)).
  Proof. apply (kop_cde false (put bytes string_write _)), kop_put. Qed.
  Lemma kop_ite l i : kop (internally_tagged_end bytes l i).
  Proof. intros f f' [= <-]. repeat split; auto. Qed.
  Lemma kop_itb l i : kop (internally_tagged_begin bytes string_write l i).
  Proof.
    unfold internally_tagged_begin. apply (kop_if f_it); [|apply kop_ok]. cbv zeta.
    assert (K : kop (j_map_key_end bytes string_write)).
    { apply (kop_bind (put bytes string_write _)); [apply kop_put|]. intros f f' [= <-]. repeat split; auto. }
    assert (B : forall o, kop o -> kop (fun f => j_map_begin bytes string_write f >>= j_map_key_begin bytes string_write >>= o >>= j_map_key_end bytes string_write)).
    { intros o Ho f f' H. unfold j_map_begin in H. destruct (f_tq f) eqn:Q; [|discriminate].
      rewrite put_pure in H. cbn [bind] in H. unfold j_map_key_begin in H. cbn [f_cde set_it set_tq set_out set_cde] in H.
      rewrite put_pure in H. cbn [bind] in H.
      match type of H with bind (o ?g) _ = _ => destruct (o g) as [h|h|] eqn:E end; try discriminate.
      apply Ho in E. cbn [bind] in H. unfold j_map_key_end in H. rewrite put_pure in H. cbn [bind] in H. injection H as <-.
      destruct E as (E1 & E2 & E3 & E4). repeat split; [exact E1|exact E3|exact E4]. }
    destruct l as [l|].
    - apply (kop_it false (tagged_map_begin_label bytes string_write (l_text l))). apply B, kop_esc.
    - destruct (index_i64 i) as [z|]; [|apply (kop_it false (fun f => Ok f)), kop_ok].
      apply (kop_it false (tagged_map_begin_index bytes string_write z)). apply B, kop_int.
  Qed.
  Lemma kop_tag t l i : kop (j_tag bytes string_write t l i).
  Proof.
    unfold j_tag. cbv zeta.
    pose (g := fun f => if otag_is t RUST_OPTION_NONE then j_null bytes string_write f
       else match l with Some l => j_str bytes string_write (l_text l) f
         | None => match index_i64 i with Some z => j_int bytes string_write z f | None => j_null bytes string_write f end end).
    assert (X : kop g).
    { unfold g. destruct (otag_is t RUST_OPTION_NONE); [apply kop_null|]. destruct l as [l|].
      - unfold j_str. apply (kop_bind (fun f => j_text_begin bytes string_write f >>= text_fragment_computed bytes string_write (l_text l))); [|apply kop_text_end].
        apply kop_bind; [apply kop_text_begin|apply kop_text].
      - destruct (index_i64 i); [apply kop_int|apply kop_null]. }
    apply (kop_it false (fun f => g (set_cde bytes false f))), kop_cde, X.
  Qed.
  Lemma tag_cde t l i f f' : j_tag bytes string_write t l i f = Ok f' -> f_cde f' = false.
  Proof.
    unfold j_tag. cbv zeta. destruct (otag_is t RUST_OPTION_NONE); [intros [= <-]; reflexivity|].
    destruct l as [l|]; [|destruct (index_i64 i); intros [= <-]; reflexivity].
    unfold j_str, j_text_begin. cbv zeta. cbn [f_tq set_it set_cde].
    assert (X : forall h, f_cde h = false -> (text_fragment_computed bytes string_write (l_text l) h >>= j_text_end bytes string_write) = Ok f' -> f_cde f' = false).
    { intros h Hh H. destruct (text_fragment_computed bytes string_write (l_text l) h) as [g|g|] eqn:E; try discriminate.
      cbn [bind] in H. assert (f_cde g = false).
      { unfold text_fragment_computed in E. destruct (f_th h) as [[|n]|].
        - injection E as <-. exact Hh.
        - destruct (num_fragment _ _ _ n (f_out h)) as [[? ?]|[? ?]|]; try discriminate. injection E as <-. exact Hh.
        - rewrite escape_str_pure in E. injection E as <-. exact Hh. }
      unfold j_text_end in H. destruct (f_tq g); injection H as <-; assumption. }
    destruct (f_tq f); rewrite ?put_pure; cbn [bind]; apply X; reflexivity.
  Qed.
  Lemma text_cde s f f' : text_fragment_computed bytes string_write s f = Ok f' -> f_cde f' = f_cde f.
  Proof.
    unfold text_fragment_computed. destruct (f_th f) as [[|n]|].
    - intros [= <-]. reflexivity.
    - destruct (num_fragment _ _ _ n (f_out f)) as [[? ?]|[? ?]|]; try discriminate. intros [= <-]. reflexivity.
    - rewrite escape_str_pure. intros [= <-]. reflexivity.
  Qed.

  Definition settles (t : tree) : Prop := forall f f', J f (emit t) = Ok f' -> keeps f f' /\ f_cde f' = false.
  Lemma run_inv f es e f' : J f (es ++ [e]) = Ok f' -> exists g, J f es = Ok g /\ jm g e = Ok f'.
  Proof. rewrite run_app. destruct (J f es) as [g|g|]; try discriminate. cbn [bind]. rewrite run_one. eauto. Qed.
  Lemma bind_inv {A} (r : res A) k f' : (r >>= k) = Ok f' -> exists g, r = Ok g /\ k g = Ok f'.
  Proof. destruct r; try discriminate. cbn. eauto. Qed.

  Lemma kop_list (blocks : list (list ev)) : Forall (fun es => kop (fun f => J f es)) blocks -> kop (fun f => J f (List.concat blocks)).
  Proof.
    induction 1 as [|es blocks H HF IH]; cbn [List.concat]; [apply kop_ok|].
    intros f f' R. rewrite run_app in R. apply bind_inv in R as (g & R1 & R2). eapply keeps_trans; [apply H, R1|apply IH, R2].
  Qed.
  Lemma kop_between b e es : kop (fun f => jm f b) -> kop (fun f => J f es) -> kop (fun f => jm f e) -> kop (fun f => J f (b :: es ++ [e])).
  Proof.
    intros A B C f f' R. rewrite run_cons in R. apply bind_inv in R as (g & R1 & R2). apply run_inv in R2 as (h & R2 & R3).
    eapply keeps_trans; [apply A, R1|]. eapply keeps_trans; [apply B, R2|apply C, R3].
  Qed.
  Lemma settles_kop t : settles t -> kop (fun f => J f (emit t)).
  Proof. intros H f f' R. apply (H f f' R). Qed.

  Lemma kop_over e o : json_over e = true -> (forall f, step f e = o f) -> kop o -> kop (fun f => jm f e).
  Proof. intros H E K f f' R. rewrite jm_over in R by exact H. rewrite E in R. apply K, R. Qed.
  Lemma kop_seq_val : kop (j_seq_value_begin bytes string_write).
  Proof. apply (kop_it false (fun f => if f_cde f then Ok f else put bytes string_write (bs ",") f)), kop_if; [apply kop_ok|apply kop_put]. Qed.
  Lemma kop_record_val l : kop (j_record_value_begin bytes string_write l).
  Proof.
    unfold j_record_value_begin. cbv zeta.
    pose (g := fun f => (if f_cde f then put bytes string_write [dquote] f else put bytes string_write [","%char; dquote] f) >>= fun f =>
      (if otag_is (l_tag l) VALUE_IDENT then put bytes string_write (l_text l) f else lift bytes f (escape_str bytes string_write (l_text l) (f_out f))) >>= fun f =>
      put bytes string_write [dquote; ":"%char] f).
    apply (kop_it false g). unfold g.
    apply (kop_bind (fun f => if f_cde f then put bytes string_write [dquote] f else put bytes string_write [","%char; dquote] f)); [apply kop_if; apply kop_put|].
    apply (kop_bind (fun f => if otag_is (l_tag l) VALUE_IDENT then put bytes string_write (l_text l) f else lift bytes f (escape_str bytes string_write (l_text l) (f_out f))));
      [|apply kop_put].
    destruct (otag_is (l_tag l) VALUE_IDENT); [apply kop_put|apply kop_esc].
  Qed.

  Lemma all_settle t : settles t.
  Proof.
    induction t using tree_ind'; intros g g' R; cbn [emit] in R.
    1-5: rewrite run_one, jm_over in R by reflexivity; cbn [json_step] in R.
    1-5: unfold j_null, j_bool, j_int, j_float in R; cbv zeta in R;
         try match type of R with context [if ?b then j_null _ _ _ else _] => destruct b end;
         injection R as <-; (split; [repeat split; auto|reflexivity]).
    - rewrite run_cons in R. apply bind_inv in R as (h & R1 & R2). rewrite jm_over in R1 by reflexivity. cbn [json_step] in R1.
      assert (Hh : f_cde h = false).
      { unfold j_text_begin in R1. cbv zeta in R1. cbn [f_tq set_cde] in R1. destruct (f_tq g); injection R1 as <-; reflexivity. }
      apply run_inv in R2 as (h2 & R2 & R3). rewrite jm_over in R3 by reflexivity. cbn [json_step] in R3.
      apply kop_text_begin in R1.
      assert (X : keeps h h2 /\ f_cde h2 = f_cde h).
      { clear -R2. revert h R2. induction fs as [|[b s] fs IH]; intros h R; cbn [map] in R; [injection R as <-; split; [apply keeps_refl|reflexivity]|].
        rewrite run_cons in R. apply bind_inv in R as (h1 & R1 & R2).
        assert (R1' : text_fragment_computed bytes string_write s h = Ok h1).
        { unfold text_frag in R1; destruct b; cbn [fst snd] in R1; [rewrite jm_text_frag in R1|rewrite jm_over in R1 by reflexivity]; exact R1. }
        destruct (IH _ R2) as (K & C). split; [eapply keeps_trans; [apply kop_text in R1'; exact R1'|exact K]|].
        rewrite C. eapply text_cde, R1'. }
      destruct X as (X & Y). split.
      + eapply keeps_trans; [exact R1|]. eapply keeps_trans; [exact X|apply kop_text_end, R3].
      + unfold j_text_end in R3. destruct (f_tq h2); injection R3 as <-; [cbn; congruence|congruence].
    - rewrite run_cons in R. apply bind_inv in R as (h & R1 & R2). rewrite jm_bin_begin in R1.
      apply run_inv in R2 as (h2 & R2 & R3). rewrite jm_bin_end in R3. rewrite bin_blocks in R2.
      split; [|injection R3 as <-; reflexivity].
      eapply keeps_trans; [apply kop_seq_begin, R1|]. eapply keeps_trans; [|apply (kop_end (bs "]")), R3].
      revert R2. generalize h h2. change (kop (fun f => J f (List.concat (map (fun b => [ESeqValBegin; EInt U8 (byte_val b); ESeqValEnd]) (frags_text fs))))).
      apply kop_list. apply Forall_forall. intros es I. apply in_map_iff in I as (b & <- & _).
      apply (kop_between ESeqValBegin ESeqValEnd [EInt U8 (byte_val b)]).
      + (eapply kop_over; [reflexivity|intros ?; reflexivity|apply kop_seq_val]).
      + intros f f' R. rewrite run_one, jm_over in R by reflexivity. apply kop_int in R. exact R.
      + (eapply kop_over; [reflexivity|intros ?; reflexivity|apply kop_ok]).
    - rewrite run_one, jm_over in R by reflexivity. cbn [json_step] in R. split; [apply kop_tag in R; exact R|eapply tag_cde, R].
    - rewrite run_cons, jm_hint in R. cbn [bind] in R. apply IHt, R.
    - rewrite run_cons in R. apply bind_inv in R as (h & R1 & R2). apply run_inv in R2 as (h2 & R2 & R3).
      rewrite jm_over in R1, R3 by reflexivity. cbn [json_step] in R1, R3. apply IHt in R2 as (K & C).
      assert (Bg : f_err h = f_err g /\ (is_raw t = false -> keeps g h)).
      { unfold j_tagged_begin in R1. cbv zeta in R1.
        assert (X : forall f f', (internally_tagged_begin bytes string_write l i f >>= fun f => Ok (set_cde bytes true f)) = Ok f' -> keeps f f').
        { apply (kop_bind (internally_tagged_begin bytes string_write l i)); [apply kop_itb|]. intros f f' [= <-]. repeat split; auto. }
        unfold is_raw. destruct (otag_is t JSON_TEXT); [apply X in R1; split; [apply R1|discriminate]|].
        destruct (otag_is t JSON_VALUE); [apply X in R1; split; [apply R1|discriminate]|].
        destruct (otag_is t NUMBER).
        { split; [|discriminate]. cbn [f_th set_tq] in R1. destruct (f_th g); apply X in R1; apply R1. }
        destruct (otag_is t JSON_NUMBER); [apply X in R1; split; [apply R1|discriminate]|].
        apply X in R1. split; [apply R1|auto]. }
      unfold j_tagged_end in R3. apply bind_inv in R3 as (k & R3 & R4). apply bind_inv in R4 as (m & R4 & R5). injection R5 as <-.
      assert (M : keeps k m /\ f_cde m = false).
      { destruct (f_cde k) eqn:Ck; [split; [apply kop_tag in R4; exact R4|eapply tag_cde, R4]|]. injection R4 as <-. split; [apply keeps_refl|exact Ck]. }
      destruct M as (M & Mc). split; [|exact Mc].
      assert (Ed : f_err k = f_err h2 /\ (is_raw t = true -> f_th k = None /\ (otag_is t JSON_TEXT = false -> f_tq k = true) /\ (otag_is t JSON_TEXT = true -> f_tq k = f_tq h2)) /\
                   (is_raw t = false -> k = h2)).
      { unfold is_raw. destruct (otag_is t JSON_TEXT); [injection R3 as <-; repeat split; (discriminate || auto)|].
        destruct (otag_is t JSON_VALUE); [injection R3 as <-; repeat split; (discriminate || auto)|].
        destruct (otag_is t NUMBER).
        { cbv zeta in R3. cbn [f_th set_tq] in R3. destruct (f_th h2) as [[|n]|].
          - injection R3 as <-; repeat split; (discriminate || auto).
          - unfold num_end in R3. destruct (n_start n); injection R3 as <-; repeat split; (discriminate || auto).
          - injection R3 as <-; repeat split; (discriminate || auto). }
        destruct (otag_is t JSON_NUMBER); [injection R3 as <-; repeat split; (discriminate || auto)|].
        injection R3 as <-; repeat split; (discriminate || auto). }
      destruct Ed as (E1 & E2 & E3). destruct Bg as (B1 & B2).
      change (keeps g m). destruct (is_raw t) eqn:Rw.
      + destruct (E2 eq_refl) as (T1 & T2 & T3). destruct M as (M1 & M2 & M3 & M4). destruct K as (K1 & K2 & K3 & K4).
        split; [congruence|]. split; [|split; [auto|unfold nonnum; rewrite (M3 T1); auto]]. intros Q. apply M2.
        destruct (otag_is t JSON_TEXT) eqn:JT; [|auto]. rewrite (T3 eq_refl). apply K2.
        unfold j_tagged_begin in R1. rewrite JT in R1. cbv zeta in R1.
        apply bind_inv in R1 as (x & X1 & X2). injection X2 as <-. apply kop_itb in X1. apply X1. exact Q.
      + rewrite (E3 eq_refl) in M. eapply keeps_trans; [apply B2, eq_refl|]. eapply keeps_trans; [exact K|exact M].
    - rewrite run_cons in R. apply bind_inv in R as (h & R1 & R2). apply run_inv in R2 as (h2 & R2 & R3).
      rewrite jm_over in R1, R3 by reflexivity. cbn [json_step] in R1, R3. apply IHt in R2 as (K & C).
      unfold j_enum_begin in R1. apply bind_inv in R1 as (x & X1 & X2). injection X2 as <-. apply kop_itb in X1.
      unfold j_enum_end in R3. rewrite C in R3. cbn [bind] in R3. 
      assert (E : keeps h2 g' /\ f_cde g' = false).
      { destruct (f_it h2); injection R3 as <-; (split; [repeat split; auto|first [reflexivity|exact C]]). }
      destruct E as (E & Ec). split; [|exact Ec]. eapply keeps_trans; [exact X1|]. eapply keeps_trans; [|exact E]. exact K.
    - rewrite run_cons in R. apply bind_inv in R as (h & R1 & R2). apply run_inv in R2 as (h2 & R2 & R3).
      rewrite jm_over in R1, R3 by reflexivity. cbn [json_step] in R1, R3.
      split; [|injection R3 as <-; reflexivity].
      eapply keeps_trans; [apply kop_seq_begin, R1|]. eapply keeps_trans; [|apply (kop_end (bs "]")), R3].
      revert R2. generalize h h2. rewrite flat_map_concat_map. apply kop_list, Forall_forall.
      intros es I. apply in_map_iff in I as (v & <- & I). rewrite Forall_forall in H.
      apply kop_between.
      + (eapply kop_over; [reflexivity|intros ?; reflexivity|apply kop_seq_val]).
      + apply settles_kop, H, I.
      + (eapply kop_over; [reflexivity|intros ?; reflexivity|apply kop_ok]).
    - rewrite run_cons in R. apply bind_inv in R as (h & R1 & R2). apply run_inv in R2 as (h2 & R2 & R3).
      rewrite jm_over in R1, R3 by reflexivity. cbn [json_step] in R1, R3.
      split; [|injection R3 as <-; reflexivity].
      eapply keeps_trans; [apply kop_map_begin, R1|]. eapply keeps_trans; [|apply (kop_end (bs "}")), R3].
      revert R2. generalize h h2. rewrite flat_map_concat_map. apply kop_list, Forall_forall.
      intros es0 I. apply in_map_iff in I as ([k v] & <- & I). rewrite Forall_forall in H.
      destruct (H _ I) as (Hk & Hv). cbn [fst snd] in Hk, Hv.
      clear -Hk Hv. intros f f' R. rewrite run_cons in R. apply bind_inv in R as (h1 & R1 & R2).
      rewrite run_app in R2. apply bind_inv in R2 as (h2 & R2 & R3).
      rewrite run_cons in R3. apply bind_inv in R3 as (h3 & R3 & R4).
      rewrite jm_over in R1, R3 by reflexivity. cbn [json_step] in R1, R3.
      apply Hk in R2 as ((A1 & A2 & A3 & A4) & _).
      assert (B : f_err h1 = f_err f /\ f_th h1 = f_th f) by (unfold j_map_key_begin in R1; cbv zeta in R1; destruct (f_cde _); injection R1 as <-; auto).
      assert (C : f_err h3 = f_err h2 /\ f_th h3 = f_th h2 /\ f_tq h3 = true) by (injection R3 as <-; auto).
      assert (D : keeps h3 f').
      { revert R4. generalize h3 f'. apply kop_between.
        - (eapply kop_over; [reflexivity|intros ?; reflexivity|apply kop_ok]).
        - apply settles_kop, Hv.
        - (eapply kop_over; [reflexivity|intros ?; reflexivity|apply kop_ok]). }
      destruct B as (B1 & B2), C as (C1 & C2 & C3), D as (D1 & D2 & D3 & D4).
      split; [congruence|]. split; [auto|]. split; intros X.
      + apply D3. rewrite C2. apply A3. congruence.
      + apply D4. unfold nonnum in *. rewrite C2. apply A4. rewrite B2. exact X.
    - rewrite run_cons in R. apply bind_inv in R as (h & R1 & R2). apply run_inv in R2 as (h2 & R2 & R3).
      rewrite jm_over in R1, R3 by reflexivity. cbn [json_step] in R1, R3.
      split; [|injection R3 as <-; reflexivity].
      eapply keeps_trans; [apply (kop_bind _ _ (kop_itb l i) kop_map_begin), R1|].
      eapply keeps_trans; [|apply (kop_bind _ _ (kop_end (bs "}")) (kop_ite l i)), R3].
      revert R2. generalize h h2. rewrite flat_map_concat_map. apply kop_list, Forall_forall.
      intros es I. apply in_map_iff in I as ([[ft fl] v] & <- & I). rewrite Forall_forall in H.
      apply kop_between.
      + (eapply kop_over; [reflexivity|intros ?; reflexivity|apply kop_record_val]).
      + apply settles_kop, (H _ I).
      + intros f f' X. rewrite jm_record_val_end in X. apply kop_ok in X. exact X.
    - rewrite run_cons in R. apply bind_inv in R as (h & R1 & R2). apply run_inv in R2 as (h2 & R2 & R3).
      rewrite jm_over in R1, R3 by reflexivity. cbn [json_step] in R1, R3.
      split; [|injection R3 as <-; reflexivity].
      eapply keeps_trans; [apply (kop_bind _ _ (kop_itb l i) kop_seq_begin), R1|].
      eapply keeps_trans; [|apply (kop_bind _ _ (kop_end (bs "]")) (kop_ite l i)), R3].
      revert R2. generalize h h2. rewrite flat_map_concat_map. apply kop_list, Forall_forall.
      intros es I. apply in_map_iff in I as ([[ft fl] v] & <- & I). rewrite Forall_forall in H.
      apply kop_between.
      + intros f f' X. rewrite jm_tuple_val_begin in X. apply kop_seq_val in X. exact X.
      + apply settles_kop, (H _ I).
      + intros f f' X. rewrite jm_tuple_val_end in X. apply kop_ok in X. exact X.
    - rewrite run_cons in R. apply bind_inv in R as (h & R1 & R2). apply run_inv in R2 as (h2 & R2 & R3).
      rewrite jm_rectup_begin in R1. rewrite jm_rectup_end in R3.
      split; [|injection R3 as <-; reflexivity].
      eapply keeps_trans; [apply (kop_bind _ _ (kop_itb l i) kop_map_begin), R1|].
      eapply keeps_trans; [|apply (kop_bind _ _ (kop_end (bs "}")) (kop_ite l i)), R3].
      revert R2. generalize h h2. rewrite flat_map_concat_map. apply kop_list, Forall_forall.
      intros es I. apply in_map_iff in I as ([[[ft fl] fi] v] & <- & I). rewrite Forall_forall in H.
      apply kop_between.
      + intros f f' X. rewrite jm_rectup_val_begin in X. apply kop_record_val in X. exact X.
      + apply settles_kop, (H _ I).
      + intros f f' X. rewrite jm_rectup_val_end in X. apply kop_ok in X. exact X.
  Qed.
End Local.
