(** * JsonFragProps: JSON output and the way texts are cut (C22) *)

From Verif Require Import Base Event Tree LowerModel LowerSpec FlatProofs LowerProofs MethProofs DataModel
  JsonModel JsonGrammar JsonNumProofs JsonSpec JsonMethProofs JsonProofs JsonImageProofs JsonSimProofs JsonProps JsonLocalProofs.

(** ** Specification *)

(** A number text that may be cut anywhere: signs and zeroes, then a digit or a point,
    then digits, points, signs and exponent letters. *)
Fixpoint cut_safe (s : bytes) : bool :=
  match s with
  | [] => true
  | c :: s' =>
      let n := N_of_ascii c in
      if (n =? 48)%N || (n =? 43)%N || (n =? 45)%N then cut_safe s'
      else (is_digit c || (n =? 46)%N) && forallb numeral_byte s'
  end.

Definition whole (fs : list (bool * bytes)) : list (bool * bytes) := [(false, frags_text fs)].
Definition owned (fs : list (bool * bytes)) : list (bool * bytes) := map (fun f => (false, snd f)) fs.

(** Where a text stands: anywhere, directly under a [NUMBER] tag, or inside a container
    under one. *)
Inductive place := Free | Number | Inside.
Definition under (p : place) (t : option tag) : place :=
  match p with
  | Inside => Inside
  | _ => if otag_is t JSON_TEXT || otag_is t JSON_VALUE || (negb (otag_is t NUMBER) && otag_is t JSON_NUMBER) then Free
         else if otag_is t NUMBER then Number else p
  end.
Definition within (p : place) : place := match p with Free => Free | _ => Inside end.

(** [t] with every text and binary in one piece, except number texts that are not
    [cut_safe]; lengths and borrowing forgotten. *)
Fixpoint uncut (p : place) (t : tree) : tree :=
  match t with
  | TText _ fs =>
      TText None (match p with
                  | Free => whole fs
                  | Number => if cut_safe (frags_text fs) then whole fs else owned fs
                  | Inside => owned fs
                  end)
  | TBin _ fs => TBin None (whole fs)
  | THint t v => THint t (uncut p v)
  | TTagged t l i v => TTagged t l i (uncut (under p t) v)
  | TEnum t l i v => TEnum t l i (uncut p v)
  | TSeq n vs => TSeq n (map (uncut (within p)) vs)
  | TMap n es => TMap n (map (fun e => (uncut (within p) (fst e), uncut (within p) (snd e))) es)
  | TRecord t l i n fs => TRecord t l i n (map (fun f => (fst f, uncut (within p) (snd f))) fs)
  | TTuple t l i n fs => TTuple t l i n (map (fun f => (fst f, uncut (within p) (snd f))) fs)
  | TRecTup t l i n fs => TRecTup t l i n (map (fun f => (fst f, uncut (within p) (snd f))) fs)
  | t => t
  end.

(** ** Proofs *)
Section Frag.
  Variable r32 r64 : float -> bytes.
  Notation step := (json_step bytes string_write r32 r64).
  Notation jm := (meth json_over step).
  Notation J := (run jm).

  Lemma cut_safe_nbs s : forall h, n_start h = true -> cut_safe s = true -> exists x, nbs h s = Some x.
  Proof.
    assert (Z : forall s h, n_start h = false -> forallb numeral_byte s = true -> exists x, nbs h s = Some x).
    { clear. induction s as [|c s IH]; intros h Hs F; [cbn; eauto|]. cbn [forallb] in F. apply andb_true_iff in F as (F1 & F2).
      cbn [nbs]. unfold nb. rewrite Hs.
      destruct (is_digit c || (N_of_ascii c =? 46)%N).
      - destruct (IH (stop h) eq_refl F2) as ((h' & o) & ->). eauto.
      - rewrite F1. destruct (IH h Hs F2) as ((h' & o) & ->). eauto. }
    induction s as [|c s IH]; intros h Hs F; [cbn; eauto|]. cbn [cut_safe] in F. cbv zeta in F. cbn [nbs]. unfold nb. rewrite Hs.
    destruct (N_of_ascii c =? 48)%N eqn:E0; cbn [orb] in F.
    { destruct (IH (MkNum true (n_neg h) (n_zeroes h + 1) (n_nan h)) eq_refl F) as ((? & ?) & ->). eauto. }
    destruct (N_of_ascii c =? 43)%N eqn:E1; cbn [orb] in F.
    { apply N.eqb_eq in E1. assert (D : is_digit c = false) by (unfold is_digit; rewrite E1; reflexivity). rewrite D, E1. cbn.
      destruct (IH h Hs F) as ((? & ?) & ->). eauto. }
    destruct (N_of_ascii c =? 45)%N eqn:E2; cbn [orb] in F.
    { apply N.eqb_eq in E2. assert (D : is_digit c = false) by (unfold is_digit; rewrite E2; reflexivity). rewrite D, E2. cbn.
      destruct (IH (MkNum true true (n_zeroes h) (n_nan h)) eq_refl F) as ((? & ?) & ->). eauto. }
    apply andb_true_iff in F as (F1 & F2). destruct (is_digit c).
    { destruct (Z s (stop h) eq_refl F2) as ((? & ?) & ->). eauto. }
    cbn [orb] in F1. rewrite F1. destruct (Z s (stop h) eq_refl F2) as ((? & ?) & ->). eauto.
  Qed.

  Definition ok_at (p : place) (f : fm bytes) : Prop :=
    match p with
    | Free => nonnum f = true
    | Number => match f_th f with Some (HNumber h) => n_start h = true /\ n_nan h = false | _ => True end
    | Inside => True
    end.

  Lemma jm_frag f b s : jm f (text_frag (b, s)) = text_fragment_computed bytes string_write s f.
  Proof. unfold text_frag; destruct b; cbn [fst snd]; [apply jm_text_frag|rewrite jm_over by reflexivity; reflexivity]. Qed.
  Lemma frags_text_whole fs : frags_text (whole fs) = frags_text fs.
  Proof. unfold whole, frags_text. cbn. apply app_nil_r. Qed.
  Lemma frags_owned fs f : J f (map text_frag (owned fs)) = J f (map text_frag fs).
  Proof.
    revert f. induction fs as [|[b s] fs IH]; intros f; [reflexivity|]. unfold owned. cbn [map snd]. rewrite !run_cons, !jm_frag.
    destruct (text_fragment_computed bytes string_write s f); cbn [bind]; auto.
  Qed.
  Lemma frags_free fs f : nonnum f = true -> J f (map text_frag (whole fs)) = J f (map text_frag fs).
  Proof.
    intros H. unfold nonnum in H. destruct (f_th f) as [[|h]|] eqn:E; [|discriminate|].
    - rewrite !frag_run_native by exact E. rewrite frags_text_whole. reflexivity.
    - rewrite !frag_run by exact E. rewrite frags_text_whole. reflexivity.
  Qed.
  Lemma frags_number fs f : ok_at Number f -> cut_safe (frags_text fs) = true -> J f (map text_frag (whole fs)) = J f (map text_frag fs).
  Proof.
    intros H C. cbn [ok_at] in H. destruct (f_th f) as [[|h]|] eqn:E.
    - apply frags_free. unfold nonnum. rewrite E. reflexivity.
    - destruct H as (H1 & H2). destruct (cut_safe_nbs _ h H1 C) as ((h' & o) & X).
      rewrite (frag_run_number _ _ _ _ h h' o) by (rewrite ?frags_text_whole; assumption).
      rewrite (frag_run_number _ _ fs _ h h' o) by assumption. reflexivity.
    - apply frags_free. unfold nonnum. rewrite E. reflexivity.
  Qed.

  (** Blocks that keep [ok_at p]. *)
  Definition alike (p : place) (es es' : list ev) : Prop :=
    forall f, ok_at p f -> J f es = J f es' /\ (forall f', J f es = Ok f' -> p = Free -> ok_at p f').
  Lemma alike_app p a a' b b' : p <> Number -> alike p a a' -> alike p b b' -> alike p (a ++ b) (a' ++ b').
  Proof.
    intros Np A B f H. rewrite !run_app. destruct (A f H) as (A1 & A2). rewrite <- A1.
    destruct (J f a) as [g|g|] eqn:E; cbn [bind]; [|split; [reflexivity|discriminate]..].
    assert (X : ok_at p g) by (destruct p; [apply (A2 g eq_refl eq_refl)|congruence|exact I]).
    apply B, X.
  Qed.
  Lemma alike_cons p e a a' : p <> Number -> alike p [e] [e] -> alike p a a' -> alike p (e :: a) (e :: a').
  Proof. intros Np A B. apply (alike_app p [e] [e] a a' Np A B). Qed.
  Lemma alike_one p e : (forall f f', jm f e = Ok f' -> nonnum f = true -> nonnum f' = true) -> alike p [e] [e].
  Proof. intros H f Hf. split; [reflexivity|]. intros f' R ->. rewrite run_one in R. exact (H f f' R Hf). Qed.
  Lemma kop_nonnum e : kop (fun f => jm f e) -> forall f f', jm f e = Ok f' -> nonnum f = true -> nonnum f' = true.
  Proof. intros K f f' R N. apply (K f f' R). exact N. Qed.
  Lemma alike_nil p : alike p [] [].
  Proof. intros f H. split; [reflexivity|]. intros f' [= <-] ->. exact H. Qed.
  Lemma alike_concat {A} p (f g : A -> list ev) l : p <> Number -> (forall a, In a l -> alike p (f a) (g a)) -> alike p (flat_map f l) (flat_map g l).
  Proof.
    intros Np. induction l as [|a l IH]; intros H; [apply alike_nil|]. cbn [flat_map].
    apply alike_app; [exact Np|apply H; left; reflexivity|apply IH; intros; apply H; right; assumption].
  Qed.
  Lemma alike_emit p t u : (forall f, ok_at p f -> J f (emit t) = J f (emit u)) -> alike p (emit t) (emit u).
  Proof.
    intros H f Hf. split; [apply H, Hf|]. intros f' R ->. apply all_settle in R as ((_ & _ & _ & R) & _). apply R, Hf.
  Qed.
  Lemma within_not p : within p <> Number. Proof. destruct p; discriminate. Qed.

  Lemma nn_itb l i f f' : internally_tagged_begin bytes string_write l i f = Ok f' -> f_th f' = f_th f.
  Proof.
    unfold internally_tagged_begin. destruct (f_it f); [|intros [= <-]; reflexivity]. cbv zeta.
    destruct l as [l|].
    - unfold tagged_map_begin_label, j_map_begin. cbn [f_tq set_it]. destruct (f_tq f); [|discriminate].
      rewrite put_pure. cbn [bind]. unfold j_map_key_begin. cbn [f_cde set_it set_tq set_out set_cde]. rewrite put_pure. cbn [bind].
      rewrite escape_str_pure. intros [= <-]. reflexivity.
    - destruct (index_i64 i); [|intros [= <-]; reflexivity].
      unfold tagged_map_begin_index, j_map_begin. cbn [f_tq set_it]. destruct (f_tq f); [|discriminate].
      intros [= <-]. reflexivity.
  Qed.

  (** An opening event, contents, and the end. *)
  Lemma open_alike p q b a a' e f : ok_at p f -> (forall f', jm f b = Ok f' -> ok_at q f') -> alike q a a' ->
    J f (b :: a ++ [e]) = J f (b :: a' ++ [e]).
  Proof.
    intros Hf B A. rewrite !run_cons. destruct (jm f b) as [g|g|]; cbn [bind]; [|reflexivity..].
    rewrite !run_app. destruct (A g (B g eq_refl)) as (-> & _). reflexivity.
  Qed.
  Lemma th_within p f f' : ok_at p f -> (nonnum f = true -> nonnum f' = true) -> ok_at (within p) f'.
  Proof. destruct p; cbn [within ok_at]; auto. Qed.

  Lemma emit_uncut t : forall p f, ok_at p f -> J f (emit t) = J f (emit (uncut p t)).
  Proof.
    induction t using tree_ind'; intros p g Hg; cbn [uncut]; try reflexivity.
    - cbn [emit]. rewrite !run_cons, !jm_over by reflexivity. cbn [json_step].
      assert (E : forall h, j_text_begin bytes string_write g = Ok h -> f_th h = f_th g).
      { unfold j_text_begin. cbv zeta. destruct (f_tq _); intros h [= <-]; reflexivity. }
      destruct (j_text_begin bytes string_write g) as [h|h|]; cbn [bind]; [|reflexivity..]. specialize (E h eq_refl).
      rewrite !run_app.
      assert (F : J h (map text_frag fs) = J h (map text_frag
        (match p with Free => whole fs | Number => if cut_safe (frags_text fs) then whole fs else owned fs | Inside => owned fs end))); [|rewrite F; reflexivity].
      destruct p.
      + symmetry. apply frags_free. unfold nonnum in *. rewrite E. exact Hg.
      + destruct (cut_safe (frags_text fs)) eqn:C; symmetry; [|apply frags_owned].
        apply frags_number; [|exact C]. cbn [ok_at] in *. rewrite E. exact Hg.
      + symmetry. apply frags_owned.
    - cbn [emit]. rewrite !run_cons, !jm_bin_begin. destruct (j_seq_begin bytes string_write g); cbn [bind]; [|reflexivity..].
      rewrite !run_app, !bin_blocks, frags_text_whole. reflexivity.
    - cbn [emit]. rewrite !run_cons, !jm_hint. cbn [bind]. apply IHt, Hg.
    - cbn [emit]. rewrite !run_cons. rewrite jm_over by reflexivity. cbn [json_step].
      destruct (j_tagged_begin bytes string_write t l i g) as [h|h|] eqn:E; cbn [bind]; [|reflexivity..].
      rewrite !run_app. rewrite (IHt (under p t) h); [reflexivity|].
      unfold j_tagged_begin in E. cbv zeta in E. apply bind_inv in E as (x & E & E2). injection E2 as <-. apply nn_itb in E.
      assert (X : f_th (set_cde bytes true x) = f_th x) by reflexivity.
      unfold under. destruct p.
      + cbn [ok_at] in Hg. destruct (otag_is t JSON_TEXT); [cbn; unfold nonnum; rewrite X, E; reflexivity|].
        destruct (otag_is t JSON_VALUE); [cbn; unfold nonnum; rewrite X, E; reflexivity|]. cbn [orb].
        destruct (otag_is t NUMBER); [cbn [negb andb ok_at]; rewrite X, E; cbn [f_th set_tq]|].
        { destruct (f_th g) as [[|h]|] eqn:T; cbn [f_th set_tq set_th]; rewrite ?T; cbn; auto.
          unfold nonnum in Hg. rewrite T in Hg. discriminate. }
        cbn [negb andb]. destruct (otag_is t JSON_NUMBER); cbn; unfold nonnum; rewrite X, E; [reflexivity|exact Hg].
      + cbn [ok_at] in Hg. destruct (otag_is t JSON_TEXT); [cbn; unfold nonnum; rewrite X, E; reflexivity|].
        destruct (otag_is t JSON_VALUE); [cbn; unfold nonnum; rewrite X, E; reflexivity|]. cbn [orb].
        destruct (otag_is t NUMBER); [cbn [negb andb ok_at]; rewrite X, E; cbn [f_th set_tq]|].
        { destruct (f_th g) as [[|h]|] eqn:T; cbn [f_th set_tq set_th]; rewrite ?T; cbn; auto. }
        cbn [negb andb]. destruct (otag_is t JSON_NUMBER); [cbn; unfold nonnum; rewrite X, E; reflexivity|cbn [ok_at]; rewrite X, E; exact Hg].
      + exact I.
    - cbn [emit]. rewrite !run_cons, jm_over by reflexivity. cbn [json_step].
      destruct (j_enum_begin bytes string_write l i g) as [h|h|] eqn:E; cbn [bind]; [|reflexivity..].
      rewrite !run_app. rewrite (IHt p h); [reflexivity|].
      unfold j_enum_begin in E. apply bind_inv in E as (x & E & E2). injection E2 as <-. apply nn_itb in E.
      destruct p; cbn [ok_at] in *; auto; unfold nonnum in *; cbn [f_th set_cde set_it]; rewrite E; exact Hg.
    - cbn [emit]. rewrite !flat_map_concat_map, map_map, <- !flat_map_concat_map. apply (open_alike p (within p)); [exact Hg| |].
      { intros h R. eapply th_within; [exact Hg|]. eapply kop_nonnum; [|exact R]. eapply kop_over; [reflexivity|intros ?; reflexivity|apply kop_seq_begin]. }
      apply alike_concat; [apply within_not|]. intros v Iv. rewrite Forall_forall in H.
      apply alike_cons; [apply within_not| |apply alike_app; [apply within_not| |]].
      + apply alike_one, kop_nonnum. eapply kop_over; [reflexivity|intros ?; reflexivity|apply kop_seq_val].
      + apply alike_emit. intros f Hf. apply H; assumption.
      + apply alike_one, kop_nonnum. eapply kop_over; [reflexivity|intros ?; reflexivity|apply kop_ok].
    - cbn [emit]. rewrite !flat_map_concat_map, map_map, <- !flat_map_concat_map. apply (open_alike p (within p)); [exact Hg| |].
      { intros h R. eapply th_within; [exact Hg|]. eapply kop_nonnum; [|exact R]. eapply kop_over; [reflexivity|intros ?; reflexivity|apply kop_map_begin]. }
      apply alike_concat; [apply within_not|]. intros [k v] Iv. rewrite Forall_forall in H. destruct (H _ Iv) as (Hk & Hv). cbn [fst snd] in *.
      apply alike_cons; [apply within_not| |apply alike_app; [apply within_not| |]].
      + apply alike_one. intros f f' R N. rewrite jm_over in R by reflexivity. cbn [json_step] in R. unfold j_map_key_begin in R. cbv zeta in R.
        destruct (f_cde _); injection R as <-; exact N.
      + apply alike_emit. intros f Hf. apply Hk; assumption.
      + apply alike_cons; [apply within_not| |apply alike_cons; [apply within_not| |apply alike_app; [apply within_not| |]]].
        * apply alike_one. intros f f' R N. rewrite jm_over in R by reflexivity. injection R as <-. exact N.
        * apply alike_one, kop_nonnum. eapply kop_over; [reflexivity|intros ?; reflexivity|apply kop_ok].
        * apply alike_emit. intros f Hf. apply Hv; assumption.
        * apply alike_one, kop_nonnum. eapply kop_over; [reflexivity|intros ?; reflexivity|apply kop_ok].
    - cbn [emit]. rewrite !flat_map_concat_map, map_map, <- !flat_map_concat_map. apply (open_alike p (within p)); [exact Hg| |].
      { intros h R. eapply th_within; [exact Hg|]. eapply kop_nonnum; [|exact R]. eapply kop_over; [reflexivity|intros ?; reflexivity|].
        apply (kop_bind _ _ (kop_itb l i) kop_map_begin). }
      apply alike_concat; [apply within_not|]. intros [[ft fl] v] Iv. rewrite Forall_forall in H. specialize (H _ Iv). cbn [fst snd] in *.
      apply alike_cons; [apply within_not| |apply alike_app; [apply within_not| |]].
      + apply alike_one, kop_nonnum. eapply kop_over; [reflexivity|intros ?; reflexivity|apply kop_record_val].
      + apply alike_emit. intros f Hf. apply H; assumption.
      + apply alike_one. intros f f' R N. rewrite jm_record_val_end in R. injection R as <-. exact N.
    - cbn [emit]. rewrite !flat_map_concat_map, map_map, <- !flat_map_concat_map. apply (open_alike p (within p)); [exact Hg| |].
      { intros h R. eapply th_within; [exact Hg|]. eapply kop_nonnum; [|exact R]. eapply kop_over; [reflexivity|intros ?; reflexivity|].
        apply (kop_bind _ _ (kop_itb l i) kop_seq_begin). }
      apply alike_concat; [apply within_not|]. intros [[ft fl] v] Iv. rewrite Forall_forall in H. specialize (H _ Iv). cbn [fst snd] in *.
      apply alike_cons; [apply within_not| |apply alike_app; [apply within_not| |]].
      + apply alike_one. intros f f' R N. rewrite jm_tuple_val_begin in R. apply kop_seq_val in R. apply R, N.
      + apply alike_emit. intros f Hf. apply H; assumption.
      + apply alike_one. intros f f' R N. rewrite jm_tuple_val_end in R. injection R as <-. exact N.
    - cbn [emit]. rewrite !flat_map_concat_map, map_map, <- !flat_map_concat_map. apply (open_alike p (within p)); [exact Hg| |].
      { intros h R. eapply th_within; [exact Hg|]. rewrite jm_rectup_begin in R. apply (kop_bind _ _ (kop_itb l i) kop_map_begin) in R. apply R. }
      apply alike_concat; [apply within_not|]. intros [[[ft fl] fi] v] Iv. rewrite Forall_forall in H. specialize (H _ Iv). cbn [fst snd] in *.
      apply alike_cons; [apply within_not| |apply alike_app; [apply within_not| |]].
      + apply alike_one. intros f f' R N. rewrite jm_rectup_val_begin in R. apply kop_record_val in R. apply R, N.
      + apply alike_emit. intros f Hf. apply H; assumption.
      + apply alike_one. intros f f' R N. rewrite jm_rectup_val_end in R. injection R as <-. exact N.
  Qed.
End Frag.

(** ** C22, JSON *)

(** The full claim: values that differ only in how texts and binaries are cut, borrowed
    or announced have the same JSON. *)
Fixpoint uncut_all (t : tree) : tree :=
  match t with
  | TText _ fs => TText None (whole fs)
  | TBin _ fs => TBin None (whole fs)
  | THint t v => THint t (uncut_all v)
  | TTagged t l i v => TTagged t l i (uncut_all v)
  | TEnum t l i v => TEnum t l i (uncut_all v)
  | TSeq n vs => TSeq n (map uncut_all vs)
  | TMap n es => TMap n (map (fun e => (uncut_all (fst e), uncut_all (snd e))) es)
  | TRecord t l i n fs => TRecord t l i n (map (fun f => (fst f, uncut_all (snd f))) fs)
  | TTuple t l i n fs => TTuple t l i n (map (fun f => (fst f, uncut_all (snd f))) fs)
  | TRecTup t l i n fs => TRecTup t l i n (map (fun f => (fst f, uncut_all (snd f))) fs)
  | t => t
  end.
Definition C22_json_any_cut : Prop :=
  forall r32 r64 v v' t t', streams v t -> streams v' t' -> uncut_all t = uncut_all t' ->
  json_to_string r32 r64 v = json_to_string r32 r64 v'.
(** A number text that is not a number is treated by fragments. *)
Theorem C22_json_any_cut_refuted : ~ C22_json_any_cut.
Proof.
  intros H.
  specialize (H exact_print exact_print
    (map CE (emit (TTagged (Some NUMBER) None None (TText None [(true, bs "1"); (true, bs "nan")]))))
    (map CE (emit (TTagged (Some NUMBER) None None (TText None [(true, bs "1nan")]))))
    _ _ (flat_CE_false _) (flat_CE_false _) eq_refl).
  vm_compute in H. discriminate H.
Qed.
(** Missing: number texts that are not [cut_safe] must be cut the same way. *)
Theorem C22_json_any_cut_partial :
  forall r32 r64 v v' t t', streams v t -> streams v' t' -> uncut Free t = uncut Free t' ->
  json_to_string r32 r64 v = json_to_string r32 r64 v'.
Proof.
  intros r32 r64 v v' t t' H H' E. rewrite (to_string_run _ _ _ _ H), (to_string_run _ _ _ _ H').
  rewrite (emit_uncut r32 r64 t Free), (emit_uncut r32 r64 t' Free), E by reflexivity. reflexivity.
Qed.
(** Values without [NUMBER] tags: any cut. *)
Fixpoint no_number (t : tree) : Prop :=
  match t with
  | THint _ v | TEnum _ _ _ v => no_number v
  | TTagged t _ _ v => otag_is t NUMBER = false /\ no_number v
  | TSeq _ vs => (fix all (vs : list tree) : Prop := match vs with [] => True | v :: vs => no_number v /\ all vs end) vs
  | TMap _ es => (fix all (es : list (tree * tree)) : Prop := match es with [] => True | (k, v) :: es => (no_number k /\ no_number v) /\ all es end) es
  | TRecord _ _ _ _ fs => (fix all (fs : list (option tag * label * tree)) : Prop := match fs with [] => True | (_, v) :: fs => no_number v /\ all fs end) fs
  | TTuple _ _ _ _ fs => (fix all (fs : list (option tag * index * tree)) : Prop := match fs with [] => True | (_, v) :: fs => no_number v /\ all fs end) fs
  | TRecTup _ _ _ _ fs => (fix all (fs : list (option tag * label * index * tree)) : Prop := match fs with [] => True | (_, v) :: fs => no_number v /\ all fs end) fs
  | _ => True
  end.
Lemma uncut_no_number t : no_number t -> uncut Free t = uncut_all t.
Proof.
  induction t using tree_ind'; cbn [no_number uncut uncut_all]; intros N; try reflexivity.
  - f_equal; auto.
  - destruct N as (N1 & N2). f_equal. rewrite <- IHt by exact N2. f_equal. unfold under. rewrite N1. cbn [negb andb].
    destruct (otag_is t JSON_TEXT || otag_is t JSON_VALUE || otag_is t JSON_NUMBER); reflexivity.
  - f_equal; auto.
  - f_equal. cbn [within]. induction H as [|v vs Hv H IH]; [reflexivity|]. destruct N. cbn [map]. rewrite Hv, IH by assumption. reflexivity.
  - f_equal. cbn [within]. induction H as [|[k v] es Hv H IH]; [reflexivity|]. destruct N as ((? & ?) & ?), Hv as (Hk & Hv). cbn [map fst snd] in *.
    rewrite Hk, Hv, IH by assumption. reflexivity.
  - f_equal. cbn [within]. induction H as [|[x v] fs Hv H IH]; [reflexivity|]. destruct N. cbn [map fst snd] in *. rewrite Hv, IH by assumption. reflexivity.
  - f_equal. cbn [within]. induction H as [|[x v] fs Hv H IH]; [reflexivity|]. destruct N. cbn [map fst snd] in *. rewrite Hv, IH by assumption. reflexivity.
  - f_equal. cbn [within]. induction H as [|[x v] fs Hv H IH]; [reflexivity|]. destruct N. cbn [map fst snd] in *. rewrite Hv, IH by assumption. reflexivity.
Qed.
Theorem C22_json_any_cut_without_numbers :
  forall r32 r64 v v' t t', streams v t -> streams v' t' -> no_number t -> no_number t' -> uncut_all t = uncut_all t' ->
  json_to_string r32 r64 v = json_to_string r32 r64 v'.
Proof.
  intros r32 r64 v v' t t' H H' N N' E. eapply C22_json_any_cut_partial; [exact H|exact H'|].
  rewrite !uncut_no_number by assumption. exact E.
Qed.
Definition cut_a : tree := TMap None [(TText (Some 2%N) [(true, bs "ab")], TTagged (Some NUMBER) None None (TText None [(false, bs "-01"); (false, bs "2.5e1")]));
   (txt "k", TBin None [(true, bs "xy"); (false, bs "z")])].
Definition cut_b : tree := TMap None [(TText None [(false, bs "a"); (true, []); (false, bs "b")], TTagged (Some NUMBER) None None (TText None [(true, bs "-"); (true, bs "012."); (true, bs "5e1")]));
   (TText None [(true, bs "k")], TBin None [(true, bs "xyz")])].
Example C22_sample : uncut Free cut_a = uncut Free cut_b /\ cut_a <> cut_b /\
  json_to_string exact_print exact_print (map CE (emit cut_b)) = SOk (bs "{""ab"":-12.5e1,""k"":[120,121,122]}").
Proof. split; [vm_compute; reflexivity|split; [discriminate|vm_compute; reflexivity]]. Qed.

Print Assumptions C22_json_any_cut_refuted.
Print Assumptions C22_json_any_cut_partial.
Print Assumptions C22_json_any_cut_without_numbers.
