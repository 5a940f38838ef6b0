(** * ReaderNestProofs: the reader keeps track of brackets, on any input *)

From Verif Require Import Base Event Tree Utf8 LowerSpec JsonModel JsonGrammar JsonParse StackModel StackProps ReaderModel ReaderSpec ReaderProofs.

Definition lx (r : reader) : lexer := if r_in_str r then LStr else LOut.

Lemma nests_scan ks s : forall f p rest, scan_fragment s = (f, p, rest) ->
  nests_from LStr ks s = nests_from (if p then LStr else LOut) ks rest.
Proof.
  induction s as [|b s IH]; intros f p rest; cbn [scan_fragment].
  - intros Q. injection Q as <- <- <-. reflexivity.
  - unfold byte_is. destruct (N_of_ascii b =? 92)%N eqn:E2; [intros Q; injection Q as <- <- <-; reflexivity|].
    destruct (N_of_ascii b =? 34)%N eqn:E4.
    + intros Q. injection Q as <- <- <-. cbn [nests_from nest_byte str_byte]. rewrite E4. reflexivity.
    + destruct (scan_fragment s) as [[g q] r] eqn:F. intros Q. injection Q as <- <- <-.
      cbn [nests_from nest_byte str_byte]. rewrite E2, E4. eapply IH. reflexivity.
Qed.
Lemma nests_fragment ks s f p rest : str_fragment s = MOk (f, p, rest) ->
  nests_from LStr ks s = nests_from (if p then LStr else LOut) ks rest.
Proof.
  destruct s as [|b s]; [discriminate|]. cbn [str_fragment]. destruct (byte_is 92 b) eqn:E.
  - destruct s as [|e s]; [discriminate|]. intros H.
    assert (X : p = true /\ rest = s) by
      (repeat match type of H with (if ?c then _ else _) = _ => destruct c end; try discriminate; injection H as _ <- <-; auto).
    destruct X as [-> ->]. apply byte_is_eq in E; [|reflexivity]. subst b. reflexivity.
  - destruct (scan_fragment (b :: s)) as [[g q] r] eqn:F. destruct (utf8 g); [|discriminate]. intros Q. injection Q as <- <- <-.
    eapply nests_scan, F.
Qed.

(** A turn and the brackets it passes. *)
Definition goes_on (l : lexer) (ks : list ckind) (s : bytes) (x : resumed) : Prop :=
  match x with
  | More s' r' => exists ks', represents (r_stack r') ks' /\ nests_from l ks s = nests_from (lx r') ks' s'
  | Done => nests_from l ks s = Some []
  end.
Lemma goes_from l ks s l' ks' s' x : nests_from l ks s = nests_from l' ks' s' -> goes_on l' ks' s' x -> goes_on l ks s x.
Proof. intros E. unfold goes_on. rewrite E. auto. Qed.
Lemma goes_maybe s r ks es x : represents (r_stack r) ks -> r_in_str r = false -> maybe_done s r = (es, MOk x) -> goes_on LOut ks s x.
Proof.
  intros R I. destruct s as [|b s]; cbn [maybe_done].
  - destruct (finish (r_stack r)) eqn:F; [|discriminate]. intros Q. injection Q as _ <-. cbn.
    unfold finish in F. apply andb_true_iff in F as [F1 F2]. apply N.eqb_eq in F1, F2.
    pose proof (counters_order ks) as O. rewrite R, F1, F2 in O. destruct ks as [|[|] ks]; [reflexivity|lia..].
  - intros Q. injection Q as _ <-. cbn. exists ks. unfold lx. rewrite I. auto.
Qed.

(** The methods that do not touch the stack. *)
Definition same_stack (x : does reader) (r : reader) : Prop :=
  match x with (_, MOk r') => r_stack r' = r_stack r /\ r_in_str r' = r_in_str r | _ => True end.
Lemma str_begin_same r : same_stack (rd_str_begin r) r.
Proof. unfold rd_str_begin. destruct (r_pos r); cbn; auto. Qed.
Lemma value_begin_same r : same_stack (rd_value_begin r) r.
Proof. unfold rd_value_begin. destruct (r_pos r); cbn; auto. Qed.
Lemma key_end_same r : same_stack (rd_map_key_end r) r.
Proof. unfold rd_map_key_end. destruct (r_pos r); cbn; auto. Qed.
Lemma comma_same r : same_stack (rd_comma r) r.
Proof. unfold rd_comma. destruct (r_pos r); cbn; auto. Qed.

(** The methods that do. *)
Lemma lift_ok r x es r' : lift_stack r x = (es, MOk r') -> exists s, x = Ok s /\ r' = MkReader (r_in_str r) s (r_pos r).
Proof. destruct x; cbn; try discriminate. intros Q. injection Q as _ <-. eauto. Qed.
Lemma stack_method (f : reader -> does unit) (o : sop) (e : ev) (g : reader -> reader) r ks es r' :
  represents (r_stack r) ks -> (forall r, r_stack (g r) = r_stack r) -> (forall r, r_in_str (g r) = r_in_str r) ->
  (f r >>> fun _ => lift_stack r (stack_op (r_stack r) o) >>> fun r => say e >>> fun _ => ret (g r)) = (es, MOk r') ->
  exists ks', real_op ks o = Some ks' /\ represents (r_stack r') ks' /\ r_in_str r' = r_in_str r.
Proof.
  intros R G1 G2 H. peel H. apply andthen_ok in H as (e1 & r1 & e2 & Q & H & ->). apply lift_ok in Q as (s & Op & ->).
  destruct (op_sound _ _ _ _ R Op) as (ks' & Ro & Rs). peel H. injection H as _ <-. exists ks'. rewrite G1, G2. auto.
Qed.

Lemma plain_nests ks a s : forallb plain_byte a = true -> nests_from LOut ks (a ++ s) = nests_from LOut ks s.
Proof.
  induction a as [|b a IH]; cbn [app forallb]; intros P; [reflexivity|]. apply andb_true_iff in P as [P1 P2]. rewrite <- (IH P2). clear IH.
  unfold plain_byte in P1. repeat match goal with P : _ && _ = true |- _ => apply andb_true_iff in P as [P ?] end.
  repeat match goal with H : negb ?c = true |- _ => apply negb_true_iff in H end.
  cbn [nests_from nest_byte str_byte]. repeat match goal with H : ?c = false |- _ => rewrite H; clear H end. reflexivity.
Qed.
Lemma word_app w : forall s s', word w s = Some s' -> s = w ++ s'.
Proof.
  induction w as [|a w IH]; intros s s'; cbn; [intros Q; injection Q as <-; reflexivity|].
  destruct s as [|b s]; [discriminate|]. destruct (Ascii.eqb_spec a b) as [->|]; [|discriminate]. intros Q. rewrite (IH s s' Q). reflexivity.
Qed.
Lemma number_app s : s = fst (number s) ++ snd (number s) /\ forallb plain_byte (fst (number s)) = true.
Proof.
  induction s as [|b s [IH1 IH2]]; cbn; [auto|]. destruct (number_byte b) eqn:E; [|cbn; auto].
  destruct (number s) as [n r]. cbn in *. split; [f_equal; exact IH1|]. rewrite IH2, andb_true_r. clear -E.
  destruct b as [[] [] [] [] [] [] [] []]; (reflexivity || discriminate).
Qed.

Lemma turn s r es x ks : represents (r_stack r) ks -> resume s r = (es, MOk x) -> goes_on (lx r) ks s x.
Proof.
  intros R. unfold resume, lx. destruct (r_in_str r) eqn:I.
  - destruct (str_fragment s) as [[[f p] t]| |] eqn:F; try discriminate. intros H. peel H.
    eapply goes_from; [eapply nests_fragment, F|]. destruct p.
    + injection H as _ <-. cbn. exists ks. unfold lx. rewrite I. auto.
    + peel H. eapply goes_maybe; [| |exact H]; [exact R|reflexivity].
  - revert es x. induction s as [|b s IH]; intros es x; cbn [resume_out].
    { apply goes_maybe; assumption. }
    assert (W : forall w e, forallb plain_byte (bs w) = true -> rd_word w e (b :: s) r = (es, MOk x) -> goes_on LOut ks (b :: s) x).
    { intros w e P H. unfold rd_word in H. destruct (word (bs w) (b :: s)) as [t|] eqn:Wd; [|discriminate]. apply word_app in Wd. rewrite Wd.
      eapply goes_from; [apply plain_nests, P|].
      apply andthen_ok in H as (e1 & r1 & e2 & Q & H & ->). pose proof (value_begin_same r) as Sm. rewrite Q in Sm. destruct Sm as [S1 S2].
      peel H. eapply goes_maybe; [| |exact H]; congruence. }
    unfold byte_is.
    destruct (N.eqb_spec (N_of_ascii b) 34) as [E|_].
    { intros H. unfold rd_string in H. apply andthen_ok in H as (e1 & r1 & e2 & Q & H & ->). pose proof (str_begin_same r) as Sm. rewrite Q in Sm. destruct Sm as [S1 S2].
      destruct (str_fragment s) as [[[f p] t]| |] eqn:F; try discriminate. peel H. peel H.
      apply (goes_from _ _ _ (if p then LStr else LOut) ks t).
      { cbn [nests_from nest_byte str_byte]. rewrite E. cbn. eapply nests_fragment, F. }
      destruct p.
      - injection H as _ <-. cbn. exists ks. rewrite S1. auto.
      - peel H. eapply goes_maybe; [| |exact H]; congruence. }
    destruct (N.eqb_spec (N_of_ascii b) 123) as [E|_].
    { intros H. unfold rd_more in H. apply andthen_ok in H as (e1 & r1 & e2 & Q & H & ->). injection H as _ <-.
      destruct (stack_method begin_container PushMap (EMapBegin None) (set_pos PMapEmpty) r ks e1 r1 R ltac:(reflexivity) ltac:(reflexivity) Q) as (ks' & Ro & Rs & Is).
      cbn [goes_on]. exists ks'. split; [exact Rs|]. unfold lx. rewrite Is, I. cbn [nests_from nest_byte str_byte]. rewrite E. cbn [N.eqb Pos.eqb]. rewrite Ro. reflexivity. }
    destruct (N.eqb_spec (N_of_ascii b) 125) as [E|_].
    { intros H. unfold rd_done in H. apply andthen_ok in H as (e1 & r1 & e2 & Q & H & ->).
      destruct (stack_method (fun r => match r_pos r with PMapEmpty => ret tt | PMapValue => say EMapValEnd | _ => todo end) PopMap EMapEnd (fun r => set_pos (stack_pos (r_stack r)) r) r ks e1 r1 R ltac:(reflexivity) ltac:(reflexivity) Q) as (ks' & Ro & Rs & Is).
      eapply goes_from; [|eapply goes_maybe; [| |exact H]]; [|exact Rs|congruence].
      cbn [nests_from nest_byte str_byte]. rewrite E. cbn [N.eqb Pos.eqb]. rewrite Ro. reflexivity. }
    destruct (N.eqb_spec (N_of_ascii b) 91) as [E|_].
    { intros H. unfold rd_more in H. apply andthen_ok in H as (e1 & r1 & e2 & Q & H & ->). injection H as _ <-.
      destruct (stack_method begin_container PushSeq (ESeqBegin None) (set_pos PSeqEmpty) r ks e1 r1 R ltac:(reflexivity) ltac:(reflexivity) Q) as (ks' & Ro & Rs & Is).
      cbn [goes_on]. exists ks'. split; [exact Rs|]. unfold lx. rewrite Is, I. cbn [nests_from nest_byte str_byte]. rewrite E. cbn [N.eqb Pos.eqb]. rewrite Ro. reflexivity. }
    destruct (N.eqb_spec (N_of_ascii b) 93) as [E|_].
    { intros H. unfold rd_done in H. apply andthen_ok in H as (e1 & r1 & e2 & Q & H & ->).
      destruct (stack_method (fun r => match r_pos r with PSeqEmpty => ret tt | PSeqElem => say ESeqValEnd | _ => todo end) PopSeq ESeqEnd (fun r => set_pos (stack_pos (r_stack r)) r) r ks e1 r1 R ltac:(reflexivity) ltac:(reflexivity) Q) as (ks' & Ro & Rs & Is).
      eapply goes_from; [|eapply goes_maybe; [| |exact H]]; [|exact Rs|congruence].
      cbn [nests_from nest_byte str_byte]. rewrite E. cbn [N.eqb Pos.eqb]. rewrite Ro. reflexivity. }
    destruct (N.eqb_spec (N_of_ascii b) 58) as [E|_].
    { intros H. unfold rd_more in H. apply andthen_ok in H as (e1 & r1 & e2 & Q & H & ->). injection H as _ <-.
      pose proof (key_end_same r) as Sm. rewrite Q in Sm. destruct Sm as [S1 S2]. cbn [goes_on]. exists ks. rewrite S1. split; [exact R|].
      unfold lx. rewrite S2, I. cbn [nests_from nest_byte str_byte]. rewrite E. reflexivity. }
    destruct (N.eqb_spec (N_of_ascii b) 44) as [E|_].
    { intros H. unfold rd_more in H. apply andthen_ok in H as (e1 & r1 & e2 & Q & H & ->). injection H as _ <-.
      pose proof (comma_same r) as Sm. rewrite Q in Sm. destruct Sm as [S1 S2]. cbn [goes_on]. exists ks. rewrite S1. split; [exact R|].
      unfold lx. rewrite S2, I. cbn [nests_from nest_byte str_byte]. rewrite E. reflexivity. }
    destruct (N_of_ascii b =? 116)%N; [apply W; reflexivity|].
    destruct (N_of_ascii b =? 102)%N; [apply W; reflexivity|].
    destruct (N_of_ascii b =? 110)%N; [apply W; reflexivity|].
    destruct (_ || _ || _ || _) eqn:Ws.
    { intros H. apply IH in H. eapply goes_from; [|exact H].
      cbn [nests_from nest_byte str_byte]. repeat (apply orb_true_iff in Ws as [Ws|Ws]); apply N.eqb_eq in Ws; rewrite Ws; reflexivity. }
    match goal with |- (if ?c then _ else _) = _ -> _ => destruct c end; [|intros Hd; discriminate Hd].
    unfold rd_number. pose proof (number_app (b :: s)) as [Na Np]. destruct (number (b :: s)) as [n t]. cbn [fst snd] in *. rewrite Na. intros H.
    eapply goes_from; [apply plain_nests, Np|].
    apply andthen_ok in H as (e1 & r1 & e2 & Q & H & ->). pose proof (value_begin_same r) as Sm. rewrite Q in Sm. destruct Sm as [S1 S2].
    do 7 peel H. eapply goes_maybe; [| |exact H]; congruence.
Qed.

Lemma all_nest n : forall s r es ks, represents (r_stack r) ks -> resume_all n s r = Some (es, MOk tt) -> nests_from (lx r) ks s = Some [].
Proof.
  induction n as [|n IH]; intros s r es ks R; [discriminate|]. cbn [resume_all].
  destruct (resume s r) as [e1 [[s' r'|]| |]] eqn:E; try discriminate.
  - destruct (resume_all n s' r') as [[e2 o]|] eqn:F; [|discriminate]. intros Q. injection Q as _ ->.
    destruct (turn _ _ _ _ _ R E) as (ks' & R' & ->). eapply IH; eassumption.
  - intros _. exact (turn _ _ _ _ _ R E).
Qed.
