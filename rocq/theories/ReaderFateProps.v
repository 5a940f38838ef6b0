(** * ReaderFateProps: how reading a text ends, for any JSON text (C70) and any bytes (C55) *)

From Verif Require Import Base Event Tree Utf8 LowerSpec JsonModel JsonGrammar JsonParse StackModel StackProps StackExactProps
  ReaderModel ReaderSpec ReaderProofs ReaderNestProofs ReaderProps ReaderFateSpec ReaderFateProofs.

(** ** C70: every JSON text is read, an error or a panic, as its bytes say *)

Theorem C70_outcome : forall s j, json_text s j ->
  match fate_of s with
  | Reads => exists t, stands_for t j /\ from_slice s = (emit t, MOk tt)
  | Fails => exists es, from_slice s = (es, MErr)
  | Panics => exists es, from_slice s = (es, MPanic)
  end.
Proof.
  intros s j T. pose proof (all_fate s j T [] PRoot [] ltac:(split; reflexivity) I I) as X. rewrite app_nil_r in X. fold (fate_of s) in X.
  destruct X as [(N & es & R) | (Ft & t & Sf & _ & R)].
  - destruct (fate_of s); [congruence| |]; exists es; apply from_slice_runs, R.
  - rewrite Ft. cbn [fate_from]. exists t. split; [exact Sf|]. specialize (R [] (MOk tt)). cbn [pre app] in R. rewrite app_nil_r in R.
    apply from_slice_runs, R. exists 1. reflexivity.
Qed.

Definition bad_byte : bytes := [ascii_of_N 255].
(** A text in as many containers as the stack's counters allow. *)
Fixpoint within (os : list sop) (s : bytes) : bytes :=
  match os with
  | [] => s
  | PushSeq :: os => bs "[" ++ within os s ++ bs "]"
  | _ :: os => bs "{" ++ bs """a"":" ++ within os s ++ bs "}"
  end.
Definition deepest (s : bytes) : bytes := within deep s.
Lemma deepest_json os s j : json_text s j -> exists j', json_text (within os s) j'.
Proof.
  intros T. induction os as [|o os (j' & IH)]; [exists j; exact T|]. cbn [within].
  assert (M : json_members ([] ++ quoted (bs "a") ++ [] ++ bs ":" ++ within os s) [(bs "a", j')]) by (constructor; try reflexivity; exact IH).
  assert (O : json_text ([] ++ (bs "{" ++ (bs """a"":" ++ within os s) ++ bs "}") ++ []) (JObj [(bs "a", j')])) by (constructor; [reflexivity|reflexivity|]; apply jv_obj, M).
  assert (A : json_text ([] ++ (bs "[" ++ within os s ++ bs "]") ++ []) (JArr [j'])) by (constructor; [reflexivity|reflexivity|]; apply jv_arr, je_one, IH).
  rewrite app_nil_r in A, O. rewrite <- (app_assoc (bs """a"":")) in O. destruct o; eexists; first [exact A | exact O].
Qed.
Example C70_outcome_cases :
  fate_of sample = Reads /\ fate_of (deepest (bs "1")) = Reads /\
  fate_of (quoted bad_byte) = Fails /\ fate_of (quoted (bs "a\n" ++ bad_byte)) = Fails /\ fate_of (deepest (bs "[1]")) = Fails /\
  fate_of (bs "[1E5]") = Panics /\ fate_of (bs """\t""") = Panics /\ fate_of (deepest (bs "{}")) = Panics /\
  exists j, json_text (deepest (bs "{}")) j.
Proof.
  repeat split; try (vm_compute; reflexivity). apply (deepest_json deep (bs "{}") (JObj [])).
  change (bs "{}") with ([] ++ (bs "{" ++ [] ++ bs "}") ++ []). constructor; [reflexivity|reflexivity|]. apply jv_obj0. reflexivity.
Qed.

(** ** C55: whatever is accepted reads to its end, and is UTF-8 *)

Definition here (r : reader) (ks : list ckind) (s : bytes) : fate := if r_in_str r then in_string ks s else fate_from LOut ks s.
Definition fine (f : fate) (s : bytes) : Prop := f = Reads /\ utf8 s = true.
Definition goes_fine (f : fate) (s : bytes) (x : resumed) : Prop :=
  match x with
  | More s' r' => exists ks', represents (r_stack r') ks' /\ fits ks' /\ (fine (here r' ks' s') s' -> fine f s)
  | Done => fine f s
  end.
Lemma fine_from f s f' s' x : (fine f' s' -> fine f s) -> goes_fine f' s' x -> goes_fine f s x.
Proof. intros E. destruct x as [t r'|]; cbn; [|exact E]. intros (ks & R & F & H). exists ks. auto. Qed.
Lemma fine_maybe s r ks es x : represents (r_stack r) ks -> fits ks -> r_in_str r = false -> maybe_done s r = (es, MOk x) -> goes_fine (fate_from LOut ks s) s x.
Proof.
  intros R F I. destruct s as [|b s]; cbn [maybe_done].
  - destruct (finish (r_stack r)); [|discriminate]. intros Q. injection Q as _ <-. split; reflexivity.
  - intros Q. injection Q as _ <-. cbn [goes_fine]. exists ks. split; [exact R|]. split; [exact F|]. unfold here. rewrite I. auto.
Qed.
Lemma fine_plain ks a s : forallb plain_byte a = true -> forallb (fun b => negb (byte_is 69 b)) a = true ->
  fine (fate_from LOut ks s) s -> fine (fate_from LOut ks (a ++ s)) (a ++ s).
Proof.
  intros P E [H U]. split; [rewrite fate_plain; assumption|]. apply utf8_app; [|exact U]. apply ReaderProps.utf8_ascii.
  revert P. clear. induction a as [|b a IH]; [reflexivity|]. cbn [forallb]. intros H. apply andb_true_iff in H as [H1 H2]. rewrite (IH H2), andb_true_r.
  unfold plain_byte in H1. apply andb_true_iff in H1 as [_ H1]. exact H1.
Qed.
Lemma scan_fate ks s : forall f p t, scan_fragment s = (f, p, t) -> fate_from LStr ks s = fate_from (if p then LStr else LOut) ks t /\
  (s = f ++ t \/ s = f ++ ascii_of_N 34 :: t).
Proof.
  induction s as [|b s IH]; intros f p t; cbn [scan_fragment].
  - intros Q. injection Q as <- <- <-. auto.
  - unfold byte_is. destruct (N_of_ascii b =? 92)%N eqn:E2; [intros Q; injection Q as <- <- <-; auto|].
    destruct (N_of_ascii b =? 34)%N eqn:E4.
    + intros Q. injection Q as <- <- <-. cbn [fate_from app]. rewrite E4. split; [reflexivity|]. right. f_equal. apply byte_is_eq; [reflexivity|exact E4].
    + destruct (scan_fragment s) as [[g q] r] eqn:F. intros Q. injection Q as <- <- <-. cbn [fate_from app]. rewrite E2, E4.
      destruct (IH _ _ _ eq_refl) as [X Y]. split; [exact X|]. destruct Y as [-> | ->]; auto.
Qed.
Lemma fragment_fine ks s f p t : str_fragment s = MOk (f, p, t) ->
  fine (if p then in_string ks t else fate_from LOut ks t) t -> fine (in_string ks s) s.
Proof.
  destruct s as [|b s]; [discriminate|]. cbn [str_fragment]. destruct (byte_is 92 b) eqn:E.
  - apply byte_is_eq in E; [|reflexivity]. subst b. destruct s as [|e s]; [discriminate|]. intros H.
    assert (X : p = true /\ t = s /\ ((N_of_ascii e =? 110)%N || (N_of_ascii e =? 114)%N || (N_of_ascii e =? 34)%N || (N_of_ascii e =? 92)%N) = true /\ (N_of_ascii e <? 128)%N = true).
    { unfold byte_is in H.
      destruct (N.eqb_spec (N_of_ascii e) 110) as [->|_]; [injection H as _ <- <-; auto|].
      destruct (N.eqb_spec (N_of_ascii e) 114) as [->|_]; [injection H as _ <- <-; auto|].
      destruct (N.eqb_spec (N_of_ascii e) 34) as [->|_]; [injection H as _ <- <-; auto|].
      destruct (N.eqb_spec (N_of_ascii e) 92) as [->|_]; [injection H as _ <- <-; auto|]. discriminate H. }
    destruct X as (-> & -> & X & A). intros [Ft U]. split; [|apply utf8_cons; [reflexivity|]; apply utf8_cons; [exact A|exact U]].
    unfold in_string. cbn [piece]. change (utf8 (if _ || _ then _ else _)) with true. cbv iota. cbn [fate_from].
    change ((N_of_ascii (ascii_of_N 92) =? 34)%N) with false. change ((N_of_ascii (ascii_of_N 92) =? 92)%N) with true. cbv iota. rewrite X. exact Ft.
  - pose proof (scan_piece (b :: s)) as Pc. destruct (scan_fragment (b :: s)) as [[g q] r] eqn:F. cbn [fst] in Pc. destruct (utf8 g) eqn:Ug; [|discriminate].
    intros Q. injection Q as <- <- <-. destruct (scan_fate ks _ _ _ _ F) as [Ft Sp]. intros [H U]. unfold in_string. rewrite <- Pc, Ug, Ft. split.
    + destruct q; [|exact H]. unfold in_string in H. destruct (utf8 (piece r)); [exact H|discriminate H].
    + destruct Sp as [-> | ->]; apply utf8_app; try assumption. apply utf8_cons; [reflexivity|exact U].
Qed.
Lemma number_no_e s : forallb (fun b => negb (byte_is 69 b)) (fst (number s)) = true.
Proof.
  induction s as [|b s IH]; [reflexivity|]. cbn [number]. destruct (number_byte b) eqn:E; [|reflexivity]. destruct (number s) as [n r]. cbn [fst forallb] in *. rewrite IH, andb_true_r.
  clear -E. destruct b as [[] [] [] [] [] [] [] []]; (reflexivity || discriminate).
Qed.

(** A stack method, with what the counters say. *)
Lemma stack_fine (f : reader -> does unit) (o : sop) (e : ev) (g : reader -> reader) r ks es r' :
  represents (r_stack r) ks -> fits ks -> (forall r, r_stack (g r) = r_stack r) -> (forall r, r_in_str (g r) = r_in_str r) ->
  (f r >>> fun _ => lift_stack r (stack_op (r_stack r) o) >>> fun r => say e >>> fun _ => ret (g r)) = (es, MOk r') ->
  exists ks', counted_op ks o = Goes ks' /\ represents (r_stack r') ks' /\ fits ks' /\ r_in_str r' = r_in_str r.
Proof.
  intros R F G1 G2 H. peel H. apply andthen_ok in H as (e1 & r1 & e2 & Q & H & ->). apply lift_ok in Q as (s & Op & ->).
  pose proof (op_exact _ _ o R F) as X. destruct (counted_op ks o) as [ks'| |]; [|rewrite X in Op; discriminate Op..].
  destruct X as (F' & _ & s' & E & R'). rewrite E in Op. injection Op as <-. peel H. injection H as _ <-. exists ks'. rewrite G1, G2. auto.
Qed.
Lemma bracket_fine ks b o ks' s : bracket b = Some o -> (N_of_ascii b <? 128)%N = true -> counted_op ks o = Goes ks' ->
  fine (fate_from LOut ks' s) s -> fine (fate_from LOut ks (b :: s)) (b :: s).
Proof.
  intros B A C [H U]. split; [|apply utf8_cons; assumption]. cbn [fate_from]. rewrite B, C. unfold bracket in B.
  destruct (N.eqb_spec (N_of_ascii b) 69) as [E|_]; [rewrite E in B; discriminate B|].
  destruct (N.eqb_spec (N_of_ascii b) 34) as [E|_]; [rewrite E in B; discriminate B|]. exact H.
Qed.
Lemma turn_fine s r es x ks : represents (r_stack r) ks -> fits ks -> resume s r = (es, MOk x) -> goes_fine (here r ks s) s x.
Proof.
  intros R Fk. unfold resume, here. destruct (r_in_str r) eqn:I.
  - destruct (str_fragment s) as [[[f p] t]| |] eqn:F; try discriminate. intros H. peel H.
    eapply fine_from; [exact (fragment_fine ks s f p t F)|]. destruct p.
    + injection H as _ <-. cbn [goes_fine]. exists ks. split; [exact R|]. split; [exact Fk|]. unfold here. rewrite I. auto.
    + peel H. eapply fine_maybe; [| | |exact H]; [exact R|exact Fk|reflexivity].
  - revert es x. induction s as [|b s IH]; intros es x; cbn [resume_out].
    { apply fine_maybe; assumption. }
    assert (W : forall w e, forallb plain_byte (bs w) = true -> forallb (fun b => negb (byte_is 69 b)) (bs w) = true ->
                rd_word w e (b :: s) r = (es, MOk x) -> goes_fine (fate_from LOut ks (b :: s)) (b :: s) x).
    { intros w e P N H. unfold rd_word in H. destruct (word (bs w) (b :: s)) as [t|] eqn:Wd; [|discriminate]. apply word_app in Wd. rewrite Wd.
      eapply fine_from; [apply fine_plain; assumption|].
      apply andthen_ok in H as (e1 & r1 & e2 & Q & H & ->). pose proof (value_begin_same r) as Sm. rewrite Q in Sm. destruct Sm as [S1 S2].
      peel H. eapply fine_maybe; [| | |exact H]; congruence. }
    assert (One : forall t, plain_byte b = true -> byte_is 69 b = false -> fine (fate_from LOut ks t) t -> fine (fate_from LOut ks (b :: t)) (b :: t)).
    { intros t P N. apply (fine_plain ks [b] t); cbn [forallb]; [rewrite P|rewrite N]; reflexivity. }
    unfold byte_is.
    destruct (N.eqb_spec (N_of_ascii b) 34) as [E|_].
    { intros H. unfold rd_string in H. apply andthen_ok in H as (e1 & r1 & e2 & Q & H & ->). pose proof (str_begin_same r) as Sm. rewrite Q in Sm. destruct Sm as [S1 S2].
      destruct (str_fragment s) as [[[f p] t]| |] eqn:F; try discriminate. peel H. peel H.
      apply (fine_from _ _ (if p then in_string ks t else fate_from LOut ks t) t).
      { intros G. apply (fragment_fine ks s f p t F) in G as [G U]. split; [|apply utf8_cons; [rewrite E; reflexivity|exact U]].
        cbn [fate_from]. rewrite E. exact G. }
      destruct p.
      - injection H as _ <-. cbn [goes_fine]. exists ks. cbn [set_in_str r_stack]. rewrite S1. split; [exact R|]. split; [exact Fk|]. unfold here. cbn [set_in_str r_in_str]. auto.
      - peel H. eapply fine_maybe; [| | |exact H]; congruence. }
    destruct (N.eqb_spec (N_of_ascii b) 123) as [E|_].
    { intros H. unfold rd_more in H. apply andthen_ok in H as (e1 & r1 & e2 & Q & H & ->). injection H as _ <-.
      destruct (stack_fine begin_container PushMap (EMapBegin None) (set_pos PMapEmpty) r ks e1 r1 R Fk ltac:(reflexivity) ltac:(reflexivity) Q) as (ks' & Ro & Rs & Fs & Is).
      cbn [goes_fine]. exists ks'. split; [exact Rs|]. split; [exact Fs|]. unfold here. rewrite Is, I. apply (bracket_fine ks b PushMap); [unfold bracket; rewrite E|rewrite E|exact Ro]; reflexivity. }
    destruct (N.eqb_spec (N_of_ascii b) 125) as [E|_].
    { intros H. unfold rd_done in H. apply andthen_ok in H as (e1 & r1 & e2 & Q & H & ->).
      destruct (stack_fine (fun r => match r_pos r with PMapEmpty => ret tt | PMapValue => say EMapValEnd | _ => todo end) PopMap EMapEnd (fun r => set_pos (stack_pos (r_stack r)) r) r ks e1 r1 R Fk ltac:(reflexivity) ltac:(reflexivity) Q) as (ks' & Ro & Rs & Fs & Is).
      eapply fine_from; [|eapply fine_maybe; [| | |exact H]]; [|exact Rs|exact Fs|congruence].
      apply (bracket_fine ks b PopMap); [unfold bracket; rewrite E|rewrite E|exact Ro]; reflexivity. }
    destruct (N.eqb_spec (N_of_ascii b) 91) as [E|_].
    { intros H. unfold rd_more in H. apply andthen_ok in H as (e1 & r1 & e2 & Q & H & ->). injection H as _ <-.
      destruct (stack_fine begin_container PushSeq (ESeqBegin None) (set_pos PSeqEmpty) r ks e1 r1 R Fk ltac:(reflexivity) ltac:(reflexivity) Q) as (ks' & Ro & Rs & Fs & Is).
      cbn [goes_fine]. exists ks'. split; [exact Rs|]. split; [exact Fs|]. unfold here. rewrite Is, I. apply (bracket_fine ks b PushSeq); [unfold bracket; rewrite E|rewrite E|exact Ro]; reflexivity. }
    destruct (N.eqb_spec (N_of_ascii b) 93) as [E|_].
    { intros H. unfold rd_done in H. apply andthen_ok in H as (e1 & r1 & e2 & Q & H & ->).
      destruct (stack_fine (fun r => match r_pos r with PSeqEmpty => ret tt | PSeqElem => say ESeqValEnd | _ => todo end) PopSeq ESeqEnd (fun r => set_pos (stack_pos (r_stack r)) r) r ks e1 r1 R Fk ltac:(reflexivity) ltac:(reflexivity) Q) as (ks' & Ro & Rs & Fs & Is).
      eapply fine_from; [|eapply fine_maybe; [| | |exact H]]; [|exact Rs|exact Fs|congruence].
      apply (bracket_fine ks b PopSeq); [unfold bracket; rewrite E|rewrite E|exact Ro]; reflexivity. }
    destruct (N.eqb_spec (N_of_ascii b) 58) as [E|_].
    { intros H. unfold rd_more in H. apply andthen_ok in H as (e1 & r1 & e2 & Q & H & ->). injection H as _ <-.
      pose proof (key_end_same r) as Sm. rewrite Q in Sm. destruct Sm as [S1 S2]. cbn [goes_fine]. exists ks. rewrite S1. split; [exact R|]. split; [exact Fk|].
      unfold here. rewrite S2, I. apply One; [unfold plain_byte|unfold byte_is]; rewrite E; reflexivity. }
    destruct (N.eqb_spec (N_of_ascii b) 44) as [E|_].
    { intros H. unfold rd_more in H. apply andthen_ok in H as (e1 & r1 & e2 & Q & H & ->). injection H as _ <-.
      pose proof (comma_same r) as Sm. rewrite Q in Sm. destruct Sm as [S1 S2]. cbn [goes_fine]. exists ks. rewrite S1. split; [exact R|]. split; [exact Fk|].
      unfold here. rewrite S2, I. apply One; [unfold plain_byte|unfold byte_is]; rewrite E; reflexivity. }
    destruct (N_of_ascii b =? 116)%N; [apply W; reflexivity|].
    destruct (N_of_ascii b =? 102)%N; [apply W; reflexivity|].
    destruct (N_of_ascii b =? 110)%N; [apply W; reflexivity|].
    destruct (_ || _ || _ || _) eqn:Ws.
    { intros H. apply IH in H. eapply fine_from; [|exact H].
      repeat (apply orb_true_iff in Ws as [Ws|Ws]); apply N.eqb_eq in Ws; apply One; (unfold plain_byte || unfold byte_is); rewrite Ws; reflexivity. }
    match goal with |- (if ?c then _ else _) = _ -> _ => destruct c end; [|intros Hd; discriminate Hd].
    unfold rd_number. pose proof (number_app (b :: s)) as [Na Np]. pose proof (number_no_e (b :: s)) as Ne.
    destruct (number (b :: s)) as [n t]. cbn [fst snd] in *. rewrite Na. intros H.
    eapply fine_from; [apply fine_plain; assumption|].
    apply andthen_ok in H as (e1 & r1 & e2 & Q & H & ->). pose proof (value_begin_same r) as Sm. rewrite Q in Sm. destruct Sm as [S1 S2].
    do 7 peel H. eapply fine_maybe; [| | |exact H]; congruence.
Qed.
Lemma all_fine n : forall s r es ks, represents (r_stack r) ks -> fits ks -> resume_all n s r = Some (es, MOk tt) -> fine (here r ks s) s.
Proof.
  induction n as [|n IH]; intros s r es ks R F; [discriminate|]. cbn [resume_all].
  destruct (resume s r) as [e1 [[s' r'|]| |]] eqn:E; try discriminate.
  - destruct (resume_all n s' r') as [[e2 o]|] eqn:G; [|discriminate]. intros Q. injection Q as _ ->.
    destruct (turn_fine _ _ _ _ _ R F E) as (ks' & R' & F' & B). apply B. eapply IH; eassumption.
  - intros _. exact (turn_fine _ _ _ _ _ R F E).
Qed.
Theorem C55_accepted_texts : forall s es, from_slice s = (es, MOk tt) -> fate_of s = Reads /\ utf8 s = true.
Proof.
  intros s es H. apply from_slice_runs in H as [n H]. exact (all_fine n s reader_new es [] eq_refl ltac:(split; reflexivity) H).
Qed.
(** The converse is for JSON texts only: bytes that are not JSON may be refused although nothing here says so. *)
Example C55_accepted_case : snd (from_slice (bs "[""a\n"" {}]")) = MOk tt /\ fate_of (bs "[""a\n"" {}]") = Reads /\
  fate_of (bs "]") = Fails /\ fate_of (bs "x") = Reads /\ snd (from_slice (bs "x")) = MPanic.
Proof. vm_compute. repeat split. Qed.

(** ** Together: JSON texts are accepted exactly when nothing stops them *)
Theorem C70_accepts_exactly : forall s j, json_text s j -> (exists es, from_slice s = (es, MOk tt)) <-> fate_of s = Reads.
Proof.
  intros s j T. pose proof (C70_outcome s j T) as X. split.
  - intros (es & E). destruct (fate_of s); [reflexivity| |]; destruct X as (es' & X); congruence.
  - intros E. rewrite E in X. destruct X as (t & _ & X). eauto.
Qed.

(** Up to 63 levels, with the escapes and exponents it knows, reading never
    panics: it succeeds on UTF-8 and is an error on anything else. *)
Lemma shallow_fate s : forall l ks, shallow_from l ks s = true -> fate_from l ks s <> Panics.
Proof.
  induction s as [|b s IH]; intros l ks H; [discriminate|]. cbn [shallow_from fate_from] in *. apply andb_true_iff in H as [L H]. apply Nat.leb_le in L.
  destruct (lex_byte l b) as [l'|] eqn:Lx; [|discriminate H]. destruct (nest_byte l ks b) as [ks'|] eqn:Nx; [|discriminate H].
  specialize (IH _ _ H).
  assert (O : forall o k', real_op ks o = Some k' -> counted_op ks o = Goes k').
  { intros o k' Ro. pose proof (counters_bound ks) as (B1 & B2 & B3).
    assert (P : (2 ^ N.of_nat (List.length ks) <= 2 ^ 63)%N) by (apply N.pow_le_mono_r; lia).
    assert (E : (2 * 2 ^ 63 = U64_LIM)%N) by reflexivity. unfold counted_op, other, u64. rewrite Ro. generalize dependent (2 ^ 63)%N. intros z Pz Ez.
    destruct o; [| destruct ks as [|[|] ks]; try discriminate Ro| | destruct ks as [|[|] ks]; try discriminate Ro]; injection Ro as <-;
      cbn [counters] in *; destruct (counters ks) as [m q]; cbn [fst snd] in *;
      repeat match goal with |- context [(?a <? U64_LIM)%N] => destruct (N.ltb_spec a U64_LIM); [|lia] end; reflexivity. }
  unfold lex_byte, nest_byte in *. destruct l.
  - destruct (N_of_ascii b =? 69)%N; [discriminate Lx|]. destruct (N.eqb_spec (N_of_ascii b) 34) as [E|_].
    + rewrite E in Nx. cbn in Nx. injection Nx as <-. injection Lx as <-. destruct (utf8 (piece s)); [exact IH|discriminate].
    + injection Lx as <-. unfold bracket.
      destruct (N_of_ascii b =? 123)%N; [rewrite (O _ _ Nx); exact IH|]. destruct (N_of_ascii b =? 125)%N; [rewrite (O _ _ Nx); exact IH|].
      destruct (N_of_ascii b =? 91)%N; [rewrite (O _ _ Nx); exact IH|]. destruct (N_of_ascii b =? 93)%N; [rewrite (O _ _ Nx); exact IH|].
      injection Nx as <-. exact IH.
  - injection Nx as <-. destruct (N_of_ascii b =? 34)%N; [injection Lx as <-; exact IH|]. destruct (N_of_ascii b =? 92)%N; injection Lx as <-; exact IH.
  - injection Nx as <-. destruct (_ || _); [|discriminate Lx]. injection Lx as <-. destruct (utf8 (piece s)); [exact IH|discriminate].
Qed.
Theorem C70_shallow_never_panics : forall s j, json_text s j -> shallow_from LOut [] s = true ->
  if utf8 s then exists t, stands_for t j /\ from_slice s = (emit t, MOk tt) else exists es, from_slice s = (es, MErr).
Proof.
  intros s j T S. destruct (utf8 s) eqn:U.
  - exact (C54_reads_json_partial s j T U (C54_shallow_texts_supported s S)).
  - pose proof (C70_outcome s j T) as X. pose proof (shallow_fate s _ _ S) as P. unfold fate_of in *.
    destruct (fate_from LOut [] s); [|exact X|congruence]. destruct X as (t & _ & X). apply C55_accepted_texts in X as [_ X]. congruence.
Qed.
Example C70_shallow_case : let s := bs "[1, " ++ quoted (bs "a\n" ++ bad_byte) ++ bs "]" in
  shallow_from LOut [] s = true /\ utf8 s = false /\ snd (from_slice s) = MErr.
Proof. vm_compute. repeat split. Qed.

Print Assumptions C70_outcome.
Print Assumptions C70_accepts_exactly.
Print Assumptions C70_shallow_never_panics.
Print Assumptions C55_accepted_texts.
