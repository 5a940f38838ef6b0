(** * ReaderProofs: running the reader over JSON texts *)

From Verif Require Import Base Event Tree Utf8 LowerSpec JsonModel JsonGrammar JsonParse StackModel StackProps ReaderModel ReaderSpec.

(** ** Turns *)

Definition runs (s : bytes) (r : reader) (es : list ev) (o : ends unit) : Prop :=
  exists n, resume_all n s r = Some (es, o).
Lemma resume_all_mono n : forall m s r x, resume_all n s r = Some x -> n <= m -> resume_all m s r = Some x.
Proof.
  induction n as [|n IH]; intros m s r x E L; [discriminate E|]. destruct m as [|m]; [lia|]. cbn [resume_all] in *.
  destruct (resume s r) as [es [[s' r'|]| |]]; try exact E.
  destruct (resume_all n s' r') as [y|] eqn:F; [|discriminate E]. rewrite (IH m s' r' y F ltac:(lia)). exact E.
Qed.
Lemma runs_same s r s' r' es o : resume s r = resume s' r' -> runs s' r' es o -> runs s r es o.
Proof. intros E [[|n] F]; [discriminate F|]. exists (S n). cbn [resume_all] in *. rewrite E. exact F. Qed.
Lemma runs_more s r s' r' e1 es o : resume s r = (e1, MOk (More s' r')) -> runs s' r' es o -> runs s r (e1 ++ es) o.
Proof. intros E [n F]. exists (S n). cbn [resume_all]. rewrite E, F. reflexivity. Qed.
Lemma runs_maybe s r s' r' e1 es o : r_in_str r' = false ->
  resume s r = (e1 ++ fst (maybe_done s' r'), snd (maybe_done s' r')) -> runs s' r' es o -> runs s r (e1 ++ es) o.
Proof.
  intros I E R. destruct s' as [|b s'].
  - destruct R as [[|n] F]; [discriminate F|]. exists (S n). cbn [resume_all] in *. unfold resume in F. rewrite I in F. cbn [resume_out] in F.
    rewrite E. unfold maybe_done in *. destruct (finish (r_stack r')); cbn in *; congruence.
  - cbn in E. rewrite app_nil_r in E. eapply runs_more; eassumption.
Qed.

(** Every turn takes a byte. *)
Lemma scan_fragment_len s : List.length (snd (scan_fragment s)) <= List.length s.
Proof.
  induction s as [|b s IH]; [reflexivity|]. cbn. destruct (byte_is 92 b); [cbn; lia|]. destruct (byte_is 34 b); [cbn; lia|].
  destruct (scan_fragment s) as [[f p] r]. cbn in *. lia.
Qed.
Lemma str_fragment_len s f p s' : str_fragment s = MOk (f, p, s') -> List.length s' < List.length s.
Proof.
  destruct s as [|b s]; [discriminate|]. cbn [str_fragment]. destruct (byte_is 92 b) eqn:E.
  - destruct s as [|e s]; [discriminate|].
    repeat match goal with |- (if ?c then _ else _) = _ -> _ => destruct c end; try discriminate; intros Q; injection Q as <- <- <-; cbn; lia.
  - cbn [scan_fragment]. rewrite E. destruct (byte_is 34 b).
    + destruct (utf8 []); [|discriminate]. intros Q; injection Q as <- <- <-. cbn; lia.
    + pose proof (scan_fragment_len s) as L. destruct (scan_fragment s) as [[g q] r]. destruct (utf8 _); [|discriminate].
      intros Q; injection Q as <- <- <-. cbn in *. lia.
Qed.
Lemma andthen_ok {A B} (x : does A) (f : A -> does B) es b : x >>> f = (es, MOk b) ->
  exists e1 a e2, x = (e1, MOk a) /\ f a = (e2, MOk b) /\ es = e1 ++ e2.
Proof.
  destruct x as [e1 [a| |]]; cbn; try discriminate. destruct (f a) as [e2 o] eqn:F. intros Q. injection Q as <- ->.
  exists e1, a, e2. auto.
Qed.
Lemma maybe_done_len s r es s' r' : maybe_done s r = (es, MOk (More s' r')) -> s' = s.
Proof. destruct s; cbn; [destruct (finish (r_stack r)); discriminate|]. intros Q. injection Q as _ <- _. reflexivity. Qed.
Lemma number_len s : List.length (snd (number s)) <= List.length s.
Proof. induction s as [|b s IH]; cbn; [lia|]. destruct (number_byte b); [|cbn; lia]. destruct (number s). cbn in *. lia. Qed.
Lemma word_len w : forall s s', word w s = Some s' -> List.length s = List.length w + List.length s'.
Proof.
  induction w as [|a w IH]; intros s s'; cbn; [intros Q; injection Q as <-; reflexivity|].
  destruct s as [|b s]; [discriminate|]. destruct (Ascii.eqb a b); [|discriminate]. intros Q. cbn. rewrite (IH s s' Q). reflexivity.
Qed.
Ltac peel H := let e1 := fresh in let a := fresh in let e2 := fresh in let Q := fresh in
  apply andthen_ok in H as (e1 & a & e2 & Q & H & ->).
Lemma resume_len s r es s' r' : resume s r = (es, MOk (More s' r')) -> List.length s' < List.length s.
Proof.
  unfold resume. destruct (r_in_str r).
  - destruct (str_fragment s) as [[[f p] t]| |] eqn:F; try discriminate. apply str_fragment_len in F. intros H. peel H.
    destruct p; [injection H as _ <- _; exact F|]. peel H. apply maybe_done_len in H as ->. exact F.
  - revert es s' r'. induction s as [|b s IH]; intros es s' r'; cbn [resume_out].
    + cbn [maybe_done]. destruct (finish (r_stack r)); discriminate.
    + destruct (byte_is 34 b).
      { intros H. unfold rd_string in H. peel H. destruct (str_fragment s) as [[[f p] t]| |] eqn:F; try discriminate.
        apply str_fragment_len in F. peel H. peel H. destruct p; [injection H as _ <- _; cbn; lia|]. peel H. apply maybe_done_len in H as ->. cbn; lia. }
      destruct (byte_is 123 b); [intros H; unfold rd_more in H; peel H; injection H as _ <- _; cbn; lia|].
      destruct (byte_is 125 b); [intros H; unfold rd_done in H; peel H; apply maybe_done_len in H as ->; cbn; lia|].
      destruct (byte_is 91 b); [intros H; unfold rd_more in H; peel H; injection H as _ <- _; cbn; lia|].
      destruct (byte_is 93 b); [intros H; unfold rd_done in H; peel H; apply maybe_done_len in H as ->; cbn; lia|].
      destruct (byte_is 58 b); [intros H; unfold rd_more in H; peel H; injection H as _ <- _; cbn; lia|].
      destruct (byte_is 44 b); [intros H; unfold rd_more in H; peel H; injection H as _ <- _; cbn; lia|].
      destruct (byte_is 116 b).
      { unfold rd_word. destruct (word (bs "true") (b :: s)) as [t|] eqn:W; [|discriminate]. apply word_len in W.
        intros H. peel H. peel H. apply maybe_done_len in H as ->. cbn in *; lia. }
      destruct (byte_is 102 b).
      { unfold rd_word. destruct (word (bs "false") (b :: s)) as [t|] eqn:W; [|discriminate]. apply word_len in W.
        intros H. peel H. peel H. apply maybe_done_len in H as ->. cbn in *; lia. }
      destruct (byte_is 110 b).
      { unfold rd_word. destruct (word (bs "null") (b :: s)) as [t|] eqn:W; [|discriminate]. apply word_len in W.
        intros H. peel H. peel H. apply maybe_done_len in H as ->. cbn in *; lia. }
      destruct (byte_is 32 b || byte_is 9 b || byte_is 13 b || byte_is 10 b).
      { intros H. apply IH in H. cbn; lia. }
      destruct (((48 <=? N_of_ascii b)%N && (N_of_ascii b <=? 57)%N) || byte_is 45 b) eqn:D; [|discriminate].
      unfold rd_number. cbn [number].
      assert (NB : number_byte b = true).
      { unfold number_byte. apply orb_true_iff in D as [D|D]; [rewrite D; reflexivity|]. unfold byte_is in D. rewrite D. rewrite !orb_true_r. reflexivity. }
      rewrite NB. pose proof (number_len s) as L. destruct (number s) as [m t]. intros H. do 8 peel H. apply maybe_done_len in H as ->. cbn in *; lia.
Qed.
Lemma enough_turns n : forall s r, List.length s < n -> resume_all n s r <> None.
Proof.
  induction n as [|n IH]; intros s r L; [lia|]. cbn [resume_all].
  destruct (resume s r) as [es [[s' r'|]| |]] eqn:E; try discriminate.
  apply resume_len in E. specialize (IH s' r' ltac:(lia)). destruct (resume_all n s' r') as [[? ?]|]; [discriminate|congruence].
Qed.
Lemma from_slice_runs s es o : runs s reader_new es o <-> from_slice s = (es, o).
Proof.
  unfold from_slice. pose proof (enough_turns (S (List.length s)) s reader_new ltac:(lia)) as X.
  destruct (resume_all (S (List.length s)) s reader_new) as [x|] eqn:E; [|congruence]. clear X. split.
  - intros [n F]. pose proof (resume_all_mono _ (Nat.max n (S (List.length s))) _ _ _ E ltac:(lia)) as E'.
    pose proof (resume_all_mono _ (Nat.max n (S (List.length s))) _ _ _ F ltac:(lia)) as F'. congruence.
  - intros ->. exists (S (List.length s)). exact E.
Qed.

(** ** States *)

Definition the_stack (ks : list ckind) : stack := MkStack (fst (counters ks)) (snd (counters ks)).
Lemma the_represents ks : represents (the_stack ks) ks.
Proof. unfold represents, the_stack. destruct (counters ks); reflexivity. Qed.
Lemma represents_the s ks : represents s ks -> s = the_stack ks.
Proof. unfold represents, the_stack. intros ->. destruct s; reflexivity. Qed.
Lemma the_op ks o ks' : small ks = true -> real_op ks o = Some ks' -> small ks' = true ->
  stack_op (the_stack ks) o = Ok (the_stack ks').
Proof.
  intros S E S'. destruct (op_complete _ _ _ _ (the_represents ks) S E S') as (s' & F & R).
  rewrite F. f_equal. apply represents_the, R.
Qed.
Definition st (ks : list ckind) (p : pos) : reader := MkReader false (the_stack ks) p.
Definition pos_of (ks : list ckind) : pos := match ks with [] => PRoot | KMap :: _ => PMapValue | KSeq :: _ => PSeqElem end.
Lemma the_pos ks : stack_pos (the_stack ks) = pos_of ks.
Proof.
  unfold stack_pos, position, the_stack. cbn [s_map s_seq]. pose proof (counters_order ks) as O. destruct (counters ks) as [m q]. cbn [fst snd].
  destruct ks as [|[|] ks]; cbn [pos_of].
  - destruct O as [-> ->]. reflexivity.
  - destruct (N.compare_spec m q); try lia; reflexivity.
  - destruct (N.compare_spec m q); try lia; reflexivity.
Qed.
Definition at_value (p : pos) (ks : list ckind) : Prop :=
  match p, ks with
  | PRoot, [] | PSeqEmpty, KSeq :: _ | PSeqElem, KSeq :: _ | PMapValue, KMap :: _ => True
  | _, _ => False
  end.
Definition pre (p : pos) : list ev :=
  match p with PSeqEmpty | PSeqElem => [ESeqValBegin] | PMapValue => [EMapValBegin] | _ => [] end.
Lemma value_begin_ok ks p : at_value p ks -> rd_value_begin (st ks p) = (pre p, MOk (st ks (pos_of ks))).
Proof. destruct p, ks as [|[|] ks]; cbn; intros []; reflexivity. Qed.
Lemma str_begin_ok ks p : at_value p ks -> rd_str_begin (st ks p) = (pre p, MOk (st ks (pos_of ks))).
Proof. destruct p, ks as [|[|] ks]; cbn; intros []; reflexivity. Qed.
Lemma begin_container_ok ks p : at_value p ks -> begin_container (st ks p) = (pre p, MOk tt).
Proof. destruct p, ks as [|[|] ks]; cbn; intros []; reflexivity. Qed.

(** ** Supported texts *)

Lemma sup_small l ks s : supported_from l ks s = true -> small ks = true.
Proof. destruct s; cbn [supported_from]; intros H; apply andb_true_iff in H as [H _]; exact H. Qed.
Lemma sup_cons l ks b s : supported_from l ks (b :: s) = true ->
  exists l' ks', lex_byte l b = Some l' /\ nest_byte l ks b = Some ks' /\ supported_from l' ks' s = true.
Proof.
  cbn [supported_from]. intros H. apply andb_true_iff in H as [_ H].
  destruct (lex_byte l b) as [l'|]; [|discriminate]. destruct (nest_byte l ks b) as [ks'|]; [|discriminate]. eauto.
Qed.
(** Bytes outside of strings without a meaning for the nesting. *)
Definition plain_byte (b : byte) : bool :=
  let n := N_of_ascii b in
  negb (n =? 34)%N && negb (n =? 123)%N && negb (n =? 125)%N && negb (n =? 91)%N && negb (n =? 93)%N && (n <? 128)%N.
Lemma sup_plain1 ks b s : plain_byte b = true -> supported_from LOut ks (b :: s) = true ->
  supported_from LOut ks s = true /\ byte_is 69 b = false.
Proof.
  intros P H. apply sup_cons in H as (l' & ks' & L & K & H). unfold plain_byte in P.
  repeat match goal with P : _ && _ = true |- _ => apply andb_true_iff in P as [P ?] end.
  unfold lex_byte, nest_byte in *. unfold byte_is. destruct (N_of_ascii b =? 69)%N; [discriminate|].
  repeat match goal with H : negb ?c = true |- _ => apply negb_true_iff in H; rewrite H in * end. injection L as <-. injection K as <-. auto.
Qed.
Lemma sup_plain ks a s : forallb plain_byte a = true -> supported_from LOut ks (a ++ s) = true ->
  supported_from LOut ks s = true /\ forallb (fun b => negb (byte_is 69 b)) a = true.
Proof.
  induction a as [|b a IH]; cbn [app forallb]; intros P H; [auto|]. apply andb_true_iff in P as [P1 P2].
  destruct (sup_plain1 _ _ _ P1 H) as [H1 E]. destruct (IH P2 H1) as [H2 E2]. rewrite E, E2. auto.
Qed.
Lemma utf8_drop b s : (N_of_ascii b <? 128)%N = true -> utf8 (b :: s) = true -> utf8 s = true.
Proof. intros A H. apply (utf8_split_ascii [] b s H A). Qed.
Lemma utf8_drops a s : forallb plain_byte a = true -> utf8 (a ++ s) = true -> utf8 s = true.
Proof.
  induction a as [|b a IH]; cbn [app forallb]; intros P H; [exact H|]. apply andb_true_iff in P as [P1 P2].
  apply IH; [exact P2|]. apply (utf8_drop b); [|exact H]. unfold plain_byte in P1. apply andb_true_iff in P1 as [_ P1]. exact P1.
Qed.

(** A byte is what its code says. *)
Lemma byte_is_eq n b : (n < 256)%N -> byte_is n b = true -> b = ascii_of_N n.
Proof. exact (is_byte_eq n b). Qed.

(** ** White space *)
Lemma ws_plain w : ws w -> forallb plain_byte w = true.
Proof.
  unfold ws. induction w as [|b w IH]; [reflexivity|]. cbn [forallb]. intros H. apply andb_true_iff in H as [H1 H2]. rewrite (IH H2), andb_true_r.
  unfold is_ws in H1. repeat (apply orb_true_iff in H1 as [H1|H1]); apply N.eqb_eq in H1; unfold plain_byte; rewrite H1; reflexivity.
Qed.
Lemma resume_ws w s ks p : ws w -> resume (w ++ s) (st ks p) = resume s (st ks p).
Proof.
  unfold resume. cbn [st r_in_str]. induction w as [|b w IH]; [reflexivity|]. unfold ws. cbn [forallb]. intros H. apply andb_true_iff in H as [H1 H2].
  rewrite <- (IH H2). cbn [app resume_out]. unfold is_ws in H1.
  repeat (apply orb_true_iff in H1 as [H1|H1]); apply N.eqb_eq in H1; unfold byte_is; rewrite H1; reflexivity.
Qed.

(** ** Strings *)
Definition ins (ks : list ckind) (p : pos) : reader := MkReader true (the_stack ks) p.
Lemma app_cons_comm {A} (a : list A) x b : a ++ x :: b = (a ++ [x]) ++ b.
Proof. rewrite <- app_assoc. reflexivity. Qed.

(** The plain bytes at the beginning of a string body. *)
Lemma scan_body ks rest b : forall k, unescape b = Some k -> supported_from LStr ks (b ++ ascii_of_N 34 :: rest) = true ->
  exists p b' k', b = p ++ b' /\ k = p ++ k' /\ unescape b' = Some k' /\ supported_from LStr ks (b' ++ ascii_of_N 34 :: rest) = true /\
    match b' with
    | [] => scan_fragment (b ++ ascii_of_N 34 :: rest) = (p, false, rest)
    | c :: _ => c = ascii_of_N 92 /\ scan_fragment (b ++ ascii_of_N 34 :: rest) = (p, true, b' ++ ascii_of_N 34 :: rest)
    end.
Proof.
  induction b as [|c b IH]; intros k U Hs.
  - exists [], [], []. cbn in U. injection U as <-. repeat split. exact Hs.
  - destruct (byte_is 92 c) eqn:E.
    + exists [], (c :: b), k. repeat split; try assumption; [apply byte_is_eq; [reflexivity|exact E]|].
      cbn [app scan_fragment]. rewrite E. reflexivity.
    + cbn [unescape] in U. change (is_byte 34 c) with (byte_is 34 c) in U. change (is_byte 92 c) with (byte_is 92 c) in U.
      destruct (byte_is 34 c) eqn:E4; [discriminate U|]. rewrite E in U. destruct (N_of_ascii c <? 32)%N; [discriminate U|].
      destruct (unescape b) as [kb|] eqn:Ub; [|discriminate U]. injection U as <-.
      apply sup_cons in Hs as (l' & ks' & L & K & Hs'). unfold lex_byte in L. unfold byte_is in E, E4. rewrite E4, E in L. injection L as <-. injection K as <-.
      destruct (IH kb eq_refl Hs') as (p & b' & k' & -> & -> & U' & S' & M). exists (c :: p), b', k'. repeat split; try assumption.
      cbn [app scan_fragment]. unfold byte_is. rewrite E, E4. destruct b' as [|d b']; [rewrite M; reflexivity|].
      destruct M as [Ed M]. split; [exact Ed|]. rewrite M. reflexivity.
Qed.

Lemma string_body ks p rest n : forall b k, List.length b < n -> unescape b = Some k ->
  supported_from LStr ks (b ++ ascii_of_N 34 :: rest) = true -> utf8 (b ++ ascii_of_N 34 :: rest) = true ->
  supported_from LOut ks rest = true /\ utf8 rest = true /\
  exists fs, List.concat (map snd fs) = k /\ (exists x, str_fragment (b ++ ascii_of_N 34 :: rest) = MOk x) /\
    forall es o, runs rest (st ks p) es o -> runs (b ++ ascii_of_N 34 :: rest) (ins ks p) (map text_frag fs ++ ETextEnd :: es) o.
Proof.
  induction n as [|n IH]; intros b k Ln U Hs Hu; [lia|].
  destruct (scan_body ks rest b k U Hs) as (q & b' & k' & -> & -> & U' & S' & M).
  destruct b' as [|c b'].
  - (* to the end *)
    rewrite app_nil_r in *. cbn [unescape] in U'. injection U' as <-.
    destruct (utf8_split_ascii q (ascii_of_N 34) rest Hu eq_refl) as [Uq Ur].
    apply sup_cons in S' as (l' & ks' & L & K & S'). cbn in L, K. injection L as <-. injection K as <-.
    split; [exact S'|]. split; [exact Ur|]. exists [(true, q)]. split; [reflexivity|].
    assert (F : str_fragment (q ++ ascii_of_N 34 :: rest) = MOk (q, false, rest)).
    { destruct q as [|d q]; [reflexivity|]. cbn [app str_fragment] in *. destruct (byte_is 92 d) eqn:E.
      - cbn [scan_fragment] in M. rewrite E in M. discriminate M.
      - rewrite M, Uq. reflexivity. }
    split; [eauto|]. intros es o R. change (map text_frag [(true, q)] ++ ETextEnd :: es) with ([ETextFrag q; ETextEnd] ++ es).
    apply (runs_maybe _ _ rest (st ks p)); [reflexivity| |exact R]. unfold resume. cbn [ins r_in_str]. rewrite F. cbn. change (set_in_str false (ins ks p)) with (st ks p).
    destruct (maybe_done rest (st ks p)); reflexivity.
  - destruct M as [-> M]. rewrite <- app_assoc in *. cbn [app] in *.
    destruct (utf8_split_ascii q (ascii_of_N 92) _ Hu eq_refl) as [Uq Ur].
    destruct q as [|d q].
    + (* an escape *)
      cbn [app] in *. destruct b' as [|e b'].
      { exfalso. apply sup_cons in S' as (l' & ks' & L & K & S'). cbn in L, K. injection L as <-. injection K as <-.
        cbn in U'. discriminate U'. }
      apply sup_cons in S' as (l' & ks' & L & K & S'). cbn in L, K. injection L as <-. injection K as <-.
      cbn [app] in S'. apply sup_cons in S' as (l' & ks' & L & K & S'). injection K as <-. unfold lex_byte in L.
      assert (X : exists x, simple_escape e = Some x /\ is_byte 117 e = false /\ (N_of_ascii e <? 128)%N = true /\
                  str_fragment (ascii_of_N 92 :: e :: b' ++ ascii_of_N 34 :: rest) = MOk ([x], true, b' ++ ascii_of_N 34 :: rest)).
      { destruct ((N_of_ascii e =? 110)%N || (N_of_ascii e =? 114)%N || (N_of_ascii e =? 34)%N || (N_of_ascii e =? 92)%N) eqn:Q; [|discriminate L].
        unfold simple_escape, is_byte, str_fragment, byte_is.
        repeat (apply orb_true_iff in Q as [Q|Q]); apply N.eqb_eq in Q; rewrite Q; eexists; repeat split; reflexivity. }
      assert (L' : l' = LStr) by (destruct (_ || _); [injection L as <-; reflexivity|discriminate L]). subst l'.
      destruct X as (x & X1 & X2 & X3 & X4). cbn [unescape] in U'.
      change (is_byte 34 (ascii_of_N 92)) with false in U'. change (is_byte 92 (ascii_of_N 92)) with true in U'. cbv iota in U'. rewrite X2, X1 in U'.
      destruct (unescape b') as [kb|] eqn:Ub; [|discriminate U']. injection U' as <-.
      destruct (IH b' kb ltac:(cbn in Ln; lia) Ub S' (utf8_drop _ _ X3 Ur)) as (Hs' & Hu' & fs & Ek & _ & R).
      split; [exact Hs'|]. split; [exact Hu'|]. exists ((true, [x]) :: fs). split; [cbn; rewrite Ek; reflexivity|]. split; [eauto|].
      intros es o H. cbn [map app text_frag fst snd]. apply (runs_more _ _ (b' ++ ascii_of_N 34 :: rest) (ins ks p) [ETextFrag [x]]); [|apply R, H].
      unfold resume. cbn [ins r_in_str]. rewrite X4. reflexivity.
    + (* plain bytes, then an escape *)
      destruct (IH (ascii_of_N 92 :: b') k' ltac:(rewrite app_length in Ln; cbn in *; lia) U' S') as (Hs' & Hu' & fs & Ek & _ & R).
      { cbn [app]. apply utf8_cons; [reflexivity|exact Ur]. }
      assert (F : str_fragment (d :: q ++ ascii_of_N 92 :: b' ++ ascii_of_N 34 :: rest) = MOk (d :: q, true, ascii_of_N 92 :: b' ++ ascii_of_N 34 :: rest)).
      { cbn [str_fragment]. destruct (byte_is 92 d) eqn:E.
        - cbn [app scan_fragment] in M. rewrite E in M. discriminate M.
        - cbn [app] in M. rewrite M, Uq. reflexivity. }
      split; [exact Hs'|]. split; [exact Hu'|]. exists ((true, d :: q) :: fs). split; [cbn; rewrite Ek; reflexivity|]. split; [eauto|].
      intros es o H. cbn [map app text_frag fst snd].
      apply (runs_more _ _ (ascii_of_N 92 :: b' ++ ascii_of_N 34 :: rest) (ins ks p) [ETextFrag (d :: q)]); [|apply R, H].
      unfold resume. cbn [ins r_in_str]. cbn [app] in F. rewrite F. reflexivity.
Qed.

Ltac tidy H := cbn [app] in *; repeat (rewrite <- app_assoc; cbn [app] in * ); cbn [app] in *; rewrite <- H; repeat (rewrite <- app_assoc; cbn [app] in * ); reflexivity.
(** From the opening quote on. *)
Lemma string_token ks p r' (pe : list ev) rest b k : unescape b = Some k ->
  rd_str_begin (st ks p) = (pe, MOk (st ks r')) ->
  supported_from LOut ks (quoted b ++ rest) = true -> utf8 (quoted b ++ rest) = true ->
  supported_from LOut ks rest = true /\ utf8 rest = true /\
  exists t, a_text t k /\
    forall es o, runs rest (st ks r') es o -> runs (quoted b ++ rest) (st ks p) (pe ++ emit t ++ es) o.
Proof.
  intros U B Hs Hu. unfold quoted in *. rewrite <- !app_assoc in *. cbn [app] in *.
  apply sup_cons in Hs as (l' & ks' & L & K & Hs). cbn in L, K. injection L as <-. injection K as <-.
  destruct (string_body ks r' rest (S (List.length b)) b k ltac:(lia) U Hs (utf8_drop (ascii_of_N 34) _ eq_refl Hu)) as (Hs' & Hu' & fs & Ek & (x & Fx) & R).
  split; [exact Hs'|]. split; [exact Hu'|]. exists (TText None fs). split; [exists fs; auto|].
  intros es o H. apply R in H. clear R. destruct H as [[|n] H]; [discriminate H|]. exists (S n).
  cbn [resume_all] in *. unfold resume in *. cbn [st ins r_in_str] in *. cbn [resume_out].
  change (byte_is 34 (ascii_of_N 34)) with true. cbv iota. unfold rd_string. fold (st ks p). rewrite B. rewrite Fx in *.
  destruct x as [[f part] s']. cbn [andthen say ret] in *. cbn [app] in *. destruct part.
  - cbn [ret] in *. change (set_in_str true (st ks r')) with (ins ks r'). fold (ins ks r') in H.
    destruct (resume_all n s' (ins ks r')) as [[es' o']|]; [|discriminate H]. injection H as H ->. cbn [emit]. tidy H.
  - change (set_in_str false (ins ks r')) with (st ks r') in H.
    destruct (maybe_done s' (st ks r')) as [e2 [[s2 r2|]| |]]; cbn [app] in *.
    + destruct (resume_all n s2 r2) as [[es' o']|]; [|discriminate H]. injection H as H ->. cbn [emit]. tidy H.
    + injection H as H ->. cbn [emit]. tidy H.
    + injection H as H ->. cbn [emit]. tidy H.
    + injection H as H ->. cbn [emit]. tidy H.
Qed.

(** ** Numbers and words *)
Definition stop (s : bytes) : Prop := match s with [] => True | b :: _ => number_byte b = false end.
Lemma num_plain b : num_byte b = true -> plain_byte b = true /\ (byte_is 69 b = false -> number_byte b = true).
Proof.
  unfold num_byte, plain_byte, number_byte, byte_is, is_byte, is_digit. intros H.
  assert (X : (48 <= N_of_ascii b <= 57)%N \/ N_of_ascii b = 43%N \/ N_of_ascii b = 45%N \/ N_of_ascii b = 46%N \/ N_of_ascii b = 69%N \/ N_of_ascii b = 101%N).
  { repeat (apply orb_true_iff in H as [H|H]); try (apply N.eqb_eq in H; tauto). left.
    unfold byte_val in H. rewrite ?andb_true_iff, ?Z.leb_le, ?N.leb_le in H. lia. }
  destruct X as [X|[X|[X|[X|[X|X]]]]]; try (rewrite X; split; [reflexivity|]; intros Q; (reflexivity || discriminate Q)).
  split.
  - repeat match goal with |- context [(N_of_ascii b =? ?n)%N] => destruct (N.eqb_spec (N_of_ascii b) n); [lia|] end. cbn. apply N.ltb_lt. lia.
  - intros _. replace (48 <=? N_of_ascii b)%N with true by (symmetry; apply N.leb_le; lia).
    replace (N_of_ascii b <=? 57)%N with true by (symmetry; apply N.leb_le; lia). reflexivity.
Qed.
Lemma nums_plain s : forallb num_byte s = true ->
  forallb plain_byte s = true /\ (forallb (fun b => negb (byte_is 69 b)) s = true -> forallb number_byte s = true).
Proof.
  induction s as [|b s IH]; cbn [forallb]; intros H; [auto|]. apply andb_true_iff in H as [H1 H2].
  destruct (num_plain b H1) as [P1 N1]. destruct (IH H2) as [P2 N2]. rewrite P1, P2. split; [reflexivity|].
  intros E. apply andb_true_iff in E as [E1 E2]. apply negb_true_iff in E1. rewrite (N1 E1), (N2 E2). reflexivity.
Qed.
Lemma number_all s rest : forallb number_byte s = true -> stop rest -> number (s ++ rest) = (s, rest).
Proof.
  intros H S. induction s as [|b s IH]; cbn [app].
  - destruct rest as [|b rest]; [reflexivity|]. cbn. cbn in S. rewrite S. reflexivity.
  - cbn [forallb] in H. apply andb_true_iff in H as [H1 H2]. cbn [number]. rewrite H1, (IH H2). reflexivity.
Qed.
Lemma lit_head l : json_lit l -> exists b s, lit_text l = b :: s /\
  (((48 <=? N_of_ascii b)%N && (N_of_ascii b <=? 57)%N) || byte_is 45 b = true).
Proof.
  intros (((NE & D) & _) & NP & _). unfold lit_text. destruct (lt_sign l); [| congruence |].
  - destruct (lt_int l) as [|b ip]; [congruence|]. cbn [sgn_text app]. eexists _, _. split; [reflexivity|].
    cbn [forallb] in D. apply andb_true_iff in D as [D _]. unfold is_digit, byte_val in D.
    rewrite ?andb_true_iff, ?Z.leb_le, ?N.leb_le in D. apply orb_true_iff. left. apply andb_true_iff. rewrite !N.leb_le. lia.
  - cbn [sgn_text app bs list_ascii_of_string]. eexists _, _. split; reflexivity.
Qed.
Lemma resume_number b s r : ((48 <=? N_of_ascii b)%N && (N_of_ascii b <=? 57)%N) || byte_is 45 b = true ->
  resume_out (b :: s) r = rd_number (b :: s) r.
Proof.
  intros H. cbn [resume_out].
  assert (X : (48 <= N_of_ascii b <= 57)%N \/ N_of_ascii b = 45%N).
  { apply orb_true_iff in H as [H|H]; [left; apply andb_true_iff in H as [H1 H2]; apply N.leb_le in H1, H2; lia|right; apply N.eqb_eq, H]. }
  rewrite H. unfold byte_is.
  repeat match goal with |- context [(N_of_ascii b =? ?n)%N] => destruct (N.eqb_spec (N_of_ascii b) n); [lia|] end. reflexivity.
Qed.

(** ** Values *)
Definition number_tree (s : bytes) : tree :=
  TTagged (Some JSON_NUMBER) None None (TTagged (Some NUMBER) None None (TText (Some (blen s)) [(true, s)])).

Definition value_reads (s : bytes) (j : jv) : Prop := forall ks p rest,
  at_value p ks -> stop rest -> supported_from LOut ks (s ++ rest) = true -> utf8 (s ++ rest) = true ->
  supported_from LOut ks rest = true /\ utf8 rest = true /\
  exists t, stands_for t j /\
    forall es o, runs rest (st ks (pos_of ks)) es o -> runs (s ++ rest) (st ks p) (pre p ++ emit t ++ es) o.
Definition elem_calls (t : tree) : list ev := ESeqValBegin :: emit t ++ [ESeqValEnd].
Definition elems_reads (s : bytes) (js : list jv) : Prop := forall ks p rest,
  p = PSeqEmpty \/ p = PSeqElem -> supported_from LOut (KSeq :: ks) (s ++ bs "]" ++ rest) = true -> utf8 (s ++ bs "]" ++ rest) = true ->
  supported_from LOut (KSeq :: ks) (bs "]" ++ rest) = true /\ utf8 (bs "]" ++ rest) = true /\
  exists ts, Forall2 stands_for ts js /\
    forall es o, runs (bs "]" ++ rest) (st (KSeq :: ks) PSeqElem) (ESeqValEnd :: es) o ->
                 runs (s ++ bs "]" ++ rest) (st (KSeq :: ks) p) (flat_map elem_calls ts ++ es) o.
Definition entry_calls (e : tree * tree) : list ev :=
  EMapKeyBegin :: emit (fst e) ++ EMapKeyEnd :: EMapValBegin :: emit (snd e) ++ [EMapValEnd].
Definition members_reads (s : bytes) (ms : list (bytes * jv)) : Prop := forall ks p rest,
  p = PMapEmpty \/ p = PMapKey -> supported_from LOut (KMap :: ks) (s ++ bs "}" ++ rest) = true -> utf8 (s ++ bs "}" ++ rest) = true ->
  supported_from LOut (KMap :: ks) (bs "}" ++ rest) = true /\ utf8 (bs "}" ++ rest) = true /\
  exists es', Forall2 (fun e m => a_text (fst e) (fst m) /\ stands_for (snd e) (snd m)) es' ms /\
    forall es o, runs (bs "}" ++ rest) (st (KMap :: ks) PMapValue) (EMapValEnd :: es) o ->
                 runs (s ++ bs "}" ++ rest) (st (KMap :: ks) p) (flat_map entry_calls es' ++ es) o.

Lemma word_ok w rest : word w (w ++ rest) = Some rest.
Proof. induction w as [|a w IH]; [reflexivity|]. cbn. rewrite Ascii.eqb_refl. exact IH. Qed.
Lemma word_reads w e ks p rest : at_value p ks ->
  (forall r, resume_out (bs w ++ rest) r = rd_word w e (bs w ++ rest) r) ->
  forall es o, runs rest (st ks (pos_of ks)) es o -> runs (bs w ++ rest) (st ks p) (pre p ++ [e] ++ es) o.
Proof.
  intros A E es o R. rewrite app_assoc. apply (runs_maybe _ _ rest (st ks (pos_of ks))); [reflexivity| |exact R].
  unfold resume. cbn [st r_in_str]. fold (st ks p). rewrite E. unfold rd_word. rewrite word_ok, (value_begin_ok ks p A). cbn [andthen say].
  destruct (maybe_done rest (st ks (pos_of ks))). cbn. rewrite <- app_assoc. reflexivity.
Qed.

Lemma ws_stop w rest : ws w -> stop rest -> stop (w ++ rest).
Proof.
  destruct w as [|b w]; [auto|]. unfold ws. cbn [forallb app stop]. intros H _. apply andb_true_iff in H as [H _]. unfold is_ws in H.
  repeat (apply orb_true_iff in H as [H|H]); apply N.eqb_eq in H; unfold number_byte; rewrite H; reflexivity.
Qed.
(** Closing a container. *)
Lemma seq_close ks p rest es o : small (KSeq :: ks) = true -> small ks = true ->
  p = PSeqEmpty \/ p = PSeqElem -> runs rest (st ks (pos_of ks)) es o ->
  runs (bs "]" ++ rest) (st (KSeq :: ks) p) ((match p with PSeqElem => [ESeqValEnd] | _ => [] end) ++ ESeqEnd :: es) o.
Proof.
  intros S1 S2 P R. rewrite app_cons_comm. apply (runs_maybe _ _ rest (st ks (pos_of ks))); [reflexivity| |exact R].
  unfold resume. cbn [st r_in_str bs list_ascii_of_string app]. fold (st (KSeq :: ks) p).
  change (resume_out ("]"%char :: rest) (st (KSeq :: ks) p)) with (rd_done rest (rd_seq_end (st (KSeq :: ks) p))).
  pose proof (the_op (KSeq :: ks) PopSeq ks S1 eq_refl S2) as Op. cbn [stack_op] in Op.
  unfold rd_done, rd_seq_end. cbn [st r_pos r_stack]. rewrite Op. cbn [lift_stack ret r_in_str].
  destruct P as [-> | ->]; cbn [andthen say ret r_stack r_in_str]; rewrite the_pos; unfold set_pos; cbn [st r_in_str r_stack r_pos]; fold (st ks (pos_of ks));
    destruct (maybe_done rest (st ks (pos_of ks))); reflexivity.
Qed.
Lemma map_close ks p rest es o : small (KMap :: ks) = true -> small ks = true ->
  p = PMapEmpty \/ p = PMapValue -> runs rest (st ks (pos_of ks)) es o ->
  runs (bs "}" ++ rest) (st (KMap :: ks) p) ((match p with PMapValue => [EMapValEnd] | _ => [] end) ++ EMapEnd :: es) o.
Proof.
  intros S1 S2 P R. rewrite app_cons_comm. apply (runs_maybe _ _ rest (st ks (pos_of ks))); [reflexivity| |exact R].
  unfold resume. cbn [st r_in_str bs list_ascii_of_string app]. fold (st (KMap :: ks) p).
  change (resume_out ("}"%char :: rest) (st (KMap :: ks) p)) with (rd_done rest (rd_map_end (st (KMap :: ks) p))).
  pose proof (the_op (KMap :: ks) PopMap ks S1 eq_refl S2) as Op. cbn [stack_op] in Op.
  unfold rd_done, rd_map_end. cbn [st r_pos r_stack]. rewrite Op. cbn [lift_stack ret r_in_str].
  destruct P as [-> | ->]; cbn [andthen say ret r_stack r_in_str]; rewrite the_pos; unfold set_pos; cbn [st r_in_str r_stack r_pos]; fold (st ks (pos_of ks));
    destruct (maybe_done rest (st ks (pos_of ks))); reflexivity.
Qed.
(** Opening a container. *)
Lemma seq_open ks p rest es o : at_value p ks -> small ks = true -> small (KSeq :: ks) = true ->
  runs rest (st (KSeq :: ks) PSeqEmpty) es o -> runs (bs "[" ++ rest) (st ks p) (pre p ++ ESeqBegin None :: es) o.
Proof.
  intros A S1 S2 R. rewrite app_cons_comm. apply (runs_more _ _ rest (st (KSeq :: ks) PSeqEmpty)); [|exact R].
  unfold resume. cbn [st r_in_str bs list_ascii_of_string app]. fold (st ks p).
  change (resume_out ("["%char :: rest) (st ks p)) with (rd_more rest (rd_seq_begin (st ks p))).
  pose proof (the_op ks PushSeq (KSeq :: ks) S1 eq_refl S2) as Op. cbn [stack_op] in Op.
  unfold rd_more, rd_seq_begin. rewrite (begin_container_ok ks p A). cbn [st r_stack andthen]. rewrite Op. cbn [lift_stack andthen ret say app]. rewrite app_nil_r. reflexivity.
Qed.
Lemma map_open ks p rest es o : at_value p ks -> small ks = true -> small (KMap :: ks) = true ->
  runs rest (st (KMap :: ks) PMapEmpty) es o -> runs (bs "{" ++ rest) (st ks p) (pre p ++ EMapBegin None :: es) o.
Proof.
  intros A S1 S2 R. rewrite app_cons_comm. apply (runs_more _ _ rest (st (KMap :: ks) PMapEmpty)); [|exact R].
  unfold resume. cbn [st r_in_str bs list_ascii_of_string app]. fold (st ks p).
  change (resume_out ("{"%char :: rest) (st ks p)) with (rd_more rest (rd_map_begin (st ks p))).
  pose proof (the_op ks PushMap (KMap :: ks) S1 eq_refl S2) as Op. cbn [stack_op] in Op.
  unfold rd_more, rd_map_begin. rewrite (begin_container_ok ks p A). cbn [st r_stack andthen]. rewrite Op. cbn [lift_stack andthen ret say app]. rewrite app_nil_r. reflexivity.
Qed.
Lemma sup_open c ks s k : N_of_ascii c = k -> k = 91%N \/ k = 123%N -> supported_from LOut ks (c :: s) = true ->
  supported_from LOut ((if (k =? 91)%N then KSeq else KMap) :: ks) s = true.
Proof.
  intros E K H. apply sup_cons in H as (l & ks' & L & K' & H). unfold lex_byte, nest_byte in *. rewrite E in *.
  destruct K as [-> | ->]; cbn in L, K'; injection L as <-; injection K' as <-; exact H.
Qed.
Lemma sup_close c ks s k K : N_of_ascii c = k -> (k = 93%N /\ K = KSeq) \/ (k = 125%N /\ K = KMap) -> supported_from LOut (K :: ks) (c :: s) = true ->
  supported_from LOut ks s = true.
Proof.
  intros E Q H. apply sup_cons in H as (l & ks' & L & K' & H). unfold lex_byte, nest_byte in *. rewrite E in *.
  destruct Q as [[-> ->] | [-> ->]]; cbn in L, K'; injection L as <-; injection K' as <-; exact H.
Qed.
Lemma emit_seq n ts : emit (TSeq n ts) = ESeqBegin n :: flat_map elem_calls ts ++ [ESeqEnd].
Proof. reflexivity. Qed.
Lemma emit_map n es : emit (TMap n es) = EMapBegin n :: flat_map entry_calls es ++ [EMapEnd].
Proof. cbn [emit]. do 2 f_equal. apply flat_map_ext. intros [a b]. reflexivity. Qed.

Lemma text_reads w1 s w2 v : ws w1 -> ws w2 -> value_reads s v -> value_reads (w1 ++ s ++ w2) v.
Proof.
  intros W1 W2 V ks p rest A S Hs Hu. rewrite <- !app_assoc in *.
  destruct (sup_plain _ _ _ (ws_plain w1 W1) Hs) as [Hs1 _]. pose proof (utf8_drops _ _ (ws_plain w1 W1) Hu) as Hu1.
  destruct (V ks p (w2 ++ rest) A (ws_stop w2 rest W2 S) Hs1 Hu1) as (Hs2 & Hu2 & t & T & R).
  destruct (sup_plain _ _ _ (ws_plain w2 W2) Hs2) as [Hs3 _]. pose proof (utf8_drops _ _ (ws_plain w2 W2) Hu2) as Hu3.
  split; [exact Hs3|]. split; [exact Hu3|]. exists t. split; [exact T|]. intros es o H.
  eapply runs_same; [apply resume_ws, W1|]. apply R. eapply runs_same; [apply resume_ws, W2|]. exact H.
Qed.

Lemma all_read : forall s v, json_text s v -> value_reads s v.
Proof.
  apply (json_text_mind (fun s v _ => value_reads s v) (fun s v _ => value_reads s v)
    (fun s vs _ => elems_reads s vs) (fun s ms _ => members_reads s ms)).
  - intros ks p rest A S Hs Hu. destruct (sup_plain _ (bs "null") _ eq_refl Hs) as [Hs' _].
    split; [exact Hs'|]. split; [exact (utf8_drops (bs "null") rest eq_refl Hu)|]. exists TNull. split; [constructor|]. apply word_reads; [exact A|reflexivity].
  - intros ks p rest A S Hs Hu. destruct (sup_plain _ (bs "true") _ eq_refl Hs) as [Hs' _].
    split; [exact Hs'|]. split; [exact (utf8_drops (bs "true") rest eq_refl Hu)|]. exists (TBool true). split; [constructor|]. apply word_reads; [exact A|reflexivity].
  - intros ks p rest A S Hs Hu. destruct (sup_plain _ (bs "false") _ eq_refl Hs) as [Hs' _].
    split; [exact Hs'|]. split; [exact (utf8_drops (bs "false") rest eq_refl Hu)|]. exists (TBool false). split; [constructor|]. apply word_reads; [exact A|reflexivity].
  - intros s m e J ks p rest A S Hs Hu. pose proof J as (l & Jl & -> & _). destruct Jl as (Lok & Jl').
    destruct (nums_plain _ (lit_num l Lok)) as [Pl Nm]. destruct (sup_plain _ _ _ Pl Hs) as [Hs' E69].
    split; [exact Hs'|]. split; [exact (utf8_drops _ rest Pl Hu)|]. exists (number_tree (lit_text l)). split; [constructor; exact J|].
    intros es o R. destruct (lit_head l (conj Lok Jl')) as (b & s' & El & Hb).
    rewrite app_assoc. apply (runs_maybe _ _ rest (st ks (pos_of ks))); [reflexivity| |exact R].
    unfold resume. cbn [st r_in_str]. fold (st ks p). rewrite El. cbn [app]. rewrite (resume_number b (s' ++ rest) _ Hb).
    unfold rd_number. rewrite app_comm_cons, <- El. rewrite (number_all _ rest (Nm E69) S), (value_begin_ok ks p A). cbn [andthen say ret].
    destruct (maybe_done rest (st ks (pos_of ks))). unfold number_tree. cbn [emit map app text_frag fst snd]. rewrite <- app_assoc. reflexivity.
  - intros b s U ks p rest A S Hs Hu. destruct (string_token ks p (pos_of ks) (pre p) rest b s U (str_begin_ok ks p A) Hs Hu) as (Hs' & Hu' & t & T & R).
    split; [exact Hs'|]. split; [exact Hu'|]. exists t. split; [constructor; exact T|exact R].
  - intros w W ks p rest A S Hs Hu. rewrite <- !app_assoc in *. pose proof (sup_small _ _ _ Hs) as S1.
    pose proof (sup_open "["%char ks _ 91 eq_refl (or_introl eq_refl) Hs) as Hs1. cbn [N.eqb Pos.eqb] in Hs1.
    destruct (sup_plain _ _ _ (ws_plain w W) Hs1) as [Hs2 _]. pose proof (sup_close "]"%char ks rest 93 KSeq eq_refl (or_introl (conj eq_refl eq_refl)) Hs2) as Hs3.
    pose proof (utf8_drop "["%char _ eq_refl Hu) as Hu1. pose proof (utf8_drops _ _ (ws_plain w W) Hu1) as Hu2. pose proof (utf8_drop "]"%char _ eq_refl Hu2) as Hu3.
    split; [exact Hs3|]. split; [exact Hu3|]. exists (TSeq None []). split; [constructor; constructor|]. intros es o R.
    apply seq_open; [exact A|exact S1|exact (sup_small _ _ _ Hs1)|]. eapply runs_same; [apply resume_ws, W|].
    apply (seq_close ks PSeqEmpty); auto. exact (sup_small _ _ _ Hs1).
  - intros s vs _ E ks p rest A S Hs Hu. rewrite <- !app_assoc in *. pose proof (sup_small _ _ _ Hs) as S1.
    pose proof (sup_open "["%char ks _ 91 eq_refl (or_introl eq_refl) Hs) as Hs1. cbn [N.eqb Pos.eqb] in Hs1.
    pose proof (utf8_drop "["%char _ eq_refl Hu) as Hu1.
    destruct (E ks PSeqEmpty rest (or_introl eq_refl) Hs1 Hu1) as (Hs2 & Hu2 & ts & T & R).
    pose proof (sup_close "]"%char ks rest 93 KSeq eq_refl (or_introl (conj eq_refl eq_refl)) Hs2) as Hs3.
    split; [exact Hs3|]. split; [exact (utf8_drop "]"%char _ eq_refl Hu2)|]. exists (TSeq None ts). split; [constructor; exact T|]. intros es o H.
    rewrite emit_seq. cbn [app]. apply seq_open; [exact A|exact S1|exact (sup_small _ _ _ Hs1)|]. rewrite <- app_assoc. apply R.
    apply (seq_close ks PSeqElem); auto. exact (sup_small _ _ _ Hs1).
  - intros w W ks p rest A S Hs Hu. rewrite <- !app_assoc in *. pose proof (sup_small _ _ _ Hs) as S1.
    pose proof (sup_open "{"%char ks _ 123 eq_refl (or_intror eq_refl) Hs) as Hs1. cbn [N.eqb Pos.eqb] in Hs1.
    destruct (sup_plain _ _ _ (ws_plain w W) Hs1) as [Hs2 _]. pose proof (sup_close "}"%char ks rest 125 KMap eq_refl (or_intror (conj eq_refl eq_refl)) Hs2) as Hs3.
    pose proof (utf8_drop "{"%char _ eq_refl Hu) as Hu1. pose proof (utf8_drops _ _ (ws_plain w W) Hu1) as Hu2. pose proof (utf8_drop "}"%char _ eq_refl Hu2) as Hu3.
    split; [exact Hs3|]. split; [exact Hu3|]. exists (TMap None []). split; [constructor; constructor|]. intros es o R.
    apply map_open; [exact A|exact S1|exact (sup_small _ _ _ Hs1)|]. eapply runs_same; [apply resume_ws, W|].
    apply (map_close ks PMapEmpty); auto. exact (sup_small _ _ _ Hs1).
  - intros s vs _ E ks p rest A S Hs Hu. rewrite <- !app_assoc in *. pose proof (sup_small _ _ _ Hs) as S1.
    pose proof (sup_open "{"%char ks _ 123 eq_refl (or_intror eq_refl) Hs) as Hs1. cbn [N.eqb Pos.eqb] in Hs1.
    pose proof (utf8_drop "{"%char _ eq_refl Hu) as Hu1.
    destruct (E ks PMapEmpty rest (or_introl eq_refl) Hs1 Hu1) as (Hs2 & Hu2 & ts & T & R).
    pose proof (sup_close "}"%char ks rest 125 KMap eq_refl (or_intror (conj eq_refl eq_refl)) Hs2) as Hs3.
    split; [exact Hs3|]. split; [exact (utf8_drop "}"%char _ eq_refl Hu2)|]. exists (TMap None ts). split; [constructor; exact T|]. intros es o H.
    rewrite emit_map. cbn [app]. apply map_open; [exact A|exact S1|exact (sup_small _ _ _ Hs1)|]. rewrite <- app_assoc. apply R.
    apply (map_close ks PMapValue); auto. exact (sup_small _ _ _ Hs1).
  - intros w1 s w2 v W1 W2 _ V. apply text_reads; assumption.
  - (* one element *)
    intros s v _ V ks p rest P Hs Hu.
    assert (A : at_value p (KSeq :: ks)) by (destruct P as [-> | ->]; exact I).
    destruct (V (KSeq :: ks) p (bs "]" ++ rest) A eq_refl Hs Hu) as (Hs1 & Hu1 & t & T & R).
    split; [exact Hs1|]. split; [exact Hu1|]. exists [t]. split; [repeat constructor; exact T|]. intros es o H.
    cbn [flat_map]. unfold elem_calls. rewrite app_nil_r. cbn [app]. rewrite <- app_assoc. cbn [app].
    apply R in H. destruct P as [-> | ->]; exact H.
  - intros s v r vs _ V _ E ks p rest P Hs Hu. rewrite <- !app_assoc in *.
    assert (A : at_value p (KSeq :: ks)) by (destruct P as [-> | ->]; exact I).
    destruct (V (KSeq :: ks) p (bs "," ++ r ++ bs "]" ++ rest) A eq_refl Hs Hu) as (Hs1 & Hu1 & t & T & R).
    destruct (sup_plain _ (bs ",") _ eq_refl Hs1) as [Hs2 _]. pose proof (utf8_drops (bs ",") _ eq_refl Hu1) as Hu2.
    destruct (E ks PSeqElem rest (or_intror eq_refl) Hs2 Hu2) as (Hs3 & Hu3 & ts & Ts & Rs).
    split; [exact Hs3|]. split; [exact Hu3|]. exists (t :: ts). split; [constructor; assumption|]. intros es o H.
    apply Rs in H. cbn [flat_map]. unfold elem_calls at 1. cbn [app]. rewrite <- !app_assoc. cbn [app].
    assert (X : runs (bs "," ++ r ++ bs "]" ++ rest) (st (KSeq :: ks) PSeqElem) (ESeqValEnd :: flat_map elem_calls ts ++ es) o).
    { apply (runs_more _ _ (r ++ bs "]" ++ rest) (st (KSeq :: ks) PSeqElem) [ESeqValEnd]); [reflexivity|exact H]. }
    apply R in X. destruct P as [-> | ->]; exact X.
  - (* one member *)
    intros w1 w2 b k s v W1 W2 U _ V ks p rest P Hs Hu. rewrite <- !app_assoc in *.
    destruct (sup_plain _ _ _ (ws_plain w1 W1) Hs) as [Hs1 _]. pose proof (utf8_drops _ _ (ws_plain w1 W1) Hu) as Hu1.
    assert (B : rd_str_begin (st (KMap :: ks) p) = ([EMapKeyBegin], MOk (st (KMap :: ks) PMapKey))) by (destruct P as [-> | ->]; reflexivity).
    destruct (string_token _ p PMapKey _ _ b k U B Hs1 Hu1) as (Hs2 & Hu2 & t & T & R).
    destruct (sup_plain _ _ _ (ws_plain w2 W2) Hs2) as [Hs3 _]. pose proof (utf8_drops _ _ (ws_plain w2 W2) Hu2) as Hu3.
    destruct (sup_plain _ (bs ":") _ eq_refl Hs3) as [Hs4 _]. pose proof (utf8_drops (bs ":") _ eq_refl Hu3) as Hu4.
    destruct (V (KMap :: ks) PMapValue (bs "}" ++ rest) I eq_refl Hs4 Hu4) as (Hs5 & Hu5 & tv & Tv & Rv).
    split; [exact Hs5|]. split; [exact Hu5|]. exists [(t, tv)]. split; [repeat constructor; assumption|]. intros es o H.
    cbn [flat_map]. unfold entry_calls. cbn [fst snd]. rewrite app_nil_r. cbn [app]. rewrite <- !app_assoc. cbn [app]. rewrite <- app_assoc. cbn [app].
    eapply runs_same; [apply resume_ws, W1|]. apply R. eapply runs_same; [apply resume_ws, W2|].
    apply (runs_more _ _ (s ++ bs "}" ++ rest) (st (KMap :: ks) PMapValue) [EMapKeyEnd]); [reflexivity|]. apply Rv, H.
  - intros w1 w2 b k s v r ms W1 W2 U _ V _ E ks p rest P Hs Hu. rewrite <- !app_assoc in *.
    destruct (sup_plain _ _ _ (ws_plain w1 W1) Hs) as [Hs1 _]. pose proof (utf8_drops _ _ (ws_plain w1 W1) Hu) as Hu1.
    assert (B : rd_str_begin (st (KMap :: ks) p) = ([EMapKeyBegin], MOk (st (KMap :: ks) PMapKey))) by (destruct P as [-> | ->]; reflexivity).
    destruct (string_token _ p PMapKey _ _ b k U B Hs1 Hu1) as (Hs2 & Hu2 & t & T & R).
    destruct (sup_plain _ _ _ (ws_plain w2 W2) Hs2) as [Hs3 _]. pose proof (utf8_drops _ _ (ws_plain w2 W2) Hu2) as Hu3.
    destruct (sup_plain _ (bs ":") _ eq_refl Hs3) as [Hs4 _]. pose proof (utf8_drops (bs ":") _ eq_refl Hu3) as Hu4.
    destruct (V (KMap :: ks) PMapValue (bs "," ++ r ++ bs "}" ++ rest) I eq_refl Hs4 Hu4) as (Hs5 & Hu5 & tv & Tv & Rv).
    destruct (sup_plain _ (bs ",") _ eq_refl Hs5) as [Hs6 _]. pose proof (utf8_drops (bs ",") _ eq_refl Hu5) as Hu6.
    destruct (E ks PMapKey rest (or_intror eq_refl) Hs6 Hu6) as (Hs7 & Hu7 & ts & Ts & Rs).
    split; [exact Hs7|]. split; [exact Hu7|]. exists ((t, tv) :: ts). split; [constructor; [split; assumption|assumption]|]. intros es o H. apply Rs in H.
    cbn [flat_map]. unfold entry_calls at 1. cbn [fst snd]. cbn [app]. rewrite <- !app_assoc. cbn [app]. rewrite <- app_assoc. cbn [app].
    eapply runs_same; [apply resume_ws, W1|]. apply R. eapply runs_same; [apply resume_ws, W2|].
    apply (runs_more _ _ (s ++ bs "," ++ r ++ bs "}" ++ rest) (st (KMap :: ks) PMapValue) [EMapKeyEnd]); [reflexivity|]. apply Rv.
    apply (runs_more _ _ (r ++ bs "}" ++ rest) (st (KMap :: ks) PMapKey) [EMapValEnd]); [reflexivity|exact H].
Qed.
