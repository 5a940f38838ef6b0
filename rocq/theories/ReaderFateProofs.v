(** * ReaderFateProofs: running the reader over any JSON text *)

From Verif Require Import Base Event Tree Utf8 LowerSpec JsonModel JsonGrammar JsonParse StackModel StackProps StackExactProps
  JsonSpec JsonTextSpec ReaderModel ReaderSpec ReaderProofs ReaderFateSpec MinifySpec MinifyProofs.

Definition ending (f : fate) : ends unit := match f with Reads => MOk tt | Fails => MErr | Panics => MPanic end.

(** The text ends badly from here. *)
Definition ends_badly (f : fate) (s : bytes) (r : reader) : Prop := f <> Reads /\ exists es, runs s r es (ending f).
Lemma badly_more f s r s' r' e1 : resume s r = (e1, MOk (More s' r')) -> ends_badly f s' r' -> ends_badly f s r.
Proof. intros E (N & es & R). split; [exact N|]. exists (e1 ++ es). eapply runs_more; eassumption. Qed.
Lemma badly_maybe f s r s' r' e1 : r_in_str r' = false ->
  resume s r = (e1 ++ fst (maybe_done s' r'), snd (maybe_done s' r')) -> ends_badly f s' r' -> ends_badly f s r.
Proof. intros I E (N & es & R). split; [exact N|]. exists (e1 ++ es). eapply runs_maybe; eassumption. Qed.
Lemma badly_same f s r s' r' : resume s r = resume s' r' -> ends_badly f s' r' -> ends_badly f s r.
Proof. intros E (N & es & R). split; [exact N|]. exists es. eapply runs_same; eassumption. Qed.
Lemma badly_runs f s r s' r' e1 : (forall es o, runs s' r' es o -> runs s r (e1 ++ es) o) -> ends_badly f s' r' -> ends_badly f s r.
Proof. intros E (N & es & R). split; [exact N|]. exists (e1 ++ es). apply E, R. Qed.
Lemma fails_here s r es : resume s r = (es, MErr) -> ends_badly Fails s r.
Proof. intros E. split; [discriminate|]. exists es, 1. cbn [resume_all]. rewrite E. reflexivity. Qed.
Lemma panics_here s r es : resume s r = (es, MPanic) -> ends_badly Panics s r.
Proof. intros E. split; [discriminate|]. exists es, 1. cbn [resume_all]. rewrite E. reflexivity. Qed.

(** ** Plain bytes *)
Lemma fate_plain1 ks b s : plain_byte b = true -> byte_is 69 b = false -> fate_from LOut ks (b :: s) = fate_from LOut ks s.
Proof.
  intros P E. unfold plain_byte in P. repeat match goal with P : _ && _ = true |- _ => apply andb_true_iff in P as [P ?] end.
  repeat match goal with H : negb ?c = true |- _ => apply negb_true_iff in H end.
  cbn [fate_from]. unfold bracket, byte_is in *. repeat match goal with H : ?c = false |- _ => rewrite H; clear H end. reflexivity.
Qed.
Lemma fate_plain ks a s : forallb plain_byte a = true -> forallb (fun b => negb (byte_is 69 b)) a = true ->
  fate_from LOut ks (a ++ s) = fate_from LOut ks s.
Proof.
  induction a as [|b a IH]; cbn [app forallb]; intros P E; [reflexivity|]. apply andb_true_iff in P as [P1 P2]. apply andb_true_iff in E as [E1 E2].
  apply negb_true_iff in E1. rewrite fate_plain1 by assumption. apply IH; assumption.
Qed.
Lemma ws_no_e w : ws w -> forallb (fun b => negb (byte_is 69 b)) w = true.
Proof.
  unfold ws. induction w as [|b w IH]; [reflexivity|]. cbn [forallb]. intros H. apply andb_true_iff in H as [H1 H2]. rewrite (IH H2), andb_true_r.
  unfold is_ws in H1. repeat (apply orb_true_iff in H1 as [H1|H1]); apply N.eqb_eq in H1; unfold byte_is; rewrite H1; reflexivity.
Qed.
Lemma fate_ws ks w s : ws w -> fate_from LOut ks (w ++ s) = fate_from LOut ks s.
Proof. intros W. apply fate_plain; [apply ws_plain, W|apply ws_no_e, W]. Qed.

(** ** Strings *)
Definition in_string (ks : list ckind) (s : bytes) : fate := if utf8 (piece s) then fate_from LStr ks s else Fails.

Lemma scan_piece s : fst (fst (scan_fragment s)) = piece s.
Proof.
  induction s as [|b s IH]; [reflexivity|]. cbn [scan_fragment piece]. unfold byte_is. rewrite orb_comm.
  destruct (N_of_ascii b =? 92)%N; [reflexivity|]. destruct (N_of_ascii b =? 34)%N; [reflexivity|]. cbn [orb].
  destruct (scan_fragment s) as [[f p] r]. cbn [fst] in *. rewrite IH. reflexivity.
Qed.
(** The plain bytes at the beginning of a string body. *)
Lemma body_split ks rest b : forall k, unescape b = Some k ->
  exists p b' k', b = p ++ b' /\ k = p ++ k' /\ flat_map json_char p = p /\ unescape b' = Some k' /\ piece (b ++ ascii_of_N 34 :: rest) = p /\
    fate_from LStr ks (b ++ ascii_of_N 34 :: rest) = fate_from LStr ks (b' ++ ascii_of_N 34 :: rest) /\
    match b' with
    | [] => scan_fragment (b ++ ascii_of_N 34 :: rest) = (p, false, rest)
    | c :: _ => c = ascii_of_N 92 /\ scan_fragment (b ++ ascii_of_N 34 :: rest) = (p, true, b' ++ ascii_of_N 34 :: rest)
    end.
Proof.
  induction b as [|c b IH]; intros k U.
  - exists [], [], []. cbn in U. injection U as <-. repeat split.
  - destruct (byte_is 92 c) eqn:E.
    + exists [], (c :: b), k. repeat split; try assumption; [|apply byte_is_eq; [reflexivity|exact E]|].
      * cbn [app piece]. unfold byte_is in E. rewrite E, orb_true_r. reflexivity.
      * cbn [app scan_fragment]. rewrite E. reflexivity.
    + cbn [unescape] in U. change (is_byte 34 c) with (byte_is 34 c) in U. change (is_byte 92 c) with (byte_is 92 c) in U.
      destruct (byte_is 34 c) eqn:E4; [discriminate U|]. rewrite E in U. destruct (N_of_ascii c <? 32)%N eqn:E2; [discriminate U|].
      destruct (unescape b) as [kb|] eqn:Ub; [|discriminate U]. injection U as <-.
      destruct (IH kb eq_refl) as (p & b' & k' & -> & -> & Ch & U' & Pc & Ft & M). unfold byte_is in E, E4.
      exists (c :: p), b', k'. split; [reflexivity|]. split; [reflexivity|].
      split; [cbn [flat_map]; rewrite Ch, plain_char by assumption; reflexivity|]. split; [exact U'|].
      split; [cbn [app piece]; rewrite E, E4; cbn [orb]; rewrite Pc; reflexivity|].
      split; [cbn [app fate_from]; rewrite E, E4; exact Ft|].
      cbn [app scan_fragment]. unfold byte_is. rewrite E, E4. destruct b' as [|d b']; [rewrite M; reflexivity|].
      destruct M as [Ed M]. split; [exact Ed|]. rewrite M. reflexivity.
Qed.

Lemma body_fate ks p rest n : forall b k, List.length b < n -> unescape b = Some k ->
  let s := b ++ ascii_of_N 34 :: rest in
  ends_badly (in_string ks s) s (ins ks p) \/
  (in_string ks s = fate_from LOut ks rest /\
   exists fs, List.concat (map snd fs) = k /\ flat_map json_char k = b /\ (exists x, str_fragment s = MOk x) /\
     forall es o, runs rest (st ks p) es o -> runs s (ins ks p) (map text_frag fs ++ ETextEnd :: es) o).
Proof.
  induction n as [|n IH]; intros b k Ln U; [lia|]. cbv zeta.
  destruct (body_split ks rest b k U) as (q & b' & k' & -> & -> & Ch & U' & Pc & Ft & M). unfold in_string. rewrite Pc, Ft. clear Pc Ft.
  destruct b' as [|c b'].
  - (* to the end *)
    rewrite app_nil_r in *. cbn [unescape] in U'. injection U' as <-.
    assert (F : str_fragment (q ++ ascii_of_N 34 :: rest) = if utf8 q then MOk (q, false, rest) else MErr).
    { destruct q as [|d q]; [reflexivity|]. cbn [app str_fragment] in *. destruct (byte_is 92 d) eqn:E.
      - cbn [scan_fragment] in M. rewrite E in M. discriminate M.
      - rewrite M. reflexivity. }
    destruct (utf8 q) eqn:Uq.
    + right. split; [reflexivity|]. exists [(true, q)]. split; [reflexivity|].
      split; [rewrite app_nil_r; exact Ch|]. split; [eauto|]. intros es o R. change (map text_frag [(true, q)] ++ ETextEnd :: es) with ([ETextFrag q; ETextEnd] ++ es).
      apply (runs_maybe _ _ rest (st ks p)); [reflexivity| |exact R]. unfold resume. cbn [ins r_in_str]. rewrite F. cbn. change (set_in_str false (ins ks p)) with (st ks p).
      destruct (maybe_done rest (st ks p)); reflexivity.
    + left. apply (fails_here _ _ []). unfold resume. cbn [ins r_in_str]. rewrite F. reflexivity.
  - destruct M as [-> M]. rewrite <- app_assoc in *. cbn [app] in *.
    destruct q as [|d q].
    + (* an escape *)
      cbn [app] in *. cbn [piece]. change (utf8 []) with true. cbv iota. destruct b' as [|e b']; [cbn in U'; discriminate U'|].
      cbn [app fate_from]. change ((N_of_ascii (ascii_of_N 92) =? 34)%N) with false. change ((N_of_ascii (ascii_of_N 92) =? 92)%N) with true. cbv iota.
      destruct ((N_of_ascii e =? 110)%N || (N_of_ascii e =? 114)%N || (N_of_ascii e =? 34)%N || (N_of_ascii e =? 92)%N) eqn:Q.
      2: { left. apply (panics_here _ _ []). unfold resume. cbn [ins r_in_str str_fragment]. change (byte_is 92 (ascii_of_N 92)) with true. cbv iota.
           apply orb_false_iff in Q as [Q Q4]. apply orb_false_iff in Q as [Q Q3]. apply orb_false_iff in Q as [Q1 Q2].
           unfold byte_is. rewrite Q1, Q2, Q3, Q4. reflexivity. }
      assert (X : exists x, simple_escape e = Some x /\ is_byte 117 e = false /\ json_char x = [ascii_of_N 92; e] /\
                  str_fragment (ascii_of_N 92 :: e :: b' ++ ascii_of_N 34 :: rest) = MOk ([x], true, b' ++ ascii_of_N 34 :: rest)).
      { unfold simple_escape, is_byte, str_fragment, byte_is. rewrite <- (ascii_N_embedding e).
        repeat (apply orb_true_iff in Q as [Q|Q]); apply N.eqb_eq in Q; rewrite Q; eexists; repeat split; reflexivity. }
      destruct X as (x & X1 & X2 & X3 & X4). cbn [unescape] in U'.
      change (is_byte 34 (ascii_of_N 92)) with false in U'. change (is_byte 92 (ascii_of_N 92)) with true in U'. cbv iota in U'. rewrite X2, X1 in U'.
      destruct (unescape b') as [kb|] eqn:Ub; [|discriminate U']. injection U' as <-.
      assert (Rs : resume (ascii_of_N 92 :: e :: b' ++ ascii_of_N 34 :: rest) (ins ks p) = ([ETextFrag [x]], MOk (More (b' ++ ascii_of_N 34 :: rest) (ins ks p)))).
      { unfold resume. cbn [ins r_in_str]. rewrite X4. reflexivity. }
      destruct (IH b' kb ltac:(cbn in Ln; lia) Ub) as [Bad | (Ft & fs & Ek & Eb & _ & R)].
      * left. exact (badly_more _ _ _ _ _ _ Rs Bad).
      * right. split; [exact Ft|]. exists ((true, [x]) :: fs). split; [cbn; rewrite Ek; reflexivity|].
        split; [cbn [flat_map]; rewrite X3, Eb; reflexivity|]. split; [eauto|].
        intros es o H. cbn [map app text_frag fst snd]. apply (runs_more _ _ _ _ [ETextFrag [x]] _ _ Rs). apply R, H.
    + (* plain bytes, then an escape *)
      assert (F : str_fragment (d :: q ++ ascii_of_N 92 :: b' ++ ascii_of_N 34 :: rest) =
                  if utf8 (d :: q) then MOk (d :: q, true, ascii_of_N 92 :: b' ++ ascii_of_N 34 :: rest) else MErr).
      { cbn [str_fragment]. destruct (byte_is 92 d) eqn:E.
        - cbn [app scan_fragment] in M. rewrite E in M. discriminate M.
        - cbn [app] in M. rewrite M. reflexivity. }
      cbn [app]. destruct (utf8 (d :: q)) eqn:Uq.
      2: { left. apply (fails_here _ _ []). unfold resume. cbn [ins r_in_str]. rewrite F. reflexivity. }
      assert (Rs : resume (d :: q ++ ascii_of_N 92 :: b' ++ ascii_of_N 34 :: rest) (ins ks p) =
                   ([ETextFrag (d :: q)], MOk (More (ascii_of_N 92 :: b' ++ ascii_of_N 34 :: rest) (ins ks p)))).
      { unfold resume. cbn [ins r_in_str]. rewrite F. reflexivity. }
      destruct (IH (ascii_of_N 92 :: b') k' ltac:(rewrite app_length in Ln; cbn in *; lia) U') as [Bad | (Ft & fs & Ek & Eb & _ & R)].
      * left. cbn [app] in Bad. change (in_string ks (ascii_of_N 92 :: b' ++ ascii_of_N 34 :: rest)) with (fate_from LStr ks (ascii_of_N 92 :: b' ++ ascii_of_N 34 :: rest)) in Bad.
        exact (badly_more _ _ _ _ _ _ Rs Bad).
      * right. split; [exact Ft|]. exists ((true, d :: q) :: fs). split; [cbn; rewrite Ek; reflexivity|].
        split; [change (d :: q ++ k') with ((d :: q) ++ k'); rewrite flat_map_app, Ch, Eb; reflexivity|]. split; [eauto|].
        intros es o H. cbn [map app text_frag fst snd]. apply (runs_more _ _ _ _ [ETextFrag (d :: q)] _ _ Rs). apply R, H.
Qed.

(** From the opening quote on: what happens in the string, after what opens it. *)
Lemma opened ks p r' (pe : list ev) s : rd_str_begin (st ks p) = (pe, MOk (st ks r')) ->
  forall es o, runs s (ins ks r') es o ->
  runs (ascii_of_N 34 :: s) (st ks p) (pe ++ match str_fragment s with MOk _ => ETextBegin None :: es | _ => es end) o.
Proof.
  intros B es o [[|n] H]; [discriminate H|]. exists (S n).
  cbn [resume_all] in *. unfold resume in *. cbn [st ins r_in_str] in *. cbn [resume_out].
  change (byte_is 34 (ascii_of_N 34)) with true. cbv iota. unfold rd_string. fold (st ks p). rewrite B.
  destruct (str_fragment s) as [[[f part] s']| |].
  - cbn [andthen say ret] in *. cbn [app] in *. destruct part.
    + cbn [ret] in *. change (set_in_str true (st ks r')) with (ins ks r'). fold (ins ks r') in H.
      destruct (resume_all n s' (ins ks r')) as [[es' o']|]; [|discriminate H]. injection H as <- ->. rewrite <- app_assoc. reflexivity.
    + change (set_in_str false (ins ks r')) with (st ks r') in H.
      destruct (maybe_done s' (st ks r')) as [e2 [[s2 r2|]| |]]; cbn [app] in *.
      * destruct (resume_all n s2 r2) as [[es' o']|]; [|discriminate H]. injection H as <- ->. rewrite <- !app_assoc. reflexivity.
      * injection H as <- <-. reflexivity.
      * injection H as <- <-. reflexivity.
      * injection H as <- <-. reflexivity.
  - injection H as <- <-. cbn. rewrite app_nil_r. reflexivity.
  - injection H as <- <-. cbn. rewrite app_nil_r. reflexivity.
Qed.
Lemma string_fate ks p r' (pe : list ev) rest b k : unescape b = Some k -> rd_str_begin (st ks p) = (pe, MOk (st ks r')) ->
  let s := quoted b ++ rest in
  ends_badly (fate_from LOut ks s) s (st ks p) \/
  (fate_from LOut ks s = fate_from LOut ks rest /\
   exists t, a_text t k /\ stripped (quoted b) (again t) /\ forall es o, runs rest (st ks r') es o -> runs s (st ks p) (pe ++ emit t ++ es) o).
Proof.
  intros U B. cbv zeta. unfold quoted. rewrite <- !app_assoc. cbn [app].
  assert (F : fate_from LOut ks (ascii_of_N 34 :: b ++ ascii_of_N 34 :: rest) = in_string ks (b ++ ascii_of_N 34 :: rest)) by reflexivity.
  rewrite F. destruct (body_fate ks r' rest (S (List.length b)) b k ltac:(lia) U) as [(N & es & R) | (Ft & fs & Ek & Eb & (x & Fx) & R)].
  - left. split; [exact N|]. eexists. apply (opened ks p r' pe _ B), R.
  - right. split; [exact Ft|]. exists (TText None fs). split; [exists fs; auto|].
    split; [change (quoted b) with (ascii_of_N 34 :: b ++ [ascii_of_N 34]); rewrite <- Eb, <- Ek; apply string_stripped|].
    intros es o H. apply R in H. apply (opened ks p r' pe _ B) in H. rewrite Fx in H.
    cbn [emit]. cbn [app]. rewrite <- app_assoc. exact H.
Qed.

(** ** Values *)
Definition pair_again (kv : tree * tree) : bytes := let (k, v) := kv in again k ++ bs ":" ++ again v.
Definition value_fate (s : bytes) (j : jv) : Prop := forall ks p rest, fits ks -> at_value p ks -> stop rest ->
  ends_badly (fate_from LOut ks (s ++ rest)) (s ++ rest) (st ks p) \/
  (fate_from LOut ks (s ++ rest) = fate_from LOut ks rest /\
   exists t, stands_for t j /\ stripped s (again t) /\ forall es o, runs rest (st ks (pos_of ks)) es o -> runs (s ++ rest) (st ks p) (pre p ++ emit t ++ es) o).
Definition elems_fate (s : bytes) (js : list jv) : Prop := forall ks p rest, fits (KSeq :: ks) -> p = PSeqEmpty \/ p = PSeqElem ->
  ends_badly (fate_from LOut (KSeq :: ks) (s ++ bs "]" ++ rest)) (s ++ bs "]" ++ rest) (st (KSeq :: ks) p) \/
  (fate_from LOut (KSeq :: ks) (s ++ bs "]" ++ rest) = fate_from LOut (KSeq :: ks) (bs "]" ++ rest) /\
   exists ts, Forall2 stands_for ts js /\ stripped s (commas (map again ts)) /\ ts <> [] /\
    forall es o, runs (bs "]" ++ rest) (st (KSeq :: ks) PSeqElem) (ESeqValEnd :: es) o ->
                 runs (s ++ bs "]" ++ rest) (st (KSeq :: ks) p) (flat_map elem_calls ts ++ es) o).
Definition members_fate (s : bytes) (ms : list (bytes * jv)) : Prop := forall ks p rest, fits (KMap :: ks) -> p = PMapEmpty \/ p = PMapKey ->
  ends_badly (fate_from LOut (KMap :: ks) (s ++ bs "}" ++ rest)) (s ++ bs "}" ++ rest) (st (KMap :: ks) p) \/
  (fate_from LOut (KMap :: ks) (s ++ bs "}" ++ rest) = fate_from LOut (KMap :: ks) (bs "}" ++ rest) /\
   exists es', Forall2 (fun e m => a_text (fst e) (fst m) /\ stands_for (snd e) (snd m)) es' ms /\ stripped s (commas (map pair_again es')) /\ es' <> [] /\
    forall es o, runs (bs "}" ++ rest) (st (KMap :: ks) PMapValue) (EMapValEnd :: es) o ->
                 runs (s ++ bs "}" ++ rest) (st (KMap :: ks) p) (flat_map entry_calls es' ++ es) o).

Lemma the_exact ks o : fits ks ->
  stack_op (the_stack ks) o = match counted_op ks o with Goes ks' => Ok (the_stack ks') | Refused => Err (the_stack ks) | Overflows => Panic end /\
  (forall ks', counted_op ks o = Goes ks' -> fits ks').
Proof.
  intros F. pose proof (op_exact (the_stack ks) ks o (the_represents ks) F) as E. destruct (counted_op ks o) as [ks'| |].
  - destruct E as (F' & _ & s' & -> & R). split; [f_equal; apply represents_the, R|]. intros ks2 Q. injection Q as <-. exact F'.
  - rewrite E. split; [reflexivity|discriminate].
  - rewrite E. split; [reflexivity|discriminate].
Qed.
Lemma op_kind ks o ks' : counted_op ks o = Goes ks' -> real_op ks o = Some ks'.
Proof.
  unfold counted_op. destruct (u64 _); [|discriminate]. destruct (real_op ks o) as [k|]; [|discriminate]. destruct (_ && _); [|discriminate].
  intros Q. injection Q as <-. reflexivity.
Qed.
(** Opening a container, whatever the counters say. *)
Lemma opens ks p rest (k : ckind) : fits ks -> at_value p ks ->
  let b := match k with KSeq => "["%char | KMap => "{"%char end in
  let p' := match k with KSeq => PSeqEmpty | KMap => PMapEmpty end in
  let e := match k with KSeq => ESeqBegin None | KMap => EMapBegin None end in
  ends_badly (fate_from LOut ks (b :: rest)) (b :: rest) (st ks p) \/
  (fits (k :: ks) /\ fate_from LOut ks (b :: rest) = fate_from LOut (k :: ks) rest /\
   forall es o, runs rest (st (k :: ks) p') es o -> runs (b :: rest) (st ks p) (pre p ++ e :: es) o).
Proof.
  intros F A. destruct k; cbv zeta.
  - assert (Ft : fate_from LOut ks ("{"%char :: rest) =
      match counted_op ks PushMap with Goes ks' => fate_from LOut ks' rest | Refused => Fails | Overflows => Panics end) by reflexivity.
    destruct (the_exact ks PushMap F) as [Op Fs]. cbn [stack_op] in Op.
    assert (Rs : resume ("{"%char :: rest) (st ks p) = rd_more rest (rd_map_begin (st ks p))) by reflexivity.
    unfold rd_more, rd_map_begin in Rs. rewrite (begin_container_ok ks p A) in Rs. cbn [st r_stack andthen] in Rs. rewrite Op in Rs.
    rewrite Ft. destruct (counted_op ks PushMap) as [ks'| |] eqn:C.
    + pose proof (op_kind _ _ _ C) as Q. injection Q as <-. right. split; [apply Fs; reflexivity|]. split; [reflexivity|]. intros es o R.
      rewrite app_cons_comm. apply (runs_more _ _ rest (st (KMap :: ks) PMapEmpty)); [|exact R]. rewrite Rs. cbn [lift_stack andthen ret say app]. rewrite app_nil_r. reflexivity.
    + left. eapply fails_here. rewrite Rs. reflexivity.
    + left. eapply panics_here. rewrite Rs. reflexivity.
  - assert (Ft : fate_from LOut ks ("["%char :: rest) =
      match counted_op ks PushSeq with Goes ks' => fate_from LOut ks' rest | Refused => Fails | Overflows => Panics end) by reflexivity.
    destruct (the_exact ks PushSeq F) as [Op Fs]. cbn [stack_op] in Op.
    assert (Rs : resume ("["%char :: rest) (st ks p) = rd_more rest (rd_seq_begin (st ks p))) by reflexivity.
    unfold rd_more, rd_seq_begin in Rs. rewrite (begin_container_ok ks p A) in Rs. cbn [st r_stack andthen] in Rs. rewrite Op in Rs.
    rewrite Ft. destruct (counted_op ks PushSeq) as [ks'| |] eqn:C.
    + pose proof (op_kind _ _ _ C) as Q. injection Q as <-. right. split; [apply Fs; reflexivity|]. split; [reflexivity|]. intros es o R.
      rewrite app_cons_comm. apply (runs_more _ _ rest (st (KSeq :: ks) PSeqEmpty)); [|exact R]. rewrite Rs. cbn [lift_stack andthen ret say app]. rewrite app_nil_r. reflexivity.
    + left. eapply fails_here. rewrite Rs. reflexivity.
    + left. eapply panics_here. rewrite Rs. reflexivity.
Qed.
(** Closing one: what was opened can be closed. *)
Lemma pops k ks : fits (k :: ks) -> counted_op (k :: ks) (match k with KSeq => PopSeq | KMap => PopMap end) = Goes ks.
Proof.
  unfold fits, counted_op, other, u64. destruct k; cbn [counters real_op]; destruct (counters ks) as [m q]; cbn [fst snd]; intros [F1 F2];
    repeat match goal with |- context [(?a <? U64_LIM)%N] => destruct (N.ltb_spec a U64_LIM); [|lia] end; reflexivity.
Qed.
Lemma closes ks p rest (k : ckind) : fits (k :: ks) ->
  let b := match k with KSeq => "]"%char | KMap => "}"%char end in
  let e := match k with KSeq => ESeqEnd | KMap => EMapEnd end in
  match k with KSeq => p = PSeqEmpty \/ p = PSeqElem | KMap => p = PMapEmpty \/ p = PMapValue end ->
  fate_from LOut (k :: ks) (b :: rest) = fate_from LOut ks rest /\
  forall es o, runs rest (st ks (pos_of ks)) es o ->
    runs (b :: rest) (st (k :: ks) p) ((match p with PSeqElem => [ESeqValEnd] | PMapValue => [EMapValEnd] | _ => [] end) ++ e :: es) o.
Proof.
  intros F. pose proof (pops k ks F) as C. destruct k; cbv zeta; intros P.
  - assert (Ft : fate_from LOut (KMap :: ks) ("}"%char :: rest) =
      match counted_op (KMap :: ks) PopMap with Goes ks' => fate_from LOut ks' rest | Refused => Fails | Overflows => Panics end) by reflexivity.
    destruct (the_exact (KMap :: ks) PopMap F) as [Op Fs]. cbn [stack_op] in Op. rewrite C in Op, Ft.
    assert (Rs : resume ("}"%char :: rest) (st (KMap :: ks) p) = rd_done rest (rd_map_end (st (KMap :: ks) p))) by reflexivity.
    unfold rd_done, rd_map_end in Rs. cbn [st r_pos r_stack] in Rs. rewrite Op in Rs.
    split; [exact Ft|]. intros es o R.
    rewrite app_cons_comm. apply (runs_maybe _ _ rest (st ks (pos_of ks))); [reflexivity| |exact R]. rewrite Rs. cbn [lift_stack ret r_in_str].
    destruct P as [-> | ->]; cbn [andthen say ret r_stack r_in_str]; rewrite the_pos; unfold set_pos; cbn [st r_in_str r_stack r_pos]; fold (st ks (pos_of ks));
      destruct (maybe_done rest (st ks (pos_of ks))); reflexivity.
  - assert (Ft : fate_from LOut (KSeq :: ks) ("]"%char :: rest) =
      match counted_op (KSeq :: ks) PopSeq with Goes ks' => fate_from LOut ks' rest | Refused => Fails | Overflows => Panics end) by reflexivity.
    destruct (the_exact (KSeq :: ks) PopSeq F) as [Op Fs]. cbn [stack_op] in Op. rewrite C in Op, Ft.
    assert (Rs : resume ("]"%char :: rest) (st (KSeq :: ks) p) = rd_done rest (rd_seq_end (st (KSeq :: ks) p))) by reflexivity.
    unfold rd_done, rd_seq_end in Rs. cbn [st r_pos r_stack] in Rs. rewrite Op in Rs.
    split; [exact Ft|]. intros es o R.
    rewrite app_cons_comm. apply (runs_maybe _ _ rest (st ks (pos_of ks))); [reflexivity| |exact R]. rewrite Rs. cbn [lift_stack ret r_in_str].
    destruct P as [-> | ->]; cbn [andthen say ret r_stack r_in_str]; rewrite the_pos; unfold set_pos; cbn [st r_in_str r_stack r_pos]; fold (st ks (pos_of ks));
      destruct (maybe_done rest (st ks (pos_of ks))); reflexivity.
Qed.

(** Up to a capital exponent. *)
Lemma exponent s : forallb (fun b => negb (byte_is 69 b)) s = true \/
  exists a c, s = a ++ "E"%char :: c /\ forallb (fun b => negb (byte_is 69 b)) a = true.
Proof.
  induction s as [|b s IH]; [left; reflexivity|]. cbn [forallb]. destruct (byte_is 69 b) eqn:E.
  - right. exists [], s. apply byte_is_eq in E; [|reflexivity]. subst b. split; reflexivity.
  - destruct IH as [-> | (a & c & -> & H)]; [left; reflexivity|]. right. exists (b :: a), c. cbn [app forallb]. rewrite E. auto.
Qed.

Lemma words w e ks p rest : at_value p ks ->
  forallb plain_byte (bs w) = true -> forallb (fun b => negb (byte_is 69 b)) (bs w) = true ->
  (forall r, resume_out (bs w ++ rest) r = rd_word w e (bs w ++ rest) r) ->
  fate_from LOut ks (bs w ++ rest) = fate_from LOut ks rest /\
  forall es o, runs rest (st ks (pos_of ks)) es o -> runs (bs w ++ rest) (st ks p) (pre p ++ [e] ++ es) o.
Proof. intros A P N E. split; [apply fate_plain; assumption|apply word_reads; assumption]. Qed.

Lemma commas_more {A} (f : A -> bytes) x xs : xs <> [] -> commas (x :: map f xs) = x ++ bs "," ++ commas (map f xs).
Proof. destruct xs as [|y xs]; [congruence|reflexivity]. Qed.
Lemma stripped_member w1 w2 b s t tv : ws w1 -> ws w2 -> stripped (quoted b) (again t) -> stripped s (again tv) ->
  stripped (w1 ++ quoted b ++ w2 ++ bs ":" ++ s) (pair_again (t, tv)).
Proof.
  intros W1 W2 Q V. unfold pair_again. apply (stripped_app w1 _ [] _ (stripped_ws _ W1)). apply stripped_app; [exact Q|].
  apply (stripped_app w2 _ [] _ (stripped_ws _ W2)).
  exact (stripped_app (bs ":") s _ _ (stripped_plain (bs ":") eq_refl) V).
Qed.
Lemma all_fate : forall s v, json_text s v -> value_fate s v.
Proof.
  apply (json_text_mind (fun s v _ => value_fate s v) (fun s v _ => value_fate s v)
    (fun s vs _ => elems_fate s vs) (fun s ms _ => members_fate s ms)).
  - intros ks p rest F A S. right. destruct (words "null" ENull ks p rest A eq_refl eq_refl (fun _ => eq_refl)) as [X Y]. split; [exact X|]. exists TNull. split; [constructor|split; [apply stripped_plain; reflexivity|exact Y]].
  - intros ks p rest F A S. right. destruct (words "true" (EBool true) ks p rest A eq_refl eq_refl (fun _ => eq_refl)) as [X Y]. split; [exact X|]. exists (TBool true). split; [constructor|split; [apply stripped_plain; reflexivity|exact Y]].
  - intros ks p rest F A S. right. destruct (words "false" (EBool false) ks p rest A eq_refl eq_refl (fun _ => eq_refl)) as [X Y]. split; [exact X|]. exists (TBool false). split; [constructor|split; [apply stripped_plain; reflexivity|exact Y]].
  - intros s m e J ks p rest F A S. pose proof J as (l & Jl & -> & _). destruct Jl as (Lok & Jl').
    destruct (nums_plain _ (lit_num l Lok)) as [Pl Nm].
    destruct (lit_head l (conj Lok Jl')) as (b & s' & El & Hb).
    assert (Rn : forall a z, (exists a', a = b :: a') -> forallb number_byte a = true -> stop z ->
      resume (a ++ z) (st ks p) = ((pre p ++ emit (number_tree a)) ++ fst (maybe_done z (st ks (pos_of ks))), snd (maybe_done z (st ks (pos_of ks))))).
    { intros a z (a' & ->) Nb Sz. unfold resume. cbn [st r_in_str]. fold (st ks p). cbn [app]. rewrite (resume_number b (a' ++ z) _ Hb).
      unfold rd_number. rewrite app_comm_cons. rewrite (number_all _ z Nb Sz), (value_begin_ok ks p A). cbn [andthen say ret].
      destruct (maybe_done z (st ks (pos_of ks))). unfold number_tree. cbn [emit map app text_frag fst snd]. rewrite <- app_assoc. reflexivity. }
    destruct (exponent (lit_text l)) as [Ne | (a & c & Ea & Ne)].
    + right. split; [apply fate_plain; assumption|]. exists (number_tree (lit_text l)). split; [constructor; exact J|].
      split; [unfold number_tree; cbn [again frags_text map List.concat snd]; rewrite app_nil_r; apply num_stripped, lit_num, Lok|].
      intros es o R. rewrite app_assoc. apply (runs_maybe _ _ rest (st ks (pos_of ks))); [reflexivity| |exact R].
      apply Rn; [eauto|exact (Nm Ne)|exact S].
    + left. pose proof (lit_num l Lok) as Nl. rewrite Ea in Nl, Pl |- *. rewrite forallb_app in Nl, Pl. apply andb_true_iff in Nl as [Nl _]. apply andb_true_iff in Pl as [Pl _].
      rewrite <- app_assoc. cbn [app]. rewrite fate_plain by assumption. change (fate_from LOut ks ("E"%char :: c ++ rest)) with Panics.
      assert (Bad : ends_badly Panics ("E"%char :: c ++ rest) (st ks (pos_of ks))) by (apply (panics_here _ _ []); reflexivity).
      destruct a as [|b' a'].
      { exfalso. cbn [app] in Ea. rewrite El in Ea. injection Ea as -> _. cbn in Hb. discriminate Hb. }
      assert (b' = b) as -> by (rewrite El in Ea; injection Ea as -> _; reflexivity).
      eapply badly_maybe; [| |exact Bad]; [reflexivity|]. apply Rn; [eauto|apply (nums_plain _ Nl), Ne|reflexivity].
  - intros b s U ks p rest F A S. destruct (string_fate ks p (pos_of ks) (pre p) rest b s U (str_begin_ok ks p A)) as [Bad | (Ft & t & T & Sp & R)]; [left; exact Bad|right].
    split; [exact Ft|]. exists t. split; [constructor; exact T|split; [exact Sp|exact R]].
  - intros w W ks p rest F A S. rewrite <- !app_assoc. cbn [bs list_ascii_of_string app].
    destruct (opens ks p (w ++ "]"%char :: rest) KSeq F A) as [Bad | (F1 & Ft1 & R1)]; [left; exact Bad|].
    destruct (closes ks PSeqEmpty rest KSeq F1 (or_introl eq_refl)) as (Ft2 & R2).
    right. split; [rewrite Ft1, (fate_ws _ w _ W); exact Ft2|]. exists (TSeq None []). split; [constructor; constructor|].
    split; [apply (stripped_app (bs "[") (w ++ bs "]") (bs "[") (bs "]")); [|apply (stripped_app w (bs "]") [])]; first [apply stripped_ws, W|apply stripped_plain; reflexivity]|].
    intros es o R.
    apply R1. eapply runs_same; [apply resume_ws, W|]. apply (R2 es o R).
  - intros s vs _ E ks p rest F A S. rewrite <- !app_assoc. cbn [bs list_ascii_of_string app].
    destruct (opens ks p (s ++ "]"%char :: rest) KSeq F A) as [Bad | (F1 & Ft1 & R1)]; [left; exact Bad|].
    destruct (E ks PSeqEmpty rest F1 (or_introl eq_refl)) as [Bad | (Ft & ts & T & Sp & _ & R)].
    { left. rewrite Ft1. eapply (badly_runs _ _ _ (s ++ "]"%char :: rest) _ (pre p ++ [ESeqBegin None])); [intros es o; rewrite <- app_cons_comm; apply R1|exact Bad]. }
    destruct (closes ks PSeqElem rest KSeq F1 (or_intror eq_refl)) as (Ft2 & R2).
    right. cbn [bs list_ascii_of_string app] in *. split; [rewrite Ft1, Ft; exact Ft2|]. exists (TSeq None ts). split; [constructor; exact T|].
    split; [exact (stripped_app (bs "[") (s ++ bs "]") _ _ (stripped_plain (bs "[") eq_refl) (stripped_app s (bs "]") _ _ Sp (stripped_plain (bs "]") eq_refl)))|].
    intros es o H.
    rewrite emit_seq. cbn [app]. rewrite <- app_assoc. apply R1. apply R. apply (R2 es o H).
  - intros w W ks p rest F A S. rewrite <- !app_assoc. cbn [bs list_ascii_of_string app].
    destruct (opens ks p (w ++ "}"%char :: rest) KMap F A) as [Bad | (F1 & Ft1 & R1)]; [left; exact Bad|].
    destruct (closes ks PMapEmpty rest KMap F1 (or_introl eq_refl)) as (Ft2 & R2).
    right. split; [rewrite Ft1, (fate_ws _ w _ W); exact Ft2|]. exists (TMap None []). split; [constructor; constructor|].
    split; [apply (stripped_app (bs "{") (w ++ bs "}") (bs "{") (bs "}")); [|apply (stripped_app w (bs "}") [])]; first [apply stripped_ws, W|apply stripped_plain; reflexivity]|].
    intros es o R.
    apply R1. eapply runs_same; [apply resume_ws, W|]. apply (R2 es o R).
  - intros s vs _ E ks p rest F A S. rewrite <- !app_assoc. cbn [bs list_ascii_of_string app].
    destruct (opens ks p (s ++ "}"%char :: rest) KMap F A) as [Bad | (F1 & Ft1 & R1)]; [left; exact Bad|].
    destruct (E ks PMapEmpty rest F1 (or_introl eq_refl)) as [Bad | (Ft & ts & T & Sp & _ & R)].
    { left. rewrite Ft1. eapply (badly_runs _ _ _ (s ++ "}"%char :: rest) _ (pre p ++ [EMapBegin None])); [intros es o; rewrite <- app_cons_comm; apply R1|exact Bad]. }
    destruct (closes ks PMapValue rest KMap F1 (or_intror eq_refl)) as (Ft2 & R2).
    right. cbn [bs list_ascii_of_string app] in *. split; [rewrite Ft1, Ft; exact Ft2|]. exists (TMap None ts). split; [constructor; exact T|].
    split; [exact (stripped_app (bs "{") (s ++ bs "}") _ _ (stripped_plain (bs "{") eq_refl) (stripped_app s (bs "}") _ _ Sp (stripped_plain (bs "}") eq_refl)))|].
    intros es o H.
    rewrite emit_map. cbn [app]. rewrite <- app_assoc. apply R1. apply R. apply (R2 es o H).
  - intros w1 s w2 v W1 W2 _ V ks p rest F A S. rewrite <- !app_assoc. rewrite (fate_ws ks w1 _ W1).
    destruct (V ks p (w2 ++ rest) F A (ws_stop w2 rest W2 S)) as [Bad | (Ft & t & T & Sp & R)].
    + left. eapply badly_same; [apply resume_ws, W1|exact Bad].
    + right. split; [rewrite Ft; apply fate_ws, W2|]. exists t. split; [exact T|].
      split; [pose proof (stripped_app w1 _ [] _ (stripped_ws _ W1) (stripped_app s w2 _ [] Sp (stripped_ws _ W2))) as X; rewrite app_nil_r in X; exact X|].
      intros es o H.
      eapply runs_same; [apply resume_ws, W1|]. apply R. eapply runs_same; [apply resume_ws, W2|]. exact H.
  - (* one element *)
    intros s v _ V ks p rest F P.
    assert (A : at_value p (KSeq :: ks)) by (destruct P as [-> | ->]; exact I).
    destruct (V (KSeq :: ks) p (bs "]" ++ rest) F A eq_refl) as [Bad | (Ft & t & T & Sp & R)]; [left; exact Bad|right].
    split; [exact Ft|]. exists [t]. split; [repeat constructor; exact T|]. split; [exact Sp|]. split; [discriminate|]. intros es o H.
    cbn [flat_map]. unfold elem_calls. rewrite app_nil_r. cbn [app]. rewrite <- app_assoc. cbn [app].
    apply R in H. destruct P as [-> | ->]; exact H.
  - intros s v r vs _ V _ E ks p rest F P. rewrite <- !app_assoc.
    assert (A : at_value p (KSeq :: ks)) by (destruct P as [-> | ->]; exact I).
    destruct (V (KSeq :: ks) p (bs "," ++ r ++ bs "]" ++ rest) F A eq_refl) as [Bad | (Ft & t & T & Sp & R)]; [left; exact Bad|].
    assert (Fc : fate_from LOut (KSeq :: ks) (bs "," ++ r ++ bs "]" ++ rest) = fate_from LOut (KSeq :: ks) (r ++ bs "]" ++ rest)) by reflexivity.
    assert (X : forall es o, runs (r ++ bs "]" ++ rest) (st (KSeq :: ks) PSeqElem) es o ->
                runs (bs "," ++ r ++ bs "]" ++ rest) (st (KSeq :: ks) PSeqElem) (ESeqValEnd :: es) o).
    { intros es o H. apply (runs_more _ _ (r ++ bs "]" ++ rest) (st (KSeq :: ks) PSeqElem) [ESeqValEnd]); [reflexivity|exact H]. }
    destruct (E ks PSeqElem rest F (or_intror eq_refl)) as [Bad | (Ft2 & ts & Ts & Sp2 & Ne & Rs)].
    + left. rewrite Ft, Fc. destruct Bad as (N & es & B). split; [exact N|]. eexists. apply R, X, B.
    + right. split; [rewrite Ft, Fc; exact Ft2|]. exists (t :: ts). split; [constructor; assumption|].
      split; [cbn [map]; rewrite commas_more by exact Ne; exact (stripped_app s _ _ _ Sp (stripped_app (bs ",") r _ _ (stripped_plain (bs ",") eq_refl) Sp2))|].
      split; [discriminate|]. intros es o H.
      apply Rs in H. cbn [flat_map]. unfold elem_calls at 1. cbn [app]. rewrite <- !app_assoc. cbn [app].
      apply X, R in H. destruct P as [-> | ->]; exact H.
  - (* one member *)
    intros w1 w2 b k s v W1 W2 U _ V ks p rest F P. rewrite <- !app_assoc. rewrite (fate_ws _ w1 _ W1).
    assert (B : rd_str_begin (st (KMap :: ks) p) = ([EMapKeyBegin], MOk (st (KMap :: ks) PMapKey))) by (destruct P as [-> | ->]; reflexivity).
    destruct (string_fate _ p PMapKey _ (w2 ++ bs ":" ++ s ++ bs "}" ++ rest) b k U B) as [Bad | (Ft & t & T & Sp & R)].
    { left. eapply badly_same; [apply resume_ws, W1|exact Bad]. }
    assert (Fc : fate_from LOut (KMap :: ks) (w2 ++ bs ":" ++ s ++ bs "}" ++ rest) = fate_from LOut (KMap :: ks) (s ++ bs "}" ++ rest)) by (rewrite (fate_ws _ w2 _ W2); reflexivity).
    assert (X : forall es o, runs (s ++ bs "}" ++ rest) (st (KMap :: ks) PMapValue) es o ->
                runs (w1 ++ quoted b ++ w2 ++ bs ":" ++ s ++ bs "}" ++ rest) (st (KMap :: ks) p) ([EMapKeyBegin] ++ emit t ++ EMapKeyEnd :: es) o).
    { intros es o H. eapply runs_same; [apply resume_ws, W1|]. apply R. eapply runs_same; [apply resume_ws, W2|].
      apply (runs_more _ _ (s ++ bs "}" ++ rest) (st (KMap :: ks) PMapValue) [EMapKeyEnd]); [reflexivity|exact H]. }
    destruct (V (KMap :: ks) PMapValue (bs "}" ++ rest) F I eq_refl) as [Bad | (Ft2 & tv & Tv & Sp2 & Rv)].
    + left. rewrite Ft, Fc. destruct Bad as (N & es & Bd). split; [exact N|]. eexists. apply X, Bd.
    + right. split; [rewrite Ft, Fc; exact Ft2|]. exists [(t, tv)]. split; [repeat constructor; assumption|].
      split; [exact (stripped_member w1 w2 b s t tv W1 W2 Sp Sp2)|]. split; [discriminate|]. intros es o H.
      cbn [flat_map]. unfold entry_calls. cbn [fst snd]. rewrite app_nil_r. cbn [app]. rewrite <- !app_assoc. cbn [app]. rewrite <- app_assoc. cbn [app].
      exact (X _ _ (Rv _ _ H)).
  - intros w1 w2 b k s v r ms W1 W2 U _ V _ E ks p rest F P. rewrite <- !app_assoc. rewrite (fate_ws _ w1 _ W1).
    assert (B : rd_str_begin (st (KMap :: ks) p) = ([EMapKeyBegin], MOk (st (KMap :: ks) PMapKey))) by (destruct P as [-> | ->]; reflexivity).
    destruct (string_fate _ p PMapKey _ (w2 ++ bs ":" ++ s ++ bs "," ++ r ++ bs "}" ++ rest) b k U B) as [Bad | (Ft & t & T & Sp & R)].
    { left. eapply badly_same; [apply resume_ws, W1|exact Bad]. }
    assert (Fc : fate_from LOut (KMap :: ks) (w2 ++ bs ":" ++ s ++ bs "," ++ r ++ bs "}" ++ rest) =
                 fate_from LOut (KMap :: ks) (s ++ bs "," ++ r ++ bs "}" ++ rest)) by (rewrite (fate_ws _ w2 _ W2); reflexivity).
    assert (X : forall es o, runs (s ++ bs "," ++ r ++ bs "}" ++ rest) (st (KMap :: ks) PMapValue) es o ->
                runs (w1 ++ quoted b ++ w2 ++ bs ":" ++ s ++ bs "," ++ r ++ bs "}" ++ rest) (st (KMap :: ks) p) ([EMapKeyBegin] ++ emit t ++ EMapKeyEnd :: es) o).
    { intros es o H. eapply runs_same; [apply resume_ws, W1|]. apply R. eapply runs_same; [apply resume_ws, W2|].
      apply (runs_more _ _ (s ++ bs "," ++ r ++ bs "}" ++ rest) (st (KMap :: ks) PMapValue) [EMapKeyEnd]); [reflexivity|exact H]. }
    destruct (V (KMap :: ks) PMapValue (bs "," ++ r ++ bs "}" ++ rest) F I eq_refl) as [Bad | (Ft2 & tv & Tv & Sp2 & Rv)].
    { left. rewrite Ft, Fc. destruct Bad as (N & es & Bd). split; [exact N|]. eexists. apply X, Bd. }
    assert (Fd : fate_from LOut (KMap :: ks) (bs "," ++ r ++ bs "}" ++ rest) = fate_from LOut (KMap :: ks) (r ++ bs "}" ++ rest)) by reflexivity.
    assert (Y : forall es o, runs (r ++ bs "}" ++ rest) (st (KMap :: ks) PMapKey) es o ->
                runs (bs "," ++ r ++ bs "}" ++ rest) (st (KMap :: ks) PMapValue) (EMapValEnd :: es) o).
    { intros es o H. apply (runs_more _ _ (r ++ bs "}" ++ rest) (st (KMap :: ks) PMapKey) [EMapValEnd]); [reflexivity|exact H]. }
    destruct (E ks PMapKey rest F (or_intror eq_refl)) as [Bad | (Ft3 & ts & Ts & Sp3 & Ne & Rs)].
    + left. rewrite Ft, Fc, Ft2, Fd. destruct Bad as (N & es & Bd). split; [exact N|]. eexists. apply X, Rv, Y, Bd.
    + right. split; [rewrite Ft, Fc, Ft2, Fd; exact Ft3|]. exists ((t, tv) :: ts). split; [constructor; [split; assumption|assumption]|].
      split.
      { cbn [map]. rewrite commas_more by exact Ne. pose proof (stripped_app _ _ _ _ (stripped_member w1 w2 b s t tv W1 W2 Sp Sp2) (stripped_app (bs ",") r _ _ (stripped_plain (bs ",") eq_refl) Sp3)) as Q.
        rewrite <- !app_assoc in Q. exact Q. }
      split; [discriminate|]. intros es o H. apply Rs in H.
      cbn [flat_map]. unfold entry_calls at 1. cbn [fst snd]. cbn [app]. rewrite <- !app_assoc. cbn [app]. rewrite <- app_assoc. cbn [app].
      exact (X _ _ (Rv _ _ (Y _ _ H))).
Qed.
