(** * ReadBackProps: what is written as JSON can be read again (C56) *)

From Verif Require Import Base Event Tree LowerModel LowerSpec FlatProofs LowerProofs MethProofs DecProofs DataModel DataProofs
  JsonModel JsonGrammar JsonSpec JsonMethProofs JsonProofs JsonImageProofs JsonProps JsonUtf8Props Utf8
  StackModel StackProps ReaderModel ReaderSpec ReaderProps.

(** ** Specification *)

(** Texts without control characters other than line feed and carriage return. *)
Definition plain_text (s : bytes) : bool :=
  forallb (fun b => let n := N_of_ascii b in (32 <=? n)%N || (n =? 10)%N || (n =? 13)%N) s.
Definition plain_label (l : option label) : bool := match l with Some l => plain_text (l_text l) | None => true end.
(** Calls whose texts and labels are plain, with no tag that makes a text raw JSON. *)
Definition ev_plain (e : ev) : bool :=
  match e with
  | ETextFrag s | ETextFragC s => plain_text s
  | ETaggedBegin t l _ | ETaggedEnd t l _ => plain_label l && negb (is_raw t)
  | EEnumBegin _ l _ | EEnumEnd _ l _ | ETag _ l _
  | ERecordBegin _ l _ _ | ERecordEnd _ l _ | ETupleBegin _ l _ _ | ETupleEnd _ l _ | ERecTupBegin _ l _ _ | ERecTupEnd _ l _ => plain_label l
  | ERecordValBegin _ l | ERecordValEnd _ l | ERecTupValBegin _ l _ | ERecTupValEnd _ l _ => ident_ok l && plain_text (l_text l)
  | _ => true
  end.
(** A printer of floats that writes a small [e]. *)
Definition small_e (r : float -> bytes) : Prop :=
  forall x, forallb (fun b => negb (N_of_ascii b =? 69)%N) (r x) = true.
Definition plain_printer (r : float -> bytes) : Prop :=
  json_printer r /\ small_e r /\ forall x, utf8 (r x) = true.
(** How deep arrays and objects nest. *)
Fixpoint height (j : jv) : nat :=
  match j with
  | JArr vs => S (fold_right Nat.max 0 (map height vs))
  | JObj ms => S (fold_right Nat.max 0 (map (fun m => height (snd m)) ms))
  | _ => 0
  end.

(** ** Lexing *)
Fixpoint lex_from (l : lexer) (s : bytes) : option lexer :=
  match s with
  | [] => Some l
  | b :: s' => match lex_byte l b with Some l' => lex_from l' s' | None => None end
  end.
Lemma lex_app a b : forall l, lex_from l (a ++ b) = match lex_from l a with Some l' => lex_from l' b | None => None end.
Proof. induction a as [|x a IH]; intros l; cbn [lex_from app]; [reflexivity|]. destruct (lex_byte l x); [apply IH|reflexivity]. Qed.

Definition neutral (s : bytes) : Prop := lex_from LOut s = Some LOut /\ lex_from LStr s = Some LStr.
Definition calm (b : byte) : bool := let n := N_of_ascii b in negb (n =? 34)%N && negb (n =? 92)%N && negb (n =? 69)%N.
Lemma calm_neutral s : forallb calm s = true -> neutral s.
Proof.
  unfold neutral. induction s as [|b s IH]; intros H; [split; reflexivity|]. cbn [forallb] in H. apply andb_prop in H as [H1 H2].
  unfold calm in H1. apply andb_prop in H1 as [H1 H4]. apply andb_prop in H1 as [H1 H3]. rewrite negb_true_iff in *.
  cbn [lex_from lex_byte]. rewrite H1, H3, H4. exact (IH H2).
Qed.
Lemma esc_lex s : plain_text s = true -> lex_from LStr (esc s) = Some LStr.
Proof.
  unfold plain_text, esc. induction s as [|b s IH]; intros H; [reflexivity|]. cbn [forallb] in H. apply andb_prop in H as [H1 H2].
  cbn [flat_map]. rewrite lex_app.
  assert (E : lex_from LStr (escb b) = Some LStr).
  { destruct b as [[] [] [] [] [] [] [] []]; first [discriminate H1|vm_compute; reflexivity]. }
  rewrite E. exact (IH H2).
Qed.
Lemma plain_lex s : forallb plain_byte s = true -> lex_from LStr s = Some LStr.
Proof.
  induction s as [|b s IH]; intros H; [reflexivity|]. cbn [forallb] in H. apply andb_prop in H as [H1 H2].
  unfold plain_byte in H1. apply andb_prop in H1 as [H1 _]. apply andb_prop in H1 as [H1 H3]. rewrite negb_true_iff in *.
  cbn [lex_from lex_byte]. rewrite H1, H3. exact (IH H2).
Qed.
Lemma digits_calm s : forallb is_digit s = true -> forallb calm s = true.
Proof.
  intros H. rewrite forallb_forall in *. intros b I. specialize (H b I).
  destruct b as [[] [] [] [] [] [] [] []]; first [discriminate H|reflexivity].
Qed.
Lemma dec_neutral z : neutral (dec z).
Proof.
  apply calm_neutral. unfold dec. destruct (z <? 0)%Z; cbn [forallb]; [apply andb_true_intro; split; [reflexivity|]|];
    apply digits_calm, bytes_of_uint_digits.
Qed.

Section Write.
  Variable r32 r64 : float -> bytes.
  Hypothesis P32 : json_printer r32.
  Hypothesis P64 : json_printer r64.
  Hypothesis E32 : small_e r32.
  Hypothesis E64 : small_e r64.
  Notation step := (json_step bytes string_write r32 r64).
  Notation jm := (meth json_over step).
  Notation J := (run jm).

  Lemma float_neutral r x : json_printer r -> small_e r -> is_nan x || is_infinite x = false -> neutral (r x).
  Proof.
    intros P E H. apply orb_false_elim in H as [H1 H2]. destruct (P x H1 H2) as (m & e & N). apply json_number_plain in N.
    apply calm_neutral. specialize (E x). rewrite forallb_forall in *. intros b I. specialize (E b I). specialize (N b I).
    unfold plain_byte in N. unfold calm. apply andb_prop in N as [N _]. apply andb_prop in N as [N1 N2]. rewrite N1, N2, E. reflexivity.
  Qed.

  Definition mode (tq : bool) : lexer := if tq then LOut else LStr.
  (** Between two tokens of a value ([tq]) or of a key. *)
  Definition K (tq : bool) (f : fm bytes) : Prop :=
    f_th f = None /\ f_tq f = tq /\ lex_from LOut (f_out f) = Some (mode tq).

  Lemma K_it tq b f : K tq f -> K tq (set_it bytes b f). Proof. exact (fun H => H). Qed.
  Lemma K_cde tq b f : K tq f -> K tq (set_cde bytes b f). Proof. exact (fun H => H). Qed.
  Lemma put_K tq s f g : K tq f -> lex_from (mode tq) s = Some (mode tq) -> put bytes string_write s f = Ok g -> K tq g.
  Proof.
    intros (A & B & C) L E. rewrite put_pure in E. injection E as <-. split; [exact A|]. split; [exact B|].
    cbn [set_out f_out]. rewrite lex_app, C. exact L.
  Qed.
  Lemma neutral_mode tq s : neutral s -> lex_from (mode tq) s = Some (mode tq).
  Proof. intros [A B]. destruct tq; assumption. Qed.
  Lemma put_neutral tq s f g : neutral s -> K tq f -> put bytes string_write s f = Ok g -> K tq g.
  Proof. intros N H. apply put_K; [exact H|apply neutral_mode, N]. Qed.

  Lemma null_K tq f g : K tq f -> j_null bytes string_write f = Ok g -> K tq g.
  Proof. intros H. unfold j_null. apply put_neutral; [split; reflexivity|exact H]. Qed.
  Lemma bool_K tq b f g : K tq f -> j_bool bytes string_write b f = Ok g -> K tq g.
  Proof. intros H. unfold j_bool. apply put_neutral; [destruct b; split; reflexivity|exact H]. Qed.
  Lemma int_K tq z f g : K tq f -> j_int bytes string_write z f = Ok g -> K tq g.
  Proof. intros H. unfold j_int. apply put_neutral; [apply dec_neutral|exact H]. Qed.
  Lemma float_K tq r x f g : json_printer r -> small_e r -> K tq f -> j_float bytes string_write r x f = Ok g -> K tq g.
  Proof.
    intros P E H. unfold j_float. cbv zeta. destruct (is_nan x || is_infinite x) eqn:F; [apply null_K; exact H|].
    apply put_neutral; [apply float_neutral; assumption|exact H].
  Qed.
  (** A whole text, in a value or in a key. *)
  Lemma texts_K tq f g n fs : K tq f -> forallb (fun p => plain_text (snd p)) fs = true ->
    J f (ETextBegin n :: map text_frag fs ++ [ETextEnd]) = Ok g -> K tq g.
  Proof.
    intros (A & B & C) P E. rewrite run_cons, jm_over in E by reflexivity. cbn [json_step] in E. unfold j_text_begin in E. cbv zeta in E.
    change (f_tq (set_cde bytes false f)) with (f_tq f) in E. rewrite B in E.
    assert (Q : plain_text (frags_text fs) = true).
    { unfold frags_text, plain_text. clear - P. induction fs as [|p fs IH]; [reflexivity|]. cbn [forallb map List.concat] in *.
      apply andb_prop in P as [P1 P2]. rewrite forallb_app. unfold plain_text in P1. rewrite P1. exact (IH P2). }
    apply esc_lex in Q.
    destruct tq; cbn [mode] in *.
    - rewrite put_pure in E. cbn [bind] in E. rewrite run_app, frag_run in E by exact A. cbn [bind] in E.
      rewrite run_one, jm_over in E by reflexivity. cbn [json_step] in E. unfold j_text_end in E.
      match type of E with (if ?b then _ else _) = _ => change b with (f_tq f) in E end. rewrite B, put_pure in E.
      injection E as <-. repeat split; [exact A|exact B|]. cbn [set_out set_cde f_out]. rewrite !lex_app, C. cbn [lex_from].
      change (lex_byte LOut dquote) with (Some LStr). cbv iota. rewrite Q. reflexivity.
    - cbn [bind] in E. rewrite run_app, frag_run in E by exact A. cbn [bind] in E.
      rewrite run_one, jm_over in E by reflexivity. cbn [json_step] in E. unfold j_text_end in E.
      match type of E with (if ?b then _ else _) = _ => change b with (f_tq f) in E end. rewrite B in E.
      injection E as <-. repeat split; [exact A|exact B|]. cbn [set_out set_cde f_out]. rewrite !lex_app, C. exact Q.
  Qed.
  Lemma str_K tq f g s : K tq f -> plain_text s = true -> j_str bytes string_write s f = Ok g -> K tq g.
  Proof.
    intros H P E. apply (texts_K tq f g None [(false, s)] H).
    - cbn [forallb snd]. rewrite P. reflexivity.
    - rewrite run_cons, jm_over by reflexivity. unfold j_str in E. cbn [map app]. cbn [json_step].
      destruct (j_text_begin bytes string_write f) as [f1| |]; [|discriminate..]. cbn [bind] in *. unfold text_frag. cbn [fst snd].
      rewrite run_cons, jm_over by reflexivity. cbn [json_step].
      destruct (text_fragment_computed bytes string_write s f1) as [f2| |]; [|discriminate..]. cbn [bind] in *.
      rewrite run_one, jm_over by reflexivity. exact E.
  Qed.
  Lemma tag_K tq f g t l i : K tq f -> plain_label l = true -> j_tag bytes string_write t l i f = Ok g -> K tq g.
  Proof.
    intros H P E. unfold j_tag in E. cbv zeta in E. destruct (otag_is t RUST_OPTION_NONE); [eapply null_K; [|exact E]; exact H|].
    destruct l as [l|]; [eapply str_K; [|exact P|exact E]; exact H|].
    destruct (index_i64 i); [eapply int_K; [|exact E]; exact H|eapply null_K; [|exact E]; exact H].
  Qed.
  Lemma map_begin_K tq f g : K tq f -> j_map_begin bytes string_write f = Ok g -> K true g /\ tq = true.
  Proof.
    intros (A & B & C) E. unfold j_map_begin in E. rewrite B in E. destruct tq; [|discriminate]. split; [|reflexivity].
    eapply (put_neutral true); [| |exact E]; [split; reflexivity|exact (conj A (conj B C))].
  Qed.
  Lemma seq_begin_K tq f g : K tq f -> j_seq_begin bytes string_write f = Ok g -> K true g /\ tq = true.
  Proof.
    intros (A & B & C) E. unfold j_seq_begin in E. rewrite B in E. destruct tq; [|discriminate]. split; [|reflexivity].
    eapply (put_neutral true); [| |exact E]; [split; reflexivity|exact (conj A (conj B C))].
  Qed.
  Lemma map_end_K tq f g : K tq f -> j_map_end bytes string_write f = Ok g -> K tq g.
  Proof. intros H. unfold j_map_end. apply put_neutral; [split; reflexivity|exact H]. Qed.
  Lemma seq_end_K tq f g : K tq f -> j_seq_end bytes string_write f = Ok g -> K tq g.
  Proof. intros H. unfold j_seq_end. apply put_neutral; [split; reflexivity|exact H]. Qed.
  Lemma seq_value_begin_K tq f g : K tq f -> j_seq_value_begin bytes string_write f = Ok g -> K tq g.
  Proof.
    intros H. unfold j_seq_value_begin. cbv zeta. destruct (f_cde _); [intros [= <-]; exact H|].
    apply put_neutral; [split; reflexivity|exact H].
  Qed.
  Lemma map_key_begin_K f g : K true f -> j_map_key_begin bytes string_write f = Ok g -> K false g.
  Proof.
    intros (A & B & C) E. unfold j_map_key_begin in E. cbv zeta in E.
    destruct (f_cde _); rewrite put_pure in E; injection E as <-; (split; [exact A|split; [reflexivity|]]);
      cbn [set_out set_it set_tq f_out]; rewrite lex_app, C; reflexivity.
  Qed.
  Lemma map_key_end_K f g : K false f -> j_map_key_end bytes string_write f = Ok g -> K true g.
  Proof.
    intros (A & B & C) E. unfold j_map_key_end in E. rewrite put_pure in E. injection E as <-.
    split; [exact A|split; [reflexivity|]]. cbn [set_out set_it set_tq f_out]. rewrite lex_app, C. reflexivity.
  Qed.
  Lemma escape_K f g s : K false f -> plain_text s = true -> lift bytes f (escape_str bytes string_write s (f_out f)) = Ok g -> K false g.
  Proof.
    intros (A & B & C) P E. rewrite escape_str_pure in E. injection E as <-. split; [exact A|split; [exact B|]].
    cbn [set_out f_out]. rewrite lex_app, C. apply esc_lex, P.
  Qed.
  Ltac step_in E := match type of E with (?m >>= _) = Ok _ => let f := fresh "f" in let X := fresh "X" in destruct m as [f| |] eqn:X; [|discriminate E..]; cbn [bind] in E end.
  Lemma itb_K tq f g l i : K tq f -> plain_label l = true -> internally_tagged_begin bytes string_write l i f = Ok g -> K tq g.
  Proof.
    intros H P E. unfold internally_tagged_begin in E. destruct (f_it f); [|injection E as <-; exact H]. cbv zeta in E. destruct l as [l|].
    - unfold tagged_map_begin_label in E. step_in E. step_in X. step_in X0. destruct (map_begin_K _ _ _ (K_it _ _ _ H) X1) as [K1 ->].
      pose proof (map_key_begin_K _ _ K1 X0) as K2. pose proof (escape_K _ _ _ K2 P X) as K3. exact (map_key_end_K _ _ K3 E).
    - destruct (index_i64 i) as [z|]; [|injection E as <-; exact H].
      unfold tagged_map_begin_index in E. step_in E. step_in X. step_in X0. destruct (map_begin_K _ _ _ (K_it _ _ _ H) X1) as [K1 ->].
      pose proof (map_key_begin_K _ _ K1 X0) as K2. pose proof (int_K _ _ _ _ K2 X) as K3. exact (map_key_end_K _ _ K3 E).
  Qed.
  Lemma ite_K tq f g l i : K tq f -> internally_tagged_end bytes l i f = Ok g -> K tq g.
  Proof. intros H E. injection E as <-. exact H. Qed.
  Lemma record_value_begin_K f g l : K true f -> ident_ok l && plain_text (l_text l) = true ->
    j_record_value_begin bytes string_write l f = Ok g -> K true g.
  Proof.
    intros (A & B & C) P E. apply andb_prop in P as [Id P]. unfold j_record_value_begin in E. cbv zeta in E. step_in E.
    assert (K1 : f_th f0 = None /\ f_tq f0 = true /\ lex_from LOut (f_out f0) = Some LStr).
    { destruct (f_cde _); rewrite put_pure in X; injection X as <-; (split; [exact A|split; [exact B|]]);
        cbn [set_out set_it f_out]; rewrite lex_app, C; reflexivity. }
    step_in E. assert (K2 : f_th f1 = None /\ f_tq f1 = true /\ lex_from LOut (f_out f1) = Some LStr).
    { destruct K1 as (A1 & B1 & C1). unfold ident_ok in Id. destruct (otag_is (l_tag l) VALUE_IDENT).
      - rewrite put_pure in X0. injection X0 as <-. split; [exact A1|split; [exact B1|]]. cbn [set_out f_out].
        rewrite lex_app, C1. apply plain_lex. exact Id.
      - rewrite escape_str_pure in X0. injection X0 as <-. split; [exact A1|split; [exact B1|]]. cbn [set_out f_out].
        rewrite lex_app, C1. apply esc_lex, P. }
    destruct K2 as (A2 & B2 & C2). rewrite put_pure in E. injection E as <-. split; [exact A2|split; [exact B2|]].
    cbn [set_out f_out]. rewrite lex_app, C2. reflexivity.
  Qed.

  Lemma run_bind f es es' g : J f (es ++ es') = Ok g -> exists h, J f es = Ok h /\ J h es' = Ok g.
  Proof. rewrite run_app. destruct (J f es) as [h| |]; [|discriminate..]. eauto. Qed.
  Lemma cons_bind f e es g : J f (e :: es) = Ok g -> exists h, jm f e = Ok h /\ J h es = Ok g.
  Proof. rewrite run_cons. destruct (jm f e) as [h| |]; [|discriminate..]. eauto. Qed.
  Lemma blocks_K {A} (blk : A -> list ev) xs : (forall x f g, In x xs -> forallb ev_plain (blk x) = true -> K true f -> J f (blk x) = Ok g -> K true g) ->
    forall f g, forallb ev_plain (flat_map blk xs) = true -> K true f -> J f (flat_map blk xs) = Ok g -> K true g.
  Proof.
    induction xs as [|x xs IH]; intros H f g P Kf E; cbn [flat_map] in *; [injection E as <-; exact Kf|].
    rewrite forallb_app in P. apply andb_prop in P as [P1 P2]. destruct (run_bind _ _ _ _ E) as (h & E1 & E2).
    eapply IH; [|exact P2| |exact E2]; [intros; eapply H; eauto; right; assumption|]. eapply H; [left; reflexivity|exact P1|exact Kf|exact E1].
  Qed.

  Ltac split_plain P := cbn [emit forallb ev_plain andb] in P; repeat (rewrite forallb_app in P; cbn [forallb ev_plain andb] in P);
    repeat match type of P with _ && _ = true => let Q := fresh "Q" in apply andb_prop in P; destruct P as [Q P] end.

  Lemma emit_K t : forall tq f g, forallb ev_plain (emit t) = true -> K tq f -> J f (emit t) = Ok g -> K tq g.
  Proof.
    induction t using tree_ind'; intros tq f0 g P Kf E.
    - cbn [emit] in E. rewrite run_one, jm_over in E by reflexivity. eapply null_K; eassumption.
    - cbn [emit] in E. rewrite run_one, jm_over in E by reflexivity. eapply bool_K; eassumption.
    - cbn [emit] in E. rewrite run_one, jm_over in E by reflexivity. eapply int_K; eassumption.
    - cbn [emit] in E. rewrite run_one, jm_over in E by reflexivity. eapply float_K; [exact P32|exact E32|eassumption..].
    - cbn [emit] in E. rewrite run_one, jm_over in E by reflexivity. eapply float_K; [exact P64|exact E64|eassumption..].
    - eapply texts_K; [exact Kf| |exact E]. cbn [emit forallb ev_plain andb] in P. rewrite forallb_app in P. apply andb_prop in P as [P _].
      clear - P. induction fs as [|[b s] fs IH]; [reflexivity|]. cbn [map forallb] in *. apply andb_prop in P as [P1 P2].
      rewrite (IH P2), andb_true_r. destruct b; exact P1.
    - cbn [emit] in E. apply cons_bind in E as (h & E1 & E). rewrite jm_bin_begin in E1.
      destruct (seq_begin_K _ _ _ Kf E1) as [K1 ->]. apply run_bind in E as (h2 & E2 & E). rewrite bin_blocks in E2.
      rewrite run_one, jm_bin_end in E. eapply seq_end_K; [|exact E].
      rewrite <- flat_map_concat_map in E2. eapply blocks_K; [| |exact K1|exact E2].
      + intros b f1 g1 _ _ Kb Eb. apply cons_bind in Eb as (b1 & Eb1 & Eb). rewrite jm_over in Eb1 by reflexivity.
        apply cons_bind in Eb as (b2 & Eb2 & Eb). rewrite jm_over in Eb2 by reflexivity. rewrite run_one, jm_over in Eb by reflexivity.
        injection Eb as <-. eapply int_K; [|exact Eb2]. eapply seq_value_begin_K; eassumption.
      + clear. induction (frags_text fs) as [|b s IH]; [reflexivity|exact IH].
    - cbn [emit] in E. rewrite run_one, jm_over in E by reflexivity. cbn [emit forallb ev_plain andb] in P. rewrite andb_true_r in P.
      eapply tag_K; eassumption.
    - cbn [emit] in E, P. apply cons_bind in E as (h & E1 & E). rewrite jm_hint in E1. injection E1 as <-. eapply IHt; eassumption.
    - (* tagged *)
      cbn [emit] in E. split_plain P. apply andb_prop in Q as [QL QR]. rewrite negb_true_iff in QR. unfold is_raw in QR.
      apply orb_false_iff in QR as [Rw R4]. apply orb_false_iff in Rw as [Rw R3]. apply orb_false_iff in Rw as [R1 R2].
      apply cons_bind in E as (h & E1 & E). rewrite jm_over in E1 by reflexivity. cbn [json_step] in E1. unfold j_tagged_begin in E1.
      rewrite R1, R2, R3, R4 in E1. cbv zeta in E1. step_in E1. injection E1 as <-.
      apply run_bind in E as (h2 & E2 & E). rewrite run_one, jm_over in E by reflexivity. cbn [json_step] in E. unfold j_tagged_end in E.
      rewrite R1, R2, R3, R4 in E. cbn [bind] in E. assert (K2 : K tq h2).
      { eapply IHt; [|apply K_cde; eapply itb_K; [exact Kf|exact QL|exact X]|exact E2]. assumption. }
      destruct (f_cde h2); [|eapply ite_K; eassumption]. step_in E. eapply ite_K; [|exact E]. eapply tag_K; eassumption.
    - (* enum *)
      cbn [emit] in E. split_plain P. apply cons_bind in E as (h & E1 & E). rewrite jm_over in E1 by reflexivity.
      cbn [json_step] in E1. unfold j_enum_begin in E1. step_in E1. injection E1 as <-.
      apply run_bind in E as (h2 & E2 & E). rewrite run_one, jm_over in E by reflexivity. cbn [json_step] in E. unfold j_enum_end in E.
      assert (K2 : K tq h2).
      { eapply IHt; [|apply K_cde, K_it; eapply itb_K; [exact Kf|exact Q|exact X]|exact E2]. assumption. }
      step_in E. assert (K3 : K tq f1) by (destruct (f_cde h2); [eapply tag_K; eassumption|injection X0 as <-; exact K2]).
      destruct (f_it f1); [eapply map_end_K; eassumption|eapply ite_K; eassumption].
    - (* seq *)
      cbn [emit] in E, P. apply cons_bind in E as (h & E1 & E). rewrite jm_over in E1 by reflexivity.
      destruct (seq_begin_K _ _ _ Kf E1) as [K1 ->]. apply run_bind in E as (h2 & E2 & E).
      rewrite run_one, jm_over in E by reflexivity. eapply seq_end_K; [|exact E].
      cbn [forallb ev_plain andb] in P. rewrite forallb_app in P. apply andb_prop in P as [P _].
      eapply blocks_K; [|exact P|exact K1|exact E2]. intros v f1 g1 I Pv Kv Ev. rewrite Forall_forall in H.
      cbn [forallb ev_plain andb] in Pv. rewrite forallb_app in Pv. apply andb_prop in Pv as [Pv _].
      apply cons_bind in Ev as (b1 & Eb1 & Ev). rewrite jm_over in Eb1 by reflexivity. apply run_bind in Ev as (b2 & Eb2 & Ev).
      rewrite run_one, jm_over in Ev by reflexivity. injection Ev as <-.
      eapply H; [exact I|exact Pv| |exact Eb2]. eapply seq_value_begin_K; eassumption.
    - (* map *)
      cbn [emit] in E, P. apply cons_bind in E as (h & E1 & E). rewrite jm_over in E1 by reflexivity.
      destruct (map_begin_K _ _ _ Kf E1) as [K1 ->]. apply run_bind in E as (h2 & E2 & E).
      rewrite run_one, jm_over in E by reflexivity. eapply map_end_K; [|exact E].
      cbn [forallb ev_plain andb] in P. rewrite forallb_app in P. apply andb_prop in P as [P _].
      eapply blocks_K; [|exact P|exact K1|exact E2]. intros [k v] f1 g1 I Pv Kv Ev. rewrite Forall_forall in H.
      destruct (H _ I) as [Hk Hv]. cbn [fst snd] in Hk, Hv.
      cbn [forallb ev_plain andb] in Pv. rewrite forallb_app in Pv. apply andb_prop in Pv as [Pk Pv].
      cbn [forallb ev_plain andb] in Pv. rewrite forallb_app in Pv. apply andb_prop in Pv as [Pv _].
      apply cons_bind in Ev as (b1 & Eb1 & Ev). rewrite jm_over in Eb1 by reflexivity. apply run_bind in Ev as (b2 & Eb2 & Ev).
      apply cons_bind in Ev as (b3 & Eb3 & Ev). rewrite jm_over in Eb3 by reflexivity.
      apply cons_bind in Ev as (b4 & Eb4 & Ev). rewrite jm_over in Eb4 by reflexivity. injection Eb4 as <-.
      apply run_bind in Ev as (b5 & Eb5 & Ev). rewrite run_one, jm_over in Ev by reflexivity. injection Ev as <-.
      eapply Hv; [exact Pv| |exact Eb5]. eapply map_key_end_K; [|exact Eb3].
      eapply Hk; [exact Pk| |exact Eb2]. eapply map_key_begin_K; eassumption.
    - (* record *)
      cbn [emit] in E, P. apply cons_bind in E as (h & E1 & E). rewrite jm_over in E1 by reflexivity. cbn [json_step] in E1.
      unfold j_record_begin in E1. step_in E1. cbn [forallb ev_plain andb] in P. apply andb_prop in P as [PL P].
      rewrite forallb_app in P. apply andb_prop in P as [P _].
      destruct (map_begin_K _ _ _ (itb_K _ _ _ _ _ Kf PL X) E1) as [K1 ->]. apply run_bind in E as (h2 & E2 & E).
      rewrite run_one, jm_over in E by reflexivity. cbn [json_step] in E. unfold j_record_end in E. step_in E.
      eapply ite_K; [|exact E]. eapply map_end_K; [|exact X0].
      eapply blocks_K; [|exact P|exact K1|exact E2]. intros [[ft fl] v] f2 g1 I Pv Kv Ev. rewrite Forall_forall in H.
      pose proof (H _ I) as Hv. cbn [snd] in Hv.
      cbn [forallb ev_plain andb] in Pv. apply andb_prop in Pv as [Pl Pv]. rewrite forallb_app in Pv. apply andb_prop in Pv as [Pv _].
      apply cons_bind in Ev as (b1 & Eb1 & Ev). rewrite jm_over in Eb1 by reflexivity. apply run_bind in Ev as (b2 & Eb2 & Ev).
      rewrite run_one, jm_record_val_end in Ev. injection Ev as <-.
      eapply Hv; [exact Pv| |exact Eb2]. eapply record_value_begin_K; eassumption.
    - (* tuple *)
      cbn [emit] in E, P. apply cons_bind in E as (h & E1 & E). rewrite jm_over in E1 by reflexivity. cbn [json_step] in E1.
      unfold j_tuple_begin in E1. step_in E1. cbn [forallb ev_plain andb] in P. apply andb_prop in P as [PL P].
      rewrite forallb_app in P. apply andb_prop in P as [P _].
      destruct (seq_begin_K _ _ _ (itb_K _ _ _ _ _ Kf PL X) E1) as [K1 ->]. apply run_bind in E as (h2 & E2 & E).
      rewrite run_one, jm_over in E by reflexivity. cbn [json_step] in E. unfold j_tuple_end in E. step_in E.
      eapply ite_K; [|exact E]. eapply seq_end_K; [|exact X0].
      eapply blocks_K; [|exact P|exact K1|exact E2]. intros [[ft fi] v] f2 g1 I Pv Kv Ev. rewrite Forall_forall in H.
      pose proof (H _ I) as Hv. cbn [snd] in Hv.
      cbn [forallb ev_plain andb] in Pv. rewrite forallb_app in Pv. apply andb_prop in Pv as [Pv _].
      apply cons_bind in Ev as (b1 & Eb1 & Ev). rewrite jm_tuple_val_begin in Eb1. apply run_bind in Ev as (b2 & Eb2 & Ev).
      rewrite run_one, jm_tuple_val_end in Ev. injection Ev as <-.
      eapply Hv; [exact Pv| |exact Eb2]. eapply seq_value_begin_K; eassumption.
    - (* record tuple *)
      cbn [emit] in E, P. apply cons_bind in E as (h & E1 & E). rewrite jm_rectup_begin in E1.
      unfold j_record_begin in E1. step_in E1. cbn [forallb ev_plain andb] in P. apply andb_prop in P as [PL P].
      rewrite forallb_app in P. apply andb_prop in P as [P _].
      destruct (map_begin_K _ _ _ (itb_K _ _ _ _ _ Kf PL X) E1) as [K1 ->]. apply run_bind in E as (h2 & E2 & E).
      rewrite run_one, jm_rectup_end in E. unfold j_record_end in E. step_in E.
      eapply ite_K; [|exact E]. eapply map_end_K; [|exact X0].
      eapply blocks_K; [|exact P|exact K1|exact E2]. intros [[[ft fl] fi] v] f2 g1 I Pv Kv Ev. rewrite Forall_forall in H.
      pose proof (H _ I) as Hv. cbn [snd] in Hv.
      cbn [forallb ev_plain andb] in Pv. apply andb_prop in Pv as [Pl Pv]. rewrite forallb_app in Pv. apply andb_prop in Pv as [Pv _].
      apply cons_bind in Ev as (b1 & Eb1 & Ev). rewrite jm_rectup_val_begin in Eb1. apply run_bind in Ev as (b2 & Eb2 & Ev).
      rewrite run_one, jm_rectup_val_end in Ev. injection Ev as <-.
      eapply Hv; [exact Pv| |exact Eb2]. eapply record_value_begin_K; eassumption.
  Qed.
End Write.

(** ** Brackets of JSON texts *)

(** Reading past [s] leaves nothing open, if [n] more levels fit. *)
Definition past (s : bytes) (n : nat) : Prop :=
  forall r ks, lex_from LOut (s ++ r) <> None -> List.length ks + n <= 63 ->
  shallow_from LOut ks (s ++ r) = shallow_from LOut ks r /\ lex_from LOut (s ++ r) = lex_from LOut r.
Lemma past_nil n : past [] n. Proof. intros r ks _ _. split; reflexivity. Qed.
Lemma past_app a b n : past a n -> past b n -> past (a ++ b) n.
Proof.
  intros A B r ks L H. rewrite <- app_assoc in *. destruct (A _ ks L H) as [E1 E2]. rewrite E1, E2. rewrite E2 in L. exact (B r ks L H).
Qed.
Lemma past_le s n m : n <= m -> past s n -> past s m.
Proof. intros H A r ks L Hk. apply A; [exact L|lia]. Qed.
Definition level (b : byte) : bool :=
  let n := N_of_ascii b in negb (n =? 34)%N && negb (n =? 123)%N && negb (n =? 125)%N && negb (n =? 91)%N && negb (n =? 93)%N.
Lemma past_level s n : forallb level s = true -> past s n.
Proof.
  induction s as [|b s IH]; intros H; [apply past_nil|]. cbn [forallb] in H. apply andb_prop in H as [Hb Hs].
  change (b :: s) with ([b] ++ s). apply past_app; [|exact (IH Hs)]. clear IH Hs s.
  intros r ks L Hk. unfold level in Hb. repeat (apply andb_prop in Hb as [Hb ?]). rewrite negb_true_iff in *.
  cbn [app lex_from shallow_from lex_byte nest_byte] in *. repeat match goal with X : (_ =? _)%N = false |- _ => rewrite X in * end.
  destruct (N_of_ascii b =? 69)%N; [congruence|]. split; [|reflexivity].
  assert (Hle : (List.length ks <=? 63) = true) by (apply Nat.leb_le; lia). rewrite Hle. reflexivity.
Qed.

Lemma body_past b s : unescape b = Some s -> forall r ks, lex_from LStr (b ++ r) <> None -> List.length ks <= 63 ->
  shallow_from LStr ks (b ++ r) = shallow_from LStr ks r /\ lex_from LStr (b ++ r) = lex_from LStr r.
Proof.
  remember (List.length b) as n eqn:Hn. revert b s Hn. induction n as [n IH] using lt_wf_ind. intros b s -> E r ks L Hk.
  assert (Hle : (List.length ks <=? 63) = true) by (apply Nat.leb_le; lia).
  destruct b as [|c b]; [split; reflexivity|]. cbn [unescape] in E. unfold is_byte in E.
  cbn [app lex_from shallow_from lex_byte nest_byte] in *. rewrite Hle. cbn [andb].
  destruct (N_of_ascii c =? 34)%N; [discriminate|]. destruct (N_of_ascii c =? 92)%N.
  - destruct b as [|e b]; [discriminate|]. cbn [app lex_from shallow_from lex_byte nest_byte] in *. rewrite Hle. cbn [andb].
    destruct (N_of_ascii e =? 117)%N eqn:U.
    { apply N.eqb_eq in U. rewrite U in L. exfalso. apply L. reflexivity. }
    destruct (simple_escape e); [|discriminate]. destruct (unescape b) as [s'|] eqn:E'; [|discriminate].
    destruct ((N_of_ascii e =? 110)%N || _ || _ || _); [|congruence].
    eapply (IH (List.length b)); [cbn [List.length]; lia|reflexivity|exact E'|exact L|exact Hk].
  - destruct (N_of_ascii c <? 32)%N; [discriminate|]. destruct (unescape b) as [s'|] eqn:E'; [|discriminate].
    eapply (IH (List.length b)); [cbn [List.length]; lia|reflexivity|exact E'|exact L|exact Hk].
Qed.
Lemma past_quoted b s n : unescape b = Some s -> past (quoted b) n.
Proof.
  intros E r ks L Hk. unfold quoted in *. rewrite <- !app_assoc in *.
  assert (Hle : (List.length ks <=? 63) = true) by (apply Nat.leb_le; lia).
  cbn [app lex_from shallow_from] in *. change (lex_byte LOut (ascii_of_N 34)) with (Some LStr) in *.
  change (nest_byte LOut ks (ascii_of_N 34)) with (Some ks). rewrite Hle. cbn [andb].
  destruct (body_past b s E _ ks L ltac:(lia)) as [E1 E2]. rewrite E1, E2.
  cbn [app lex_from shallow_from]. change (lex_byte LStr (ascii_of_N 34)) with (Some LOut). cbn [nest_byte]. rewrite Hle.
  split; reflexivity.
Qed.
Lemma past_brackets o c k s n : 
  lex_byte LOut o = Some LOut -> lex_byte LOut c = Some LOut ->
  (forall ks, nest_byte LOut ks o = Some (k :: ks)) -> (forall ks, nest_byte LOut (k :: ks) c = Some ks) ->
  past s n -> past ([o] ++ s ++ [c]) (S n).
Proof.
  intros Lo Lc No Nc A r ks L Hk. rewrite <- !app_assoc in *. cbn [app lex_from shallow_from] in *. rewrite Lo in *. rewrite No.
  destruct (A _ (k :: ks) L ltac:(cbn [List.length]; lia)) as [E1 E2]. cbn [app] in E1, E2. rewrite E1, E2.
  cbn [lex_from shallow_from]. rewrite Lc, Nc. split; [|reflexivity].
  assert (H1 : (List.length ks <=? 63) = true) by (apply Nat.leb_le; lia).
  assert (H2 : (List.length (k :: ks) <=? 63) = true) by (apply Nat.leb_le; cbn [List.length]; lia).
  rewrite H1, H2. reflexivity.
Qed.
Lemma ws_level w : ws w -> forallb level w = true.
Proof.
  unfold ws. intros H. rewrite forallb_forall in *. intros b I. specialize (H b I).
  destruct b as [[] [] [] [] [] [] [] []]; first [discriminate H|reflexivity].
Qed.
Lemma digits_level s : forallb is_digit s = true -> forallb level s = true.
Proof.
  intros H. rewrite forallb_forall in *. intros b I. specialize (H b I).
  destruct b as [[] [] [] [] [] [] [] []]; first [discriminate H|reflexivity].
Qed.
Lemma number_level s m e : json_number s m e -> forallb level s = true.
Proof.
  intros (l & (((_ & A) & B & C) & _) & -> & _). unfold lit_text. rewrite !forallb_app.
  assert (Sg : forall s, forallb level (sgn_text s) = true) by (intros []; reflexivity).
  repeat (apply andb_true_iff; split).
  - apply Sg.
  - apply digits_level, A.
  - destruct (lt_frac l) as [d|]; [|reflexivity]. exact (digits_level _ (proj2 B)).
  - destruct (lt_exp l) as [[[x s] d]|]; [|reflexivity]. cbn [exp_text forallb].
    destruct C as (E & D). apply andb_true_iff; split; [destruct E as [->| ->]; reflexivity|].
    rewrite forallb_app. apply andb_true_iff; split; [apply Sg|apply digits_level, D].
Qed.

Lemma text_past s j : json_text s j -> past s (height j).
Proof.
  revert s j. apply (json_text_mind (fun s j _ => past s (height j)) (fun s j _ => past s (height j))
    (fun s vs _ => past s (fold_right Nat.max 0 (map height vs)))
    (fun s ms _ => past s (fold_right Nat.max 0 (map (fun m => height (snd m)) ms)))); cbn [height map fold_right snd].
  - apply past_level. reflexivity.
  - apply past_level. reflexivity.
  - apply past_level. reflexivity.
  - intros s m e H. apply past_level. exact (number_level _ _ _ H).
  - intros b s E. exact (past_quoted _ _ _ E).
  - intros w H. apply (past_brackets _ _ KSeq); try reflexivity. apply past_level, ws_level, H.
  - intros s vs _ IH. apply (past_brackets _ _ KSeq); try reflexivity. exact IH.
  - intros w H. apply (past_brackets _ _ KMap); try reflexivity. apply past_level, ws_level, H.
  - intros s vs _ IH. apply (past_brackets _ _ KMap); try reflexivity. exact IH.
  - intros w1 s w2 v H1 H2 _ IH. repeat apply past_app; [apply past_level, ws_level, H1|exact IH|apply past_level, ws_level, H2].
  - intros s v _ IH. eapply past_le; [|exact IH]. lia.
  - intros s v r vs _ IH _ IHr. repeat apply past_app; [eapply past_le; [|exact IH]; lia|apply past_level; reflexivity|eapply past_le; [|exact IHr]; lia].
  - intros w1 w2 b k s v H1 H2 E _ IH.
    do 4 (apply past_app; [first [apply past_level, ws_level; assumption|exact (past_quoted _ _ _ E)|apply past_level; reflexivity]|]).
    eapply past_le; [|exact IH]; lia.
  - intros w1 w2 b k s v r ms H1 H2 E _ IH _ IHr.
    do 4 (apply past_app; [first [apply past_level, ws_level; assumption|exact (past_quoted _ _ _ E)|apply past_level; reflexivity]|]).
    apply past_app; [eapply past_le; [|exact IH]; lia|]. apply past_app; [apply past_level; reflexivity|]. eapply past_le; [|exact IHr]; lia.
Qed.

(** ** C56 *)

(** What is written for a value is read back, by the reader of the [experiments]
    crate, as a value that stands for the same JSON. *)
Definition C56_values_read_back : Prop :=
  forall r32 r64, plain_printer r32 -> plain_printer r64 ->
  forall v t j, streams v t -> image r32 r64 false t j -> safe t -> value_utf8 v = true ->
  exists s t', json_to_string r32 r64 v = SOk s /\ from_slice s = (emit t', MOk tt) /\ stands_for t' j.
(** Missing: control characters, texts tagged as raw JSON, and more than 63 levels. *)
Theorem C56_values_read_back_partial :
  forall r32 r64, plain_printer r32 -> plain_printer r64 ->
  forall v t j, streams v t -> image r32 r64 false t j -> safe t -> value_utf8 v = true ->
  forallb ev_plain (emit t) = true -> height j <= 63 ->
  exists s t', json_to_string r32 r64 v = SOk s /\ from_slice s = (emit t', MOk tt) /\ stands_for t' j.
Proof.
  intros r32 r64 (P32 & E32 & U32) (P64 & E64 & U64) v t j H Im Sa U Pl Hh.
  destruct (C20_json_denotes_value_partial r32 r64 P32 P64 v t j H Im Sa) as (s & E & T).
  assert (L : lex_from LOut s = Some LOut).
  { rewrite (to_string_run _ _ _ _ H) in E. 
    destruct (run _ _ _) as [f| |] eqn:R in E; [|discriminate..]. injection E as <-.
    refine (proj2 (proj2 (emit_K r32 r64 P32 P64 E32 E64 t true _ f Pl _ R))). repeat split. }
  assert (Sh : shallow_from LOut [] s = true).
  { destruct (text_past s j T [] []) as [E1 _]; [rewrite app_nil_r, L; discriminate|exact Hh|]. rewrite app_nil_r in E1. exact E1. }
  destruct (C54_reads_json_partial s j T (C29_string_is_utf8 r32 r64 v s U32 U64 U E) (C54_shallow_texts_supported s Sh)) as (t' & Sf & R).
  exists s, t'. auto.
Qed.
(** Read back and written once more, it is a text for the same JSON again. *)
Theorem C56_written_again_partial :
  forall r32 r64, plain_printer r32 -> plain_printer r64 ->
  forall v t j, streams v t -> image r32 r64 false t j -> safe t -> value_utf8 v = true ->
  forallb ev_plain (emit t) = true -> height j <= 63 ->
  exists s s', json_to_string r32 r64 v = SOk s /\ json_to_string r32 r64 (slice_calls s) = SOk s' /\ json_text s' j.
Proof.
  intros r32 r64 P32 P64 v t j H Im Sa U Pl Hh.
  destruct (C56_values_read_back_partial r32 r64 P32 P64 v t j H Im Sa U Pl Hh) as (s & t' & E & R & Sf).
  destruct (C56_read_values_write r32 r64 (proj1 P32) (proj1 P64) (slice_calls s) t' j) as (s' & E' & T).
  - unfold slice_calls. rewrite R. apply flat_CE_false.
  - exact Sf.
  - exists s, s'. auto.
Qed.

Lemma exact_print_plain : plain_printer exact_print.
Proof.
  assert (DE : forall z, forallb (fun b => negb (N_of_ascii b =? 69)%N) (dec z) = true).
  { intros z. assert (D : forall u, forallb (fun b => negb (N_of_ascii b =? 69)%N) (bytes_of_uint u) = true) by (induction u; [reflexivity|assumption..]).
    unfold dec. destruct (z <? 0)%Z; apply D. }
  assert (DN : forall n, forallb (fun b => negb (N_of_ascii b =? 69)%N) (dec_N n) = true).
  { intros n. unfold dec_N. induction (N.to_uint n); [reflexivity|assumption..]. }
  split; [exact exact_print_json|]. split; intros [s|s| |s m [|k|k]]; cbn [exact_print]; try reflexivity; try apply DE; try apply dec_utf8.
  - rewrite !forallb_app, DE, DN. reflexivity.
  - apply utf8_app; [apply dec_utf8|]. apply (utf8_app (bs "e-")); [reflexivity|]. apply digits_utf8, bytes_of_uint_digits.
Qed.

(** A tab is written as an escape the reader does not have. *)
Theorem C56_values_read_back_refuted : ~ C56_values_read_back.
Proof.
  intros H. destruct (H exact_print exact_print exact_print_plain exact_print_plain
    (map CE (emit (TText None [(true, [ascii_of_N 9])]))) (TText None [(true, [ascii_of_N 9])]) (JStr [ascii_of_N 9])) as (s & t' & E & R & _).
  - apply flat_CE_false.
  - reflexivity.
  - exact I.
  - reflexivity.
  - vm_compute in E. injection E as <-. apply (f_equal snd) in R. vm_compute in R. discriminate R.
Qed.

Definition plain_sample : tree :=
  TRecord None (Some (label_new (bs "S"))) None None
    [(None, label_new (bs "k"), TSeq None [TInt I64 (-3); TText None [(true, bs "a" ++ [ascii_of_N 10]); (false, bs """")]; TNull]);
     (None, label_new (bs "m"), TMap None [(TInt U8 1, TF64 (S754_finite false 3 (-1))); (TText None [(true, bs "t")], TBin None [(true, bs "x")])])].
Definition plain_image : jv :=
  JObj [(bs "k", JArr [JNum (-3) 0; JStr (bs "a" ++ [ascii_of_N 10] ++ bs """"); JNull]);
        (bs "m", JObj [(bs "1", JNum 15 (-1)); (bs "t", JArr [JNum 120 0])])].
Example C56_plain_case :
  forallb ev_plain (emit plain_sample) = true /\ value_utf8 (map CE (emit plain_sample)) = true /\ height plain_image = 3 /\
  image exact_print exact_print false plain_sample plain_image /\ safe plain_sample /\
  exists s, json_to_string exact_print exact_print (map CE (emit plain_sample)) = SOk s /\
    s = bs "{""k"":[-3,""a\n\"""",null],""m"":{""1"":15e-1,""t"":[120]}}" /\ snd (from_slice s) = MOk tt.
Proof.
  split; [reflexivity|]. split; [reflexivity|]. split; [reflexivity|]. split; [|split; [repeat split|]].
  - assert (F : float_image exact_print (S754_finite false 3 (-1)) (JNum 15 (-1))).
    { exists 15%Z, (-1)%Z. split; [|reflexivity]. exists (MkLit NoSign (bs "15") None (Some ("e"%char, Minus, bs "1"))).
      split; [|split; reflexivity]. split; [|split; [discriminate|right; discriminate]].
      repeat split; try discriminate. left. reflexivity. }
    unfold plain_sample, plain_image. cbn [image wrap].
    repeat (cbv iota beta; match goal with |- exists _, _ = _ /\ _ => eexists; split; [reflexivity|] | |- float_image _ _ _ => exact F | |- _ /\ _ => split end);
      try reflexivity; exact I.
  - eexists. split; [vm_compute; reflexivity|]. split; reflexivity.
Qed.

Print Assumptions C56_values_read_back_partial.
Print Assumptions C56_written_again_partial.
Print Assumptions C56_values_read_back_refuted.
