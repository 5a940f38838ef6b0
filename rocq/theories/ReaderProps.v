(** * ReaderProps: C54-C56 *)

From Verif Require Import Base Event Tree FlatProofs Utf8 LowerModel LowerSpec LowerProofs MethProofs DataModel JsonModel JsonGrammar JsonParse JsonSpec JsonProofs JsonMethProofs JsonImageProofs JsonProps StackModel StackProps
  ReaderModel ReaderSpec ReaderProofs ReaderNestProofs.

(** ** C54: reading a JSON text gives the value it stands for *)

Definition C54_reads_json : Prop := forall s j, json_text s j -> utf8 s = true ->
  exists t, stands_for t j /\ from_slice s = (emit t, MOk tt).
Theorem C54_reads_json_partial : forall s j, json_text s j -> utf8 s = true -> supported s = true ->
  exists t, stands_for t j /\ from_slice s = (emit t, MOk tt).
Proof.
  intros s j T U S. rewrite <- (app_nil_r s) in U, S.
  destruct (all_read s j T [] PRoot [] I I S U) as (_ & _ & t & Sf & R). exists t. split; [exact Sf|].
  rewrite app_nil_r in R. specialize (R [] (MOk tt)). cbn [pre app] in R. rewrite app_nil_r in R.
  apply from_slice_runs, R. exists 1. reflexivity.
Qed.

(** Texts nested no deeper than 63 levels need no look at the counters. *)
Fixpoint shallow_from (l : lexer) (ks : list ckind) (s : bytes) : bool :=
  (List.length ks <=? 63) &&
  match s with
  | [] => true
  | b :: s' => match lex_byte l b, nest_byte l ks b with Some l', Some ks' => shallow_from l' ks' s' | _, _ => false end
  end.
Theorem C54_shallow_texts_supported : forall s, shallow_from LOut [] s = true -> supported s = true.
Proof.
  assert (SM : forall ks, List.length ks <= 63 -> small ks = true).
  { intros ks L. unfold small. pose proof (counters_bound ks) as (B1 & B2 & _).
    destruct (counters ks) as [m q]. cbn [fst snd] in *.
    assert (P : (2 ^ N.of_nat (List.length ks) <= 2 ^ 63)%N) by (apply N.pow_le_mono_r; lia).
    assert (E : (2 ^ 63 < U64_LIM)%N) by reflexivity.
    apply andb_true_intro. split; apply N.ltb_lt; lia. }
  intros s. unfold supported. generalize LOut, (@nil ckind). induction s as [|b s IH]; intros l ks H; cbn [shallow_from supported_from] in *;
    apply andb_true_iff in H as [H1 H2]; apply Nat.leb_le in H1; rewrite (SM ks H1); [reflexivity|]. cbn [andb].
  destruct (lex_byte l b); [|discriminate]. destruct (nest_byte l ks b); [|discriminate]. apply IH, H2.
Qed.

Definition sample : bytes :=
  bs " { ""a\n"" : [1, -2.5e3 ,true, null,{}] , ""b"":""x\""y"" } ".
Definition sample_value : jv :=
  JObj [(bs "a" ++ [ascii_of_N 10], JArr [JNum 1 0; JNum (-25) 2; JBool true; JNull; JObj []]);
        (bs "b", JStr (bs "x" ++ [ascii_of_N 34] ++ bs "y"))].
Example C54_sample : supported sample = true /\ utf8 sample = true /\ shallow_from LOut [] sample = true /\
  snd (from_slice sample) = MOk tt.
Proof. repeat split; reflexivity. Qed.

(** A tab written the way [sval_json] writes it, and an exponent with a capital letter. *)
Definition tab_text : bytes := quoted [ascii_of_N 92; ascii_of_N 116].
Theorem C54_reads_json_refuted : ~ C54_reads_json.
Proof.
  intros H. destruct (H tab_text (JStr [ascii_of_N 9])) as (t & _ & E).
  - change tab_text with ([] ++ tab_text ++ []). constructor; [reflexivity|reflexivity|]. apply jv_str. reflexivity.
  - reflexivity.
  - apply (f_equal snd) in E. vm_compute in E. discriminate E.
Qed.
Theorem C54_capital_exponent_panics : json_text (bs "1E5") (JNum 1 5) /\ snd (from_slice (bs "1E5")) = MPanic.
Proof.
  split; [|vm_compute; reflexivity]. change (bs "1E5") with ([] ++ bs "1E5" ++ []). constructor; [reflexivity|reflexivity|]. apply jv_num.
  exists (MkLit NoSign (bs "1") None (Some ("E"%char, NoSign, bs "5"))). repeat split; try discriminate; auto. right. discriminate.
Qed.

(** ** C55: what the reader accepts *)

Theorem C55_accepted_texts_nest : forall s es, from_slice s = (es, MOk tt) -> brackets_nest s.
Proof.
  intros s es H. apply from_slice_runs in H as [n H]. exact (all_nest n s reader_new es [] eq_refl H).
Qed.
(** It looks at every byte at most once: as many turns as there are bytes, and one. *)
Theorem C55_reading_ends : forall s, exists es o, resume_all (S (List.length s)) s reader_new = Some (es, o) /\ from_slice s = (es, o).
Proof.
  intros s. unfold from_slice. pose proof (enough_turns (S (List.length s)) s reader_new ltac:(lia)) as X.
  destruct (resume_all (S (List.length s)) s reader_new) as [[es o]|]; [eauto|congruence].
Qed.
Example C55_mixed_brackets : snd (from_slice (bs "[{""a"":1]}")) = MPanic /\ snd (from_slice (bs "[[1]")) = MErr /\ snd (from_slice (bs "[1]]")) = MPanic.
Proof. vm_compute. repeat split. Qed.

(** But not every accepted text is JSON. *)
Definition C55_accepts_only_json : Prop := forall s es, from_slice s = (es, MOk tt) -> exists j, json_text s j.
Theorem C55_accepts_only_json_refuted : ~ C55_accepts_only_json.
Proof.
  intros H. destruct (H (bs "[1 2]") _ eq_refl) as (j & T). revert T. apply not_json. vm_compute. reflexivity.
Qed.
(** Missing separators, separators too many, nothing at all, an open string. *)
Definition junk : list bytes := [bs "[1 2]"; bs "[1,]"; bs """abc"; bs ""; bs "1 2"; bs "truefalse"; bs "--1"; bs "{""a"":1 2}"].
Theorem C55_accepted_junk : Forall (fun s => snd (from_slice s) = MOk tt /\ forall j, ~ json_text s j) junk.
Proof. unfold junk. repeat (constructor; [split; [vm_compute; reflexivity|intros j; apply not_json; vm_compute; reflexivity]|]). constructor. Qed.

(** Every piece of text it passes on is valid UTF-8, whatever the input and however it ends. *)
Definition good_ev (e : ev) : Prop := match e with ETextFrag s | ETextFragC s => utf8 s = true | _ => True end.
Definition good {A} (x : does A) : Prop := Forall good_ev (fst x).
Lemma good_ret {A} (a : A) : good (ret a). Proof. constructor. Qed.
Lemma good_todo {A} : good (@todo A). Proof. constructor. Qed.
Lemma good_say e : good_ev e -> good (say e). Proof. repeat constructor. assumption. Qed.
Lemma good_then {A B} (x : does A) (f : A -> does B) : good x -> (forall a, good (f a)) -> good (x >>> f).
Proof.
  unfold good. destruct x as [es [a| |]]; cbn; intros H F; [|exact H..]. specialize (F a). destruct (f a) as [es' o]. cbn in *.
  apply Forall_app. auto.
Qed.
Lemma good_lift r x : good (lift_stack r x). Proof. destruct x; constructor. Qed.
Lemma good_maybe s r : good (maybe_done s r).
Proof. destruct s; cbn; [destruct (finish (r_stack r))|]; constructor. Qed.
Lemma good_fail {A} : good (A := A) ([], MErr). Proof. constructor. Qed.
Lemma good_panic {A} : good (A := A) ([], MPanic). Proof. constructor. Qed.
Ltac goods := repeat (first [ apply good_ret | apply good_todo | apply good_lift | apply good_maybe | apply good_fail | apply good_panic
  | apply good_say; exact I | apply good_then; [|intros] ]).
Lemma utf8_ascii s : forallb (fun b => (N_of_ascii b <? 128)%N) s = true -> utf8 s = true.
Proof.
  induction s as [|b s IH]; [reflexivity|]. cbn [forallb]. intros H. apply andb_true_iff in H as [H1 H2]. apply utf8_cons; [exact H1|apply IH, H2].
Qed.
Lemma number_utf8 s : utf8 (fst (number s)) = true.
Proof.
  destruct (number_app s) as [_ P]. apply utf8_ascii. induction (fst (number s)) as [|b n IH]; [reflexivity|]. cbn [forallb] in *.
  apply andb_true_iff in P as [P1 P2]. rewrite (IH P2), andb_true_r. unfold plain_byte in P1. apply andb_true_iff in P1 as [_ P1]. exact P1.
Qed.
Lemma fragment_utf8 s f p r : str_fragment s = MOk (f, p, r) -> utf8 f = true.
Proof.
  destruct s as [|b s]; [discriminate|]. cbn [str_fragment]. destruct (byte_is 92 b).
  - destruct s as [|e s]; [discriminate|]. intros H.
    repeat match type of H with (if ?c then _ else _) = _ => destruct c end; try discriminate; injection H as <- _ _; reflexivity.
  - destruct (scan_fragment (b :: s)) as [[g q] t]. destruct (utf8 g) eqn:U; [|discriminate]. intros Q. injection Q as <- _ _. exact U.
Qed.
Lemma good_container r : good (begin_container r). Proof. unfold begin_container. destruct (r_pos r); goods. Qed.
Lemma good_str r : good (rd_str_begin r). Proof. unfold rd_str_begin. destruct (r_pos r); goods. Qed.
Lemma good_value r : good (rd_value_begin r). Proof. unfold rd_value_begin. destruct (r_pos r); goods. Qed.
Lemma good_resume s r : good (resume s r).
Proof.
  unfold resume. destruct (r_in_str r).
  - destruct (str_fragment s) as [[[f p] t]| |] eqn:F; goods; [apply good_say; exact (fragment_utf8 _ _ _ _ F)|]. destruct p; goods.
  - induction s as [|b s IH]; cbn [resume_out]; [apply good_maybe|].
    assert (W : forall w e, good_ev e -> good (rd_word w e (b :: s) r)).
    { intros w e G. unfold rd_word. destruct (word (bs w) (b :: s)); goods; [apply good_value|apply good_say, G]. }
    repeat match goal with |- good (if ?c then _ else _) => destruct c end; try exact IH; try (apply W; exact I); try apply good_todo.
    + unfold rd_string. goods; [apply good_str|]. destruct (str_fragment s) as [[[f p] t]| |] eqn:F; goods; [apply good_say; exact (fragment_utf8 _ _ _ _ F)|]. destruct p; goods.
    + unfold rd_more, rd_map_begin. goods. apply good_container.
    + unfold rd_done, rd_map_end. goods. destruct (r_pos r); goods.
    + unfold rd_more, rd_seq_begin. goods. apply good_container.
    + unfold rd_done, rd_seq_end. goods. destruct (r_pos r); goods.
    + unfold rd_more, rd_map_key_end. goods. destruct (r_pos r); goods.
    + unfold rd_more, rd_comma. goods. destruct (r_pos r); goods.
    + unfold rd_number. pose proof (number_utf8 (b :: s)) as U. destruct (number (b :: s)) as [n t]. goods; [apply good_value|apply good_say, U].
Qed.
Theorem C55_texts_are_utf8 : forall s es o, from_slice s = (es, o) -> forall f, In (ETextFrag f) es \/ In (ETextFragC f) es -> utf8 f = true.
Proof.
  intros s es o H. apply from_slice_runs in H as [n H].
  assert (G : Forall good_ev es).
  { revert H. generalize reader_new. revert s es. induction n as [|n IH]; intros s es r; [discriminate|]. cbn [resume_all].
    pose proof (good_resume s r) as G. destruct (resume s r) as [e1 [[s' r'|]| |]]; [|intros Q; injection Q as <- _; exact G..].
    destruct (resume_all n s' r') as [[e2 o']|] eqn:E; [|discriminate]. intros Q. injection Q as <- ->. apply Forall_app. split; [exact G|]. exact (IH _ _ _ E). }
  rewrite Forall_forall in G. intros f [I|I]; exact (G _ I).
Qed.

(** What it passes on of an object starts with a key or the end, and so it goes on after
    every value (or, for [{"a":1,:}] and the like, with the end of a key that did not begin);
    whatever the input and however it ends. *)
Definition after_open (x y : ev) : Prop :=
  match x with
  | EMapBegin _ => y = EMapKeyBegin \/ y = EMapEnd
  | EMapValEnd => y = EMapKeyBegin \/ y = EMapEnd \/ y = EMapKeyEnd
  | _ => True
  end.
Definition ob_oafter (l : option ev) (y : ev) : Prop := match l with Some x => after_open x y | None => True end.
Fixpoint ob_chain (l : option ev) (es : list ev) : Prop :=
  match es with [] => True | e :: es => ob_oafter l e /\ ob_chain (Some e) es end.
Fixpoint ob_lastof (l : option ev) (es : list ev) : option ev :=
  match es with [] => l | e :: es => ob_lastof (Some e) es end.
Lemma chain_app l es es' : ob_chain l (es ++ es') <-> ob_chain l es /\ ob_chain (ob_lastof l es) es'.
Proof. revert l. induction es as [|e es IH]; intros l; cbn; [tauto|]. rewrite IH. tauto. Qed.
Lemma lastof_app l es es' : ob_lastof l (es ++ es') = ob_lastof (ob_lastof l es) es'.
Proof. revert l. induction es as [|e es IH]; intros l; cbn; [reflexivity|apply IH]. Qed.
Definition ob_opened (l : option ev) (r : reader) : Prop :=
  match l with
  | Some (EMapBegin _) => r_in_str r = false /\ r_pos r = PMapEmpty
  | Some EMapValEnd => r_in_str r = false /\ r_pos r = PMapKey
  | _ => True
  end.
Definition ob_safe {A} (l : option ev) (x : does A) (Q : option ev -> A -> Prop) : Prop :=
  ob_chain l (fst x) /\ match snd x with MOk a => Q (ob_lastof l (fst x)) a | _ => True end.
Lemma safe_then {A B} l (x : does A) (f : A -> does B) Q R : ob_safe l x Q -> (forall l a, Q l a -> ob_safe l (f a) R) -> ob_safe l (x >>> f) R.
Proof.
  unfold ob_safe. destruct x as [es [a| |]]; cbn; intros (C & H) F; [|auto..]. destruct (F _ _ H) as (C' & H'). destruct (f a) as [es' o]. cbn in *.
  rewrite chain_app, lastof_app. auto.
Qed.
Lemma safe_ret {A} l (a : A) (Q : option ev -> A -> Prop) : Q l a -> ob_safe l (ret a) Q. Proof. split; [exact I|exact H]. Qed.
Lemma safe_say l e (Q : option ev -> unit -> Prop) : ob_oafter l e -> Q (Some e) tt -> ob_safe l (say e) Q. Proof. split; [split; [exact H|exact I]|exact H0]. Qed.
Lemma safe_stop {A} l (o : ends A) Q : (forall a, o <> MOk a) -> ob_safe l ([], o) Q.
Proof. intros H. split; [exact I|]. destruct o; [destruct (H a); reflexivity|exact I..]. Qed.
Definition ob_shut (l : option ev) : Prop := match l with Some (EMapBegin _) | Some EMapValEnd => False | _ => True end.
Lemma shut_opened l r : ob_shut l -> ob_opened l r.
Proof. destruct l as [[]|]; cbn; tauto. Qed.
Lemma shut_after l e : ob_shut l -> ob_oafter l e.
Proof. destruct l as [[]|]; cbn; tauto. Qed.
Definition ob_next (l : option ev) (x : resumed) : Prop := match x with More _ r => ob_opened l r | Done => True end.
Lemma safe_maybe l s r : ob_opened l r -> ob_safe l (maybe_done s r) ob_next.
Proof. intros H. unfold maybe_done. destruct s; [destruct (finish (r_stack r))|]; split; cbn; auto. Qed.
Lemma safe_shut {A} l e (f : unit -> does A) R : ob_shut l -> ob_shut (Some e) -> (forall l, ob_shut l -> ob_safe l (f tt) R) -> ob_safe l (say e >>> f) R.
Proof. intros H1 H2 F. apply (safe_then _ _ _ (fun l _ => ob_shut l)); [apply safe_say; [apply shut_after, H1|exact H2]|]. intros l' [] H. apply F, H. Qed.
Lemma class_of l : ob_shut l \/ (exists n, l = Some (EMapBegin n)) \/ l = Some EMapValEnd.
Proof. destruct l as [[]|]; cbn; eauto. Qed.
Ltac ob_says := repeat (apply safe_shut; [assumption || exact I|exact I|let l := fresh "l" in let H := fresh "H" in intros l H]).
Lemma safe_lift_stack {B} l r x (f : reader -> does B) R : (forall st, ob_safe l (f (MkReader (r_in_str r) st (r_pos r))) R) -> ob_safe l (lift_stack r x >>> f) R.
Proof.
  intros H. destruct x as [st|st|]; cbn [lift_stack].
  - apply (safe_then _ _ _ (fun l' r' => l' = l /\ r' = MkReader (r_in_str r) st (r_pos r))); [apply safe_ret; auto|]. intros l' r' (-> & ->). apply H.
  - split; exact I.
  - split; exact I.
Qed.
Lemma safe_todo {A B} l (f : A -> does B) R : ob_safe l (todo >>> f) R. Proof. split; exact I. Qed.
Lemma safe_ret_then {A B} l (a : A) (f : A -> does B) R : ob_safe l (f a) R -> ob_safe l (ret a >>> f) R.
Proof. intros H. apply (safe_then _ _ _ (fun l' a' => l' = l /\ a' = a)); [apply safe_ret; auto|]. intros l' a' (-> & ->). exact H. Qed.
Lemma safe_say_then {B} l e (f : unit -> does B) R : ob_oafter l e -> ob_safe (Some e) (f tt) R -> ob_safe l (say e >>> f) R.
Proof. intros A H. apply (safe_then _ _ _ (fun l' a' => l' = Some e)); [apply safe_say; auto|]. intros l' [] ->. exact H. Qed.
Lemma safe_assoc {A B C} l (x : does A) (f : A -> does B) (g : B -> does C) R :
  ob_safe l (x >>> (fun a => f a >>> g)) R -> ob_safe l (x >>> f >>> g) R.
Proof.
  destruct x as [es [a| |]]; cbn; auto. destruct (f a) as [es1 [b| |]]; cbn; auto. destruct (g b) as [es2 o]. rewrite app_assoc. auto.
Qed.
Ltac ob_done1 := first
  [ apply safe_assoc; ob_done1 | apply safe_todo | apply safe_ret_then; ob_done1
  | apply safe_lift_stack; intros ?; ob_done1
  | apply safe_say_then; [first [exact I|assumption|cbn; tauto|apply shut_after; assumption]|]; ob_done1
  | idtac ].
Lemma safe_resume l s r : ob_opened l r -> ob_safe l (resume s r) ob_next.
Proof.
  intros O. unfold resume. destruct (r_in_str r) eqn:IS.
  - assert (Sh : ob_shut l) by (destruct (class_of l) as [H|[(n & ->)| ->]]; [exact H|destruct O; congruence..]).
    destruct (str_fragment s) as [[[f p] t]| |]; [|split; exact I..]. apply safe_say_then; [apply shut_after, Sh|].
    destruct p; [apply safe_ret; exact I|]. apply safe_say_then; [exact I|]. apply safe_maybe. exact I.
  - induction s as [|b s IH]; cbn [resume_out]; [apply safe_maybe, O|].
    assert (V : forall f, (forall l r, ob_shut l -> ob_safe l (f r) ob_next) -> ob_safe l (rd_value_begin r >>> f) ob_next).
    { intros f F. unfold rd_value_begin. destruct (class_of l) as [Sh|[(n & ->)| ->]].
      - destruct (r_pos r); ob_done1; try (apply F; exact I); apply F, Sh.
      - destruct O as (_ & ->). ob_done1.
      - destruct O as (_ & ->). ob_done1. }
    assert (B : forall (f : unit -> does resumed), (forall l, ob_shut l -> ob_safe l (f tt) ob_next) -> ob_safe l (begin_container r >>> f) ob_next).
    { intros f F. unfold begin_container. destruct (class_of l) as [Sh|[(n & ->)| ->]].
      - destruct (r_pos r); ob_done1; try (apply F; exact I); apply F, Sh.
      - destruct O as (_ & ->). ob_done1.
      - destruct O as (_ & ->). ob_done1. }
    assert (W : forall w e, ob_shut (Some e) -> ob_safe l (rd_word w e (b :: s) r) ob_next).
    { intros w e Se. unfold rd_word. destruct (word (bs w) (b :: s)); [|split; exact I]. apply V. intros l' r' Sh.
      apply safe_say_then; [apply shut_after, Sh|]. apply safe_maybe, shut_opened, Se. }
    repeat match goal with |- ob_safe l (if ?c then _ else _) _ => destruct c end; try exact IH; try (apply W; exact I); try (split; exact I).
    + unfold rd_string.
      assert (SF : forall l r, ob_shut l -> ob_safe l (match str_fragment s with
        | MOk (f, partial, s') => say (ETextBegin None) >>> (fun _ => say (ETextFrag f) >>> (fun _ => if partial then ret (More s' (set_in_str true r)) else say ETextEnd >>> (fun _ => maybe_done s' r)))
        | MErr => ([], MErr) | MPanic => ([], MPanic) end) ob_next).
      { intros l' r' Sh. destruct (str_fragment s) as [[[f p] t]| |]; [|split; exact I..]. ob_done1.
        destruct p; [apply safe_ret; exact I|]. apply safe_say_then; [exact I|]. apply safe_maybe. exact I. }
      unfold rd_str_begin. destruct (class_of l) as [Sh|[(n & ->)| ->]].
      * destruct (r_pos r); ob_done1; apply SF; exact I || exact Sh.
      * destruct O as (_ & ->). ob_done1. apply SF. exact I.
      * destruct O as (_ & ->). ob_done1. apply SF. exact I.
    + unfold rd_more, rd_map_begin. repeat apply safe_assoc; apply B. intros l' Sh. ob_done1. apply safe_ret. cbn. rewrite IS. auto.
    + unfold rd_done, rd_map_end. destruct (class_of l) as [Sh|[(n & ->)| ->]].
      * destruct (r_pos r); ob_done1; apply safe_maybe; exact I.
      * destruct O as (_ & ->). ob_done1. apply safe_maybe; exact I.
      * destruct O as (_ & ->). ob_done1.
    + unfold rd_more, rd_seq_begin. repeat apply safe_assoc; apply B. intros l' Sh. ob_done1. apply safe_ret. exact I.
    + unfold rd_done, rd_seq_end. destruct (class_of l) as [Sh|[(n & ->)| ->]].
      * destruct (r_pos r); ob_done1; apply safe_maybe; exact I.
      * destruct O as (_ & ->). ob_done1.
      * destruct O as (_ & ->). ob_done1.
    + unfold rd_more, rd_map_key_end. destruct (class_of l) as [Sh|[(n & ->)| ->]].
      * destruct (r_pos r); ob_done1; apply safe_ret; exact I.
      * destruct O as (_ & ->). ob_done1.
      * destruct O as (_ & ->). ob_done1. apply safe_ret. exact I.
    + unfold rd_more, rd_comma. destruct (class_of l) as [Sh|[(n & ->)| ->]].
      * destruct (r_pos r); ob_done1; apply safe_ret; cbn; auto.
      * destruct O as (_ & ->). ob_done1.
      * destruct O as (_ & ->). ob_done1.
    + unfold rd_number. destruct (number (b :: s)) as [n t]. repeat apply safe_assoc. apply V. intros l' r' Sh. ob_done1. apply safe_maybe. exact I.
Qed.
Theorem C55_objects_keep_order : forall s es o, from_slice s = (es, o) ->
  forall before x y rest, es = before ++ x :: y :: rest -> after_open x y.
Proof.
  intros s es o H. apply from_slice_runs in H as [n H].
  assert (G : ob_chain None es).
  { revert H. assert (O : ob_opened None reader_new) by exact I. revert O. generalize reader_new. generalize (@None ev). revert s es. induction n as [|n IH]; intros s es l r O; [discriminate|]. cbn [resume_all].
    destruct (safe_resume l s r O) as (G & N). destruct (resume s r) as [e1 [[s' r'|]| |]]; [|intros Q; injection Q as <- _; exact G..].
    destruct (resume_all n s' r') as [[e2 o']|] eqn:E; [|discriminate]. intros Q. injection Q as <- ->. apply chain_app. split; [exact G|]. exact (IH _ _ _ _ N E). }
  intros before x y rest ->. apply chain_app in G as (_ & _ & G & _). exact G.
Qed.
Example C55_objects_case : exists es b n, from_slice (bs "[{""a"":{}}]") = (es, MOk tt) /\ es = b ++ EMapBegin n :: EMapKeyBegin :: skipn 4 es.
Proof. eexists _, [_; _], None. split; [vm_compute; reflexivity|reflexivity]. Qed.
Example C55_texts_case : exists es, from_slice (bs """a"" ""b\n""") = (es, MOk tt) /\ In (ETextFrag (bs "b")) es.
Proof. eexists. split; [vm_compute; reflexivity|]. vm_compute. tauto. Qed.

(** ** C56: from JSON to JSON through a reader and a writer *)

Section ToJson.
  Variable r32 r64 : float -> bytes.
  Notation J := (run (meth json_over (json_step bytes string_write r32 r64))).

  (** A number loses nothing by the inner tag. *)
  Lemma number_run n s f : J f (emit (TTagged (Some JSON_NUMBER) None None (TTagged (Some NUMBER) None None (TText n [(true, s)])))) =
    J f (emit (TTagged (Some JSON_NUMBER) None None (TText n [(true, s)]))).
  Proof. destruct f as [it cde tq th err out]. destruct it; reflexivity. Qed.

  Definition same_run (t t' : tree) : Prop := forall f, J f (emit t) = J f (emit t').
  Lemma same_app a a' b b' : (forall f, J f a = J f a') -> (forall f, J f b = J f b') -> forall f, J f (a ++ b) = J f (a' ++ b').
  Proof. intros A B f. rewrite !run_app, A. destruct (J f a'); cbn; [apply B|reflexivity..]. Qed.
  Lemma same_cons e b b' : (forall f, J f b = J f b') -> forall f, J f (e :: b) = J f (e :: b').
  Proof. intros B. exact (same_app [e] [e] b b' (fun f => eq_refl) B). Qed.

  Definition written_as (t : tree) (j : jv) : Prop := exists t', same_run t t' /\ image r32 r64 false t' j /\ safe t' /\ takes_name t' = false.

  Lemma stands_written : forall t j, stands_for t j -> written_as t j.
  Proof.
    fix IH 3. intros t j [| b | s m e Nu | t' s (fs & -> & Ef) | ts vs H | es ms H].
    - exists TNull. repeat split.
    - exists (TBool b). repeat split.
    - exists (TTagged (Some JSON_NUMBER) None None (TText (Some (blen s)) [(true, s)])).
      split; [intros f; apply number_run|]. split; [|split; [intros Q; discriminate Q|reflexivity]].
      cbn [image]. eexists. split; [reflexivity|]. change (is_raw (Some JSON_NUMBER)) with true. cbv iota. exists s. split.
      + cbn. rewrite app_nil_r. reflexivity.
      + change (exists m' e', json_number s m' e' /\ JNum m e = JNum m' e'). eauto.
    - exists (TText None fs). split; [intros f; reflexivity|]. split; [cbn; rewrite <- Ef; reflexivity|]. split; [exact I|reflexivity].
    - assert (X : exists ts', (forall f, J f (flat_map elem_calls ts) = J f (flat_map elem_calls ts')) /\
                    image r32 r64 false (TSeq None ts') (JArr vs) /\ safe (TSeq None ts')).
      { induction H as [|u v ts vs T Ts (ts' & R & (js & Ej & Im) & Sf)].
        - exists []. split; [reflexivity|]. split; [exists []; split; [reflexivity|exact I]|exact I].
        - destruct (IH u v T) as (t' & R' & Im' & Sf' & Tn). injection Ej as <-. exists (t' :: ts'). split; [|split].
          + cbn [flat_map]. unfold elem_calls at 1 3. apply same_app; [|exact R]. apply same_cons. apply same_app; [exact R'|reflexivity].
          + exists (v :: vs). split; [reflexivity|]. split; [exact Im'|exact Im].
          + split; [exact Sf'|exact Sf]. }
      destruct X as (ts' & R & Im & Sf). exists (TSeq None ts'). split; [|split; [exact Im|split; [exact Sf|reflexivity]]].
      intros f. rewrite !emit_seq. apply same_cons. apply same_app; [exact R|reflexivity].
    - assert (X : exists es', (forall f, J f (flat_map entry_calls es) = J f (flat_map entry_calls es')) /\
                    image r32 r64 false (TMap None es') (JObj ms) /\ safe (TMap None es')).
      { induction H as [|[k u] [s v] es ms [(fs & Ek & Ef) T] Ts (es' & R & (js & Ej & Im) & Sf)].
        - exists []. split; [reflexivity|]. split; [exists []; split; [reflexivity|exact I]|exact I].
        - cbn [fst snd] in *. destruct (IH u v T) as (t' & R' & Im' & Sf' & Tn). injection Ej as <-. subst k. exists ((TText None fs, t') :: es'). split; [|split].
          + cbn [flat_map]. unfold entry_calls at 1 3. cbn [fst snd]. apply same_app; [|exact R]. apply same_cons. apply same_app; [reflexivity|].
            apply same_cons, same_cons. apply same_app; [exact R'|reflexivity].
          + exists ((s, v) :: ms). split; [reflexivity|]. split; [cbn; rewrite <- Ef; reflexivity|]. split; [exact Im'|exact Im].
          + split; [reflexivity|]. split; [exact Sf'|exact Sf]. }
      destruct X as (es' & R & Im & Sf). exists (TMap None es'). split; [|split; [exact Im|split; [exact Sf|reflexivity]]].
      intros f. rewrite !emit_map. apply same_cons. apply same_app; [exact R|reflexivity].
  Qed.
End ToJson.

(** A value read from a text, written again, is a text for the same JSON value. *)
Theorem C56_read_values_write : forall r32 r64, json_printer r32 -> json_printer r64 ->
  forall v t j, streams v t -> stands_for t j -> exists s', json_to_string r32 r64 v = SOk s' /\ json_text s' j.
Proof.
  intros r32 r64 P32 P64 v t j H Sf. destruct (stands_written r32 r64 t j Sf) as (t' & R & Im & Sa & _).
  destruct (C20_json_denotes_value_partial r32 r64 P32 P64 (map CE (emit t')) t' j (flat_CE_false _) Im Sa) as (s' & E & T).
  exists s'. split; [|exact T]. rewrite <- E, (to_string_run _ _ _ _ H), (to_string_run _ _ _ t' (flat_CE_false _)), R. reflexivity.
Qed.
Definition C56_json_to_json : Prop := forall r32 r64, json_printer r32 -> json_printer r64 ->
  forall s j, json_text s j -> utf8 s = true ->
  snd (from_slice s) = MOk tt /\ exists s', json_to_string r32 r64 (slice_calls s) = SOk s' /\ json_text s' j.
Theorem C56_json_to_json_partial : forall r32 r64, json_printer r32 -> json_printer r64 ->
  forall s j, json_text s j -> utf8 s = true -> supported s = true ->
  snd (from_slice s) = MOk tt /\ exists s', json_to_string r32 r64 (slice_calls s) = SOk s' /\ json_text s' j.
Proof.
  intros r32 r64 P32 P64 s j T U S. destruct (C54_reads_json_partial s j T U S) as (t & Sf & E). unfold slice_calls. rewrite E. split; [reflexivity|].
  exact (C56_read_values_write r32 r64 P32 P64 _ t j (flat_CE_false _) Sf).
Qed.
Theorem C56_json_to_json_refuted : ~ C56_json_to_json.
Proof.
  intros H. destruct (H exact_print exact_print exact_print_json exact_print_json (bs "1E5") (JNum 1 5)) as [E _].
  - apply C54_capital_exponent_panics.
  - reflexivity.
  - rewrite (proj2 C54_capital_exponent_panics) in E. discriminate E.
Qed.
Example C56_sample : json_to_string exact_print exact_print (slice_calls sample) =
  SOk (bs "{""a\n"":[1,-2.5e3,true,null,{}],""b"":""x\""y""}").
Proof. vm_compute. reflexivity. Qed.

(** And back: what the writer writes for a value, the reader reads, if it supports it. *)
Theorem C56_written_values_read_partial : forall r32 r64, json_printer r32 -> json_printer r64 ->
  forall v t j s, streams v t -> image r32 r64 false t j -> safe t -> json_to_string r32 r64 v = SOk s ->
  utf8 s = true -> supported s = true -> exists t', stands_for t' j /\ from_slice s = (emit t', MOk tt).
Proof.
  intros r32 r64 P32 P64 v t j s H Im Sa E U S.
  destruct (C20_json_denotes_value_partial r32 r64 P32 P64 v t j H Im Sa) as (s' & E' & T). rewrite E in E'. injection E' as <-.
  exact (C54_reads_json_partial s j T U S).
Qed.

Definition written_sample : tree :=
  TRecord None None None None [(None, label_new (bs "k"), TSeq None [TInt I64 (-3); TText None [(true, bs "a" ++ [ascii_of_N 10])]; TNull])].
Example C56_written_case : exists s, json_to_string exact_print exact_print (map CE (emit written_sample)) = SOk s /\
  s = bs "{""k"":[-3,""a\n"",null]}" /\ utf8 s = true /\ supported s = true /\ snd (from_slice s) = MOk tt.
Proof. eexists. split; [vm_compute; reflexivity|]. repeat split; reflexivity. Qed.

Print Assumptions C54_reads_json_partial.
Print Assumptions C54_reads_json_refuted.
Print Assumptions C54_shallow_texts_supported.
Print Assumptions C55_accepted_texts_nest.
Print Assumptions C55_reading_ends.
Print Assumptions C55_texts_are_utf8.
Print Assumptions C55_objects_keep_order.
Print Assumptions C55_accepts_only_json_refuted.
Print Assumptions C55_accepted_junk.
Print Assumptions C56_read_values_write.
Print Assumptions C56_json_to_json_partial.
Print Assumptions C56_json_to_json_refuted.
Print Assumptions C56_written_values_read_partial.
