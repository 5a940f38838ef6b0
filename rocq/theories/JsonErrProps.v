(** * JsonErrProps: what the error of a JSON encoder says (C77) *)

From Verif Require Import Base Event Tree LowerModel LowerSpec FlatProofs LowerProofs MethProofs DataModel
  JsonModel JsonGrammar JsonSpec JsonMethProofs JsonProofs JsonImageProofs JsonSimProofs JsonProps JsonLocalProofs JsonLocalProps
  JsonErrModel JsonErrSpec JsonErrProofs.

(** ** Proofs: the kind, whatever the writer *)
Section Kind.
  Variable W : Type.
  Variable wr : W -> bytes -> res W.
  Variable good bad : W -> Prop.
  Hypothesis Hd : forall w, good w -> bad w -> False.
  Hypothesis Hw : forall w s, good w -> match wr w s with Ok w' => good w' | Err w' => bad w' | Panic => True end.
  Variable r32 r64 : float -> bytes.
  Notation step := (json_step W wr r32 r64).

  Definition clean (f : fm W) : Prop := f_err f = None /\ good (f_out f).
  Definition kinds (r : res (fm W)) : Prop :=
    match r with
    | Ok g => clean g
    | Err g => f_err g = None /\ bad (f_out g) \/ f_err g = Some EInvalidKey /\ good (f_out g)
    | Panic => True
    end.
  Lemma kinds_bind r k : kinds r -> (forall g, clean g -> kinds (k g)) -> kinds (r >>= k).
  Proof. destruct r; cbn; auto. Qed.
  Definition wkinds (r : res W) : Prop :=
    match r with Ok w => good w | Err w => bad w | Panic => True end.
  Lemma wkinds_bind r k : wkinds r -> (forall w, good w -> wkinds (k w)) -> wkinds (r >>= k).
  Proof. destruct r; cbn; auto. Qed.
  Lemma wr_kinds w s : good w -> wkinds (wr w s).
  Proof. apply Hw. Qed.
  Lemma lift_kinds f r : f_err f = None -> wkinds r -> kinds (lift W f r).
  Proof. intros E H. destruct r; cbn in *; unfold clean; cbn; auto. Qed.
  Lemma put_kinds s f : clean f -> kinds (put W wr s f).
  Proof. intros (E & F). apply lift_kinds; [exact E|]. apply wr_kinds, F. Qed.
  Lemma writes_kinds ss : forall w, good w -> wkinds (writes W wr w ss).
  Proof. induction ss as [|s ss IH]; intros w F; cbn [writes]; [exact F|]. apply wkinds_bind; [apply wr_kinds, F|exact IH]. Qed.
  Lemma escape_kinds rest : forall p w, good w -> wkinds (escape_loop W wr rest p w).
  Proof.
    induction rest as [|b rest IH]; intros p w F; cbn [escape_loop]; [destruct p; [exact F|apply wr_kinds, F]|].
    destruct (escape_of b); [|apply IH, F]. apply wkinds_bind; [destruct p; [exact F|apply wr_kinds, F]|].
    intros w' F'. apply wkinds_bind; [apply writes_kinds, F'|]. intros w2 F2. apply IH, F2.
  Qed.
  Lemma num_loop_kinds rest : forall h a b w, good w ->
    match num_loop W wr rest h a b w with Ok (_, _, _, w') => good w' | Err (_, _, _, w') => bad w' | Panic => True end.
  Proof.
    induction rest as [|c rest IH]; intros h a b w F; cbn [num_loop]; [exact F|]. cbv zeta.
    destruct (_ && n_start h); [apply IH, F|].
    destruct (_ && _).
    { assert (X : wkinds (if n_start h && n_neg h then wr w ["-"%char] else Ok w)) by (destruct (n_start h && n_neg h); [apply wr_kinds, F|exact F]).
      destruct (if n_start h && n_neg h then wr w ["-"%char] else Ok w); cbn in X; [apply IH, X|exact X|exact I]. }
    destruct (_ =? 46)%N.
    { assert (X : wkinds (if n_start h then (if n_neg h then wr w ["-"%char] else Ok w) >>= (fun w => wr w ["0"%char]) else Ok w)).
      { destruct (n_start h); [|exact F]. apply wkinds_bind; [destruct (n_neg h); [apply wr_kinds, F|exact F]|]. intros; apply wr_kinds; assumption. }
      match type of X with wkinds ?r => destruct r end; cbn in X; [apply IH, X|exact X|exact I]. }
    destruct (_ && n_start h); [apply IH, F|]. destruct (_ && n_start h); [apply IH, F|].
    destruct (_ || _); [|apply IH, F].
    pose proof (wr_kinds w (bs "null") F) as X. destruct (wr w (bs "null")); cbn in X; [exact X|exact X|exact I].
  Qed.
  Lemma text_kinds s f : clean f -> kinds (text_fragment_computed W wr s f).
  Proof.
    intros (E & F). unfold text_fragment_computed. destruct (f_th f) as [[|n]|].
    - apply put_kinds. split; assumption.
    - unfold num_fragment. destruct (n_nan n); [split; assumption|].
      pose proof (num_loop_kinds s n 0 0 (f_out f) F) as X.
      destruct (num_loop W wr s n 0 0 (f_out f)) as [[[[h a] b] w]|[[[h a] b] w]|]; cbn; auto.
      destruct (str_slice s a b) as [p|]; [|exact I]. pose proof (wr_kinds w p X) as Y. destruct (wr w p); cbn in *; unfold clean; cbn; auto.
    - apply lift_kinds; [exact E|]. apply escape_kinds, F.
  Qed.

  Ltac kk :=
    lazymatch goal with
    | |- kinds (_ >>= _) => apply kinds_bind; [|let g := fresh "g" in intros g ?]; kk
    | |- kinds (Ok _) => first [assumption | split; cbn; match goal with H : clean _ |- _ => apply H end]
    | |- kinds (put _ _ _ _) => apply put_kinds; kk
    | |- kinds (text_fragment_computed _ _ _ _) => apply text_kinds; kk
    | |- kinds (lift _ _ (escape_str _ _ _ _)) => apply lift_kinds; [|apply escape_kinds]; match goal with H : clean _ |- _ => apply H end
    | |- kinds (if ?b then _ else _) => destruct b; kk
    | |- kinds (match ?x with _ => _ end) => destruct x; kk
    | |- kinds (invalid_key _ _) => right; split; [reflexivity|]; cbn; match goal with H : clean _ |- _ => apply H end
    | |- kinds (let _ := _ in _) => cbv zeta; kk
    | |- clean _ => first [assumption | split; cbn; match goal with H : clean _ |- _ => apply H end]
    | |- _ => idtac
    end.
  Lemma map_begin_kinds f : clean f -> kinds (j_map_begin W wr f).
  Proof. intros C. unfold j_map_begin. kk. Qed.
  Lemma seq_begin_kinds f : clean f -> kinds (j_seq_begin W wr f).
  Proof. intros C. unfold j_seq_begin. kk. Qed.
  Lemma map_key_begin_kinds f : clean f -> kinds (j_map_key_begin W wr f).
  Proof. intros C. unfold j_map_key_begin. kk. Qed.
  Lemma map_key_end_kinds f : clean f -> kinds (j_map_key_end W wr f).
  Proof. intros C. unfold j_map_key_end. kk. Qed.
  Lemma itb_kinds l i f : clean f -> kinds (internally_tagged_begin W wr l i f).
  Proof.
    intros C. unfold internally_tagged_begin. destruct (f_it f); [|exact C]. cbv zeta.
    assert (C' : clean (set_it W false f)) by kk. generalize dependent (set_it W false f). intros g Cg.
    destruct l as [l|].
    - unfold tagged_map_begin_label. apply kinds_bind; [apply kinds_bind; [apply kinds_bind; [apply map_begin_kinds, Cg|apply map_key_begin_kinds]|]|apply map_key_end_kinds].
      intros h Ch. kk.
    - destruct (index_i64 i); [|exact Cg]. unfold tagged_map_begin_index.
      apply kinds_bind; [apply kinds_bind; [apply kinds_bind; [apply map_begin_kinds, Cg|apply map_key_begin_kinds]|]|apply map_key_end_kinds].
      intros h Ch. unfold j_int. kk.
  Qed.
  Lemma ite_kinds l i f : clean f -> kinds (internally_tagged_end W l i f).
  Proof. intros C. unfold internally_tagged_end. kk. Qed.
  Lemma tag_kinds t l i f : clean f -> kinds (j_tag W wr t l i f).
  Proof.
    intros C. unfold j_tag. cbv zeta. assert (C' : clean (set_cde W false (set_it W false f))) by kk.
    generalize dependent (set_cde W false (set_it W false f)). intros g Cg.
    destruct (otag_is t RUST_OPTION_NONE); [unfold j_null; kk|]. destruct l as [l|].
    - unfold j_str, j_text_begin, j_text_end. kk.
    - unfold j_int, j_null. kk.
  Qed.
  Lemma step_kinds e f : json_over e = true -> clean f -> kinds (step f e).
  Proof.
    intros O C. destruct e; try discriminate O; cbn [json_step]; try exact C;
      try (apply itb_kinds, C); try (apply ite_kinds, C); try (apply tag_kinds, C); try (apply map_begin_kinds, C);
      try (apply seq_begin_kinds, C); try (apply map_key_begin_kinds, C); try (apply map_key_end_kinds, C).
    all: try (unfold j_null, j_bool, j_int, j_float, j_text_begin, j_text_end, j_map_end, j_seq_end, j_seq_value_begin, j_record_value_begin, j_null; kk; fail).
    - unfold j_enum_begin. apply kinds_bind; [apply itb_kinds, C|]. intros g Cg. kk.
    - unfold j_enum_end. apply kinds_bind; [destruct (f_cde f); [apply tag_kinds, C|exact C]|]. intros g Cg.
      destruct (f_it g); [unfold j_map_end; kk|apply ite_kinds, Cg].
    - unfold j_tagged_begin. cbv zeta. apply kinds_bind; [|intros g Cg; kk]. apply itb_kinds.
      destruct (otag_is t JSON_TEXT); [kk|]. destruct (otag_is t JSON_VALUE); [kk|].
      destruct (otag_is t NUMBER); [cbn [f_th set_tq]; destruct (f_th f); kk|]. destruct (otag_is t JSON_NUMBER); kk.
    - unfold j_tagged_end. apply kinds_bind; [|intros g Cg; apply kinds_bind; [destruct (f_cde g); [apply tag_kinds, Cg|exact Cg]|intros h Ch; apply ite_kinds, Ch]].
      destruct (otag_is t JSON_TEXT); [kk|]. destruct (otag_is t JSON_VALUE); [kk|].
      destruct (otag_is t NUMBER).
      + cbv zeta. cbn [f_th set_tq]. destruct (f_th f) as [[|n]|]; [kk| |kk]. apply lift_kinds; [apply C|]. unfold num_end.
        destruct (n_start n); [apply wr_kinds, C|apply C].
      + destruct (otag_is t JSON_NUMBER); kk.
    - unfold j_record_begin. apply kinds_bind; [apply itb_kinds, C|]. intros g Cg. apply map_begin_kinds, Cg.
    - unfold j_record_end, j_map_end. apply kinds_bind; [kk|]. intros g Cg. apply ite_kinds, Cg.
    - unfold j_tuple_begin. apply kinds_bind; [apply itb_kinds, C|]. intros g Cg. apply seq_begin_kinds, Cg.
    - unfold j_tuple_end, j_seq_end. apply kinds_bind; [kk|]. intros g Cg. apply ite_kinds, Cg.
  Qed.
  Lemma run_kinds es : Forall (fun e => json_over e = true) es -> forall f, clean f -> kinds (run step f es).
  Proof.
    induction 1 as [|e es O _ IH]; intros f C; cbn [run]; [exact C|]. apply kinds_bind; [apply step_kinds; assumption|exact IH].
  Qed.
  Lemma lowered_over es : Forall (fun e => json_over e = true) (lower_all json_over es).
  Proof.
    eapply Forall_impl; [|apply lower_all_done]. intros e [H|H]; [exact H|]. destruct e; try reflexivity; discriminate H.
  Qed.
  Lemma value_kinds w v : good w ->
    match run_impl json_over step (fm_new W w) v with
    | Ok g => clean g /\ snd (flat v false) = true
    | Err g => f_err g = None /\ bad (f_out g) \/ f_err g = Some EInvalidKey /\ good (f_out g) \/
               clean g /\ snd (flat v false) = false
    | Panic => True
    end.
  Proof.
    intros F. unfold run_impl. destruct (flat v false) as [es ok]. cbn [snd].
    pose proof (run_kinds _ (lowered_over es) (fm_new W w) ltac:(split; [reflexivity|exact F])) as H.
    destruct (run step (fm_new W w) (lower_all json_over es)) as [g|g|]; cbn [bind]; cbn [kinds] in H.
    - destruct ok; auto.
    - destruct H; auto.
    - exact I.
  Qed.
  (** The same as with a [String], unless the writer fails. *)
  Lemma value_like_string w v : good w ->
    sim True (fR W bytes (fun w _ => good w)) (fF W bytes (fun w _ => bad w)) (fun f => bad (f_out f))
      (run_impl json_over step (fm_new W w) v) (run_impl json_over (json_step bytes string_write r32 r64) (fm_new bytes []) v).
  Proof.
    intros F. apply (op_value W bytes wr string_write r32 r64 (fun w _ => good w) (fun w _ => bad w) True (fun w => bad w)).
    - intros w1 w2 s H. pose proof (Hw w1 s H) as X. destruct (wr w1 s); cbn; auto.
    - auto.
    - intros w1 w2 s H. exact H.
    - repeat split. exact F.
  Qed.
  Lemma fmt_kinds w v : good w ->
    match json_to_fmt W wr r32 r64 w v with
    | JOk w' => good w' /\ exists s, json_to_string r32 r64 v = SOk s
    | JErr e w' => bad w' /\ e = EGeneric \/ good w' /\ json_to_string r32 r64 v = SErr e
    | JPanic => True
    end.
  Proof.
    intros F. pose proof (value_kinds w v F) as A. pose proof (value_like_string w v F) as B.
    unfold json_to_string, json_to_fmt.
    destruct (run_impl json_over step (fm_new W w) v) as [f|f|]; cbn [sim] in B; auto;
      destruct (run_impl json_over (json_step bytes string_write r32 r64) (fm_new bytes []) v) as [g|g|]; try contradiction; unfold fF in B.
    - split; [apply A|eauto].
    - destruct A as [(-> & _)|[(_ & A)|((_ & A) & _)]]; [auto|destruct (Hd _ A B)|destruct (Hd _ A B)].
    - destruct A as [(-> & A)|A]; [auto|]. assert (G : good (f_out f)) by (destruct A as [(_ & A)|((_ & A) & _)]; exact A).
      destruct B as [(_ & _ & _ & _ & -> & _)|B]; [auto|destruct (Hd _ G B)].
    - destruct A as [(-> & _)|[(_ & A)|((_ & A) & _)]]; [auto|destruct (Hd _ A B)|destruct (Hd _ A B)].
  Qed.
End Kind.

(** ** C77 *)

(** The kinds can be told from the message. *)
Theorem C77_messages :
  (forall e e', error_text e = error_text e' -> e = e') /\
  (forall e, error_has_source e = true <-> error_text e = bs "failed to write JSON").
Proof. split; [intros [] [] H; reflexivity || discriminate H|]. intros []; split; intros H; reflexivity || discriminate H. Qed.

(** To a [String], whatever is streamed, well-formed or not: the error is generic exactly
    if it is the value that fails, once all it streamed before could be written;
    otherwise it is for an invalid key; there is no other kind. *)
Theorem C77_string :
  forall r32 r64 v,
  let calls := map CE (fst (flat v false)) in
  json_to_string r32 r64 v =
    match json_to_string r32 r64 calls with
    | SOk s => if snd (flat v false) then SOk s else SErr EGeneric
    | r => r
    end /\
  (forall e, json_to_string r32 r64 calls = SErr e -> e = EInvalidKey).
Proof.
  intros r32 r64 v calls.
  assert (E : flat calls false = (fst (flat v false), true)) by apply flat_CE_false.
  split.
  - unfold json_to_string, json_to_fmt, run_impl. rewrite E. destruct (flat v false) as [es ok]. cbn [fst snd].
    pose proof (run_kinds bytes string_write (fun _ => True) (fun _ => False) ltac:(intros; exact I) r32 r64 _ (lowered_over es) (fm_new bytes []) ltac:(split; [reflexivity|exact I])) as K.
    destruct (run _ (fm_new bytes []) (lower_all json_over es)) as [g|g|]; cbn [bind]; try reflexivity.
    destruct ok; [reflexivity|]. destruct K as (-> & _). reflexivity.
  - intros e. pose proof (value_kinds bytes string_write (fun _ => True) (fun _ => False) ltac:(intros; exact I) r32 r64 [] calls I) as K.
    unfold json_to_string, json_to_fmt. destruct (run_impl json_over (json_step bytes string_write r32 r64) (fm_new bytes []) calls) as [g|g|]; try discriminate.
    rewrite E in K. cbn [snd] in K. destruct K as [(_ & [])|[(-> & _)|(_ & K)]]; try discriminate. intros [= <-]. reflexivity.
Qed.
(** What its caller reads, then. *)
Theorem C77_string_texts :
  forall r32 r64 v e, json_to_string r32 r64 v = SErr e ->
  error_has_source e = false /\
  error_text e = if snd (flat v false) then bs "attempt to serialize a non-string key"
                 else match json_to_string r32 r64 (map CE (fst (flat v false))) with
                      | SOk _ => bs "an error occurred serializing a value to JSON"
                      | _ => bs "attempt to serialize a non-string key"
                      end.
Proof.
  intros r32 r64 v e E. destruct (C77_string r32 r64 v) as (A & B). cbv zeta in A, B. rewrite E in A.
  destruct (json_to_string r32 r64 (map CE (fst (flat v false)))) as [s|e'|]; [|rewrite (B e' eq_refl) in A|discriminate A].
  - destruct (snd (flat v false)); [discriminate A|]. injection A as ->. split; reflexivity.
  - injection A as ->. destruct (snd (flat v false)); split; reflexivity.
Qed.

(** To any [fmt::Write] that can tell whether it has failed: generic if it has, and
    otherwise what a [String] gives. *)
Theorem C77_fmt_write :
  forall (W : Type) (wr : W -> bytes -> res W) (failed : W -> bool),
  (forall w s, failed w = false -> match wr w s with Ok w' => failed w' = false | Err w' => failed w' = true | Panic => True end) ->
  forall r32 r64 w v, failed w = false ->
  match json_to_fmt W wr r32 r64 w v with
  | JOk w' => failed w' = false /\ exists s, json_to_string r32 r64 v = SOk s
  | JErr e w' => if failed w' then e = EGeneric else json_to_string r32 r64 v = SErr e
  | JPanic => True
  end.
Proof.
  intros W wr failed H r32 r64 w v F.
  pose proof (fmt_kinds W wr (fun w => failed w = false) (fun w => failed w = true) ltac:(intros; congruence) H r32 r64 w v F) as K.
  destruct (json_to_fmt W wr r32 r64 w v) as [w'|e w'|]; auto. destruct K as [(-> & E)|(-> & E)]; exact E.
Qed.
(** To any [io::Write] that can tell whether it has answered with an error: that error if
    it has, and otherwise what a [String] gives.  Writers that write short, write nothing
    or are interrupted are included. *)
Theorem C77_io_write :
  forall (IO : Type) (write : IO -> bytes -> IO * io_resp) (failed : IO -> bool),
  (forall st buf, failed (fst (write st buf)) = match snd (write st buf) with IoErr => true | _ => failed st end) ->
  forall r32 r64 fuel io v, failed io = false ->
  match json_to_io IO write fuel r32 r64 io v with
  | JOk w => failed (io_st IO w) = false /\ exists s, json_to_string r32 r64 v = SOk s
  | JErr e w => if failed (io_st IO w) then e = EIO else json_to_string r32 r64 v = SErr e
  | JPanic => True
  end.
Proof.
  intros IO write failed H r32 r64 fuel io v F.
  assert (L : forall k w buf, failed (io_st IO w) = false -> io_err IO w = false ->
    match io_loop IO write k w buf with
    | Ok w' => failed (io_st IO w') = false /\ io_err IO w' = false
    | Err w' => failed (io_st IO w') = true /\ io_err IO w' = true
    | Panic => True
    end).
  { induction k as [|k IH]; intros w buf A B; destruct buf as [|b buf]; cbn [io_loop]; auto.
    pose proof (H (io_st IO w) (b :: buf)) as X. destruct (write (io_st IO w) (b :: buf)) as [st r]. cbn [fst snd] in X.
    destruct r as [[|n]| |]; cbn [io_st io_err].
    - split; congruence.
    - destruct (Nat.leb (S n) (List.length (b :: buf))); [|exact I]. apply IH; cbn [io_st io_err]; congruence.
    - apply IH; cbn [io_st io_err]; congruence.
    - auto. }
  assert (Hw : forall w s, failed (io_st IO w) = false /\ io_err IO w = false ->
    match io_write_str IO write w s with
    | Ok w' => failed (io_st IO w') = false /\ io_err IO w' = false
    | Err w' => failed (io_st IO w') = true /\ io_err IO w' = true
    | Panic => True
    end).
  { intros w s (A & B). apply L; assumption. }
  pose proof (fmt_kinds (iow IO) (io_write_str IO write) (fun w => failed (io_st IO w) = false /\ io_err IO w = false)
    (fun w => failed (io_st IO w) = true /\ io_err IO w = true) ltac:(intros w (? & ?) (? & ?); congruence) Hw
    r32 r64 (MkIo IO io [] false fuel) v (conj F eq_refl)) as K.
  unfold json_to_io. destruct (json_to_fmt (iow IO) (io_write_str IO write) r32 r64 _ v) as [w|e w|]; auto.
  - destruct K as ((A & _) & E). auto.
  - destruct K as [((-> & ->) & _)|((-> & ->) & E)]; [reflexivity|exact E].
Qed.
(** A well-formed value, to a [String]: it fails exactly if there is an array or an object
    where none can be written, and then for an invalid key. *)
Theorem C77_invalid_key_exactly :
  forall r32 r64 v t, streams v t ->
  match json_to_string r32 r64 v with
  | SOk _ => misplaced false false t = false
  | SErr e => misplaced false false t = true /\ e = EInvalidKey
  | SPanic => True
  end.
Proof.
  intros r32 r64 v t H. rewrite (to_string_run r32 r64 v t H). pose proof (all_told r32 r64 t (st false true [])) as T.
  cbn [f_tq f_it st negb] in T. destruct (run (meth json_over (json_step bytes string_write r32 r64)) (st false true []) (emit t)) as [g|g|]; cbn [fares] in T; auto.
  - apply T.
  - destruct T as (T & ->). auto.
Qed.

Lemma scalar_structured k : forall i, misplaced true i k = structured i k.
Proof.
  induction k using tree_ind'; intros i0; cbn [misplaced structured orb]; auto.
  - rewrite IHk. reflexivity.
  - rewrite IHk. reflexivity.
Qed.
Lemma existsb_flat_map {A B} (p : B -> bool) (f : A -> list B) xs : existsb p (flat_map f xs) = existsb (fun x => existsb p (f x)) xs.
Proof. induction xs as [|x xs IH]; [reflexivity|]. cbn [flat_map existsb]. rewrite existsb_app, IH. reflexivity. Qed.
Lemma existsb_ext_in {A} (p q : A -> bool) xs : (forall x, In x xs -> p x = q x) -> existsb p xs = existsb q xs.
Proof. induction xs as [|x xs IH]; intros H; [reflexivity|]. cbn [existsb]. rewrite (H x), IH; [reflexivity| |left; reflexivity]. intros y I. apply H. right. exact I. Qed.
Lemma quoted_keys t : all_quoted t = true -> forall i, misplaced false i t = existsb (structured false) (keys_in t).
Proof.
  induction t using tree_ind'; cbn [all_quoted]; intros Q i0; cbn [misplaced keys_in orb andb]; auto.
  - apply andb_true_iff in Q as (Q1 & Q2). apply negb_true_iff in Q1. rewrite Q1. apply IHt, Q2.
  - rewrite existsb_flat_map. apply existsb_ext_in. intros v I. rewrite Forall_forall in H. rewrite forallb_forall in Q. apply H; auto.
  - rewrite existsb_flat_map. apply existsb_ext_in. intros [k v] I. rewrite Forall_forall in H. rewrite forallb_forall in Q.
    destruct (H _ I) as (_ & Hv). specialize (Q _ I). cbn [fst snd existsb] in *. apply andb_true_iff in Q as (_ & Q).
    rewrite scalar_structured, (Hv Q). reflexivity.
  - rewrite existsb_flat_map. apply existsb_ext_in. intros f I. rewrite Forall_forall in H. rewrite forallb_forall in Q. apply H; auto.
  - rewrite existsb_flat_map. apply existsb_ext_in. intros f I. rewrite Forall_forall in H. rewrite forallb_forall in Q. apply H; auto.
  - rewrite existsb_flat_map. apply existsb_ext_in. intros f I. rewrite Forall_forall in H. rewrite forallb_forall in Q. apply H; auto.
Qed.

(** The full claim: a value fails for an invalid key exactly if one of its maps has a key
    that is an array or an object. *)
Definition C77_invalid_keys_are_keys : Prop :=
  forall r32 r64 v t, streams v t -> json_to_string r32 r64 v <> SPanic ->
  (json_to_string r32 r64 v = SErr EInvalidKey <-> existsb (structured false) (keys_in t) = true).
(** A newtype variant tagged as a number fails for an invalid key without there being
    any map. *)
Definition tagged_variant : tree := TEnum None (lab "E") None (TTagged (Some NUMBER) (lab "A") None (txt "1")).
Theorem C77_invalid_keys_are_keys_refuted : ~ C77_invalid_keys_are_keys.
Proof.
  intros H. specialize (H exact_print exact_print _ tagged_variant (flat_CE_false _)).
  assert (E : json_to_string exact_print exact_print (map CE (emit tagged_variant)) = SErr EInvalidKey) by (vm_compute; reflexivity).
  rewrite E in H. destruct (H ltac:(discriminate)) as (A & _). specialize (A eq_refl). vm_compute in A. discriminate A.
Qed.
(** Missing: values tagged as numbers or as embedded JSON. *)
Theorem C77_invalid_keys_are_keys_partial :
  forall r32 r64 v t, streams v t -> all_quoted t = true -> json_to_string r32 r64 v <> SPanic ->
  (json_to_string r32 r64 v = SErr EInvalidKey <-> existsb (structured false) (keys_in t) = true).
Proof.
  intros r32 r64 v t H Q NP. pose proof (C77_invalid_key_exactly r32 r64 v t H) as X. rewrite (quoted_keys t Q) in X.
  destruct (json_to_string r32 r64 v) as [s|e|]; [| |congruence].
  - rewrite X. split; discriminate.
  - destruct X as (-> & ->). split; reflexivity.
Qed.

Definition keyed (k : tree) : tree := TSeq None [TNull; TMap None [(txt "a", TSeq None []); (k, TInt U8 1)]].
Example C77_samples :
  json_to_string exact_print exact_print (map CE (emit (keyed (TTag None (lab "U") None)))) = SOk (bs "[null,{""a"":[],""U"":1}]") /\
  json_to_string exact_print exact_print (map CE (emit (keyed (TSeq None [])))) = SErr EInvalidKey /\
  existsb (structured false) (keys_in (keyed (TSeq None []))) = true /\
  json_to_string exact_print exact_print [CE (ESeqBegin None); CE ESeqValBegin; CE ENull; CFail; CE ESeqValEnd; CE ESeqEnd] = SErr EGeneric /\
  json_to_string exact_print exact_print [CE (ESeqBegin None); CE ESeqValBegin; CE (EMapBegin None); CE EMapKeyBegin; CE (EMapBegin None); CFail] = SErr EInvalidKey.
Proof. vm_compute. repeat split. Qed.
(** A writer that takes [n] bytes and then fails, and remembers it. *)
Definition brittle (st : nat * bool) (buf : bytes) : (nat * bool) * io_resp :=
  match fst st with 0 => ((0, true), IoErr) | S n => ((n, snd st), IoN 1) end.
Example C77_brittle :
  (forall st buf, snd (fst (brittle st buf)) = match snd (brittle st buf) with IoErr => true | _ => snd st end) /\
  (exists w, json_to_io _ brittle 1 exact_print exact_print (5, false) (map CE (emit (keyed (TSeq None [])))) = JErr EIO w) /\
  (exists w, json_to_io _ brittle 1 exact_print exact_print (50, false) (map CE (emit (keyed (TSeq None [])))) = JErr EInvalidKey w).
Proof.
  split; [intros [[|n] b] buf; reflexivity|]. split; eexists; vm_compute; reflexivity.
Qed.

Print Assumptions C77_messages.
Print Assumptions C77_string.
Print Assumptions C77_string_texts.
Print Assumptions C77_fmt_write.
Print Assumptions C77_io_write.
Print Assumptions C77_invalid_key_exactly.
Print Assumptions C77_invalid_keys_are_keys_refuted.
Print Assumptions C77_invalid_keys_are_keys_partial.
