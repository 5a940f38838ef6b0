(** * JsonUtf8Props: JSON output is valid UTF-8 (C29) *)

From Verif Require Import Base Event Tree LowerModel LowerSpec FlatProofs LowerProofs MethProofs DecProofs DataModel
  JsonModel JsonMethProofs JsonProofs JsonSimProofs JsonProps Utf8.

(** ** Specification *)

(** The strings in a call are valid; [&str] and [Label] cannot hold anything else. *)
Definition olabel_utf8 (l : option label) : bool := match l with Some l => utf8 (l_text l) | None => true end.
Definition ev_utf8 (e : ev) : bool :=
  match e with
  | ETextFrag s | ETextFragC s => utf8 s
  | EEnumBegin _ l _ | EEnumEnd _ l _ | ETaggedBegin _ l _ | ETaggedEnd _ l _ | ETag _ l _
  | ERecordBegin _ l _ _ | ERecordEnd _ l _ | ETupleBegin _ l _ _ | ETupleEnd _ l _ | ERecTupBegin _ l _ _ | ERecTupEnd _ l _ => olabel_utf8 l
  | ERecordValBegin _ l | ERecordValEnd _ l | ERecTupValBegin _ l _ | ERecTupValEnd _ l _ => utf8 (l_text l)
  | _ => true
  end.
Fixpoint call_utf8 (c : call) : bool :=
  match c with
  | CE e => ev_utf8 e
  | CV cs | CVC cs => forallb call_utf8 cs
  | CFail => true
  end.
Definition value_utf8 (v : list call) : bool := forallb call_utf8 v.

(** A writer that panics when it is given something that is not UTF-8. *)
Definition strict {W} (wr : W -> bytes -> res W) (w : W) (s : bytes) : res W := if utf8 s then wr w s else Panic.

(** ** Proofs *)
Lemma digits_utf8 s : forallb is_digit s = true -> utf8 s = true.
Proof.
  intros H. apply utf8_ascii. rewrite forallb_forall in *. intros c I. specialize (H c I). unfold is_digit in H.
  apply andb_true_iff in H as (_ & H). apply N.leb_le in H. apply N.ltb_lt. lia.
Qed.
Lemma dec_utf8 z : utf8 (dec z) = true.
Proof.
  unfold dec. destruct (z <? 0)%Z; [apply utf8_cons; [reflexivity|]|]; apply digits_utf8, bytes_of_uint_digits.
Qed.
Lemma dec_frags_utf8 z : forallb utf8 (dec_frags z) = true.
Proof.
  unfold dec_frags. assert (D : utf8 (dec_N (Z.abs_N z)) = true) by (apply digits_utf8, bytes_of_uint_digits).
  destruct (z <? 0)%Z; cbn [forallb]; rewrite D; reflexivity.
Qed.
Lemma escape_utf8 b es : escape_of b = Some es -> (N_of_ascii b <? 128)%N = true /\ forallb utf8 es = true.
Proof.
  assert (A : forall b, match escape_of b with Some es => (N_of_ascii b <? 128)%N && forallb utf8 es | None => true end = true).
  { intros [[] [] [] [] [] [] [] []]; vm_compute; reflexivity. }
  specialize (A b). destruct (escape_of b); [|discriminate]. intros [= <-]. apply andb_true_iff, A.
Qed.
Lemma utf8_head c s : utf8 (c :: s) = true -> tail_byte c = false.
Proof.
  intros H. unfold tail_byte, between.
  destruct (N.leb_spec 128 (N_of_ascii c)) as [L|L]; [|reflexivity]. destruct (N.leb_spec (N_of_ascii c) 191) as [L'|L']; [|reflexivity]. exfalso.
  apply utf8P_iff in H. inversion H as [|x y X Y E]; subst. destruct x as [|d x]; [discriminate X|]. cbn in E. injection E as -> _.
  assert (Z : forall lo hi, (127 < lo)%N -> between lo hi c = true -> (191 < lo)%N -> False).
  { intros lo hi _ B W. unfold between in B. apply andb_true_iff in B as (B & _). apply N.leb_le in B. lia. }
  destruct x as [|p [|q [|r [|? ?]]]]; cbn [utf8_char] in X; try discriminate.
  - unfold between in X. apply andb_true_iff in X as (_ & X). apply N.leb_le in X. lia.
  - apply andb_true_iff in X as (X & _). eapply Z; [|exact X|]; reflexivity.
  - apply andb_true_iff in X as (X & _). repeat (apply orb_true_iff in X as [X|X]); apply andb_true_iff in X as (X & _); (eapply Z; [|exact X|]; reflexivity).
  - apply andb_true_iff in X as (X & _). apply andb_true_iff in X as (X & _).
    repeat (apply orb_true_iff in X as [X|X]); apply andb_true_iff in X as (X & _); (eapply Z; [|exact X|]; reflexivity).
Qed.
Lemma cont_tail c : is_cont c = tail_byte c.
Proof.
  unfold is_cont, tail_byte, between. f_equal. destruct (N.ltb_spec (N_of_ascii c) 192), (N.leb_spec (N_of_ascii c) 191); lia.
Qed.
Lemma skipn_head {A} (v : list A) : forall i, match skipn i v with [] => nth_error v i = None | c :: _ => nth_error v i = Some c end.
Proof. induction v as [|x v IH]; intros [|i]; cbn [skipn nth_error]; try reflexivity. apply IH. Qed.
Lemma boundary_utf8 v i : utf8 v = true -> char_boundary v i = true -> utf8 (firstn i v) = true /\ utf8 (skipn i v) = true.
Proof.
  intros H B. apply utf8_split; [rewrite firstn_skipn; exact H|]. destruct i as [|i].
  - cbn [skipn]. destruct v; [exact I|]. eapply utf8_head, H.
  - unfold char_boundary in B. pose proof (skipn_head v (S i)) as K. destruct (skipn (S i) v); [exact I|]. rewrite K in B.
    apply negb_true_iff in B. rewrite cont_tail in B. exact B.
Qed.
Lemma slice_utf8 v a b s : utf8 v = true -> str_slice v a b = Some s -> utf8 s = true.
Proof.
  unfold str_slice. intros H. destruct (Nat.leb_spec a b) as [L|L]; [|discriminate]. cbn [andb].
  destruct (char_boundary v a) eqn:A; [|discriminate]. destruct (char_boundary v b) eqn:B; [|discriminate]. intros [= <-].
  apply (boundary_utf8 v a) in A as (_ & A); [|exact H]. apply (boundary_utf8 v b) in B as (B & _); [|exact H].
  replace b with (a + (b - a)) in B by lia.
  assert (E : firstn (a + (b - a)) v = firstn a v ++ firstn (b - a) (skipn a v)).
  { generalize (b - a). clear. revert v. induction a as [|a IH]; intros v n; [reflexivity|]. destruct v as [|x v]; cbn; [rewrite firstn_nil; reflexivity|]. f_equal. apply IH. }
  rewrite E in B. apply utf8_split in B; [apply B|].
  destruct (skipn a v) as [|c r]; [rewrite firstn_nil; exact I|]. destruct (b - a); cbn; [exact I|]. eapply utf8_head, A.
Qed.

Lemma bind_eq {A} (r1 r2 : res A) (k1 k2 : A -> res A) : r1 = r2 -> (forall a, k1 a = k2 a) -> (r1 >>= k1) = (r2 >>= k2).
Proof. intros -> H. destruct r2; cbn; auto. Qed.

Section Strict.
  Variable W : Type.
  Variable wr : W -> bytes -> res W.
  Variable r32 r64 : float -> bytes.
  Hypothesis U32 : forall x, utf8 (r32 x) = true.
  Hypothesis U64 : forall x, utf8 (r64 x) = true.
  Notation sw := (strict wr).

  Lemma strict_ok w s : utf8 s = true -> sw w s = wr w s. Proof. intros H. unfold strict. rewrite H. reflexivity. Qed.
  Lemma put_strict s f : utf8 s = true -> put W sw s f = put W wr s f.
  Proof. intros H. unfold put. rewrite strict_ok by exact H. reflexivity. Qed.
  Lemma writes_strict ss : forall w, forallb utf8 ss = true -> writes W sw w ss = writes W wr w ss.
  Proof.
    induction ss as [|s ss IH]; intros w H; [reflexivity|]. cbn [forallb] in H. apply andb_true_iff in H as (H1 & H2).
    cbn [writes]. rewrite strict_ok by exact H1. destruct (wr w s); cbn [bind]; auto.
  Qed.
  Lemma escape_strict rest : forall pending w, utf8 (pending ++ rest) = true -> escape_loop W sw rest pending w = escape_loop W wr rest pending w.
  Proof.
    induction rest as [|b rest IH]; intros pending w H; cbn [escape_loop].
    - rewrite app_nil_r in H. destruct pending; [reflexivity|]. apply strict_ok, H.
    - destruct (escape_of b) as [es|] eqn:E.
      + apply escape_utf8 in E as (E1 & E2). destruct (utf8_split_ascii _ _ _ H E1) as (H1 & H2).
        assert (X : match pending with [] => Ok w | _ => sw w pending end = match pending with [] => Ok w | _ => wr w pending end)
          by (destruct pending; [reflexivity|apply strict_ok, H1]). rewrite X.
        destruct (match pending with [] => Ok w | _ => wr w pending end) as [w'|w'|]; cbn [bind]; auto.
        rewrite writes_strict by exact E2. destruct (writes W wr w' es); cbn [bind]; auto.
      + apply IH. rewrite <- app_assoc. exact H.
  Qed.
  Lemma num_loop_strict rest : forall h a b w, num_loop W sw rest h a b w = num_loop W wr rest h a b w.
  Proof.
    assert (C : forall s, utf8 s = true -> forall w, sw w s = wr w s) by (intros; apply strict_ok; assumption).
    assert (X : forall (t : bool) w, (if t then sw w ["-"%char] else Ok w) = (if t then wr w ["-"%char] else Ok w)).
    { intros [] w; [apply C; reflexivity|reflexivity]. }
    assert (Y : forall (t n : bool) w, (if t then (if n then sw w ["-"%char] else Ok w) >>= (fun w => sw w ["0"%char]) else Ok w)
                                  = (if t then (if n then wr w ["-"%char] else Ok w) >>= (fun w => wr w ["0"%char]) else Ok w)).
    { intros [] n w; [|reflexivity]. rewrite X. destruct (if n then wr w ["-"%char] else Ok w); cbn [bind]; auto. }
    induction rest as [|c rest IH]; intros h a b w; [reflexivity|]. cbn [num_loop]. cbv zeta. rewrite X, Y, C by reflexivity.
    repeat match goal with |- (if ?t then _ else _) = _ => destruct t end; auto;
    repeat match goal with |- match ?t with _ => _ end = _ => destruct t end; auto.
  Qed.
  Lemma text_strict s f : utf8 s = true -> text_fragment_computed W sw s f = text_fragment_computed W wr s f.
  Proof.
    intros H. unfold text_fragment_computed. destruct (f_th f) as [[|n]|].
    - apply put_strict, H.
    - unfold num_fragment. destruct (n_nan n); [reflexivity|]. rewrite num_loop_strict.
      destruct (num_loop W wr s n 0 0 (f_out f)) as [[[[h a] b] w]|[[[h a] b] w]|]; try reflexivity.
      destruct (str_slice s a b) eqn:E; [|reflexivity]. rewrite strict_ok by (eapply slice_utf8; [exact H|exact E]). reflexivity.
    - unfold escape_str. rewrite escape_strict by exact H. reflexivity.
  Qed.
  Lemma int_strict z f : j_int W sw z f = j_int W wr z f.
  Proof. apply put_strict, dec_utf8. Qed.
  Lemma map_begin_strict f : j_map_begin W sw f = j_map_begin W wr f.
  Proof. unfold j_map_begin. destruct (f_tq f); [apply put_strict|]; reflexivity. Qed.
  Lemma seq_begin_strict f : j_seq_begin W sw f = j_seq_begin W wr f.
  Proof. unfold j_seq_begin. destruct (f_tq f); [apply put_strict|]; reflexivity. Qed.
  Lemma map_key_begin_strict f : j_map_key_begin W sw f = j_map_key_begin W wr f.
  Proof. unfold j_map_key_begin. cbv zeta. destruct (f_cde _); apply put_strict; reflexivity. Qed.
  Lemma map_key_end_strict f : j_map_key_end W sw f = j_map_key_end W wr f.
  Proof. unfold j_map_key_end. rewrite put_strict by reflexivity. reflexivity. Qed.
  Ltac binds := repeat match goal with |- bind _ _ = bind _ _ => apply bind_eq; [|intros ?] end.
  Lemma itb_strict l i f : olabel_utf8 l = true -> internally_tagged_begin W sw l i f = internally_tagged_begin W wr l i f.
  Proof.
    intros H. unfold internally_tagged_begin. destruct (f_it f); [|reflexivity]. cbv zeta. destruct l as [l|].
    - unfold tagged_map_begin_label. binds; [apply map_begin_strict|apply map_key_begin_strict| |apply map_key_end_strict].
      unfold escape_str. rewrite escape_strict by exact H. reflexivity.
    - destruct (index_i64 i); [|reflexivity]. unfold tagged_map_begin_index.
      binds; [apply map_begin_strict|apply map_key_begin_strict|apply int_strict|apply map_key_end_strict].
  Qed.
  Lemma text_begin_strict f : j_text_begin W sw f = j_text_begin W wr f.
  Proof. unfold j_text_begin. cbv zeta. destruct (f_tq _); [apply put_strict|]; reflexivity. Qed.
  Lemma text_end_strict f : j_text_end W sw f = j_text_end W wr f.
  Proof. unfold j_text_end. destruct (f_tq _); [apply put_strict|]; reflexivity. Qed.
  Lemma null_strict f : j_null W sw f = j_null W wr f. Proof. apply put_strict; reflexivity. Qed.
  Lemma tag_strict t l i f : olabel_utf8 l = true -> j_tag W sw t l i f = j_tag W wr t l i f.
  Proof.
    intros H. unfold j_tag. cbv zeta. destruct (otag_is t RUST_OPTION_NONE); [apply null_strict|]. destruct l as [l|].
    - unfold j_str. binds; [apply text_begin_strict|apply text_strict, H|apply text_end_strict].
    - destruct (index_i64 i); [apply int_strict|apply null_strict].
  Qed.
  Lemma step_strict e f : ev_utf8 e = true -> json_step W sw r32 r64 f e = json_step W wr r32 r64 f e.
  Proof.
    intros H. destruct e; cbn [json_step ev_utf8] in *; try reflexivity.
    all: try solve [apply text_strict, H | apply int_strict | apply tag_strict, H].
    - unfold j_bool. apply put_strict. destruct b; reflexivity.
    - unfold j_float. cbv zeta. destruct (is_nan f0 || is_infinite f0); [apply null_strict|apply put_strict, U32].
    - unfold j_float. cbv zeta. destruct (is_nan f0 || is_infinite f0); [apply null_strict|apply put_strict, U64].
    - unfold j_enum_begin. binds; [apply itb_strict, H|reflexivity].
    - unfold j_enum_end. binds; [destruct (f_cde f); [apply tag_strict, H|reflexivity]|].
      destruct (f_it _); [apply put_strict|]; reflexivity.
    - unfold j_tagged_begin. cbv zeta. binds; [apply itb_strict, H|reflexivity].
    - unfold j_tagged_end. binds; [| |reflexivity].
      + destruct (otag_is t JSON_TEXT), (otag_is t JSON_VALUE), (otag_is t NUMBER), (otag_is t JSON_NUMBER); try reflexivity;
        cbv zeta; cbn [f_th set_tq]; destruct (f_th f) as [[|n]|]; try reflexivity;
        unfold num_end; destruct (n_start n); try reflexivity; rewrite strict_ok by reflexivity; reflexivity.
      + destruct (f_cde a); [apply tag_strict, H|reflexivity].
    - unfold j_record_begin. binds; [apply itb_strict, H|apply map_begin_strict].
    - unfold j_record_value_begin. cbv zeta. binds.
      + destruct (f_cde _); apply put_strict; reflexivity.
      + destruct (otag_is (l_tag l) VALUE_IDENT); [apply put_strict, H|]. unfold escape_str. rewrite escape_strict by exact H. reflexivity.
      + apply put_strict; reflexivity.
    - unfold j_tuple_begin. binds; [apply itb_strict, H|apply seq_begin_strict].
  Qed.
End Strict.

(** Valid values make valid calls, down to the default methods. *)
Lemma computed_utf8 e : ev_utf8 (computed e) = ev_utf8 e. Proof. destruct e; reflexivity. Qed.
Lemma flat_utf8 v : forall comp, value_utf8 v = true -> forallb ev_utf8 (fst (flat v comp)) = true.
Proof.
  assert (A : forall v, Forall (fun c => forall comp, call_utf8 c = true -> forallb ev_utf8 (fst (flat1 c comp)) = true) v ->
    forall comp, value_utf8 v = true -> forallb ev_utf8 (fst (flat v comp)) = true).
  { clear v. induction 1 as [|c v Hc Hv IH]; intros comp H; [reflexivity|]. cbn [value_utf8 forallb] in H. apply andb_true_iff in H as (H1 & H2).
    rewrite flat_cons. specialize (Hc comp H1). specialize (IH comp H2). destruct (flat1 c comp) as [es ok], (flat v comp) as [es' ok']. cbn [fst] in *.
    destruct ok; cbn [fst]; [rewrite forallb_app, Hc; exact IH|exact Hc]. }
  apply A. apply Forall_forall. intros c _. clear v. induction c using call_ind'; intros comp V.
  - cbn. destruct comp; rewrite ?computed_utf8; rewrite andb_true_r; exact V.
  - rewrite flat1_CV. apply A; assumption.
  - rewrite flat1_CVC. apply A; assumption.
  - reflexivity.
Qed.
Lemma default_utf8 e cs : ev_utf8 e = true -> default_calls e = Some cs -> value_utf8 cs = true.
Proof.
  intros H D.
  assert (L : forall l, utf8 (l_text l) = true -> value_utf8 (label_calls l) = true).
  { intros l U. unfold label_calls, as_static_str. destruct (l_kind l); cbn; rewrite U; reflexivity. }
  destruct e; cbn [default_calls] in D; try discriminate; try (injection D as <-; cbn in *; rewrite ?H; reflexivity).
  - injection D as <-. unfold value_utf8. rewrite forallb_forall. intros c I. apply in_flat_map in I as (b & _ & [<-|[<-|[<-|[]]]]); reflexivity.
  - assert (X : value_utf8 (stream_number_calls z) = true).
    { cbn. rewrite andb_true_r, forallb_app. cbn. rewrite andb_true_r. pose proof (dec_frags_utf8 z) as F.
      rewrite forallb_forall in *. intros c I. apply in_map_iff in I as (s & <- & I). apply F, I. }
    destruct t; try (injection D as <-; reflexivity); try discriminate; destruct (fits I64 z); injection D as <-; try exact X; reflexivity.
  - injection D as <-. cbn in H. cbn [value_utf8 forallb]. unfold value_utf8. cbn [forallb call_utf8 ev_utf8]. rewrite forallb_app. cbn [forallb call_utf8 ev_utf8].
    rewrite !H. destruct (otag_is t RUST_OPTION_NONE); [reflexivity|]. destruct l as [l|]; [|reflexivity]. cbn in H.
    change (forallb call_utf8 (label_calls l)) with (value_utf8 (label_calls l)). rewrite L by exact H. reflexivity.
  - injection D as <-. cbn in H. unfold value_utf8. cbn [forallb call_utf8 ev_utf8]. rewrite forallb_app.
    change (forallb call_utf8 (label_calls l)) with (value_utf8 (label_calls l)). rewrite L by exact H. reflexivity.
Qed.
Lemma lower_utf8 O n : forall e, ev_utf8 e = true -> forallb ev_utf8 (lower O n e) = true.
Proof.
  assert (One : forall e, ev_utf8 e = true -> forallb ev_utf8 [e] = true) by (intros e H; cbn [forallb]; rewrite H; reflexivity).
  induction n as [|n IH]; intros e H.
  - change (lower O 0 e) with (if O e then [e] else match default_calls e with None => [e] | Some _ => [e] end). destruct (O e); [apply One, H|]. destruct (default_calls e); apply One, H.
  - change (lower O (S n) e) with (if O e then [e] else match default_calls e with None => [e] | Some cs => flat_map (lower O n) (fst (flat cs false)) end).
    destruct (O e); [apply One, H|]. destruct (default_calls e) as [cs|] eqn:D; [|apply One, H].
    apply default_utf8 in D; [|exact H]. apply (flat_utf8 cs false) in D. rewrite forallb_forall in *. intros x I. apply in_flat_map in I as (y & I & J).
    specialize (IH y (D y I)). rewrite forallb_forall in IH. apply IH, J.
Qed.
Lemma run_eq {S} (f g : S -> ev -> res S) es : (forall s e, ev_utf8 e = true -> f s e = g s e) -> forallb ev_utf8 es = true ->
  forall s, run f s es = run g s es.
Proof. intros H U s. apply run_ext. intros x e I. apply H. rewrite forallb_forall in U. apply U, I. Qed.

(** ** C29 *)

(** Every single write made by the formatter is valid UTF-8, whatever the writer and
    whatever calls the value makes: a writer that panics on anything else is never
    made to. *)
Theorem C29_every_write_is_utf8 :
  forall (W : Type) (wr : W -> bytes -> res W) r32 r64 w v,
  (forall x, utf8 (r32 x) = true) -> (forall x, utf8 (r64 x) = true) -> value_utf8 v = true ->
  json_to_fmt W (strict wr) r32 r64 w v = json_to_fmt W wr r32 r64 w v.
Proof.
  intros W wr r32 r64 w v U32 U64 V. unfold json_to_fmt, run_impl. apply (flat_utf8 v false) in V. destruct (flat v false) as [es ok]. cbn [fst] in V.
  assert (L : forallb ev_utf8 (lower_all json_over es) = true).
  { unfold lower_all. rewrite forallb_forall in *. intros x I. apply in_flat_map in I as (y & I & J).
    pose proof (lower_utf8 json_over depth y (V y I)) as K. rewrite forallb_forall in K. apply K, J. }
  rewrite (run_eq _ _ _ (fun f e => step_strict W wr r32 r64 U32 U64 e f) L). reflexivity.
Qed.

Theorem C29_string_is_utf8 :
  forall r32 r64 v s,
  (forall x, utf8 (r32 x) = true) -> (forall x, utf8 (r64 x) = true) -> value_utf8 v = true ->
  json_to_string r32 r64 v = SOk s -> utf8 s = true.
Proof.
  intros r32 r64 v s U32 U64 V H.
  assert (E := C29_every_write_is_utf8 bytes string_write r32 r64 [] v U32 U64 V).
  pose proof (op_value bytes bytes (strict string_write) string_write r32 r64 (fun a b => a = b /\ utf8 a = true) (fun _ _ => False) True (fun _ => False)) as O.
  specialize (O (fun w1 w2 s '(conj A B) => ltac:(
    subst w2; unfold strict, sim, string_write; destruct (utf8 s) eqn:U; [split; [reflexivity|apply utf8_app; assumption]|right; exact I]))).
  specialize (O (fun _ _ F => F) (fun _ _ _ F => False_ind _ F) v). destruct O as (O & _). specialize (O (fm_new bytes []) (fm_new bytes [])).
  assert (X : fR bytes bytes (fun a b => a = b /\ utf8 a = true) (fm_new bytes []) (fm_new bytes [])) by (repeat split).
  specialize (O X). unfold json_to_string in H. unfold json_to_fmt in *.
  destruct (run_impl json_over (json_step bytes string_write r32 r64) (fm_new bytes []) v) as [f|f|]; try discriminate.
  injection H as <-. destruct (run_impl json_over (json_step bytes (strict string_write) r32 r64) (fm_new bytes []) v) as [g|g|]; try discriminate.
  injection E as E. cbn [sim] in O. destruct O as (_ & _ & _ & _ & _ & O1 & O2). congruence.
Qed.

Definition utf8_sample : list call :=
  [CE (EMapBegin None); CE EMapKeyBegin; CV [CE (ETextBegin None); CE (ETextFrag (map ascii_of_N [195; 169; 10; 240; 159; 166; 128]%N)); CE ETextEnd]; CE EMapKeyEnd;
   CE EMapValBegin; CE (EInt U128 (2 ^ 100)%Z); CE EMapValEnd; CE EMapEnd].
Example C29_sample : value_utf8 utf8_sample = true /\
  json_to_string exact_print exact_print utf8_sample =
    SOk ([ascii_of_N 123; dquote] ++ map ascii_of_N [195; 169; 92; 110; 240; 159; 166; 128]%N ++ dquote :: bs ":1267650600228229401496703205376}") /\
  utf8 (map ascii_of_N [195; 40]%N) = false /\ utf8 (map ascii_of_N [237; 160; 128]%N) = false.
Proof. vm_compute. repeat split. Qed.

Print Assumptions C29_every_write_is_utf8.
Print Assumptions C29_string_is_utf8.
