(** * TokenWriteProps: custom implementations of [TokenWrite] (C69) *)

From Verif Require Import Base Event Tree LowerModel LowerSpec FlatProofs LowerProofs MethProofs Utf8 FmtModel FmtSpec FmtProofs FmtProps TokenWriteModel TokenWriteSpec TokenWriteProofs.

(** ** The calls an implementation receives *)

Lemma calls_collect ms : forall w, calls collect_tw w ms = Ok (w ++ ms).
Proof.
  induction ms as [|m ms IH]; intros w; cbn [calls]; [rewrite app_nil_r; reflexivity|].
  unfold collect_tw at 1. cbn [bind]. rewrite IH, <- app_assoc. reflexivity.
Qed.

(** For every value, well-formed or not, there is one sequence of calls: any
    implementation receives exactly these, in order, until one of them fails. *)
Theorem C69_one_sequence :
  forall v, exists ms, forall (W : Type) (call : W -> tw -> res W) (w : W),
  to_custom W call w v =
  match calls call w ms with
  | Ok w' => if value_fails v then Err w' else Ok w'
  | r => r
  end.
Proof.
  intros v. destruct (TokenWriteProofs.feed v) as (ms & H). exists ms. intros W call w. rewrite H, flat_ok.
  destruct (calls call w ms); [destruct (value_fails v); reflexivity|reflexivity..].
Qed.

(** What the calls are, for well-formed values. *)
Theorem C69_calls :
  forall v t, streams v t -> forall (W : Type) (call : W -> tw -> res W) (w : W),
  to_custom W call w v = calls call w (actual t).
Proof.
  intros v t H W call w. destruct (TokenWriteProofs.feed v) as (ms & E).
  assert (X : ms = actual t).
  { pose proof (E _ collect_tw []) as C. rewrite calls_collect in C. unfold streams in H. rewrite H in C. cbn [snd app] in C.
    destruct (TokenWriteProofs.all_calls t true false []) as (n & _ & R).
    unfold to_custom in C. rewrite run_impl_meth, H in C. cbn [fst snd] in C. unfold wr_new in C. rewrite R in C. cbn [bind w_out app] in C.
    injection C as C. symmetry. exact C. }
  rewrite E, X. unfold streams in H. rewrite H. cbn [snd]. destruct (calls call w (actual t)); reflexivity.
Qed.

(** ** [is_first] of [write_map_value_begin] *)

(** The calls are those documented: [is_first] is true of the first entry, element or
    field only. *)
Definition C69_documented_calls : Prop :=
  forall v t, streams v t -> forall (W : Type) (call : W -> tw -> res W) (w : W),
  to_custom W call w v = calls call w (documented t).
Theorem C69_documented_calls_refuted : ~ C69_documented_calls.
Proof.
  intros H. specialize (H (map CE (emit (TMap None [(TSeq None [TNull], TNull)]))) _ (flat_CE_false _) _ collect_tw []).
  vm_compute in H. discriminate H.
Qed.
(** It is wrong both ways. *)
Example C69_key_sample :
  to_custom _ collect_tw [] (map CE (emit (TMap None [(TSeq None [TNull], TNull); (TSeq None [], TNull)]))) =
  Ok [WMapBegin;
      WMapKeyBegin true; WSeqBegin; WSeqValueBegin true; WNull; WSeqEnd false; WMapValueBegin false; WNull;
      WMapKeyBegin false; WSeqBegin; WSeqEnd true; WMapValueBegin true; WNull;
      WMapEnd false].
Proof. vm_compute. reflexivity. Qed.

Lemma plain_seems k : plain_key k = true -> forall first, seems_first first k = first.
Proof. induction k using tree_ind'; cbn [plain_key seems_first]; intros P first; try discriminate P; try reflexivity. apply IHk, P. Qed.
Lemma plain_calls k : plain_key k = true -> forall f g num, method_calls f num k = method_calls g num k.
Proof. induction k using tree_ind'; cbn [plain_key]; intros P vf vg num; try discriminate P; try reflexivity. cbn [method_calls]. apply IHk, P. Qed.
Lemma parts_ext {A} (f g : A -> bool -> list tw) l : Forall (fun a => forall b, f a b = g a b) l -> parts (map f l) = parts (map g l).
Proof.
  assert (R : forall l, Forall (fun a => forall b, f a b = g a b) l -> flat_map (fun y => y false) (map f l) = flat_map (fun y => y false) (map g l)).
  { induction 1 as [|a l0 H _ IH]; [reflexivity|]. cbn [map flat_map]. rewrite H, IH. reflexivity. }
  destruct 1 as [|a l H HF]; [reflexivity|]. cbn [map parts]. rewrite H, R by exact HF. reflexivity.
Qed.
Lemma documented_plain t : plain_keys t = true -> forall num, method_calls seems_first num t = method_calls (fun first _ => first) num t.
Proof.
  induction t using tree_ind'; cbn [plain_keys method_calls]; intros P num; try reflexivity.
  - apply IHt, P.
  - rewrite (IHt P). reflexivity.
  - rewrite (IHt P). reflexivity.
  - do 2 f_equal. apply parts_ext. rewrite forallb_forall in P. rewrite Forall_forall in H |- *. intros v I first. rewrite (H v I (P v I)). reflexivity.
  - do 2 f_equal. apply parts_ext. rewrite forallb_forall in P. rewrite Forall_forall in H |- *. intros [k v] I first.
    specialize (P _ I). apply andb_true_iff in P as (Pk & Pv). cbn [fst snd] in *. destruct (H _ I) as (Hk & Hv). cbn [fst snd] in *.
    rewrite (plain_seems k Pk), (plain_calls k Pk _ (fun first _ => first)), (Hv Pv). reflexivity.
  - do 3 f_equal. apply parts_ext. rewrite forallb_forall in P. rewrite Forall_forall in H |- *. intros [[ft fl] v] I first. rewrite (H _ I (P _ I)). reflexivity.
  - do 3 f_equal. apply parts_ext. rewrite forallb_forall in P. rewrite Forall_forall in H |- *. intros [[ft fl] v] I first. rewrite (H _ I (P _ I)). reflexivity.
  - do 3 f_equal. apply parts_ext. rewrite forallb_forall in P. rewrite Forall_forall in H |- *. intros [[[ft fl] fi] v] I first. rewrite (H _ I (P _ I)). reflexivity.
Qed.
(** Full statement: [C69_documented_calls]; missing: maps with containers, tags or
    variants as keys, where it fails. *)
Theorem C69_documented_calls_partial :
  forall v t, streams v t -> plain_keys t = true -> forall (W : Type) (call : W -> tw -> res W) (w : W),
  to_custom W call w v = calls call w (documented t).
Proof. intros v t H P W call w. rewrite (C69_calls v t H). unfold actual, documented. rewrite documented_plain by exact P. reflexivity. Qed.

Definition tw_sample : tree :=
  TRecord None (lbl "P") None None
    [(None, label_new (bs "a"), TMap None [(txt "k", TTagged (Some NUMBER) None None (TText None [(true, bs "1"); (false, bs "2")])); (TInt I64 7, TSeq None [])]);
     (None, label_new (bs "b"), TEnum None (lbl "E") None (TTagged None (lbl "T") None (TBin None [(true, bs "a"); (false, bs "b")])))].
Example C69_sample : plain_keys tw_sample = true /\
  to_custom _ collect_tw [] (map CE (emit tw_sample)) =
  Ok [WRecordType (bs "P"); WRecordBegin;
      WRecordValueBegin (bs "a") true;
        WMapBegin;
        WMapKeyBegin true; WTextQuote; WText (bs "k"); WTextQuote; WMapValueBegin true; WNumber (bs "1"); WNumber (bs "2");
        WMapKeyBegin false; WInt I64 7; WMapValueBegin false; WSeqBegin; WSeqEnd true;
        WMapEnd false;
      WRecordValueBegin (bs "b") false;
        WTupleType (bs "T"); WTupleBegin;
        WSeqBegin; WSeqValueBegin true; WInt U8 97; WSeqValueBegin false; WInt U8 98; WSeqEnd false;
        WTupleEnd false;
      WRecordEnd false].
Proof. split; vm_compute; reflexivity. Qed.

(** ** Methods that are left out *)

Section Defaults.
  Variable d32 d64 : float -> bytes.
  Variable uni : bytes -> list bytes.

  (** How deep the default of a method calls others. *)
  Definition levels (m : tw) : nat :=
    match m with
    | WToken _ _ => 0
    | WNumber _ | WAtom _ | WIdent _ | WPunct _ | WWs _ | WTextQuote | WText _ => 1
    | WRecordType _ | WRecordValueBegin _ _ | WTupleType _ => 3
    | _ => 2
    end.
  Lemma levels_default m : Forall (fun m' => levels m' < levels m) (tw_default d32 d64 uni m).
  Proof.
    destruct m; cbn [tw_default levels]; repeat match goal with b : bool |- _ => destruct b end;
      cbn [app]; repeat constructor.
    apply Forall_forall. intros x I. apply in_map_iff in I as (p & <- & _). cbn [levels]. lia.
  Qed.

  Section One.
    Variable W : Type.
    Variable own : W -> tw -> option (res W).
    Variable wstr : W -> bytes -> res W.
    Notation D := (dispatch d32 d64 uni W own wstr).
    Lemma calls_ext (f g : W -> tw -> res W) ms : Forall (fun m => forall w, f w m = g w m) ms -> forall w, calls f w ms = calls g w ms.
    Proof. induction 1 as [|m ms H _ IH]; intros w; cbn [calls]; [reflexivity|]. rewrite H. destruct (g w m); cbn [bind]; [apply IH|reflexivity..]. Qed.
    Lemma more_fuel : forall n m, levels m <= n -> forall k w, n <= k -> D k w m = D n w m.
    Proof.
      induction n as [|n IH]; intros m L k w K.
      - destruct m; cbn [levels] in L; try (exfalso; lia). destruct k; reflexivity.
      - destruct k as [|k]; [lia|]. cbn [dispatch]. destruct (own w m); [reflexivity|].
        assert (E : calls (D k) w (tw_default d32 d64 uni m) = calls (D n) w (tw_default d32 d64 uni m)).
        { apply calls_ext. eapply Forall_impl; [|apply levels_default]. intros m' L' w'. cbv beta in L'. apply IH; lia. }
        destruct m; try exact E. reflexivity.
    Qed.
  End One.

  (** The fuel is enough: an implementation whose methods do not panic does not. *)
  Theorem C69_fuel :
    forall (W : Type) (own : W -> tw -> option (res W)) (wstr : W -> bytes -> res W) fuel w m, tw_fuel <= fuel ->
    dispatch d32 d64 uni W own wstr fuel w m = tw_call d32 d64 uni W own wstr w m.
  Proof. intros W own wstr fuel w m L. unfold tw_call. apply more_fuel; [|exact L]. destruct m; cbn [levels]; unfold tw_fuel; lia. Qed.

  Lemma dispatch_S W own wstr n w m : dispatch d32 d64 uni W own wstr (S n) w m =
    match own w m, m with
    | Some r, _ => r
    | None, WToken _ s => wstr w s
    | None, _ => calls (dispatch d32 d64 uni W own wstr n) w (tw_default d32 d64 uni m)
    end.
  Proof. cbn [dispatch]. destruct (own w m); [reflexivity|]. destruct m; reflexivity. Qed.
  (** An implementation's own method is used where there is one, the default
      elsewhere; and the default calls the implementation's own methods again. *)
  Theorem C69_own_or_default :
    forall (W : Type) (own : W -> tw -> option (res W)) (wstr : W -> bytes -> res W) w m,
    tw_call d32 d64 uni W own wstr w m =
    match own w m, m with
    | Some r, _ => r
    | None, WToken _ s => wstr w s
    | None, _ => calls (tw_call d32 d64 uni W own wstr) w (tw_default d32 d64 uni m)
    end.
  Proof.
    intros W own wstr w m. rewrite <- (C69_fuel W own wstr (S tw_fuel)) by lia. apply dispatch_S.
  Qed.

  (** *** The tokens a method with its default ends up in *)
  Section Tokens.
    Variable W : Type.
    Variable own : W -> tw -> option (res W).
    Variable wstr : W -> bytes -> res W.
    Variable tok : W -> tkind -> bytes -> res W.
    Variable r32 r64 : float -> bytes.
    Definition tokens_of (m : tw) : list token :=
      match m with
      | WToken k s => [(k, s)]
      | WInt _ z => [(KNumber, dec z)]
      | WF32 x => [(KNumber, r32 x)]
      | WF64 x => [(KNumber, r64 x)]
      | WNumber s => [(KNumber, s)]
      | WNull => t_null
      | WBool b => t_bool b
      | WAtom s => [(KAtom, s)]
      | WType s | WField s | WIdent s | WTupleType s => t_type s
      | WPunct s => [punct s]
      | WWs s => [(KWs, s)]
      | WTextQuote => t_quote
      | WText s => t_text uni s
      | WMapBegin => t_map_begin
      | WMapKeyBegin f => t_map_key_begin f
      | WMapValueBegin _ => t_map_value_begin
      | WMapEnd e => t_map_end e
      | WRecordType s => t_record_type s
      | WRecordBegin => t_record_begin
      | WRecordValueBegin s f => t_record_value_begin s f
      | WRecordEnd e => t_record_end e
      | WSeqBegin => t_seq_begin
      | WSeqValueBegin f => t_seq_value_begin f
      | WSeqEnd _ => t_seq_end
      | WTupleBegin => t_tuple_begin
      | WTupleValueBegin f => t_tuple_value_begin f
      | WTupleEnd _ => t_tuple_end
      end.
    Variable call : W -> tw -> res W.
    Hypothesis call_toks : forall w m, call w m = toks W tok w (tokens_of m).
    Lemma calls_toks ms : forall w, calls call w ms = toks W tok w (flat_map tokens_of ms).
    Proof.
      induction ms as [|m ms IH]; intros w; cbn [calls flat_map]; [reflexivity|]. rewrite toks_app, call_toks.
      destruct (toks W tok w (tokens_of m)); cbn [bind]; [apply IH|reflexivity..].
    Qed.
    Lemma wputs_puts ms s : wputs W call ms s = puts W tok (flat_map tokens_of ms) s.
    Proof. unfold wputs, puts. rewrite calls_toks. reflexivity. Qed.
    Lemma bytes_eq v : forall s, w_bytes W call v s = d_bytes W tok v s.
    Proof.
      induction v as [|b v IH]; intros s; cbn [w_bytes d_bytes]; [reflexivity|].
      unfold w_seq_value_begin, w_int, d_seq_value_begin, d_int. rewrite wputs_puts. cbn [flat_map tokens_of]. rewrite app_nil_r.
      destruct (puts W tok _ s) as [s1|s1|]; cbn [bind]; try reflexivity. rewrite wputs_puts. cbn [flat_map tokens_of app].
      destruct (puts W tok _ s1) as [s2|s2|]; cbn [bind]; try reflexivity. apply IH.
    Qed.
    Lemma step_eq s e : tw_step W call s e = fmt_step W tok r32 r64 uni s e.
    Proof.
      destruct e; cbn [tw_step fmt_step]; try reflexivity; try apply bytes_eq;
        unfold w_text_edge, w_text_frag, w_open, w_seq_value_begin, w_value_end, w_int, w_tag, w_enum_end, w_tagged_begin, w_tagged_end, w_record_begin, w_tuple_begin,
          d_text_begin, d_text_frag, d_open, d_seq_value_begin, d_value_end, d_int, d_enum_end, d_tagged_begin, d_tagged_end, d_record_begin, d_tuple_begin, w_tag, d_tag;
        unfold w_open, d_open; try reflexivity.
      all: try (rewrite wputs_puts; cbn [flat_map tokens_of]; rewrite ?app_nil_r; reflexivity).
      all: try (match goal with l : option label |- _ => destruct l end; rewrite ?wputs_puts; cbn [flat_map tokens_of app]; rewrite ?app_nil_r, <- ?app_assoc; reflexivity).
      all: destruct (w_num W s); rewrite ?wputs_puts; cbn [flat_map tokens_of]; rewrite ?app_nil_r; reflexivity.
    Qed.
    Lemma custom_eq w v : to_custom W call w v = to_token_write W tok r32 r64 uni w v.
    Proof.
      unfold to_custom, to_token_write, run_impl. destruct (flat v false) as [es ok].
      rewrite (run_ext (tw_step W call) (fmt_step W tok r32 r64 uni)); [reflexivity|intros; apply step_eq].
    Qed.
  End Tokens.
End Defaults.

(** Overriding a method with the tokens of its default changes nothing. *)
Definition in_tokens {W} d32 d64 uni r32 r64 (own : W -> tw -> option (res W)) (wstr : W -> bytes -> res W) (tok : W -> tkind -> bytes -> res W) : Prop :=
  forall w m,
  match own w m with
  | Some r => r = toks W tok w (tokens_of uni r32 r64 m)
  | None => match m with
            | WToken k s => wstr w s = tok w k s
            | WF32 x => r32 x = d32 x :> bytes
            | WF64 x => r64 x = d64 x :> bytes
            | _ => True
            end
  end.
Lemma default_tokens d32 d64 uni r32 r64 m : levels m <> 0 ->
  match m with WF32 x => r32 x = d32 x | WF64 x => r64 x = d64 x | _ => True end ->
  flat_map (tokens_of uni r32 r64) (tw_default d32 d64 uni m) = tokens_of uni r32 r64 m.
Proof.
  destruct m; cbn [levels tw_default tokens_of flat_map app]; intros L H; try congruence; try reflexivity;
    repeat match goal with b : bool |- _ => destruct b end; try reflexivity.
  - rewrite H. reflexivity.
  - rewrite H. reflexivity.
  - unfold t_text. induction (escape_pieces uni (chars s) []) as [|p ps IH]; [reflexivity|]. cbn [map flat_map tokens_of app]. rewrite IH. reflexivity.
Qed.
Lemma in_tokens_call {W} d32 d64 uni r32 r64 own wstr tok : @in_tokens W d32 d64 uni r32 r64 own wstr tok ->
  forall n m, levels m <= n -> forall w, tw_call d32 d64 uni W own wstr w m = toks W tok w (tokens_of uni r32 r64 m).
Proof.
  intros H. induction n as [|n IH]; intros m L w; rewrite C69_own_or_default; pose proof (H w m) as Hm; destruct (own w m).
  - exact Hm.
  - destruct m; cbn [levels] in L; try (exfalso; lia). rewrite Hm. cbn [tokens_of toks]. destruct (tok w k s); reflexivity.
  - exact Hm.
  - destruct (levels m) eqn:Z.
    { destruct m; try discriminate Z. rewrite Hm. cbn [tokens_of toks]. destruct (tok w k s); reflexivity. }
    assert (E : calls (tw_call d32 d64 uni W own wstr) w (tw_default d32 d64 uni m) = toks W tok w (tokens_of uni r32 r64 m)).
    { rewrite <- (default_tokens d32 d64 uni) by (try congruence; destruct m; try exact Hm; exact I).
      pose proof (levels_default d32 d64 uni m) as D. revert w Hm. induction (tw_default d32 d64 uni m) as [|m' ms IHm]; intros w Hm; [reflexivity|].
      inversion D as [|? ? D1 D2]; subst. cbn [calls flat_map]. rewrite toks_app, IH by lia.
      destruct (toks W tok w (tokens_of uni r32 r64 m')); cbn [bind]; [|reflexivity..]. apply (IHm D2).
      destruct m; try exact Hm; discriminate Z. }
    destruct m; try exact E. discriminate Z.
Qed.
Lemma in_tokens_custom {W} d32 d64 uni r32 r64 own wstr tok : @in_tokens W d32 d64 uni r32 r64 own wstr tok ->
  forall w v, to_custom W (tw_call d32 d64 uni W own wstr) w v = to_token_write W tok r32 r64 uni w v.
Proof. intros H w v. apply custom_eq. intros w' m. apply (in_tokens_call _ _ _ _ _ _ _ _ H (levels m)), le_n. Qed.

(** An implementation that overrides only methods that write one kind of text receives
    every piece of a value at the method for its kind. *)
Lemma calls_app' {W} (call : W -> tw -> res W) a b : forall w, calls call w (a ++ b) = calls call w a >>= fun w => calls call w b.
Proof. induction a as [|m a IH]; intros w; cbn [app calls bind]; [reflexivity|]. destruct (call w m); cbn [bind]; [apply IH|reflexivity..]. Qed.
Lemma calls_flat {W} (call : W -> tw -> res W) (f : tw -> list tw) ms :
  Forall (fun m => forall w, call w m = calls call w (f m)) ms -> forall w, calls call w ms = calls call w (flat_map f ms).
Proof.
  induction 1 as [|m ms H _ IH]; intros w; cbn [calls flat_map]; [reflexivity|]. rewrite calls_app', H.
  destruct (calls call w (f m)); cbn [bind]; [apply IH|reflexivity..].
Qed.
Lemma kinds_call {W} d32 d64 uni own wstr :
  (forall (w : W) m, of_kind m = false -> own w m = None) ->
  forall m w, tw_call d32 d64 uni W own wstr w m = calls (tw_call d32 d64 uni W own wstr) w (kinds d32 d64 m).
Proof.
  intros H m w.
  assert (Me : forall m, calls (tw_call d32 d64 uni W own wstr) w [m] = tw_call d32 d64 uni W own wstr w m)
    by (intros m'; cbn [calls]; destruct (tw_call d32 d64 uni W own wstr w m'); reflexivity).
  destruct m; repeat match goal with b : bool |- _ => destruct b end; cbn [kinds comma closing_space]; try (symmetry; apply Me);
    rewrite C69_own_or_default, H by reflexivity; cbn [tw_default]; try reflexivity.
Qed.
Theorem C69_by_kind :
  forall (W : Type) d32 d64 uni own wstr, (forall (w : W) m, of_kind m = false -> own w m = None) ->
  forall v t, streams v t -> forall w,
  to_custom W (tw_call d32 d64 uni W own wstr) w v =
  calls (tw_call d32 d64 uni W own wstr) w (flat_map (kinds d32 d64) (actual t)).
Proof.
  intros W d32 d64 uni own wstr H v t S w. rewrite (C69_calls v t S). apply calls_flat, Forall_forall. intros m _. apply kinds_call, H.
Qed.

(** ** The implementations of the crate, and of C30 and C45

    An implementation with nothing but a [write_token] receives the tokens of
    FmtModel.v; [GenericWriter] and [fmt::Formatter] write the texts of these. *)
Theorem C69_write_token_only :
  forall (W : Type) d32 d64 uni (tok : W -> tkind -> bytes -> res W) (wstr : W -> bytes -> res W) w v,
  to_custom W (tw_call d32 d64 uni W (token_own tok) wstr) w v = to_token_write W tok d32 d64 uni w v.
Proof.
  intros W d32 d64 uni tok wstr w v. apply in_tokens_custom. intros w' m.
  destruct m; cbn [token_own]; try exact I; try reflexivity. cbn [tokens_of toks]. destruct (tok w' k s); reflexivity.
Qed.
Theorem C69_generic_writer :
  forall (W : Type) d32 d64 r32 r64 uni (wstr : W -> bytes -> res W) w v,
  to_custom W (tw_call d32 d64 uni W (generic_own wstr r32 r64) wstr) w v = fmt_to_write wstr r32 r64 uni w v.
Proof.
  intros W d32 d64 r32 r64 uni wstr w v. unfold fmt_to_write. apply in_tokens_custom. intros w' m.
  destruct m; cbn [generic_own]; try exact I; try reflexivity; cbn [tokens_of toks]; unfold generic_tok; destruct (wstr w' _); reflexivity.
Qed.
Theorem C69_formatter :
  forall (W : Type) d32 d64 uni (wstr : W -> bytes -> res W) w v,
  to_custom W (tw_call d32 d64 uni W (formatter_own wstr d32 d64) wstr) w v = to_token_write W (generic_tok wstr) d32 d64 uni w v.
Proof.
  intros W d32 d64 uni wstr w v. apply in_tokens_custom. intros w' m.
  destruct m; cbn [formatter_own]; try exact I; try reflexivity; cbn [tokens_of toks]; unfold generic_tok; destruct (wstr w' _); reflexivity.
Qed.
(** An implementation that overrides nothing: the same text as a [Formatter]. *)
Theorem C69_nothing_overridden :
  forall (W : Type) d32 d64 uni (wstr : W -> bytes -> res W) w v,
  to_custom W (tw_call d32 d64 uni W (fun _ _ => None) wstr) w v =
  to_custom W (tw_call d32 d64 uni W (formatter_own wstr d32 d64) wstr) w v.
Proof.
  intros W d32 d64 uni wstr w v. rewrite C69_formatter. apply in_tokens_custom. intros w' m. destruct m; try exact I; reflexivity.
Qed.
(** Through a [&mut], however often, it is the implementation itself. *)
Theorem C69_by_reference :
  forall (W : Type) d32 d64 uni own wstr wstr' w v,
  to_custom W (tw_call d32 d64 uni W (forward (tw_call d32 d64 uni W own wstr)) wstr') w v =
  to_custom W (tw_call d32 d64 uni W own wstr) w v.
Proof.
  intros W d32 d64 uni own wstr wstr' w v. destruct (C69_one_sequence v) as (ms & H). rewrite !H.
  rewrite (calls_ext W _ (tw_call d32 d64 uni W own wstr)); [reflexivity|].
  apply Forall_forall. intros m _ w'. rewrite C69_own_or_default. reflexivity.
Qed.

(** An implementation that writes labels in brackets and leaves the rest out. *)
Definition shouting (w : bytes) (m : tw) : option (res bytes) :=
  match m with WIdent s => Some (Ok (w ++ bs "<" ++ s ++ bs ">")) | _ => None end.
Example C69_shouting :
  to_custom _ (tw_call (fun _ => []) (fun _ => []) (fun c => [c]) _ shouting (fun w s => Ok (w ++ s))) [] (map CE (emit tw_sample)) =
  Ok (bs "<P> { <a>: { ""k"": 12, 7: [] }, <b>: <T>([97, 98]) }").
Proof. vm_compute. reflexivity. Qed.

(** One that sorts the pieces it is given. *)
Definition sorting (w : list (bool * bytes)) (m : tw) : option (res (list (bool * bytes))) :=
  match m with WType s => Some (Ok (w ++ [(true, s)])) | WField s => Some (Ok (w ++ [(false, s)])) | _ => None end.
Example C69_sorting :
  (forall w m, of_kind m = false -> sorting w m = None) /\
  to_custom _ (tw_call (fun _ => []) (fun _ => []) (fun c => [c]) _ sorting (fun w s => Ok w)) [] (map CE (emit tw_sample)) =
  Ok [(true, bs "P"); (false, bs "a"); (false, bs "b"); (true, bs "T")].
Proof. split; [intros w m; destruct m; try discriminate; reflexivity|vm_compute; reflexivity]. Qed.

Print Assumptions C69_one_sequence.
Print Assumptions C69_calls.
Print Assumptions C69_documented_calls_refuted.
Print Assumptions C69_documented_calls_partial.
Print Assumptions C69_own_or_default.
Print Assumptions C69_by_kind.
Print Assumptions C69_write_token_only.
Print Assumptions C69_generic_writer.
Print Assumptions C69_formatter.
Print Assumptions C69_nothing_overridden.
Print Assumptions C69_by_reference.
