(** * AdapterProps: C60, values made from [fmt] traits and from encoded JSON *)

From Verif Require Import Base Event Tree LowerModel FlatProofs MethProofs FragModel FragSpec FragProofs BufferModel BufferSpec BufferProofs BufferProps
  JsonModel JsonGrammar JsonSpec JsonMethProofs JsonProofs JsonImageProofs JsonProps JsonUtf8Props JsonFragProps JsonLocalProps
  FmtModel FmtSpec FmtProps StdModel Utf8 AdapterModel.

(** ** Formatted values *)

Lemma plain_run {St} (step : St -> ev -> res St) ps ok : forall s,
  plain_show ps ok (fun s x => step s (ETextFragC x)) s =
  run step s (map ETextFragC ps) >>= fun s => if ok then Ok s else Err s.
Proof.
  induction ps as [|x ps IH]; intros s; [reflexivity|]. cbn [plain_show map run].
  destruct (step s (ETextFragC x)); cbn [bind]; auto.
Qed.
Lemma flat_CE_cons e cs : flat (CE e :: cs) false = (e :: fst (flat cs false), snd (flat cs false)).
Proof. rewrite flat_cons. destruct (flat cs false) as [es ok]. reflexivity. Qed.
Lemma flat_shown ps ok : flat (display_calls ps ok) false = (ETextBegin None :: map ETextFragC ps ++ (if ok then [ETextEnd] else []), ok).
Proof.
  unfold display_calls. rewrite flat_CE_cons.
  assert (X : flat (map (fun s => CE (ETextFragC s)) ps ++ (if ok then [CE ETextEnd] else [CFail])) false = (map ETextFragC ps ++ (if ok then [ETextEnd] else []), ok)).
  { induction ps as [|x ps IH]; [destruct ok; reflexivity|]. cbn [map app]. rewrite flat_CE_cons, IH. reflexivity. }
  rewrite X. reflexivity.
Qed.

(** A [Display] that stops when a write fails is streamed, into any stream, as one text of
    the pieces it writes; it fails when the stream or the [Display] does. *)
Theorem C60_shown_is_a_text :
  forall (St : Type) (step : St -> ev -> res St) ps ok s,
  stream_shown step (plain_show ps ok) s = stream_value step s (display_calls ps ok).
Proof.
  intros St step ps ok s. unfold stream_shown, stream_fragments, stream_value. rewrite flat_shown. cbn [run].
  destruct (step s (ETextBegin None)) as [a|a|]; cbn [bind]; [|reflexivity..].
  rewrite plain_run, run_app. destruct (run step a (map ETextFragC ps)) as [b|b|]; cbn [bind]; [|reflexivity..].
  destruct ok; cbn [bind run]; [|reflexivity]. destruct (step b ETextEnd); reflexivity.
Qed.
Theorem C60_shown_streams :
  forall ps, streams (display_calls ps true) (TText None (map (fun s => (false, s)) ps)).
Proof.
  intros ps. unfold streams. rewrite flat_shown. cbn [emit]. f_equal. f_equal. f_equal. rewrite map_map. apply map_ext. reflexivity.
Qed.

(** What is made of it: the pieces joined. *)
Theorem C60_shown_text :
  forall r32 r64 uni ps,
  (exists c, text_collect (display_calls ps true) = OOk c /\ frag_inner c = List.concat ps) /\
  (exists body, json_to_string r32 r64 (display_calls ps true) = SOk (quoted body) /\ unescape body = Some (List.concat ps)) /\
  (forallb utf8 ps = true -> fmt_to_string r32 r64 uni (display_calls ps true) =
     Some (ascii_of_N 34 :: esc_text uni (List.concat ps) ++ [ascii_of_N 34])).
Proof.
  intros r32 r64 uni ps. pose proof (C60_shown_streams ps) as S.
  assert (J : List.concat (map snd (map (fun s : bytes => (false, s)) ps)) = List.concat ps) by (rewrite map_map, map_id; reflexivity).
  split; [|split].
  - pose proof (C14_text_collect_exact _ _ S eq_refl) as X. cbn in X. destruct X as (c & X & Y). exists c. split; [exact X|]. rewrite Y. exact J.
  - destruct (C21_strings_round_trip r32 r64 _ _ _ S) as (body & X & Y & _). exists body. rewrite Y, J. split; [exact X|reflexivity].
  - intros U. rewrite (C30_text r32 r64 uni _ _ S).
    + cbn [debug]. unfold pieces. rewrite J. reflexivity.
    + unfold value_utf8, display_calls. cbn [forallb]. rewrite forallb_app. cbn. rewrite andb_true_r.
      clear -U. induction ps as [|x ps IH]; [reflexivity|]. cbn [map forallb] in *. apply andb_true_iff in U as (U1 & U2). cbn. rewrite U1. exact (IH U2).
Qed.

(** ** [ToFmt] inside [DisplayToValue] or [DebugToValue] *)

(** Into a stream that accepts fragments, a displayed value is one text: what
    [to_string] gives. *)
Theorem C60_displayed_value :
  forall r32 r64 uni v, exists ps, to_fmt_string r32 r64 uni v = Some (List.concat ps) /\
  forall (St : Type) (step : St -> ev -> res St), (forall s x, exists s', step s (ETextFragC x) = Ok s') ->
  forall s, stream_shown step (to_fmt_show r32 r64 uni v) s = stream_value step s (display_calls ps true).
Proof.
  intros r32 r64 uni v. destruct (C45_fmt_tokens r32 r64 uni v) as (ts & E).
  set (error := [(KAtom, bs "<"); (KAtom, bs "an error occurred when formatting an argument"); (KAtom, bs ">")] : list token).
  set (us := if value_fails v then ts ++ error else ts).
  assert (A : forall W (wr : W -> bytes -> res W), (forall w x, exists w', wr w x = Ok w') ->
    forall w, to_fmt_show r32 r64 uni v wr w = plain_show (map snd us) true wr w).
  { intros W wr T w. unfold to_fmt_show, to_fmt_display. rewrite E.
    assert (P : forall ts w, toks W (generic_tok wr) w ts = plain_show (map snd ts) true wr w).
    { clear. induction ts as [|[k x] ts IH]; intros w; [reflexivity|]. cbn [toks map plain_show snd]. unfold generic_tok at 1.
      destruct (wr w x); cbn [bind]; auto. }
    assert (Q : forall a b w, plain_show (a ++ b) true wr w = plain_show a true wr w >>= plain_show b true wr).
    { clear. induction a as [|x a IH]; intros b w; [reflexivity|]. cbn [app plain_show]. destruct (wr w x); cbn [bind]; auto. }
    assert (T' : forall w k x, exists w', generic_tok wr w k x = Ok w') by (intros; apply T).
    destruct (toks_total _ T' ts w) as (w1 & F). rewrite F. unfold us. rewrite P in F.
    destruct (value_fails v); cbv iota.
    - rewrite map_app, Q. change (map snd ts) with (map (@snd tkind bytes) ts). etransitivity; [apply (P error)|]. match goal with |- _ = ?m >>= _ => change m with (plain_show (map snd ts) true wr w) end.
      rewrite F. reflexivity.
    - rewrite F. reflexivity. }
  exists (map snd us). split.
  - specialize (A bytes (fun w s => Ok (w ++ s)) (fun w x => ex_intro _ _ eq_refl) []). unfold to_fmt_show in A.
    apply (f_equal (fun r => match r with Ok s => Some s | _ => None end)) in A. etransitivity; [exact A|]. cbv beta.
    assert (P : forall ps w, plain_show ps true (fun (w s : bytes) => Ok (w ++ s)) w = Ok (w ++ List.concat ps)).
    { clear. induction ps as [|x ps IH]; intros w; cbn [plain_show List.concat]; [rewrite app_nil_r; reflexivity|]. cbn [bind]. rewrite IH, app_assoc. reflexivity. }
    rewrite P. reflexivity.
  - intros St step T s. rewrite <- C60_shown_is_a_text. unfold stream_shown, stream_fragments.
    destruct (step s (ETextBegin None)) as [a|a|]; cbn [bind]; [|reflexivity..]. rewrite (A St _ T). reflexivity.
Qed.

(** The adapters report every failure of the stream: false for [ToFmt], which takes the
    failure for the value's and goes on writing. *)
Definition C60_stream_failure_reported : Prop :=
  forall r32 r64 uni (St : Type) (step : St -> ev -> res St) v s s', value_fails v = false ->
  stream_shown step (fun wr w => to_token_write St (generic_tok wr) r32 r64 uni w v) s = Err s' ->
  exists s'', stream_shown step (to_fmt_show r32 r64 uni v) s = Err s''.
(** A stream with room for a few bytes. *)
Definition small_step (room : nat) (w : bytes) (e : ev) : res bytes :=
  match e with
  | ETextFragC s | ETextFrag s => if Nat.leb (List.length w + List.length s) room then Ok (w ++ s) else Err w
  | _ => Ok w
  end.
Theorem C60_stream_failure_reported_refuted : ~ C60_stream_failure_reported.
Proof.
  intros H. specialize (H (fun _ => []) (fun _ => []) (fun c => [c]) bytes (small_step 50)
    [CE (ETextBegin None); CE (ETextFrag (map (fun _ => "x"%char) (seq 0 100))); CE ETextEnd] [] (bs """") eq_refl).
  destruct H as (s'' & H); [vm_compute; reflexivity|]. vm_compute in H. discriminate H.
Qed.
(** Missing: streams that accept fragments after having refused one. *)
Theorem C60_stream_failure_reported_partial :
  forall r32 r64 uni (St : Type) (step : St -> ev -> res St) v s s', value_fails v = false ->
  (forall s x s', step s (ETextFragC x) = Err s' -> forall y, exists s'', step s' (ETextFragC y) = Err s'') ->
  stream_shown step (fun wr w => to_token_write St (generic_tok wr) r32 r64 uni w v) s = Err s' ->
  exists s'', stream_shown step (to_fmt_show r32 r64 uni v) s = Err s''.
Proof.
  intros r32 r64 uni St step v s s' V K H. unfold stream_shown, stream_fragments in *.
  destruct (step s (ETextBegin None)) as [a|a|]; cbn [bind] in *; [|eauto|discriminate].
  destruct (to_token_write St _ r32 r64 uni a v) as [b|b|] eqn:E; cbn [bind] in H; [| |discriminate].
  - unfold to_fmt_show, to_fmt_display. rewrite E. cbn [bind]. eauto.
  - destruct (C48_writer_failure_reported_partial r32 r64 uni St (generic_tok (fun s x => step s (ETextFragC x))) v a b) as (b' & X); auto.
    + unfold generic_tok. intros. eauto.
    + unfold to_fmt_show. rewrite X. cbn [bind]. eauto.
Qed.

(** ** Encoded JSON *)

(** A [JsonStr] is written byte for byte, whatever is in it. *)
Lemma json_str_streams s : streams (json_str s) (TTagged (Some JSON_VALUE) None None (TText (Some (blen s)) [(true, s)])).
Proof. reflexivity. Qed.
Lemma raw_text r32 r64 n fs : alone r32 r64 (TTagged (Some JSON_VALUE) None None (TText n fs)) = SOk (List.concat (map snd fs)).
Proof.
  unfold alone. rewrite (to_string_run _ _ _ (TTagged (Some JSON_VALUE) None None (TText n fs))) by (unfold streams; apply flat_CE_false).
  cbn [emit app]. rewrite run_cons, jm_over by reflexivity.
  match goal with |- context [json_step ?a ?b ?c ?d ?e ?f] => let x := eval vm_compute in (json_step a b (fun _ => []) (fun _ => []) e f) in
    replace (json_step a b c d e f) with x by reflexivity end. cbn [bind].
  rewrite run_cons, jm_over by reflexivity.
  match goal with |- context [json_step ?a ?b ?c ?d ?e ?f] => let x := eval vm_compute in (json_step a b (fun _ => []) (fun _ => []) e f) in
    replace (json_step a b c d e f) with x by reflexivity end. cbn [bind].
  rewrite <- app_assoc, run_app, frag_run_native by reflexivity. cbn [bind app]. rewrite run_cons, jm_over by reflexivity. cbn.
  reflexivity.
Qed.
Theorem C60_json_str_verbatim :
  forall r32 r64 s, json_to_string r32 r64 (json_str s) = SOk s.
Proof.
  intros r32 r64 s. rewrite (to_string_alone _ _ _ _ (json_str_streams s)), raw_text. cbn. rewrite app_nil_r. reflexivity.
Qed.
(** Buffered or not. *)
Theorem C60_json_str_buffered :
  forall r32 r64 s b cs, vbuf_collect (json_str s) = OOk b -> vbuf_stream b = Some cs -> json_to_string r32 r64 cs = SOk s.
Proof.
  intros r32 r64 s b cs C R. destruct (C15_round_trip_partial _ _ (json_str_streams s)) as (b' & cs' & C' & R' & F).
  assert (b' = b) by congruence. subst b'. assert (cs' = cs) by congruence. subst cs'.
  rewrite (to_string_alone _ _ _ _ F). cbn [rebuilt option_map]. rewrite raw_text. unfold content. cbn. rewrite !app_nil_r. reflexivity.
Qed.
(** In a sequence it stands as it is among the texts of the other elements. *)
Theorem C60_json_str_embedded :
  forall r32 r64 v n before s rest xs ys,
  streams v (TSeq n (before ++ TTagged (Some JSON_VALUE) None None (TText (Some (blen s)) [(true, s)]) :: rest)) ->
  map (alone r32 r64) before = map SOk xs -> map (alone r32 r64) rest = map SOk ys ->
  json_to_string r32 r64 v = SOk (bs "[" ++ join (bs ",") (xs ++ s :: ys) ++ bs "]").
Proof.
  intros r32 r64 v n before s rest xs ys H B R. rewrite (C27_seq r32 r64 v n _ H), map_app. cbn [map]. rewrite B, R, raw_text.
  cbn [map snd List.concat]. rewrite app_nil_r. unfold framed.
  assert (G : gather (map SOk xs ++ SOk s :: map SOk ys) = inl (xs ++ s :: ys)).
  { assert (G0 : forall zs, gather (map SOk zs) = inl zs) by (induction zs as [|z zs IH]; [reflexivity|]; cbn [map gather]; rewrite IH; reflexivity).
    change (SOk s :: map SOk ys) with (map SOk (s :: ys)). rewrite <- map_app. apply G0. }
  rewrite G. reflexivity.
Qed.
(** If the text is JSON for [j], so is what is written in its place ([image] is the
    specification of C20). *)
Theorem C60_json_str_denotes :
  forall r32 r64 s j, image r32 r64 false (TTagged (Some JSON_VALUE) None None (TText (Some (blen s)) [(true, s)])) j <-> json_text s j.
Proof.
  intros r32 r64 s j. cbn [image]. split.
  - intros (c & -> & x & T & R). cbn [text_of] in T. injection T as <-. unfold frags_text in R. cbn in R. rewrite app_nil_r in R. exact R.
  - intros H. exists j. split; [reflexivity|]. exists s. split; [cbn; unfold frags_text; cbn; rewrite app_nil_r; reflexivity|exact H].
Qed.

Example C60_sample :
  let v := map CE (emit (TSeq None [TInt U8 1; TTagged (Some JSON_VALUE) None None (TText (Some 9%N) [(true, bs "{""a"": [ ]")])])) in
  json_to_string exact_print exact_print v = SOk (bs "[1,{""a"": [ ]]") /\
  stream_shown (small_step 9) (to_fmt_show (fun _ => []) (fun _ => []) (fun c => [c]) [CE (EBool true)]) [] = Ok (bs "true") /\
  stream_shown (small_step 9) (plain_show [bs "a"; bs "b"] false) [] = Err (bs "ab") /\
  (forall s x s', small_step 0 s (ETextFragC x) = Err s' -> s = [] -> s' = []) /\
  fmt_to_string (fun _ => []) (fun _ => []) (fun c => [c]) (display_calls [bs "a"""; bs "b"] true) = Some (bs """a\""b""").
Proof.
  split; [vm_compute; reflexivity|]. split; [vm_compute; reflexivity|]. split; [vm_compute; reflexivity|]. split; [|vm_compute; reflexivity].
  intros s x s' H ->. unfold small_step in H. destruct (Nat.leb _ _); [discriminate|]. injection H as <-. reflexivity.
Qed.

Print Assumptions C60_shown_is_a_text.
Print Assumptions C60_shown_streams.
Print Assumptions C60_shown_text.
Print Assumptions C60_displayed_value.
Print Assumptions C60_stream_failure_reported_refuted.
Print Assumptions C60_stream_failure_reported_partial.
Print Assumptions C60_json_str_verbatim.
Print Assumptions C60_json_str_buffered.
Print Assumptions C60_json_str_embedded.
Print Assumptions C60_json_str_denotes.
