(** * FormatterProps: [ToFmt] under a format (C80) *)

From Verif Require Import Base Event Tree LowerModel LowerSpec FlatProofs Utf8 JsonUtf8Props FmtModel FmtSpec FmtProofs FmtProps
  TokenWriteModel TokenWriteSpec TokenWriteProofs TokenWriteProps FormatterModel FormatterSpec.

(** ** Integers *)
Lemma dec_abs z : dec (Z.abs z) = dec_N (Z.abs_N z).
Proof. unfold dec. replace (Z.abs z <? 0)%Z with false by (symmetry; apply Z.ltb_ge, Z.abs_nonneg). f_equal. destruct z; reflexivity. Qed.
Lemma div2_rest n : Nat.div2 (n + 1) = n - n / 2.
Proof. rewrite !Nat.div2_div. pose proof (Nat.div_mod n 2). pose proof (Nat.div_mod (n + 1) 2). pose proof (Nat.mod_upper_bound n 2). pose proof (Nat.mod_upper_bound (n + 1) 2). lia. Qed.
Lemma shown_int fl z : List.concat (display_int fl z) = padded fl z.
Proof.
  unfold display_int, pad_integral, padded, fills. cbv zeta. rewrite dec_abs. set (d := dec_N (Z.abs_N z)).
  replace (0 <=? z)%Z with (negb (z <? 0)%Z) by (destruct (Z.ltb_spec z 0), (Z.leb_spec 0 z); try reflexivity; lia).
  set (sign := if negb (negb (z <? 0)%Z) then [bs "-"] else if fl_plus fl then [bs "+"] else []).
  set (sg := if (z <? 0)%Z then bs "-" else if fl_plus fl then bs "+" else []).
  assert (S : List.concat sign = sg) by (unfold sign, sg; destruct (z <? 0)%Z, (fl_plus fl); reflexivity).
  assert (L : length sign = length sg) by (unfold sign, sg; destruct (z <? 0)%Z, (fl_plus fl); reflexivity).
  set (px := if fl_alternate fl then [[] : bytes] else []).
  assert (P : List.concat px = []) by (unfold px; destruct (fl_alternate fl); reflexivity).
  rewrite P, L. cbn [length]. rewrite Nat.add_0_r.
  assert (X : List.concat (sign ++ px ++ [d]) = sg ++ d) by (rewrite !concat_app, S, P; cbn; rewrite app_nil_r; reflexivity).
  assert (No : forall m, m = 0 -> (if fl_zero fl then sg ++ List.concat (repeat (bs "0") m) ++ d
     else match fl_align fl with
          | Some ALeft => sg ++ d ++ List.concat (repeat (fl_fill fl) m)
          | Some ACenter => List.concat (repeat (fl_fill fl) (m / 2)) ++ sg ++ d ++ List.concat (repeat (fl_fill fl) (m - m / 2))
          | Some ARight | None => List.concat (repeat (fl_fill fl) m) ++ sg ++ d
          end) = sg ++ d).
  { intros m ->. destruct (fl_zero fl); [reflexivity|]. destruct (fl_align fl) as [[]|]; cbn; rewrite ?app_nil_r; reflexivity. }
  destruct (fl_width fl) as [mn|]; [|rewrite No by reflexivity; exact X].
  rewrite app_length, (Nat.add_comm (length d)). destruct (Nat.leb_spec mn (length sg + length d)).
  - rewrite No by lia. exact X.
  - set (m := mn - (length sg + length d)). unfold padding. cbn [fl_align fl_fill]. destruct (fl_zero fl).
    + rewrite !concat_app, S, P. cbn [app repeat List.concat]. rewrite !app_nil_r. reflexivity.
    + destruct (fl_align fl) as [[]|]; rewrite !concat_app, S, P; cbn [app repeat List.concat]; rewrite ?app_nil_r, <- ?app_assoc; try reflexivity.
      rewrite div2_rest, Nat.div2_div. reflexivity.
Qed.

(** ** Methods *)
Section Text.
  Variable f32w f64w : flags -> float -> list bytes.
  Variable uni : bytes -> list bytes.
  Variable fl : flags.
  Definition shown32 x := List.concat (f32w fl x).
  Definition shown64 x := List.concat (f64w fl x).
  Definition mtext (m : tw) : bytes :=
    match m with
    | WInt _ z => padded fl z
    | _ => text (TokenWriteProps.tokens_of uni shown32 shown64 m)
    end.
  (** The writes of a method. *)
  Definition mwrites (m : tw) : list bytes :=
    match m with
    | WInt _ z => display_int fl z
    | WF32 x => f32w fl x
    | WF64 x => f64w fl x
    | _ => map snd (TokenWriteProps.tokens_of uni shown32 shown64 m)
    end.
  Lemma mwrites_text m : List.concat (mwrites m) = mtext m.
  Proof. destruct m; try reflexivity; [apply shown_int|..]; symmetry; apply app_nil_r. Qed.
  Section Writer.
  Variable W : Type.
  Variable wstr : W -> bytes -> res W.
  Notation call := (tw_call (plain32 f32w) (plain64 f64w) uni W (flagged_own W wstr f32w f64w fl) wstr).
  Lemma writes_app a b : forall w, writes wstr w (a ++ b) = (writes wstr w a >>= fun w => writes wstr w b).
  Proof. induction a as [|p a IH]; intros w; cbn [app writes bind]; [reflexivity|]. destruct (wstr w p); cbn [bind]; [apply IH|reflexivity..]. Qed.
  Lemma writes_one p w : writes wstr w [p] = wstr w p.
  Proof. cbn [writes]. destruct (wstr w p); reflexivity. Qed.
  Lemma default_writes m : levels m <> 0 -> (match m with WInt _ _ | WF32 _ | WF64 _ => False | _ => True end) ->
    flat_map mwrites (tw_default (plain32 f32w) (plain64 f64w) uni m) = mwrites m.
  Proof.
    destruct m; cbn [levels]; intros L N; try contradiction; try (exfalso; apply L; reflexivity);
      repeat match goal with b : bool |- _ => destruct b end; try reflexivity.
    cbn [tw_default mwrites TokenWriteProps.tokens_of]. unfold t_text. rewrite map_map. cbn [snd]. rewrite map_id.
    induction (escape_pieces uni (chars s) []) as [|p ps IH]; [reflexivity|].
    cbn [map flat_map mwrites TokenWriteProps.tokens_of snd app]. rewrite IH. reflexivity.
  Qed.
  Lemma call_writes : forall n m, levels m <= n -> forall w, call w m = writes wstr w (mwrites m).
  Proof.
    induction n as [|n IH]; intros m L w; rewrite C69_own_or_default.
    - destruct m; cbn [levels] in L; try (exfalso; lia). symmetry. apply writes_one.
    - assert (Dn : levels m <> 0 -> (match m with WInt _ _ | WF32 _ | WF64 _ => False | _ => True end) ->
        calls call w (tw_default (plain32 f32w) (plain64 f64w) uni m) = writes wstr w (mwrites m)).
      { intros Z N. rewrite <- (default_writes m Z N). pose proof (levels_default (plain32 f32w) (plain64 f64w) uni m) as D.
        clear Z N. revert w. induction (tw_default (plain32 f32w) (plain64 f64w) uni m) as [|m' ms IHm]; intros w; cbn [calls flat_map]; [reflexivity|].
        inversion D as [|? ? D1 D2]; subst. rewrite IH, writes_app by lia. destruct (writes wstr w (mwrites m')); cbn [bind]; [apply (IHm D2)|reflexivity..]. }
      destruct m; cbn [flagged_own]; try (apply Dn; [discriminate|exact I]); try reflexivity. symmetry. apply writes_one.
  Qed.
  Lemma calls_writes ms : forall w, calls call w ms = writes wstr w (flat_map mwrites ms).
  Proof.
    induction ms as [|m ms IH]; intros w; cbn [calls flat_map]; [reflexivity|].
    rewrite (call_writes (levels m)), writes_app by apply le_n. destruct (writes wstr w (mwrites m)); cbn [bind]; [apply IH|reflexivity..].
  Qed.
  End Writer.
  Lemma writes_add ps : forall w, writes (fun (w s : bytes) => Ok (w ++ s)) w ps = Ok (w ++ List.concat ps).
  Proof. induction ps as [|p ps IH]; intros w; cbn [writes List.concat]; [rewrite app_nil_r; reflexivity|]. cbn [bind]. rewrite IH, <- app_assoc. reflexivity. Qed.
  Lemma concat_writes ms : List.concat (flat_map mwrites ms) = flat_map mtext ms.
  Proof. induction ms as [|m ms IH]; [reflexivity|]. cbn [flat_map]. rewrite concat_app, mwrites_text, IH. reflexivity. Qed.

  (** ** Trees *)
  Notation F := (formatted (padded fl) shown32 shown64 uni).
  Notation M := (flat_map mtext).
  Lemma rest_form xs ys : Forall2 (fun x y => M (x false) = bs ", " ++ y) xs ys ->
    M (flat_map (fun x : bool -> list tw => x false) xs) = match ys with [] => [] | _ => bs ", " ++ commas ys end.
  Proof.
    induction 1 as [|x y xs ys H HF IH]; [reflexivity|]. cbn [flat_map commas]. rewrite flat_map_app, H, IH.
    destruct ys; [rewrite !app_nil_r; reflexivity|rewrite <- !app_assoc; reflexivity].
  Qed.
  Lemma parts_form p xs ys : Forall2 (fun x y => M (x true) = p ++ y /\ M (x false) = bs ", " ++ y) xs ys ->
    M (parts xs) = match ys with [] => [] | _ => p ++ commas ys end.
  Proof.
    destruct 1 as [|x y xs ys (H1 & H2) HF]; [reflexivity|]. cbn [parts commas]. rewrite flat_map_app, H1, (rest_form xs ys).
    - destruct ys; [rewrite app_nil_r; reflexivity|rewrite <- !app_assoc; reflexivity].
    - clear -HF. induction HF as [|x y xs ys (A & B)]; constructor; assumption.
  Qed.
  Lemma braces_form xs ys e : Forall2 (fun x y => M (x true) = bs " " ++ y /\ M (x false) = bs ", " ++ y) xs ys ->
    M e = (match ys with [] => [] | _ => bs " " end) ++ bs "}" ->
    bs "{" ++ M (parts xs) ++ M e = in_braces ys.
  Proof.
    intros H E. rewrite (parts_form (bs " ") _ _ H), E. unfold in_braces. destruct ys; [reflexivity|]. rewrite <- !app_assoc. reflexivity.
  Qed.
  Ltac utf H := cbn [emit forallb] in H; repeat (progress (rewrite ?forallb_app, ?andb_true_iff in H; cbn [forallb] in H)).
  Lemma text_calls fs : forallb ev_utf8 (map text_frag fs) = true -> flat_map mtext (map (fun f => WText (snd f)) fs) = esc_text uni (pieces fs).
  Proof.
    intros U. rewrite <- (frags_text_esc uni fs U). clear U. induction fs as [|f fs IH]; [reflexivity|].
    cbn [map flat_map mtext TokenWriteProps.tokens_of]. rewrite IH, text_app. reflexivity.
  Qed.
  Lemma variant_form l : M (variant_calls l) = match l with Some l => l_text l | None => bs "()" end.
  Proof. destruct l; cbn [variant_calls flat_map mtext TokenWriteProps.tokens_of]; [|reflexivity]. unfold t_type, text. cbn [map List.concat snd]. rewrite !app_nil_r. reflexivity. Qed.
  Lemma tree_form t : forall num, forallb ev_utf8 (emit t) = true -> M (method_calls seems_first num t) = F num t.
  Proof.
    induction t using tree_ind'; intros num U; cbn [method_calls formatted].
    - reflexivity.
    - destruct b; reflexivity.
    - apply app_nil_r.
    - cbn. rewrite !app_nil_r. reflexivity.
    - cbn. rewrite !app_nil_r. reflexivity.
    - utf U. destruct U as (_ & U & _). destruct num.
      + clear. unfold pieces. induction fs as [|f fs IH]; [reflexivity|]. cbn [map flat_map List.concat]. rewrite IH. cbn. rewrite app_nil_r. reflexivity.
      + cbn [flat_map]. rewrite flat_map_app, (text_calls _ U). reflexivity.
    - cbn [flat_map]. rewrite flat_map_app, (parts_form [] _ (map (fun b => padded fl (byte_val b)) (pieces fs))).
      + destruct (pieces fs); reflexivity.
      + apply F2m. intros b _. split; (cbn; rewrite app_nil_r; reflexivity).
    - apply variant_form.
    - utf U. apply IHt, U.
    - utf U. cbv zeta. destruct l; [|apply IHt, U]. cbn [flat_map]. rewrite flat_map_app, IHt by apply U. cbn [flat_map].
      cbn. rewrite !app_nil_r. reflexivity.
    - utf U. rewrite flat_map_app, IHt by apply U. destruct (echoed t0); [rewrite variant_form|]; reflexivity.
    - utf U. destruct U as (_ & U & _). cbn [flat_map]. rewrite flat_map_app, (parts_form [] _ (map (F false) vs)).
      + destruct vs; reflexivity.
      + apply F2m. intros v Iv. rewrite Forall_forall in H. apply (flat_in _ _ v Iv) in U. utf U.
        cbn [flat_map]. rewrite (H v Iv) by apply U. split; reflexivity.
    - utf U. destruct U as (_ & U & _). cbn [flat_map]. rewrite flat_map_app. apply braces_form.
      + apply F2m. intros [k v] Iv. rewrite Forall_forall in H. apply (flat_in _ _ _ Iv) in U. utf U. destruct U as (_ & Uk & _ & _ & Uv & _).
        destruct (H _ Iv) as (Hk & Hv). cbn [fst snd] in *. cbn [flat_map]. rewrite !flat_map_app, Hk by exact Uk. cbn [flat_map]. rewrite Hv by exact Uv. split; reflexivity.
      + destruct es; reflexivity.
    - utf U. destruct U as (_ & U & _). rewrite flat_map_app. f_equal.
      + destruct l; [|reflexivity]. cbn. rewrite app_nil_r. reflexivity.
      + cbn [flat_map]. rewrite flat_map_app. apply braces_form.
        * apply F2m. intros [[ft fll] v] Iv. rewrite Forall_forall in H. apply (flat_in _ _ _ Iv) in U. utf U. destruct U as (_ & U & _).
          specialize (H _ Iv). cbn [fst snd] in *. cbn [flat_map]. rewrite H by assumption.
          split; (cbn [mtext TokenWriteProps.tokens_of]; unfold t_record_value_begin; rewrite !text_app; cbn; rewrite <- ?app_assoc; reflexivity).
        * destruct fs; reflexivity.
    - utf U. destruct U as (_ & U & _). rewrite flat_map_app. f_equal; [destruct l; [cbn; rewrite !app_nil_r; reflexivity|reflexivity]|].
      cbn [flat_map]. rewrite flat_map_app, (parts_form [] _ (map (fun f => F false (snd f)) fs)).
      + destruct fs; reflexivity.
      + apply F2m. intros [[ft fll] v] Iv. rewrite Forall_forall in H. apply (flat_in _ _ _ Iv) in U. utf U. destruct U as (_ & U & _).
        specialize (H _ Iv). cbn [fst snd] in *. cbn [flat_map]. rewrite H by assumption. split; reflexivity.
    - utf U. destruct U as (_ & U & _). rewrite flat_map_app. f_equal.
      + destruct l; [|reflexivity]. cbn. rewrite app_nil_r. reflexivity.
      + cbn [flat_map]. rewrite flat_map_app. apply braces_form.
        * apply F2m. intros [[[ft fll] fi] v] Iv. rewrite Forall_forall in H. apply (flat_in _ _ _ Iv) in U. utf U. destruct U as (_ & U & _).
          specialize (H _ Iv). cbn [fst snd] in *. cbn [flat_map]. rewrite H by assumption.
          split; (cbn [mtext TokenWriteProps.tokens_of]; unfold t_record_value_begin; rewrite !text_app; cbn; rewrite <- ?app_assoc; reflexivity).
        * destruct fs; reflexivity.
  Qed.
End Text.

Lemma parts_all (P : tw -> Prop) xs : Forall (fun x : bool -> list tw => Forall P (x true) /\ Forall P (x false)) xs -> Forall P (parts xs).
Proof.
  destruct 1 as [|x xs (H & _) HF]; [constructor|]. cbn [parts]. apply Forall_app. split; [exact H|].
  apply Forall_flat_map. eapply Forall_impl; [|exact HF]. intros a (_ & A). exact A.
Qed.
Definition no_number (m : tw) : Prop := match m with WInt _ _ | WF32 _ | WF64 _ => False | _ => True end.
Ltac nn := repeat (apply Forall_cons; [exact I|]); try apply Forall_nil.
Lemma numberless_calls t : forall num, numberless t = true -> Forall no_number (method_calls seems_first num t).
Proof.
  induction t using tree_ind'; intros num N; cbn [numberless method_calls] in *; try discriminate N; nn.
  - destruct num; [apply Forall_forall; intros x J; apply in_map_iff in J; destruct J as (f & <- & _); exact I|].
    nn. apply Forall_app. split; [apply Forall_forall; intros x J; apply in_map_iff in J; destruct J as (f & <- & _); exact I|nn].
  - destruct (pieces fs); [|discriminate N]. cbn. nn.
  - unfold variant_calls. destruct l; nn.
  - apply IHt, N.
  - cbv zeta. destruct l; [nn|apply IHt, N]. apply Forall_app. split; [apply IHt, N|nn].
  - apply Forall_app. split; [apply IHt, N|]. destruct (echoed t0); [|nn]. unfold variant_calls. destruct l; nn.
  - apply Forall_app. split; [|nn]. apply parts_all, Forall_map, Forall_forall. intros v J. rewrite forallb_forall in N. rewrite Forall_forall in H.
    split; (apply Forall_cons; [exact I|apply (H v J), (N v J)]).
  - apply Forall_app. split; [|nn]. apply parts_all, Forall_map, Forall_forall. intros [k v] J. rewrite forallb_forall in N. rewrite Forall_forall in H.
    specialize (N _ J). cbn [fst snd] in *. apply andb_true_iff in N. destruct N as (N1 & N2). destruct (H _ J) as (H1 & H2). cbn [fst snd] in *.
    split; (apply Forall_cons; [exact I|]; apply Forall_app; split; [apply H1, N1|apply Forall_cons; [exact I|apply H2, N2]]).
  - apply Forall_app. split; [destruct l; nn|]. nn. apply Forall_app. split; [|nn]. apply parts_all, Forall_map, Forall_forall. intros [[ft fl] v] J.
    rewrite forallb_forall in N. rewrite Forall_forall in H. split; (apply Forall_cons; [exact I|apply (H _ J), (N _ J)]).
  - apply Forall_app. split; [destruct l; nn|]. nn. apply Forall_app. split; [|nn]. apply parts_all, Forall_map, Forall_forall. intros [[ft fl] v] J.
    rewrite forallb_forall in N. rewrite Forall_forall in H. split; (apply Forall_cons; [exact I|apply (H _ J), (N _ J)]).
  - apply Forall_app. split; [destruct l; nn|]. nn. apply Forall_app. split; [|nn]. apply parts_all, Forall_map, Forall_forall. intros [[[ft fl] fi] v] J.
    rewrite forallb_forall in N. rewrite Forall_forall in H. split; (apply Forall_cons; [exact I|apply (H _ J), (N _ J)]).
Qed.

(** ** The property *)

(** The text of a value under a format: that of the value, each integer and float in it
    written as on its own under the same format. *)
Theorem C80_text :
  forall f32w f64w uni fl v t, streams v t -> value_utf8 v = true ->
  format_to_fmt f32w f64w uni fl v =
  Some (formatted (padded fl) (fun x => List.concat (f32w fl x)) (fun x => List.concat (f64w fl x)) uni false t).
Proof.
  intros f32w f64w uni fl v t H U. unfold format_to_fmt, display_to_fmt, stream_to_fmt.
  rewrite (C69_calls v t H), calls_writes, writes_add, concat_writes. cbn [app]. unfold actual. rewrite tree_form; [reflexivity|].
  apply (flat_utf8 v false) in U. unfold streams in H. rewrite H in U. exact U.
Qed.
(** Integers and floats on their own: what [std] writes. *)
Theorem C80_one_number :
  forall f32w f64w uni fl,
  (forall t z, format_to_fmt f32w f64w uni fl [CE (EInt t z)] = Some (padded fl z)) /\
  (forall x, format_to_fmt f32w f64w uni fl [CE (EF32 x)] = Some (List.concat (f32w fl x))) /\
  (forall x, format_to_fmt f32w f64w uni fl [CE (EF64 x)] = Some (List.concat (f64w fl x))).
Proof.
  intros f32w f64w uni fl. repeat split; intros; [apply (C80_text f32w f64w uni fl _ (TInt t z))|apply (C80_text f32w f64w uni fl _ (TF32 x))|apply (C80_text f32w f64w uni fl _ (TF64 x))]; reflexivity.
Qed.
(** A value without integers, floats and bytes is written the same under every format,
    to every writer: numbers given as texts, names, texts and punctuation do not change. *)
Theorem C80_nothing_else :
  forall (W : Type) (wstr : W -> bytes -> res W) f32w f64w uni fl fl' v t w, streams v t -> numberless t = true ->
  display_to_fmt W wstr f32w f64w uni fl w v = display_to_fmt W wstr f32w f64w uni fl' w v.
Proof.
  intros W wstr f32w f64w uni fl fl' v t w H N. unfold display_to_fmt, stream_to_fmt. rewrite !(C69_calls v t H), !calls_writes.
  replace (flat_map (mwrites f32w f64w uni fl') (actual t)) with (flat_map (mwrites f32w f64w uni fl) (actual t)); [reflexivity|].
  pose proof (numberless_calls t false N) as A. unfold actual. induction A as [|m ms M _ IH]; [reflexivity|]. cbn [flat_map]. rewrite IH. f_equal.
  destruct m; try contradiction M; reflexivity.
Qed.
(** With no options, the text of C30 and C48. *)
Lemma padded_plain z : padded no_flags z = dec z.
Proof. unfold padded, no_flags. cbn [fl_plus fl_width fl_zero fl_align]. cbv zeta. rewrite dec_abs. unfold dec. destruct (z <? 0)%Z; reflexivity. Qed.
Theorem C80_no_options :
  forall f32w f64w uni v,
  format_to_fmt f32w f64w uni no_flags v =
  to_fmt_string (fun x => List.concat (f32w no_flags x)) (fun x => List.concat (f64w no_flags x)) uni v.
Proof.
  intros f32w f64w uni v. unfold format_to_fmt, display_to_fmt, stream_to_fmt, to_fmt_string, to_fmt_display.
  rewrite <- (C69_formatter bytes (fun x => List.concat (f32w no_flags x)) (fun x => List.concat (f64w no_flags x)) uni (fun w s => Ok (w ++ s))).
  destruct (C69_one_sequence v) as (ms & E). rewrite !E. rewrite calls_writes, writes_add, concat_writes. cbn [app].
  match goal with |- context [calls ?c [] ms] => assert (X : calls c [] ms = Ok (flat_map (mtext f32w f64w uni no_flags) ms)) end.
  { rewrite (calls_toks uni bytes (generic_tok (fun w s => Ok (w ++ s))) (fun x => List.concat (f32w no_flags x)) (fun x => List.concat (f64w no_flags x))).
    - rewrite toks_string. cbn [app]. f_equal. clear E. induction ms as [|m ms IH]; [reflexivity|]. cbn [flat_map]. rewrite text_app, IH. f_equal.
      destruct m; try reflexivity. cbn [mtext]. rewrite padded_plain. apply app_nil_r.
    - intros w m. apply (in_tokens_call _ _ _ _ _ _ _ (generic_tok (fun w s => Ok (w ++ s)))) with (n := levels m); [|apply le_n]. intros w' m'.
      destruct m'; cbn [formatter_own]; try exact I; try reflexivity. }
  rewrite X. destruct (value_fails v); reflexivity.
Qed.
(** It never fails or panics; after a value that fails comes the text of the error, under no
    format. *)
Theorem C80_always_formats :
  forall f32w f64w uni fl v, exists s,
  format_to_fmt f32w f64w uni fl v =
  Some (if value_fails v then s ++ bs "<an error occurred when formatting an argument>" else s).
Proof.
  intros f32w f64w uni fl v. unfold format_to_fmt, display_to_fmt, stream_to_fmt. destruct (C69_one_sequence v) as (ms & E). rewrite E.
  rewrite calls_writes, writes_add. eexists. destruct (value_fails v); [|reflexivity]. rewrite writes_add. reflexivity.
Qed.
(** Integers take at least the width, and no more than needed. *)
Lemma fills_length n f : length f = 1 -> length (fills n f) = n.
Proof. intros L. unfold fills. induction n as [|n IH]; [reflexivity|]. cbn [repeat List.concat]. rewrite app_length, L, IH. reflexivity. Qed.
Theorem C80_width :
  forall fl z, length (fl_fill fl) = 1 ->
  length (padded fl z) = Nat.max (match fl_width fl with Some w => w | None => 0 end)
                                 (length (dec z) + (if (0 <=? z)%Z && fl_plus fl then 1 else 0)).
Proof.
  intros fl z L. unfold padded. cbv zeta. rewrite dec_abs. unfold dec.
  replace (0 <=? z)%Z with (negb (z <? 0)%Z) by (destruct (Z.ltb_spec z 0), (Z.leb_spec 0 z); try reflexivity; lia).
  set (d := dec_N (Z.abs_N z)). set (sg := if (z <? 0)%Z then bs "-" else if fl_plus fl then bs "+" else []).
  assert (X : forall m, length ((if fl_zero fl then sg ++ fills m (bs "0") ++ d else
     match fl_align fl with
     | Some ALeft => sg ++ d ++ fills m (fl_fill fl)
     | Some ACenter => fills (m / 2) (fl_fill fl) ++ sg ++ d ++ fills (m - m / 2) (fl_fill fl)
     | Some ARight | None => fills m (fl_fill fl) ++ sg ++ d
     end)) = m + length (sg ++ d)).
  { intros m. assert (m / 2 <= m) by (apply Nat.div_le_upper_bound; lia).
    destruct (fl_zero fl); [|destruct (fl_align fl) as [[]|]]; rewrite !app_length, ?fills_length by (exact L || reflexivity); lia. }
  rewrite X. match goal with |- _ = Nat.max _ ?b => replace b with (length (sg ++ d)) by (unfold sg; destruct (z <? 0)%Z, (fl_plus fl); cbn; lia) end.
  destruct (fl_width fl); lia.
Qed.

(** ** A concrete case: [{:*^+7}] *)
Definition starred : flags := MkFlags (bs "*") (Some ACenter) true false false (Some 7) None.
Definition zeros : flags := MkFlags (bs " ") None false true true (Some 5) (Some 2).
Definition fsample : list call :=
  map CE (emit (TRecord None (lbl "P") None None
    [(None, label_new (bs "a"), TInt I8 (-12));
     (None, label_new (bs "b"), TTagged (Some NUMBER) None None (TText None [(true, bs "3")]));
     (None, label_new (bs "c"), TSeq None [TText None [(true, bs "x")]; TBin None [(true, bs "A")]; TBool true])])).
Example C80_sample :
  let f := fun _ _ => [bs "0"] in
  format_to_fmt f f (fun c => [c]) starred fsample = Some (bs "P { a: **-12**, b: 3, c: [""x"", [**+65**], true] }") /\
  format_to_fmt f f (fun c => [c]) zeros fsample = Some (bs "P { a: -0012, b: 3, c: [""x"", [00065], true] }") /\
  format_to_fmt f f (fun c => [c]) no_flags fsample = Some (bs "P { a: -12, b: 3, c: [""x"", [65], true] }").
Proof. repeat split; vm_compute; reflexivity. Qed.
Example C80_numberless_sample :
  numberless (TTagged (Some NUMBER) (lbl "N") None (TText None [(true, bs "3")])) = true.
Proof. reflexivity. Qed.

Print Assumptions C80_text.
Print Assumptions C80_one_number.
Print Assumptions C80_nothing_else.
Print Assumptions C80_no_options.
Print Assumptions C80_always_formats.
Print Assumptions C80_width.
