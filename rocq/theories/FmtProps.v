(** * FmtProps: the Debug-style writer (C22, C30, C31, C45, C48, C49) *)

From Verif Require Import Base Event Tree LowerModel LowerSpec FlatProofs LowerProofs MethProofs Utf8 JsonUtf8Props JsonFragProps FmtModel FmtSpec FmtProofs.

(** ** C45: the writer is fed a fixed sequence of tokens *)

(** For every value there is one sequence of tokens, and any writer is given exactly these,
    in order, up to the first one it fails on; the result is the writer's failure, or else
    the value's own. *)
Fixpoint fails (c : call) : bool :=
  match c with
  | CE _ => false
  | CV cs | CVC cs => existsb fails cs
  | CFail => true
  end.
Definition value_fails (v : list call) : bool := existsb fails v.

Lemma flat_ok v : forall comp, snd (flat v comp) = negb (value_fails v).
Proof.
  unfold value_fails.
  assert (L : forall cs, Forall (fun c => forall comp, snd (flat1 c comp) = negb (fails c)) cs -> forall comp, snd (flat cs comp) = negb (existsb fails cs)).
  { induction 1 as [|c cs H HF IH]; intros comp; [reflexivity|]. rewrite flat_cons. specialize (H comp). specialize (IH comp).
    destruct (flat1 c comp) as [es ok]. cbn [snd] in H. subst ok. cbn [existsb]. destruct (fails c); cbn [negb orb]; [reflexivity|].
    destruct (flat cs comp) as [es' ok']. exact IH. }
  intros comp. apply L. apply Forall_forall. intros c _. clear v comp. induction c using call_ind'; intros comp; try reflexivity.
  - rewrite flat1_CV. cbn [fails]. apply L, H.
  - rewrite flat1_CVC. cbn [fails]. apply L, H.
Qed.

Theorem C45_fmt_tokens :
  forall r32 r64 uni v, exists ts, forall (W : Type) (tok : W -> tkind -> bytes -> res W) (w : W),
  to_token_write W tok r32 r64 uni w v =
  match toks W tok w ts with
  | Ok w' => if value_fails v then Err w' else Ok w'
  | r => r
  end.
Proof.
  intros r32 r64 uni v. destruct (feed r32 r64 uni v) as (ts & H). exists ts. intros W tok w. rewrite H, flat_ok.
  destruct (toks W tok w ts); [destruct (value_fails v); reflexivity|reflexivity..].
Qed.
(** A writer that takes [k] tokens gets the first [k]. *)
Definition up_to (k : nat) (w : list token) (kd : tkind) (s : bytes) : res (list token) :=
  if Nat.ltb (List.length w) k then Ok (w ++ [(kd, s)]) else Err w.
Example C45_fmt_sample :
  to_token_write _ (up_to 3) (fun _ => []) (fun _ => []) (fun c => [c]) [] [CE (ESeqBegin None); CE ESeqValBegin; CE (EInt U8 1); CE ESeqValEnd; CE ESeqValBegin; CE (EBool true); CE ESeqValEnd; CE ESeqEnd]
    = Err [(KPunct, bs "["); (KNumber, bs "1"); (KPunct, bs ",")] /\
  to_token_write _ (up_to 6) (fun _ => []) (fun _ => []) (fun c => [c]) [] [CE (ESeqBegin None); CE ESeqValBegin; CE (EInt U8 1); CE ESeqValEnd; CE ESeqValBegin; CE (EBool true); CE ESeqValEnd; CE ESeqEnd]
    = Ok [(KPunct, bs "["); (KNumber, bs "1"); (KPunct, bs ","); (KWs, bs " "); (KAtom, bs "true"); (KPunct, bs "]")].
Proof. vm_compute. split; reflexivity. Qed.

(** ** C30: brackets *)
Lemma brackets_app a b : brackets (a ++ b) = brackets a ++ brackets b.
Proof. unfold brackets. apply flat_map_app. Qed.
Lemma balanced_app a b : balanced a -> balanced b -> balanced (a ++ b).
Proof.
  intros A B. induction A; cbn [app].
  - exact B.
  - rewrite <- !app_assoc. apply bal_paren; assumption.
  - rewrite <- !app_assoc. apply bal_square; assumption.
  - rewrite <- !app_assoc. apply bal_brace; assumption.
Qed.
Lemma balanced_items xs : Forall (fun x => forall b, balanced (brackets (x b))) xs -> balanced (brackets (items xs)).
Proof.
  destruct 1 as [|x xs H HF]; [constructor|]. cbn [items]. rewrite brackets_app. apply balanced_app; [apply H|].
  induction HF as [|y ys H' HF IH]; [constructor|]. cbn [flat_map]. rewrite brackets_app. apply balanced_app; auto.
Qed.
Lemma balanced_paren ts : balanced (brackets ts) -> balanced (bs "(" ++ brackets ts ++ bs ")").
Proof. intros H. change (bs ")") with (bs ")" ++ []). apply bal_paren; [exact H|constructor]. Qed.
Lemma balanced_square ts : balanced (brackets ts) -> balanced (bs "[" ++ brackets ts ++ bs "]").
Proof. intros H. change (bs "]") with (bs "]" ++ []). apply bal_square; [exact H|constructor]. Qed.
Lemma balanced_brace ts : balanced (brackets ts) -> balanced (bs "{" ++ brackets ts ++ bs "}").
Proof. intros H. change (bs "}") with (bs "}" ++ []). apply bal_brace; [exact H|constructor]. Qed.
Lemma brackets_sep ts b (sep : bool -> list token) : (forall b, brackets (sep b) = []) -> balanced (brackets ts) -> balanced (brackets (sep b ++ ts)).
Proof. intros H B. rewrite brackets_app, H. exact B. Qed.

Section Balance.
  Variable r32 r64 : float -> bytes.
  Variable uni : bytes -> list bytes.
  Lemma brackets_tag l : brackets (tag_toks l) = []. Proof. destruct l; reflexivity. Qed.
  Lemma map_end_br b : brackets (t_map_end b) = bs "}". Proof. destruct b; reflexivity. Qed.
  Lemma record_end_br b : brackets (t_record_end b) = bs "}". Proof. destruct b; reflexivity. Qed.
  Lemma all_balanced t : forall num, balanced (brackets (dtoks r32 r64 uni num t)).
  Proof.
    induction t using tree_ind'; intros num; cbn [dtoks]; try (constructor; fail); try (destruct b; constructor; fail).
    - assert (N : forall fs, brackets (flat_map (fun f : bool * bytes => t_text uni (snd f)) fs) = []).
      { intros gs. induction gs as [|f gs IH]; [reflexivity|]. cbn [flat_map]. rewrite brackets_app, IH, app_nil_r. unfold t_text.
        induction (escape_pieces uni (chars (snd f)) []) as [|p ps IHp]; [reflexivity|exact IHp]. }
      destruct num.
      + assert (X : brackets (map (fun f : bool * bytes => (KNumber, snd f)) fs) = []) by (induction fs as [|f fs IH]; [reflexivity|exact IH]). rewrite X. constructor.
      + rewrite !brackets_app, N. constructor.
    - rewrite !brackets_app. apply balanced_square, balanced_items, Forall_map, Forall_forall. intros x _ b. apply (brackets_sep _ _ t_seq_value_begin); [destruct b0; reflexivity|constructor].
    - rewrite brackets_tag. constructor.
    - apply IHt.
    - rewrite !brackets_app. destruct l; [apply balanced_paren, IHt|rewrite app_nil_r; apply IHt].
    - rewrite brackets_app. destruct (leaves true t0); [rewrite brackets_tag|]; apply balanced_app; [apply IHt|constructor|apply IHt|constructor].
    - rewrite !brackets_app. apply balanced_square, balanced_items, Forall_map. eapply Forall_impl; [|exact H]. intros v Hv b.
      apply (brackets_sep _ _ t_seq_value_begin); [destruct b0; reflexivity|apply Hv].
    - rewrite !brackets_app, map_end_br. apply balanced_brace, balanced_items, Forall_map. eapply Forall_impl; [|exact H]. intros [k v] (Hk & Hv) b.
      apply (brackets_sep _ _ t_map_key_begin); [destruct b0; reflexivity|]. rewrite !brackets_app. cbn [fst snd] in *. apply balanced_app; [apply Hk|apply Hv].
    - rewrite !brackets_app, record_end_br.
      assert (X : brackets (match l with Some l0 => t_record_type (l_text l0) | None => [] end) = []) by (destruct l; reflexivity). rewrite X.
      apply balanced_brace, balanced_items, Forall_map. eapply Forall_impl; [|exact H]. intros [[ft fl] v] Hv b.
      apply (brackets_sep _ _ (t_record_value_begin (l_text fl))); [destruct b0; reflexivity|apply Hv].
    - rewrite !brackets_app.
      assert (X : brackets (match l with Some l0 => t_type (l_text l0) | None => [] end) = []) by (destruct l; reflexivity). rewrite X.
      apply balanced_paren, balanced_items, Forall_map. eapply Forall_impl; [|exact H]. intros [[ft fl] v] Hv b.
      apply (brackets_sep _ _ t_tuple_value_begin); [destruct b0; reflexivity|apply Hv].
    - rewrite !brackets_app, record_end_br.
      assert (X : brackets (match l with Some l0 => t_record_type (l_text l0) | None => [] end) = []) by (destruct l; reflexivity). rewrite X.
      apply balanced_brace, balanced_items, Forall_map. eapply Forall_impl; [|exact H]. intros [[[ft fl] fi] v] Hv b.
      apply (brackets_sep _ _ (t_record_value_begin (l_text fl))); [destruct b0; reflexivity|apply Hv].
  Qed.
End Balance.

Lemma tokens_of r32 r64 uni v t : streams v t -> forall W tok w,
  to_token_write W tok r32 r64 uni w v = toks W tok w (dtoks r32 r64 uni false t).
Proof.
  intros H W tok w. destruct (feed r32 r64 uni v) as (ts & F).
  assert (E : to_token_write _ collect_tok r32 r64 uni [] v = Ok (dtoks r32 r64 uni false t)).
  { unfold to_token_write. rewrite run_impl_meth. unfold streams in H. rewrite !H. cbn [fst snd].
    destruct (all_toks r32 r64 uni t true false []) as (n & _ & R). unfold wr_new. rewrite R. reflexivity. }
  rewrite F in E. unfold streams in H. rewrite H in E. cbn [snd] in E.
  rewrite toks_pure in E. cbn in E. injection E as ->.
  rewrite F, H. cbn [snd]. destruct (toks W tok w (dtoks r32 r64 uni false t)); reflexivity.
Qed.

(** Every value written to the end: the brackets outside texts are properly nested. *)
Theorem C30_balanced :
  forall r32 r64 uni v t, streams v t ->
  exists ts, to_token_write _ collect_tok r32 r64 uni [] v = Ok ts /\ balanced (brackets ts).
Proof.
  intros r32 r64 uni v t H. exists (dtoks r32 r64 uni false t). split; [|apply all_balanced].
  rewrite (tokens_of _ _ _ _ _ H). apply toks_pure.
Qed.

(** ** C30: text *)
Ltac destruct_list := match goal with |- context [match ?l with [] => _ | _ => _ end] => destruct l; reflexivity end.
Lemma chars_app a b : match b with [] => True | c :: _ => tail_byte c = false end -> chars (a ++ b) = chars a ++ chars b.
Proof.
  intros H. induction a as [|x a IH]; [reflexivity|]. cbn [app chars]. destruct a as [|y a].
  - cbn [app]. destruct b as [|c b]; [reflexivity|]. rewrite H. reflexivity.
  - cbn [app] in *. destruct (tail_byte y); rewrite IH; [|reflexivity].
    assert (X : chars (y :: a) <> []) by (cbn [chars]; destruct a as [|z a]; [discriminate|]; destruct (tail_byte z); [destruct (chars (z :: a))|]; discriminate).
    destruct (chars (y :: a)); [congruence|reflexivity].
Qed.

Section Text.
  Variable r32 r64 : float -> bytes.
  Variable uni : bytes -> list bytes.
  Notation dtoks := (dtoks r32 r64 uni).
  Notation debug := (debug r32 r64 uni).
  Definition text (ts : list token) : bytes := List.concat (map snd ts).
  Lemma text_app a b : text (a ++ b) = text a ++ text b.
  Proof. unfold text. rewrite map_app, concat_app. reflexivity. Qed.
  Lemma toks_string ts : forall w, toks bytes (generic_tok (fun w s => Ok (w ++ s))) w ts = Ok (w ++ text ts).
  Proof.
    induction ts as [|[k s] ts IH]; intros w; cbn [toks]; [rewrite app_nil_r; reflexivity|].
    unfold generic_tok at 1. cbn [bind]. rewrite IH, <- app_assoc. reflexivity.
  Qed.

  Lemma pieces_text cs : forall pending, List.concat (escape_pieces uni cs pending) = pending ++ List.concat (map (esc_char uni) cs).
  Proof.
    induction cs as [|c cs IH]; intros p; cbn [escape_pieces map List.concat]; [destruct p; cbn; rewrite ?app_nil_r; reflexivity|].
    cbv zeta. unfold esc_char at 1. destruct (Nat.ltb 1 (List.length (escape_debug uni c))).
    - rewrite !concat_app, IH. cbn [app]. destruct p; cbn [List.concat app]; rewrite ?app_nil_r; reflexivity.
    - rewrite IH, <- app_assoc. reflexivity.
  Qed.
  Lemma text_text s : text (t_text uni s) = esc_text uni s.
  Proof. unfold text, t_text. rewrite map_map. cbn [snd]. rewrite map_id, pieces_text. reflexivity. Qed.
  Lemma esc_app a b : utf8 b = true -> esc_text uni (a ++ b) = esc_text uni a ++ esc_text uni b.
  Proof.
    intros H. unfold esc_text. rewrite chars_app, map_app, concat_app; [reflexivity|].
    destruct b as [|c b]; [exact I|]. apply (utf8_head _ _ H).
  Qed.
  Lemma frags_utf8 fs : forallb ev_utf8 (map text_frag fs) = true -> utf8 (pieces fs) = true.
  Proof.
    induction fs as [|[b s] fs IH]; [reflexivity|]. cbn [map forallb]. intros H. apply andb_true_iff in H as (H1 & H2).
    unfold pieces. cbn [map List.concat snd]. apply utf8_app; [destruct b; exact H1|apply IH, H2].
  Qed.
  Lemma frags_text_esc fs : forallb ev_utf8 (map text_frag fs) = true -> text (flat_map (fun f => t_text uni (snd f)) fs) = esc_text uni (pieces fs).
  Proof.
    induction fs as [|[b s] fs IH]; [reflexivity|]. cbn [map forallb flat_map]. intros H. apply andb_true_iff in H as (H1 & H2).
    rewrite text_app, text_text, (IH H2). unfold pieces. cbn [map List.concat snd]. rewrite esc_app; [reflexivity|apply frags_utf8, H2].
  Qed.

  Lemma rest_text xs ys : Forall2 (fun x y => text (x false) = bs ", " ++ y) xs ys ->
    text (flat_map (fun x : bool -> list token => x false) xs) = match ys with [] => [] | _ => bs ", " ++ commas ys end.
  Proof.
    induction 1 as [|x y xs ys H HF IH]; [reflexivity|]. cbn [flat_map commas]. rewrite text_app, H, IH.
    destruct ys; [rewrite !app_nil_r; reflexivity|rewrite <- !app_assoc; reflexivity].
  Qed.
  Lemma items_text p xs ys : Forall2 (fun x y => text (x true) = p ++ y /\ text (x false) = bs ", " ++ y) xs ys ->
    text (items xs) = match ys with [] => [] | _ => p ++ commas ys end.
  Proof.
    destruct 1 as [|x y xs ys (H1 & H2) HF]; [reflexivity|]. cbn [items commas]. rewrite text_app, H1, (rest_text xs ys).
    - destruct ys; [rewrite app_nil_r; reflexivity|rewrite <- !app_assoc; reflexivity].
    - clear -HF. induction HF as [|x y xs ys (A & B)]; constructor; assumption.
  Qed.
  Lemma in_braces_text xs ys e : Forall2 (fun x y => text (x true) = bs " " ++ y /\ text (x false) = bs ", " ++ y) xs ys ->
    text e = (match ys with [] => [] | _ => bs " " end) ++ bs "}" ->
    bs "{" ++ text (items xs) ++ text e = in_braces ys.
  Proof.
    intros H E. rewrite (items_text (bs " ") _ _ H), E. unfold in_braces. destruct ys; [reflexivity|]. rewrite <- !app_assoc. reflexivity.
  Qed.
  Lemma F2m {A B C} (P : B -> C -> Prop) (f : A -> B) (g : A -> C) l : (forall a, In a l -> P (f a) (g a)) -> Forall2 P (map f l) (map g l).
  Proof. intros H. apply F2_map, Forall_forall, H. Qed.

  Lemma leaves_hollow t : leaves false t = hollow t.
  Proof. induction t using tree_ind'; cbn [leaves hollow]; try reflexivity; assumption. Qed.
  Lemma leaves_echoed t : leaves true t = echoed t.
  Proof.
    induction t using tree_ind'; cbn [leaves echoed hollow]; try reflexivity; try assumption; apply leaves_hollow.
  Qed.
  Lemma flat_in {A} (f : A -> list ev) l a : In a l -> forallb ev_utf8 (flat_map f l) = true -> forallb ev_utf8 (f a) = true.
  Proof. intros I H. rewrite forallb_forall in *. intros x J. apply H, in_flat_map. eauto. Qed.
  Ltac utf H := cbn [emit forallb] in H; repeat (progress (rewrite ?forallb_app, ?andb_true_iff in H; cbn [forallb] in H)).

  Lemma text_of_toks t : forall num, forallb ev_utf8 (emit t) = true -> text (dtoks num t) = debug true num t.
  Proof.
    induction t using tree_ind'; intros num U; cbn [FmtProofs.dtoks FmtSpec.debug].
    - reflexivity.
    - destruct b; reflexivity.
    - apply app_nil_r.
    - apply app_nil_r.
    - apply app_nil_r.
    - utf U. destruct U as (_ & U & _). destruct num.
      + clear. induction fs as [|f fs IH]; [reflexivity|]. cbn [map]. unfold text, pieces in *. cbn [map List.concat]. rewrite IH. reflexivity.
      + rewrite !text_app, (frags_text_esc _ U). reflexivity.
    - rewrite !text_app, (items_text [] _ (map (fun b => dec (byte_val b)) (pieces fs))).
      + destruct (pieces fs); reflexivity.
      + apply F2m. intros b _. split; (rewrite text_app; cbn; rewrite app_nil_r; reflexivity).
    - destruct l; [apply app_nil_r|reflexivity].
    - utf U. apply IHt, U.
    - utf U. rewrite !text_app, IHt by apply U. destruct l; cbn [text map List.concat].
      + rewrite text_app. change (text (t_type (l_text l))) with (l_text l ++ []). rewrite app_nil_r, <- app_assoc. reflexivity.
      + apply app_nil_r.
    - utf U. rewrite text_app, IHt by apply U. rewrite leaves_echoed. f_equal. cbn [andb]. destruct (echoed t0); [|reflexivity].
      destruct l; [apply app_nil_r|reflexivity].
    - utf U. destruct U as (_ & U & _). rewrite !text_app, (items_text [] _ (map (debug true false) vs)).
      + destruct vs; reflexivity.
      + apply F2m. intros v Iv. rewrite Forall_forall in H. apply (flat_in _ _ v Iv) in U. utf U.
        split; (rewrite text_app, (H v Iv) by apply U; reflexivity).
    - utf U. destruct U as (_ & U & _). rewrite !text_app. apply in_braces_text.
      + apply F2m. intros [k v] Iv. rewrite Forall_forall in H. apply (flat_in _ _ _ Iv) in U. utf U. destruct U as (_ & Uk & _ & _ & Uv & _).
        destruct (H _ Iv) as (Hk & Hv). cbn [fst snd] in *. split; (rewrite !text_app, Hk, Hv by assumption; reflexivity).
      + destruct es; reflexivity.
    - utf U. destruct U as (_ & U & _). rewrite !text_app, <- app_assoc. f_equal.
      + destruct l; [|reflexivity]. unfold t_record_type, t_type, text. cbn. reflexivity.
      + apply in_braces_text.
        * apply F2m. intros [[ft fl] v] Iv. rewrite Forall_forall in H. apply (flat_in _ _ _ Iv) in U. utf U. destruct U as (_ & U & _).
          specialize (H _ Iv). cbn [fst snd] in *. split; (unfold t_record_value_begin; rewrite !text_app, H by assumption; cbn; rewrite <- !app_assoc; reflexivity).
        * destruct fs; reflexivity.
    - utf U. destruct U as (_ & U & _). rewrite !text_app, (items_text [] _ (map (fun f => debug true false (snd f)) fs)).
      + rewrite <- app_assoc. f_equal; [destruct l; [apply app_nil_r|reflexivity]|]. destruct fs; reflexivity.
      + apply F2m. intros [[ft fl] v] Iv. rewrite Forall_forall in H. apply (flat_in _ _ _ Iv) in U. utf U. destruct U as (_ & U & _).
        specialize (H _ Iv). cbn [fst snd] in *. split; (rewrite text_app, H by assumption; reflexivity).
    - utf U. destruct U as (_ & U & _). rewrite !text_app, <- app_assoc. f_equal.
      + destruct l; [|reflexivity]. unfold t_record_type, t_type, text. cbn. reflexivity.
      + apply in_braces_text.
        * apply F2m. intros [[[ft fl] fi] v] Iv. rewrite Forall_forall in H. apply (flat_in _ _ _ Iv) in U. utf U. destruct U as (_ & U & _).
          specialize (H _ Iv). cbn [fst snd] in *. split; (unfold t_record_value_begin; rewrite !text_app, H by assumption; cbn; rewrite <- !app_assoc; reflexivity).
        * destruct fs; reflexivity.
  Qed.
End Text.

(** The whole text: [debug], with the labels of enums with nothing in them written after
    their contents. *)
Theorem C30_text :
  forall r32 r64 uni v t, streams v t -> value_utf8 v = true ->
  fmt_to_string r32 r64 uni v = Some (debug r32 r64 uni true false t).
Proof.
  intros r32 r64 uni v t H U. unfold fmt_to_string, fmt_to_write. rewrite (tokens_of _ _ _ _ _ H), toks_string.
  cbn [app]. rewrite text_of_toks; [reflexivity|]. apply (flat_utf8 v false) in U. unfold streams in H. rewrite H in U. exact U.
Qed.

(** The text [#[derive(Debug)]] gives: false for enums with nothing in them. *)
Definition C30_debug_text : Prop :=
  forall r32 r64 uni v t, streams v t -> value_utf8 v = true ->
  fmt_to_string r32 r64 uni v = Some (debug r32 r64 uni false false t).
Definition txt (s : string) : tree := TText None [(true, bs s)].
Definition lbl (s : string) : option label := Some (label_new (bs s)).
Theorem C30_debug_text_refuted : ~ C30_debug_text.
Proof.
  intros H. specialize (H (fun _ => []) (fun _ => []) (fun c => [c])
    (map CE (emit (TEnum None (lbl "E") None (TTagged None (lbl "A") None (TSeq None []))))) _ (flat_CE_false _) eq_refl).
  vm_compute in H. discriminate H.
Qed.
Lemma debug_filled r32 r64 uni t : forall num, filled t = true -> debug r32 r64 uni true num t = debug r32 r64 uni false num t.
Proof.
  induction t using tree_ind'; intros num F; cbn [debug filled] in *; try reflexivity.
  - apply IHt, F.
  - rewrite IHt by exact F. reflexivity.
  - apply andb_true_iff in F as (F1 & F2). apply negb_true_iff in F1. rewrite F1, IHt by exact F2. reflexivity.
  - do 3 f_equal. apply map_ext_in. intros v I. rewrite Forall_forall in H. rewrite forallb_forall in F. auto.
  - f_equal. apply map_ext_in. intros v I. rewrite Forall_forall in H. rewrite forallb_forall in F. specialize (F _ I). apply andb_true_iff in F as (F1 & F2).
    destruct (H _ I) as (H1 & H2). rewrite H1, H2 by assumption. reflexivity.
  - do 2 f_equal. apply map_ext_in. intros [[ft fl] v] I. rewrite Forall_forall in H. rewrite forallb_forall in F. rewrite (H _ I) by apply (F _ I). reflexivity.
  - do 4 f_equal. apply map_ext_in. intros v I. rewrite Forall_forall in H. rewrite forallb_forall in F. auto.
  - do 2 f_equal. apply map_ext_in. intros [[[ft fl] fi] v] I. rewrite Forall_forall in H. rewrite forallb_forall in F. rewrite (H _ I) by apply (F _ I). reflexivity.
Qed.
(** Missing: enums holding an empty variant, or a plain value. *)
Theorem C30_debug_text_partial :
  forall r32 r64 uni v t, streams v t -> value_utf8 v = true -> filled t = true ->
  fmt_to_string r32 r64 uni v = Some (debug r32 r64 uni false false t).
Proof. intros r32 r64 uni v t H U F. rewrite (C30_text _ _ _ _ _ H U), debug_filled by exact F. reflexivity. Qed.

Definition fmt_sample : tree :=
  TRecord None (lbl "P") None None
    [(None, label_new (bs "a"), TMap None [(txt "k", TNull); (txt "l", TSeq None [])]);
     (None, label_new (bs "b"), TEnum None (lbl "E") None (TTuple None (lbl "T") None None [(None, MkIndex 0 None, TBin None [(true, bs "a"); (false, bs "b")]); (None, MkIndex 1 None, TText None [(true, bs "x"); (false, [ascii_of_N 10])])]))].
Example C30_sample : filled fmt_sample = true /\
  debug (fun _ => []) (fun _ => []) (fun c => [c]) false false fmt_sample =
  bs "P { a: { ""k"": (), ""l"": [] }, b: T([97, 98], ""x\n"") }" /\
  fmt_to_string (fun _ => []) (fun _ => []) (fun c => [c]) (map CE (emit fmt_sample)) = Some (debug (fun _ => []) (fun _ => []) (fun c => [c]) false false fmt_sample).
Proof. vm_compute. repeat split. Qed.
Example C30_echo : fmt_to_string (fun _ => []) (fun _ => []) (fun c => [c])
    (map CE (emit (TEnum None (lbl "E") None (TRecord None (lbl "A") None None [])))) = Some (bs "A {}E").
Proof. vm_compute. reflexivity. Qed.

(** ** C22, Debug-style *)
Lemma pieces_whole fs : pieces (whole fs) = pieces fs.
Proof. unfold pieces, whole. cbn. apply app_nil_r. Qed.
Lemma hollow_uncut t : hollow (uncut_all t) = hollow t.
Proof. induction t using tree_ind'; cbn [hollow uncut_all]; rewrite ?pieces_whole; try reflexivity; try assumption; destruct_list. Qed.
Lemma echoed_uncut t : echoed (uncut_all t) = echoed t.
Proof.
  induction t using tree_ind'; cbn [echoed uncut_all hollow]; rewrite ?pieces_whole; try reflexivity; try assumption; try apply hollow_uncut; destruct_list.
Qed.
Lemma debug_uncut r32 r64 uni e t : forall num, debug r32 r64 uni e num (uncut_all t) = debug r32 r64 uni e num t.
Proof.
  induction t using tree_ind'; intros num; cbn [debug uncut_all]; rewrite ?pieces_whole, ?map_map; try reflexivity.
  - apply IHt.
  - rewrite IHt. reflexivity.
  - rewrite IHt, echoed_uncut. reflexivity.
  - do 3 f_equal. apply map_ext_in. intros v I. rewrite Forall_forall in H. auto.
  - f_equal. apply map_ext_in. intros v I. rewrite Forall_forall in H. destruct (H _ I) as (H1 & H2). cbn [fst snd]. rewrite H1, H2. reflexivity.
  - do 2 f_equal. apply map_ext_in. intros [[ft fl] v] I. rewrite Forall_forall in H. cbn [fst snd]. rewrite (H _ I). reflexivity.
  - do 4 f_equal. apply map_ext_in. intros v I. rewrite Forall_forall in H. cbn [fst snd]. auto.
  - do 2 f_equal. apply map_ext_in. intros [[[ft fl] fi] v] I. rewrite Forall_forall in H. cbn [fst snd]. rewrite (H _ I). reflexivity.
Qed.
Theorem C22_fmt_any_cut :
  forall r32 r64 uni v v' t t', streams v t -> streams v' t' -> value_utf8 v = true -> value_utf8 v' = true -> uncut_all t = uncut_all t' ->
  fmt_to_string r32 r64 uni v = fmt_to_string r32 r64 uni v'.
Proof.
  intros r32 r64 uni v v' t t' H H' U U' E. rewrite (C30_text _ _ _ _ _ H U), (C30_text _ _ _ _ _ H' U').
  rewrite <- debug_uncut, E, debug_uncut. reflexivity.
Qed.
Example C22_fmt_sample : uncut_all cut_a = uncut_all cut_b /\ value_utf8 (map CE (emit cut_a)) = true /\ value_utf8 (map CE (emit cut_b)) = true /\
  fmt_to_string (fun _ => []) (fun _ => []) (fun c => [c]) (map CE (emit cut_b)) = Some (bs "{ ""ab"": -012.5e1, ""k"": [120, 121, 122] }").
Proof. vm_compute. repeat split. Qed.

(** ** C31 *)
Definition C31_no_panic : Prop := forall r32 r64 uni v, fmt_to_string r32 r64 uni v <> None.
Theorem C31_no_panic_refuted : ~ C31_no_panic.
Proof. intros H. apply (H (fun _ => []) (fun _ => []) (fun c => [c]) [CFail]). reflexivity. Qed.
(** It panics for exactly the values that fail by themselves. *)
Theorem C31_panics_iff_value_fails :
  forall r32 r64 uni v, fmt_to_string r32 r64 uni v = None <-> value_fails v = true.
Proof.
  intros r32 r64 uni v. destruct (C45_fmt_tokens r32 r64 uni v) as (ts & H). unfold fmt_to_string, fmt_to_write. rewrite H, toks_string.
  destruct (value_fails v); split; (reflexivity || discriminate).
Qed.
(** Missing: values that fail. *)
Theorem C31_no_panic_partial :
  forall r32 r64 uni v, value_fails v = false -> exists s, fmt_to_string r32 r64 uni v = Some s.
Proof.
  intros r32 r64 uni v H. destruct (fmt_to_string r32 r64 uni v) eqn:E; [eauto|]. apply C31_panics_iff_value_fails in E. congruence.
Qed.
Example C31_sample : value_fails [CE (ESeqBegin None); CE ESeqEnd; CE EMapEnd] = false /\ value_fails [CE (ESeqBegin None); CV [CFail]] = true.
Proof. split; reflexivity. Qed.

(** ** C48: [ToFmt] displays every value *)

(** [Display] for [ToFmt] succeeds on every value, failing ones too, if the writer never
    fails, so [to_string] on it never panics. *)
Lemma toks_total {W} (tok : W -> tkind -> bytes -> res W) : (forall w k s, exists w', tok w k s = Ok w') -> forall ts w, exists w', toks W tok w ts = Ok w'.
Proof.
  intros H. induction ts as [|[k s] ts IH]; intros w; cbn [toks]; [eauto|]. destruct (H w k s) as (w' & ->). cbn [bind]. apply IH.
Qed.
Theorem C48_display_succeeds :
  forall r32 r64 uni (W : Type) (tok : W -> tkind -> bytes -> res W) v w, (forall w k s, exists w', tok w k s = Ok w') ->
  exists w', to_fmt_display W tok r32 r64 uni w v = Ok w'.
Proof.
  intros r32 r64 uni W tok v w H. unfold to_fmt_display. destruct (C45_fmt_tokens r32 r64 uni v) as (ts & E). rewrite E.
  destruct (toks_total tok H ts w) as (w' & ->). destruct (value_fails v); [|eauto]. apply toks_total, H.
Qed.
Theorem C48_to_string_never_panics :
  forall r32 r64 uni v, exists s, to_fmt_string r32 r64 uni v = Some s /\ (value_fails v = false -> fmt_to_string r32 r64 uni v = Some s).
Proof.
  intros r32 r64 uni v. unfold to_fmt_string, fmt_to_string, fmt_to_write, to_fmt_display.
  destruct (C45_fmt_tokens r32 r64 uni v) as (ts & E). rewrite !E, !toks_string. cbn [app].
  destruct (value_fails v); [rewrite toks_string|]; eexists; split; try reflexivity; try discriminate; reflexivity.
Qed.
(** A failure of the writer is reported: false, as [Display] takes any failure to be the
    value's and tries again. *)
Definition C48_writer_failure_reported : Prop :=
  forall r32 r64 uni (W : Type) (tok : W -> tkind -> bytes -> res W) v w w', value_fails v = false ->
  to_token_write W tok r32 r64 uni w v = Err w' -> exists w'', to_fmt_display W tok r32 r64 uni w v = Err w''.
(** A writer with room for a few bytes. *)
Definition bounded (room : nat) (w : bytes) (k : tkind) (s : bytes) : res bytes :=
  if Nat.leb (List.length w + List.length s) room then Ok (w ++ s) else Err w.
Theorem C48_writer_failure_reported_refuted : ~ C48_writer_failure_reported.
Proof.
  intros H. specialize (H (fun _ => []) (fun _ => []) (fun c => [c]) bytes (bounded 50)
    [CE (ETextBegin None); CE (ETextFrag (map (fun _ => "x"%char) (seq 0 100))); CE ETextEnd] [] (bs """") eq_refl).
  destruct H as (w'' & H); [vm_compute; reflexivity|]. vm_compute in H. discriminate H.
Qed.
(** Missing: writers that accept more after having failed. *)
Theorem C48_writer_failure_reported_partial :
  forall r32 r64 uni (W : Type) (tok : W -> tkind -> bytes -> res W) v w w',
  (forall w k s w', tok w k s = Err w' -> forall k s, exists w'', tok w' k s = Err w'') ->
  value_fails v = false ->
  to_token_write W tok r32 r64 uni w v = Err w' -> exists w'', to_fmt_display W tok r32 r64 uni w v = Err w''.
Proof.
  intros r32 r64 uni W tok v w w' S V E. unfold to_fmt_display. destruct (C45_fmt_tokens r32 r64 uni v) as (ts & F). rewrite F, V in *.
  assert (X : forall ts w w', toks W tok w ts = Err w' -> forall k s, exists w'', tok w' k s = Err w'').
  { clear -S. induction ts as [|[k s] ts IH]; intros w w' H; cbn [toks] in H; [discriminate|].
    destruct (tok w k s) as [a|a|] eqn:T; cbn [bind] in H; [exact (IH _ _ H)|injection H as ->; exact (S _ _ _ _ T)|discriminate]. }
  destruct (toks W tok w ts) as [a|a|] eqn:T; try discriminate. injection E as ->. cbn [toks].
  destruct (X _ _ _ T KAtom (bs "<")) as (w'' & ->). eexists. reflexivity.
Qed.
Example C48_sample :
  to_fmt_string (fun _ => []) (fun _ => []) (fun c => [c]) [CE (ESeqBegin None); CE ESeqValBegin; CFail] =
    Some (bs "[<an error occurred when formatting an argument>") /\
  (forall w k s w', up_to 3 w k s = Err w' -> forall k s, exists w'', up_to 3 w' k s = Err w'') /\
  to_fmt_display _ (up_to 1) (fun _ => []) (fun _ => []) (fun c => [c]) [] [CE (ESeqBegin None); CE ESeqEnd] = Err [(KPunct, bs "[")].
Proof.
  split; [vm_compute; reflexivity|split; [|vm_compute; reflexivity]].
  intros w k s w'. unfold up_to at 1. destruct (Nat.ltb (List.length w) 3) eqn:E; [discriminate|]. intros [= <-] k' s'. unfold up_to. rewrite E. eauto.
Qed.

(** ** C49: Debug-style output is valid UTF-8 *)
Definition strict_tok {W} (tok : W -> tkind -> bytes -> res W) (w : W) (k : tkind) (s : bytes) : res W := if utf8 s then tok w k s else Panic.

Section Strict.
  Variable W : Type.
  Variable tok : W -> tkind -> bytes -> res W.
  Variable r32 r64 : float -> bytes.
  Variable uni : bytes -> list bytes.
  Hypothesis U32 : forall x, utf8 (r32 x) = true.
  Hypothesis U64 : forall x, utf8 (r64 x) = true.
  Hypothesis Uuni : forall c, utf8_char c = true -> forallb utf8 (uni c) = true.

  Definition toks_utf8 (ts : list token) : bool := forallb (fun t => utf8 (snd t)) ts.
  Lemma toks_strict ts : forall w, toks_utf8 ts = true -> toks W (strict_tok tok) w ts = toks W tok w ts.
  Proof.
    induction ts as [|[k s] ts IH]; intros w H; cbn [toks]; [reflexivity|]. cbn [toks_utf8 forallb snd] in H. apply andb_true_iff in H as (H1 & H2).
    unfold strict_tok at 1. rewrite H1. destruct (tok w k s); cbn [bind]; [apply IH, H2|reflexivity..].
  Qed.
  Lemma puts_strict ts s : toks_utf8 ts = true -> puts W (strict_tok tok) ts s = puts W tok ts s.
  Proof. intros H. unfold puts. rewrite toks_strict by exact H. reflexivity. Qed.

  Lemma esc_ascii_utf8 c : (N_of_ascii c <? 128)%N = true -> forallb utf8 (esc_ascii c) = true.
  Proof. destruct c as [[] [] [] [] [] [] [] []]; vm_compute; intros H; try discriminate H; reflexivity. Qed.
  Lemma escape_debug_utf8 c : utf8_char c = true -> forallb utf8 (escape_debug uni c) = true.
  Proof.
    intros H. unfold escape_debug. destruct c as [|a [|b c]]; try (apply Uuni, H). destruct (N_of_ascii a <? 128)%N eqn:E; [apply esc_ascii_utf8, E|apply Uuni, H].
  Qed.
  Lemma utf8_one c : utf8_char c = true -> utf8 c = true.
  Proof. intros H. apply utf8P_iff. rewrite <- (app_nil_r c). constructor; [exact H|constructor]. Qed.
  Lemma chars_one c : utf8_char c = true -> chars c = [c].
  Proof.
    intros H. pose proof (fun a d => char_tail a d) as T. destruct (char_cases c H) as [(a & ->)|[(a & b & ->)|[(a & b & d & ->)|(a & b & d & e & ->)]]]; cbn [chars].
    - reflexivity.
    - rewrite (T _ _ b H) by (cbn; auto). reflexivity.
    - rewrite (T _ _ b H), (T _ _ d H) by (cbn; auto). reflexivity.
    - rewrite (T _ _ b H), (T _ _ d H), (T _ _ e H) by (cbn; auto). reflexivity.
  Qed.
  Lemma chars_utf8 s : utf8 s = true -> forallb utf8_char (chars s) = true.
  Proof.
    rewrite utf8P_iff. induction 1 as [|c s C H IH]; [reflexivity|]. rewrite chars_app.
    - rewrite forallb_app, IH, (chars_one c C). cbn. rewrite C. reflexivity.
    - apply utf8P_iff in H. destruct s as [|d s]; [exact I|apply (utf8_head _ _ H)].
  Qed.
  Lemma pieces_utf8 cs : forall p, forallb utf8_char cs = true -> utf8 p = true -> forallb utf8 (escape_pieces uni cs p) = true.
  Proof.
    assert (P : forall p, utf8 p = true -> forallb utf8 match p with [] => [] | _ :: _ => [p] end = true).
    { intros [|x p] H; [reflexivity|]. cbn [forallb]. rewrite H. reflexivity. }
    induction cs as [|c cs IH]; intros p F U; cbn [escape_pieces]; [apply P, U|].
    cbn [forallb] in F. apply andb_true_iff in F as (F1 & F2). cbv zeta. destruct (Nat.ltb 1 (List.length (escape_debug uni c))).
    - rewrite !forallb_app, (P _ U), (escape_debug_utf8 _ F1), (IH [] F2 eq_refl). reflexivity.
    - apply IH; [exact F2|]. apply utf8_app; [exact U|apply utf8_one, F1].
  Qed.
  Lemma text_utf8 s : utf8 s = true -> toks_utf8 (t_text uni s) = true.
  Proof.
    intros H. pose proof (pieces_utf8 (chars s) [] (chars_utf8 s H) eq_refl) as P. unfold toks_utf8, t_text.
    induction (escape_pieces uni (chars s) []) as [|p ps IH]; [reflexivity|]. cbn [forallb map snd] in *. apply andb_true_iff in P as (-> & P). apply IH, P.
  Qed.
  Lemma toks_utf8_app a b : toks_utf8 a = true -> toks_utf8 b = true -> toks_utf8 (a ++ b) = true.
  Proof. intros A B. unfold toks_utf8 in *. rewrite forallb_app. apply andb_true_iff. split; assumption. Qed.
  Lemma num_utf8 s : utf8 s = true -> toks_utf8 [(KNumber, s)] = true.
  Proof. cbn. intros ->. reflexivity. Qed.
  Lemma type_utf8 s : utf8 s = true -> toks_utf8 (t_type s) = true.
  Proof. cbn. intros ->. reflexivity. Qed.
  Lemma int_strict z s : d_int W (strict_tok tok) z s = d_int W tok z s.
  Proof. apply puts_strict, num_utf8, dec_utf8. Qed.
  Lemma seq_value_strict s : d_seq_value_begin W (strict_tok tok) s = d_seq_value_begin W tok s.
  Proof. apply puts_strict. destruct (w_empty W s); reflexivity. Qed.
  Lemma bytes_strict v : forall s, d_bytes W (strict_tok tok) v s = d_bytes W tok v s.
  Proof.
    induction v as [|b v IH]; intros s; [reflexivity|]. cbn [d_bytes]. rewrite seq_value_strict.
    destruct (d_seq_value_begin W tok s) as [s1|s1|]; cbn [bind]; try reflexivity. rewrite int_strict.
    destruct (d_int W tok (byte_val b) s1) as [s2|s2|]; cbn [bind]; try reflexivity.
    destruct (d_value_end W s2) as [s3|s3|]; cbn [bind]; try reflexivity. apply IH.
  Qed.
  Lemma step_strict s e : ev_utf8 e = true -> fmt_step W (strict_tok tok) r32 r64 uni s e = fmt_step W tok r32 r64 uni s e.
  Proof.
    intros U. destruct e; cbn [fmt_step ev_utf8] in *; try reflexivity; unfold d_enum_end, d_text_begin, d_text_frag, d_tag, d_tagged_begin, d_tagged_end, d_record_begin, d_tuple_begin, d_open;
      try apply bytes_strict; try apply int_strict; try apply seq_value_strict;
      try (destruct (w_num W s)); try (destruct (w_empty W s)); try reflexivity; apply puts_strict;
      try reflexivity; try (apply num_utf8; (exact U || apply U32 || apply U64)); try (apply text_utf8, U); try (destruct b; reflexivity);
      try (destruct l as [l|]; cbn [olabel_utf8] in U); try reflexivity;
      repeat (apply toks_utf8_app); try reflexivity; try (apply type_utf8, U).
  Qed.
End Strict.

(** No token given to a writer is anything but UTF-8, whatever the writer and whatever
    calls the value makes. *)
Theorem C49_every_token_is_utf8 :
  forall (W : Type) (tok : W -> tkind -> bytes -> res W) r32 r64 uni w v,
  (forall x, utf8 (r32 x) = true) -> (forall x, utf8 (r64 x) = true) -> (forall c, utf8_char c = true -> forallb utf8 (uni c) = true) ->
  value_utf8 v = true ->
  to_token_write W (strict_tok tok) r32 r64 uni w v = to_token_write W tok r32 r64 uni w v.
Proof.
  intros W tok r32 r64 uni w v U32 U64 UU V. unfold to_token_write, run_impl. apply (flat_utf8 v false) in V. destruct (flat v false) as [es ok]. cbn [fst] in V.
  assert (L : forallb ev_utf8 (lower_all fmt_over es) = true).
  { unfold lower_all. rewrite forallb_forall in *. intros x I. apply in_flat_map in I as (y & I & J).
    pose proof (lower_utf8 fmt_over depth y (V y I)) as K. rewrite forallb_forall in K. apply K, J. }
  rewrite (run_eq _ _ _ (fun f e => step_strict W tok r32 r64 uni U32 U64 UU f e) L). reflexivity.
Qed.
Example C49_sample : value_utf8 utf8_sample = true /\ fmt_to_string (fun _ => []) (fun _ => []) (fun c => [c]) utf8_sample =
  Some (bs "{ """ ++ map ascii_of_N [195; 169; 92; 110; 240; 159; 166; 128]%N ++ bs """: 1267650600228229401496703205376 }").
Proof. vm_compute. repeat split. Qed.

Print Assumptions C45_fmt_tokens.
Print Assumptions C30_balanced.
Print Assumptions C30_text.
Print Assumptions C30_debug_text_refuted.
Print Assumptions C30_debug_text_partial.
Print Assumptions C22_fmt_any_cut.
Print Assumptions C31_no_panic_refuted.
Print Assumptions C31_panics_iff_value_fails.
Print Assumptions C31_no_panic_partial.
Print Assumptions C48_display_succeeds.
Print Assumptions C48_to_string_never_panics.
Print Assumptions C48_writer_failure_reported_refuted.
Print Assumptions C48_writer_failure_reported_partial.
Print Assumptions C49_every_token_is_utf8.
