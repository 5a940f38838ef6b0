(** * FmtProofs: the tokens the Debug-style writer writes *)

From Verif Require Import Base Event Tree LowerModel FlatProofs LowerProofs MethProofs Utf8 FmtModel FmtSpec.

(** A writer that collects tokens. *)
Definition collect_tok (w : list token) (k : tkind) (s : bytes) : res (list token) := Ok (w ++ [(k, s)]).

(** The tokens of a list: each item is told whether it is the first. *)
Definition items (xs : list (bool -> list token)) : list token :=
  match xs with [] => [] | x :: r => x true ++ flat_map (fun y => y false) r end.
Definition is_nil {A} (l : list A) : bool := match l with [] => true | _ => false end.

(** What is left in [is_current_depth_empty]. *)
Fixpoint leaves (e : bool) (t : tree) : bool :=
  match t with
  | TBin _ fs => is_nil (pieces fs)
  | TTag _ _ _ | TEnum _ _ _ _ => false
  | THint _ v => leaves e v
  | TTagged _ _ _ v => leaves false v
  | TSeq _ vs => is_nil vs
  | TMap _ es => is_nil es
  | TRecord _ _ _ _ fs => is_nil fs
  | TTuple _ _ _ _ fs => is_nil fs
  | TRecTup _ _ _ _ fs => is_nil fs
  | _ => e
  end.

Section Tokens.
  Variable r32 r64 : float -> bytes.
  Variable uni : bytes -> list bytes.
  Notation step := (fmt_step (list token) collect_tok r32 r64 uni).
  Notation fm := (meth fmt_over step).
  Notation F := (run fm).
  Notation MkWr := (MkWr (list token)).
  Notation puts := (puts (list token) collect_tok).

  Definition tag_toks (l : option label) : list token := match l with Some l => t_type (l_text l) | None => t_null end.
  Fixpoint dtoks (num : bool) (t : tree) : list token :=
    match t with
    | TNull => t_null
    | TBool b => t_bool b
    | TInt _ z => [(KNumber, dec z)]
    | TF32 x => [(KNumber, r32 x)]
    | TF64 x => [(KNumber, r64 x)]
    | TText _ fs => if num then map (fun f => (KNumber, snd f)) fs
                    else t_quote ++ flat_map (fun f => t_text uni (snd f)) fs ++ t_quote
    | TBin _ fs => t_seq_begin ++ items (map (fun b first => t_seq_value_begin first ++ [(KNumber, dec (byte_val b))]) (pieces fs)) ++ t_seq_end
    | TTag _ l _ => tag_toks l
    | THint _ v => dtoks num v
    | TTagged t l _ v =>
        (match l with Some l => t_type (l_text l) ++ t_tuple_begin | None => [] end) ++ dtoks (num || otag_is t NUMBER) v ++
        (match l with Some _ => t_tuple_end | None => [] end)
    | TEnum _ l _ v => dtoks num v ++ (if leaves true v then tag_toks l else [])
    | TSeq _ vs => t_seq_begin ++ items (map (fun v first => t_seq_value_begin first ++ dtoks false v) vs) ++ t_seq_end
    | TMap _ es => t_map_begin ++ items (map (fun e first => t_map_key_begin first ++ dtoks false (fst e) ++ t_map_value_begin ++ dtoks false (snd e)) es)
                   ++ t_map_end (is_nil es)
    | TRecord _ l _ _ fs =>
        ((match l with Some l => t_record_type (l_text l) | None => [] end) ++ t_record_begin) ++
        items (map (fun f => match f with (_, l, v) => fun first => t_record_value_begin (l_text l) first ++ dtoks false v end) fs) ++ t_record_end (is_nil fs)
    | TTuple _ l _ _ fs =>
        ((match l with Some l => t_type (l_text l) | None => [] end) ++ t_tuple_begin) ++
        items (map (fun f first => t_tuple_value_begin first ++ dtoks false (snd f)) fs) ++ t_tuple_end
    | TRecTup _ l _ _ fs =>
        ((match l with Some l => t_record_type (l_text l) | None => [] end) ++ t_record_begin) ++
        items (map (fun f => match f with (_, l, _, v) => fun first => t_record_value_begin (l_text l) first ++ dtoks false v end) fs) ++ t_record_end (is_nil fs)
    end.

  (** ** Single calls *)
  Lemma toks_pure ts : forall w, toks (list token) collect_tok w ts = Ok (w ++ ts).
  Proof.
    induction ts as [|[k s] ts IH]; intros w; cbn [toks]; [rewrite app_nil_r; reflexivity|].
    unfold collect_tok at 1. cbn [bind]. rewrite IH, <- app_assoc. reflexivity.
  Qed.
  Lemma puts_pure ts e n w : puts ts (MkWr e n w) = Ok (MkWr e n (w ++ ts)).
  Proof. unfold FmtModel.puts. cbn [w_out w_empty w_num]. rewrite toks_pure. reflexivity. Qed.

  Lemma fm_over s e : fmt_over e = true -> fm s e = step s e.
  Proof. intros H. rewrite meth_unfold, H. reflexivity. Qed.
  Ltac one := rewrite meth_unfold; cbn [fmt_over default_evs default_calls option_map flat flat1 fst snd app];
    rewrite run_one, fm_over by reflexivity; reflexivity.
  Lemma fm_text_frag s f : fm s (text_frag f) = d_text_frag (list token) collect_tok uni (snd f) s.
  Proof. unfold text_frag. destruct (fst f); [one|rewrite fm_over by reflexivity; reflexivity]. Qed.
  Lemma fm_bin_frag s f : fm s (bin_frag f) = d_bytes (list token) collect_tok (snd f) s.
  Proof. unfold bin_frag. destruct (fst f); [one|rewrite fm_over by reflexivity; reflexivity]. Qed.
  Lemma fm_hint s t : fm s (ETagHint t) = Ok s.
  Proof. rewrite meth_unfold. reflexivity. Qed.
  Lemma fm_rectup_begin s t l i n : fm s (ERecTupBegin t l i n) = step s (ERecordBegin t l i n). Proof. one. Qed.
  Lemma fm_rectup_val_begin s t l i : fm s (ERecTupValBegin t l i) = step s (ERecordValBegin t l). Proof. one. Qed.
  Lemma fm_rectup_val_end s t l i : fm s (ERecTupValEnd t l i) = step s (ERecordValEnd t l). Proof. one. Qed.
  Lemma fm_rectup_end s t l i : fm s (ERecTupEnd t l i) = step s (ERecordEnd t l i). Proof. one. Qed.

  (** ** Lists *)
  Lemma rest_run (blocks : list (list ev)) xs :
    Forall2 (fun b x => forall e w, F (MkWr e false w) b = Ok (MkWr false false (w ++ x e))) blocks xs ->
    forall w, F (MkWr false false w) (List.concat blocks) = Ok (MkWr false false (w ++ flat_map (fun y => y false) xs)).
  Proof.
    induction 1 as [|b x blocks xs H HF IH]; intros w; cbn [List.concat flat_map]; [rewrite app_nil_r; reflexivity|].
    rewrite run_app, H. cbn [bind]. rewrite IH, <- app_assoc. reflexivity.
  Qed.
  Lemma items_run (blocks : list (list ev)) xs :
    Forall2 (fun b x => forall e w, F (MkWr e false w) b = Ok (MkWr false false (w ++ x e))) blocks xs ->
    forall w, F (MkWr true false w) (List.concat blocks) = Ok (MkWr (is_nil xs) false (w ++ items xs)).
  Proof.
    destruct 1 as [|b x blocks xs H HF]; intros w; cbn [List.concat items is_nil]; [rewrite app_nil_r; reflexivity|].
    rewrite run_app, H. cbn [bind]. rewrite (rest_run _ _ HF), <- app_assoc. reflexivity.
  Qed.
  Lemma between_run (blocks : list (list ev)) xs b e begin_toks end_toks e0 n0 w :
    (forall s, fm s b = d_open (list token) collect_tok begin_toks s) ->
    (forall s, fm s e = puts (end_toks (w_empty _ s)) s) ->
    Forall2 (fun b x => forall e w, F (MkWr e false w) b = Ok (MkWr false false (w ++ x e))) blocks xs ->
    F (MkWr e0 n0 w) (b :: List.concat blocks ++ [e]) = Ok (MkWr (is_nil xs) false (w ++ begin_toks ++ items xs ++ end_toks (is_nil xs))).
  Proof.
    intros B E H. rewrite run_cons, B. unfold d_open, set_empty, set_num. cbn [w_num w_out w_empty]. rewrite puts_pure. cbn [bind].
    rewrite run_app, (items_run _ _ H). cbn [bind]. rewrite run_one, E. cbn [w_empty]. rewrite puts_pure, <- !app_assoc. reflexivity.
  Qed.
  Lemma bytes_app a b : forall s, d_bytes (list token) collect_tok (a ++ b) s = d_bytes _ collect_tok a s >>= d_bytes _ collect_tok b.
  Proof.
    induction a as [|c a IH]; intros s; cbn [app d_bytes bind]; [reflexivity|].
    destruct (d_seq_value_begin _ collect_tok s) as [s1|s1|]; cbn [bind]; try reflexivity.
    destruct (d_int _ collect_tok (byte_val c) s1) as [s2|s2|]; cbn [bind]; try reflexivity.
    destruct (d_value_end _ s2) as [s3|s3|]; cbn [bind]; try reflexivity. apply IH.
  Qed.
  Lemma bin_frags fs : forall s, F s (map bin_frag fs) = d_bytes (list token) collect_tok (pieces fs) s.
  Proof.
    induction fs as [|f fs IH]; intros s; [reflexivity|]. cbn [map]. rewrite run_cons, fm_bin_frag.
    unfold pieces. cbn [map List.concat]. rewrite bytes_app. destruct (d_bytes _ collect_tok (snd f) s); cbn [bind]; [apply IH|reflexivity..].
  Qed.
  Definition byte_item (b : byte) (first : bool) : list token := t_seq_value_begin first ++ [(KNumber, dec (byte_val b))].
  Lemma byte_step v : forall e w b, d_bytes (list token) collect_tok (b :: v) (MkWr e false w) = d_bytes _ collect_tok v (MkWr false false (w ++ byte_item b e)).
  Proof.
    intros e w b. cbn [d_bytes]. unfold d_seq_value_begin, d_int, d_value_end. cbn [w_empty]. rewrite puts_pure. cbn [bind].
    rewrite puts_pure. cbn [bind]. rewrite <- app_assoc. reflexivity.
  Qed.
  Lemma bytes_run v : forall w, d_bytes (list token) collect_tok v (MkWr true false w) =
    Ok (MkWr (is_nil v) false (w ++ items (map byte_item v))).
  Proof.
    assert (R : forall v w, d_bytes (list token) collect_tok v (MkWr false false w) = Ok (MkWr false false (w ++ flat_map (fun y => y false) (map byte_item v)))).
    { clear v. induction v as [|b v IH]; intros w; [cbn; rewrite app_nil_r; reflexivity|].
      rewrite byte_step, IH, <- app_assoc. reflexivity. }
    destruct v as [|b v]; intros w; [cbn; rewrite app_nil_r; reflexivity|].
    rewrite byte_step, R, <- app_assoc. reflexivity.
  Qed.
  Lemma num_frags fs : forall e w, F (MkWr e true w) (map text_frag fs) = Ok (MkWr e true (w ++ map (fun f => (KNumber, snd f)) fs)).
  Proof.
    induction fs as [|f fs IH]; intros e w; cbn [map]; [rewrite app_nil_r; reflexivity|].
    rewrite run_cons, fm_text_frag. unfold d_text_frag. cbn [w_num]. rewrite puts_pure. cbn [bind]. rewrite IH, <- app_assoc. reflexivity.
  Qed.
  Lemma text_frags fs : forall e w, F (MkWr e false w) (map text_frag fs) = Ok (MkWr e false (w ++ flat_map (fun f => t_text uni (snd f)) fs)).
  Proof.
    induction fs as [|f fs IH]; intros e w; cbn [map flat_map]; [rewrite app_nil_r; reflexivity|].
    rewrite run_cons, fm_text_frag. unfold d_text_frag. cbn [w_num]. rewrite puts_pure. cbn [bind]. rewrite IH, <- app_assoc. reflexivity.
  Qed.

  Definition writes_toks (t : tree) : Prop := forall e num w, exists num', (num = false -> num' = false) /\
    F (MkWr e num w) (emit t) = Ok (MkWr (leaves e t) num' (w ++ dtoks num t)).
  Lemma item_run t : writes_toks t -> forall sep b e, (forall s, fm s b = puts (sep (w_empty _ s)) s) -> (forall s, fm s e = d_value_end _ s) ->
    forall e0 w, F (MkWr e0 false w) (b :: emit t ++ [e]) = Ok (MkWr false false (w ++ sep e0 ++ dtoks false t)).
  Proof.
    intros H sep b e B E e0 w. rewrite run_cons, B. cbn [w_empty]. rewrite puts_pure. cbn [bind]. rewrite run_app.
    destruct (H e0 false (w ++ sep e0)) as (n & N & R). rewrite R, (N eq_refl). cbn [bind]. rewrite run_one, E. rewrite <- app_assoc. reflexivity.
  Qed.
  Lemma F2_map {A B C} (P : B -> C -> Prop) (f : A -> B) (g : A -> C) l : Forall (fun a => P (f a) (g a)) l -> Forall2 P (map f l) (map g l).
  Proof. induction 1; constructor; assumption. Qed.
  Lemma is_nil_map {A B} (f : A -> B) l : is_nil (map f l) = is_nil l. Proof. destruct l; reflexivity. Qed.

  Lemma all_toks t : writes_toks t.
  Proof.
    induction t using tree_ind'; intros e num w; cbn [emit dtoks leaves].
    - exists num. split; [auto|]. rewrite run_one, fm_over by reflexivity. apply puts_pure.
    - exists num. split; [auto|]. rewrite run_one, fm_over by reflexivity. apply puts_pure.
    - exists num. split; [auto|]. rewrite run_one, fm_over by reflexivity. apply puts_pure.
    - exists num. split; [auto|]. rewrite run_one, fm_over by reflexivity. apply puts_pure.
    - exists num. split; [auto|]. rewrite run_one, fm_over by reflexivity. apply puts_pure.
    - exists num. split; [auto|]. rewrite run_cons, fm_over by reflexivity. cbn [fmt_step]. unfold d_text_begin. cbn [w_num].
      destruct num.
      + cbn [bind]. rewrite run_app, num_frags. cbn [bind]. rewrite run_one, fm_over by reflexivity. reflexivity.
      + rewrite puts_pure. cbn [bind]. rewrite run_app, text_frags. cbn [bind]. rewrite run_one, fm_over by reflexivity.
        cbn [fmt_step]. unfold d_text_begin. cbn [w_num]. rewrite puts_pure, <- !app_assoc. reflexivity.
    - exists false. split; [auto|]. rewrite run_cons, fm_over by reflexivity. cbn [fmt_step]. unfold d_open, set_empty, set_num. cbn [w_num w_out w_empty].
      rewrite puts_pure. cbn [bind]. rewrite run_app, bin_frags, bytes_run. cbn [bind]. rewrite run_one, fm_over by reflexivity.
      cbn [fmt_step]. rewrite puts_pure, <- !app_assoc. reflexivity.
    - exists num. split; [auto|]. rewrite run_one, fm_over by reflexivity. cbn [fmt_step]. unfold d_tag, set_empty. cbn [w_num w_out]. apply puts_pure.
    - rewrite run_cons, fm_hint. cbn [bind]. apply IHt.
    - destruct (IHt false (num || otag_is t NUMBER) (w ++ match l with Some l => t_type (l_text l) ++ t_tuple_begin | None => [] end)) as (n & N & R).
      exists (if otag_is t NUMBER then false else n). split; [intros ->; destruct (otag_is t NUMBER); [reflexivity|apply N; reflexivity]|].
      rewrite run_cons, fm_over by reflexivity. cbn [fmt_step]. unfold d_tagged_begin, set_empty, set_num. cbn [w_num w_out w_empty].
      assert (X : (if otag_is t NUMBER then MkWr false true w else MkWr false num w) = MkWr false (num || otag_is t NUMBER) w)
        by (destruct (otag_is t NUMBER), num; reflexivity). rewrite X, puts_pure. cbn [bind].
      rewrite run_app, R. cbn [bind]. rewrite run_one, fm_over by reflexivity. cbn [fmt_step]. unfold d_tagged_end, set_num. cbn [w_num w_out w_empty].
      assert (Y : forall a b, (if otag_is t NUMBER then MkWr a false b else MkWr a n b) = MkWr a (if otag_is t NUMBER then false else n) b)
        by (intros; destruct (otag_is t NUMBER); reflexivity). rewrite Y, puts_pure, <- !app_assoc. reflexivity.
    - destruct (IHt true num w) as (n & N & R). exists n. split; [exact N|].
      rewrite run_cons, fm_over by reflexivity. cbn [fmt_step]. unfold set_empty. cbn [w_num w_out bind].
      rewrite run_app, R. cbn [bind]. rewrite run_one, fm_over by reflexivity. cbn [fmt_step]. unfold d_enum_end. cbn [w_empty].
      destruct (leaves true t0).
      + unfold d_tag, set_empty. cbn [w_num w_out]. rewrite puts_pure, <- app_assoc. reflexivity.
      + rewrite app_nil_r. reflexivity.
    - exists false. split; [auto|]. rewrite flat_map_concat_map.
      erewrite (between_run _ (map (fun v first => t_seq_value_begin first ++ dtoks false v) vs) _ _ t_seq_begin (fun _ => t_seq_end)).
      + rewrite is_nil_map. reflexivity.
      + intros s. rewrite fm_over by reflexivity. reflexivity.
      + intros s. rewrite fm_over by reflexivity. reflexivity.
      + apply F2_map. eapply Forall_impl; [|exact H]. intros v Hv e0 w0. apply (item_run v Hv t_seq_value_begin).
        * intros s. rewrite fm_over by reflexivity. reflexivity.
        * intros s. rewrite fm_over by reflexivity. reflexivity.
    - exists false. split; [auto|]. rewrite flat_map_concat_map.
      erewrite (between_run _ (map (fun e first => t_map_key_begin first ++ dtoks false (fst e) ++ t_map_value_begin ++ dtoks false (snd e)) es) _ _ t_map_begin t_map_end).
      + rewrite is_nil_map. reflexivity.
      + intros s. rewrite fm_over by reflexivity. reflexivity.
      + intros s. rewrite fm_over by reflexivity. reflexivity.
      + apply F2_map. eapply Forall_impl; [|exact H]. intros [k v] (Hk & Hv) e0 w0. cbn [fst snd] in *.
        rewrite run_cons, fm_over by reflexivity. cbn [fmt_step w_empty]. rewrite puts_pure. cbn [bind]. rewrite run_app.
        destruct (Hk e0 false (w0 ++ t_map_key_begin e0)) as (n1 & N1 & R1). rewrite R1, (N1 eq_refl). cbn [bind].
        rewrite run_cons, fm_over by reflexivity. cbn [fmt_step w_empty]. rewrite puts_pure. cbn [bind].
        rewrite run_cons, fm_over by reflexivity. cbn [fmt_step bind]. rewrite run_app.
        match goal with |- context [F (MkWr ?a false ?b) (emit v)] => destruct (Hv a false b) as (n2 & N2 & R2) end. rewrite R2, (N2 eq_refl). cbn [bind].
        rewrite run_one, fm_over by reflexivity. rewrite <- !app_assoc. reflexivity.
    - exists false. split; [auto|]. rewrite flat_map_concat_map.
      erewrite (between_run _ (map (fun f => match f with (_, l, v) => fun first => t_record_value_begin (l_text l) first ++ dtoks false v end) fs) _ _
        ((match l with Some l => t_record_type (l_text l) | None => [] end) ++ t_record_begin) t_record_end).
      + rewrite is_nil_map. reflexivity.
      + intros s. rewrite fm_over by reflexivity. reflexivity.
      + intros s. rewrite fm_over by reflexivity. reflexivity.
      + apply F2_map. eapply Forall_impl; [|exact H]. intros [[ft fl] v] Hv e0 w0. cbn [fst snd] in *.
        apply (item_run v Hv (t_record_value_begin (l_text fl))).
        * intros s. rewrite fm_over by reflexivity. reflexivity.
        * intros s. rewrite fm_over by reflexivity. reflexivity.
    - exists false. split; [auto|]. rewrite flat_map_concat_map.
      erewrite (between_run _ (map (fun f first => t_tuple_value_begin first ++ dtoks false (snd f)) fs) _ _
        ((match l with Some l => t_type (l_text l) | None => [] end) ++ t_tuple_begin) (fun _ => t_tuple_end)).
      + rewrite is_nil_map. reflexivity.
      + intros s. rewrite fm_over by reflexivity. reflexivity.
      + intros s. rewrite fm_over by reflexivity. reflexivity.
      + apply F2_map. eapply Forall_impl; [|exact H]. intros [[ft fl] v] Hv e0 w0. cbn [fst snd] in *.
        apply (item_run v Hv t_tuple_value_begin).
        * intros s. rewrite fm_over by reflexivity. reflexivity.
        * intros s. rewrite fm_over by reflexivity. reflexivity.
    - exists false. split; [auto|]. rewrite flat_map_concat_map.
      erewrite (between_run _ (map (fun f => match f with (_, l, _, v) => fun first => t_record_value_begin (l_text l) first ++ dtoks false v end) fs) _ _
        ((match l with Some l => t_record_type (l_text l) | None => [] end) ++ t_record_begin) t_record_end).
      + rewrite is_nil_map. reflexivity.
      + intros s. rewrite fm_rectup_begin. reflexivity.
      + intros s. rewrite fm_rectup_end. reflexivity.
      + apply F2_map. eapply Forall_impl; [|exact H]. intros [[[ft fl] fi] v] Hv e0 w0. cbn [fst snd] in *.
        apply (item_run v Hv (t_record_value_begin (l_text fl))).
        * intros s. rewrite fm_rectup_val_begin. reflexivity.
        * intros s. rewrite fm_rectup_val_end. reflexivity.
  Qed.
End Tokens.

(** ** Any writer *)

(** Feeding the tokens [ts] to the writer, ending in the flags [e] and [n]. *)
Definition fed {W} (tok : W -> tkind -> bytes -> res W) (w : W) (ts : list token) (e n : bool) (r : res (wst W)) : Prop :=
  match toks W tok w ts with
  | Ok w' => r = Ok (MkWr W e n w')
  | Err w' => exists e n, r = Err (MkWr W e n w')
  | Panic => r = Panic
  end.
Definition fop (f : forall W, (W -> tkind -> bytes -> res W) -> wst W -> res (wst W)) : Prop :=
  forall e n, exists e' n' ts, forall W tok w, fed tok w ts e' n' (f W tok (MkWr W e n w)).

Lemma toks_app {W} tok a b : forall w : W, toks W tok w (a ++ b) = toks W tok w a >>= fun w => toks W tok w b.
Proof.
  induction a as [|[k s] a IH]; intros w; cbn [app toks bind]; [reflexivity|].
  destruct (tok w k s); cbn [bind]; [apply IH|reflexivity..].
Qed.
Lemma fop_bind f g : fop f -> fop g -> fop (fun W tok s => f W tok s >>= g W tok).
Proof.
  intros A B e n. destruct (A e n) as (e1 & n1 & t1 & A1). destruct (B e1 n1) as (e2 & n2 & t2 & B1).
  exists e2, n2, (t1 ++ t2). intros W tok w. specialize (A1 W tok w). unfold fed in *. rewrite toks_app.
  destruct (toks W tok w t1) as [w1|w1|]; cbn [bind].
  - rewrite A1. cbn [bind]. apply B1.
  - destruct A1 as (a & b & ->). exists a, b. reflexivity.
  - rewrite A1. reflexivity.
Qed.
Lemma fop_puts (ts : bool -> bool -> list token) (e' n' : bool -> bool -> bool) :
  fop (fun W tok s => puts W tok (ts (w_empty W s) (w_num W s)) (MkWr W (e' (w_empty W s) (w_num W s)) (n' (w_empty W s) (w_num W s)) (w_out W s))).
Proof.
  intros e n. exists (e' e n), (n' e n), (ts e n). intros W tok w. unfold fed, puts. cbn [w_empty w_num w_out].
  destruct (toks W tok w (ts e n)); [reflexivity|eauto|reflexivity].
Qed.
Lemma fop_set (e' n' : bool -> bool -> bool) : fop (fun W tok s => Ok (MkWr W (e' (w_empty W s) (w_num W s)) (n' (w_empty W s) (w_num W s)) (w_out W s))).
Proof. intros e n. exists (e' e n), (n' e n), []. intros W tok w. reflexivity. Qed.
Lemma fop_ext f g : (forall W tok e n w, f W tok (MkWr W e n w) = g W tok (MkWr W e n w)) -> fop f -> fop g.
Proof. intros E A e n. destruct (A e n) as (e1 & n1 & t1 & A1). exists e1, n1, t1. intros W tok w. rewrite <- E. apply A1. Qed.
Lemma fop_bytes v : fop (fun W tok s => d_bytes W tok v s).
Proof.
  induction v as [|b v IH].
  - apply (fop_ext (fun W tok s => Ok (MkWr W (w_empty W s) (w_num W s) (w_out W s)))); [reflexivity|apply (fop_set (fun e _ => e) (fun _ n => n))].
  - cbn [d_bytes]. apply (fop_bind (fun W tok s => d_seq_value_begin W tok s >>= d_int W tok (byte_val b) >>= d_value_end W) (fun W tok => d_bytes W tok v)); [|exact IH].
    apply (fop_bind (fun W tok s => d_seq_value_begin W tok s >>= d_int W tok (byte_val b)) (fun W tok => d_value_end W)).
    + apply (fop_bind (fun W tok => d_seq_value_begin W tok) (fun W tok => d_int W tok (byte_val b))).
      * exact (fop_ext _ _ (fun _ _ _ _ _ => eq_refl) (fop_puts (fun e _ => t_seq_value_begin e) (fun e _ => e) (fun _ n => n))).
      * exact (fop_ext _ _ (fun _ _ _ _ _ => eq_refl) (fop_puts (fun _ _ => [(KNumber, dec (byte_val b))]) (fun e _ => e) (fun _ n => n))).
    + exact (fop_ext _ _ (fun _ _ _ _ _ => eq_refl) (fop_set (fun _ _ => false) (fun _ n => n))).
Qed.
Lemma fed_puts W tok w ts e n : fed tok w ts e n (puts W tok ts (MkWr W e n w)).
Proof. unfold fed, puts. cbn [w_empty w_num w_out]. destruct (toks W tok w ts); [reflexivity|eauto|reflexivity]. Qed.
Lemma fed_ok W tok w e n : fed tok w [] e n (Ok (MkWr W e n w)).
Proof. reflexivity. Qed.
Section Any.
  Variable r32 r64 : float -> bytes.
  Variable uni : bytes -> list bytes.
  Lemma fop_step e : fmt_over e = true -> fop (fun W tok s => fmt_step W tok r32 r64 uni s e).
  Proof.
    intros O. destruct e; try discriminate O; cbn [fmt_step]; try apply fop_bytes; intros em nu;
    unfold d_text_begin, d_text_frag, d_open, d_seq_value_begin, d_value_end, d_enum_end, d_tag, d_tagged_begin, d_tagged_end, d_record_begin, d_tuple_begin, d_int, d_open, set_empty, set_num;
    cbn [w_empty w_num w_out]; destruct em, nu; try destruct (otag_is t NUMBER);
    cbn [w_empty w_num w_out]; do 3 eexists; intros W tok w; first [apply fed_puts|apply fed_ok].
  Qed.
  Lemma fop_run es : Forall (fun e => fmt_over e = true) es -> fop (fun W tok s => run (fmt_step W tok r32 r64 uni) s es).
  Proof.
    induction 1 as [|e es H HF IH].
    - intros e n. do 3 eexists. intros. apply fed_ok.
    - apply (fop_ext (fun W tok s => fmt_step W tok r32 r64 uni s e >>= fun s => run (fmt_step W tok r32 r64 uni) s es)).
      + intros. rewrite run_cons. reflexivity.
      + apply (fop_bind (fun W tok s => fmt_step W tok r32 r64 uni s e) (fun W tok s => run (fmt_step W tok r32 r64 uni) s es)); [apply fop_step, H|exact IH].
  Qed.
  Lemma over_all es : Forall (fun e => fmt_over e = true) (lower_all fmt_over es).
  Proof.
    apply Forall_forall. intros x I. unfold lower_all in I. apply in_flat_map in I as (y & _ & I).
    pose proof (lower_done fmt_over depth y (rank_depth y)) as D. rewrite Forall_forall in D. destruct (D x I) as [D1|D1]; [exact D1|].
    destruct x; try reflexivity; discriminate D1.
  Qed.
  (** The tokens are determined by the value; the writer is given them in order until it
      fails, and nothing after. *)
  Lemma feed v : exists ts, forall W tok w,
    to_token_write W tok r32 r64 uni w v =
    match toks W tok w ts with
    | Ok w' => if snd (flat v false) then Ok w' else Err w'
    | r => r
    end.
  Proof.
    destruct (fop_run _ (over_all (fst (flat v false))) true false) as (e & n & ts & H). exists ts. intros W tok w. specialize (H W tok w).
    unfold to_token_write, run_impl, wr_new. destruct (flat v false) as [es ok]. cbn [fst snd] in *. unfold fed in H.
    destruct (toks W tok w ts) as [w'|w'|].
    - rewrite H. cbn [bind]. destruct ok; reflexivity.
    - destruct H as (a & b & H). rewrite H. reflexivity.
    - rewrite H. reflexivity.
  Qed.
End Any.
