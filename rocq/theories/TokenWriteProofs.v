(** * TokenWriteProofs: the method calls the [Writer] makes *)

From Verif Require Import Base Event Tree LowerModel FlatProofs LowerProofs MethProofs Utf8 FmtModel FmtSpec TokenWriteModel TokenWriteSpec.

(** An implementation that overrides every method to record the call. *)
Definition collect_tw (w : list tw) (m : tw) : res (list tw) := Ok (w ++ [m]).

Lemma hollow_leaves t : seems_first false t = hollow t.
Proof.
  induction t using tree_ind'; cbn [seems_first hollow]; try reflexivity; try assumption.
  all: match goal with |- none ?l = _ => destruct l; reflexivity end.
Qed.
Lemma echoed_leaves t : seems_first true t = echoed t.
Proof.
  induction t using tree_ind'; cbn [seems_first echoed]; try reflexivity; try assumption; cbn [hollow]; try apply hollow_leaves.
  all: match goal with |- none ?l = _ => destruct l; reflexivity end.
Qed.

Section Calls.
  Notation step := (tw_step (list tw) collect_tw).
  Notation fm := (meth fmt_over step).
  Notation F := (run fm).
  Notation MkWr := (MkWr (list tw)).
  Notation wputs := (wputs (list tw) collect_tw).
  Notation mcs := (method_calls seems_first).

  (** ** Single calls *)
  Lemma calls_pure ts : forall w, calls collect_tw w ts = Ok (w ++ ts).
  Proof.
    induction ts as [|m ts IH]; intros w; cbn [calls]; [rewrite app_nil_r; reflexivity|].
    unfold collect_tw at 1. cbn [bind]. rewrite IH, <- app_assoc. reflexivity.
  Qed.
  Lemma wputs_pure ts e n w : wputs ts (MkWr e n w) = Ok (MkWr e n (w ++ ts)).
  Proof. unfold TokenWriteModel.wputs. cbn [w_out w_empty w_num]. rewrite calls_pure. reflexivity. Qed.

  Lemma fm_over s e : fmt_over e = true -> fm s e = step s e.
  Proof. intros H. rewrite meth_unfold, H. reflexivity. Qed.
  Ltac one := rewrite meth_unfold; cbn [fmt_over default_evs default_calls option_map flat flat1 fst snd app];
    rewrite run_one, fm_over by reflexivity; reflexivity.
  Lemma fm_text_frag s f : fm s (text_frag f) = w_text_frag (list tw) collect_tw (snd f) s.
  Proof. unfold text_frag. destruct (fst f); [one|rewrite fm_over by reflexivity; reflexivity]. Qed.
  Lemma fm_bin_frag s f : fm s (bin_frag f) = w_bytes (list tw) collect_tw (snd f) s.
  Proof. unfold bin_frag. destruct (fst f); [one|rewrite fm_over by reflexivity; reflexivity]. Qed.
  Lemma fm_hint s t : fm s (ETagHint t) = Ok s.
  Proof. rewrite meth_unfold. reflexivity. Qed.
  Lemma fm_rectup_begin s t l i n : fm s (ERecTupBegin t l i n) = step s (ERecordBegin t l i n). Proof. one. Qed.
  Lemma fm_rectup_val_begin s t l i : fm s (ERecTupValBegin t l i) = step s (ERecordValBegin t l). Proof. one. Qed.
  Lemma fm_rectup_val_end s t l i : fm s (ERecTupValEnd t l i) = step s (ERecordValEnd t l). Proof. one. Qed.
  Lemma fm_rectup_end s t l i : fm s (ERecTupEnd t l i) = step s (ERecordEnd t l i). Proof. one. Qed.

  (** ** Lists *)
  Lemma rest_run (blocks : list (list ev)) xs :
    Forall2 (fun b x => forall e w, F (MkWr e false w) b = Ok (MkWr false false (w ++ x e))) blocks xs ->
    forall w, F (MkWr false false w) (List.concat blocks) = Ok (MkWr false false (w ++ flat_map (fun y => y false) xs)).
  Proof.
    induction 1 as [|b x blocks xs H HF IH]; intros w; cbn [List.concat flat_map]; [rewrite app_nil_r; reflexivity|].
    rewrite run_app, H. cbn [bind]. rewrite IH, <- app_assoc. reflexivity.
  Qed.
  Lemma parts_run (blocks : list (list ev)) xs :
    Forall2 (fun b x => forall e w, F (MkWr e false w) b = Ok (MkWr false false (w ++ x e))) blocks xs ->
    forall w, F (MkWr true false w) (List.concat blocks) = Ok (MkWr (none xs) false (w ++ parts xs)).
  Proof.
    destruct 1 as [|b x blocks xs H HF]; intros w; cbn [List.concat parts none]; [rewrite app_nil_r; reflexivity|].
    rewrite run_app, H. cbn [bind]. rewrite (rest_run _ _ HF), <- app_assoc. reflexivity.
  Qed.
  Lemma between_run (blocks : list (list ev)) xs b e begin_toks end_toks e0 n0 w :
    (forall s, fm s b = w_open (list tw) collect_tw begin_toks s) ->
    (forall s, fm s e = wputs (end_toks (w_empty _ s)) s) ->
    Forall2 (fun b x => forall e w, F (MkWr e false w) b = Ok (MkWr false false (w ++ x e))) blocks xs ->
    F (MkWr e0 n0 w) (b :: List.concat blocks ++ [e]) = Ok (MkWr (none xs) false (w ++ begin_toks ++ parts xs ++ end_toks (none xs))).
  Proof.
    intros B E H. rewrite run_cons, B. unfold w_open, set_empty, set_num. cbn [w_num w_out w_empty]. rewrite wputs_pure. cbn [bind].
    rewrite run_app, (parts_run _ _ H). cbn [bind]. rewrite run_one, E. cbn [w_empty]. rewrite wputs_pure, <- !app_assoc. reflexivity.
  Qed.
  Lemma bytes_app a b : forall s, w_bytes (list tw) collect_tw (a ++ b) s = w_bytes _ collect_tw a s >>= w_bytes _ collect_tw b.
  Proof.
    induction a as [|c a IH]; intros s; cbn [app w_bytes bind]; [reflexivity|].
    destruct (w_seq_value_begin _ collect_tw s) as [s1|s1|]; cbn [bind]; try reflexivity.
    destruct (w_int _ collect_tw U8 (byte_val c) s1) as [s2|s2|]; cbn [bind]; try reflexivity.
    destruct (w_value_end _ s2) as [s3|s3|]; cbn [bind]; try reflexivity. apply IH.
  Qed.
  Lemma bin_frags fs : forall s, F s (map bin_frag fs) = w_bytes (list tw) collect_tw (pieces fs) s.
  Proof.
    induction fs as [|f fs IH]; intros s; [reflexivity|]. cbn [map]. rewrite run_cons, fm_bin_frag.
    unfold pieces. cbn [map List.concat]. rewrite bytes_app. destruct (w_bytes _ collect_tw (snd f) s); cbn [bind]; [apply IH|reflexivity..].
  Qed.
  Definition byte_item (b : byte) (first : bool) : list tw := [WSeqValueBegin first; WInt U8 (byte_val b)].
  Lemma byte_step v : forall e w b, w_bytes (list tw) collect_tw (b :: v) (MkWr e false w) = w_bytes _ collect_tw v (MkWr false false (w ++ byte_item b e)).
  Proof.
    intros e w b. cbn [w_bytes]. unfold w_seq_value_begin, w_int, w_value_end. cbn [w_empty]. rewrite wputs_pure. cbn [bind].
    rewrite wputs_pure. cbn [bind]. rewrite <- app_assoc. reflexivity.
  Qed.
  Lemma bytes_run v : forall w, w_bytes (list tw) collect_tw v (MkWr true false w) =
    Ok (MkWr (none v) false (w ++ parts (map byte_item v))).
  Proof.
    assert (R : forall v w, w_bytes (list tw) collect_tw v (MkWr false false w) = Ok (MkWr false false (w ++ flat_map (fun y => y false) (map byte_item v)))).
    { clear v. induction v as [|b v IH]; intros w; [cbn; rewrite app_nil_r; reflexivity|].
      rewrite byte_step, IH, <- app_assoc. reflexivity. }
    destruct v as [|b v]; intros w; [cbn; rewrite app_nil_r; reflexivity|].
    rewrite byte_step, R, <- app_assoc. reflexivity.
  Qed.
  Lemma num_frags fs : forall e w, F (MkWr e true w) (map text_frag fs) = Ok (MkWr e true (w ++ map (fun f => WNumber (snd f)) fs)).
  Proof.
    induction fs as [|f fs IH]; intros e w; cbn [map]; [rewrite app_nil_r; reflexivity|].
    rewrite run_cons, fm_text_frag. unfold w_text_frag. cbn [w_num]. rewrite wputs_pure. cbn [bind]. rewrite IH, <- app_assoc. reflexivity.
  Qed.
  Lemma text_frags fs : forall e w, F (MkWr e false w) (map text_frag fs) = Ok (MkWr e false (w ++ map (fun f : bool * bytes => WText (snd f)) fs)).
  Proof.
    induction fs as [|f fs IH]; intros e w; cbn [map flat_map]; [rewrite app_nil_r; reflexivity|].
    rewrite run_cons, fm_text_frag. unfold w_text_frag. cbn [w_num]. rewrite wputs_pure. cbn [bind]. rewrite IH, <- app_assoc. reflexivity.
  Qed.

  Definition writes_calls (t : tree) : Prop := forall e num w, exists num', (num = false -> num' = false) /\
    F (MkWr e num w) (emit t) = Ok (MkWr (seems_first e t) num' (w ++ mcs num t)).
  Lemma item_run t : writes_calls t -> forall sep b e, (forall s, fm s b = wputs (sep (w_empty _ s)) s) -> (forall s, fm s e = w_value_end _ s) ->
    forall e0 w, F (MkWr e0 false w) (b :: emit t ++ [e]) = Ok (MkWr false false (w ++ sep e0 ++ mcs false t)).
  Proof.
    intros H sep b e B E e0 w. rewrite run_cons, B. cbn [w_empty]. rewrite wputs_pure. cbn [bind]. rewrite run_app.
    destruct (H e0 false (w ++ sep e0)) as (n & N & R). rewrite R, (N eq_refl). cbn [bind]. rewrite run_one, E. rewrite <- app_assoc. reflexivity.
  Qed.
  Lemma F2_map {A B C} (P : B -> C -> Prop) (f : A -> B) (g : A -> C) l : Forall (fun a => P (f a) (g a)) l -> Forall2 P (map f l) (map g l).
  Proof. induction 1; constructor; assumption. Qed.
  Lemma none_map {A B} (f : A -> B) l : none (map f l) = none l. Proof. destruct l; reflexivity. Qed.

  Lemma all_calls t : writes_calls t.
  Proof.
    induction t using tree_ind'; intros e num w; cbn [emit mcs seems_first].
    - exists num. split; [auto|]. rewrite run_one, fm_over by reflexivity. apply wputs_pure.
    - exists num. split; [auto|]. rewrite run_one, fm_over by reflexivity. apply wputs_pure.
    - exists num. split; [auto|]. rewrite run_one, fm_over by reflexivity. apply wputs_pure.
    - exists num. split; [auto|]. rewrite run_one, fm_over by reflexivity. apply wputs_pure.
    - exists num. split; [auto|]. rewrite run_one, fm_over by reflexivity. apply wputs_pure.
    - exists num. split; [auto|]. rewrite run_cons, fm_over by reflexivity. cbn [tw_step]. unfold w_text_edge. cbn [w_num].
      destruct num.
      + cbn [bind]. rewrite run_app, num_frags. cbn [bind]. rewrite run_one, fm_over by reflexivity. reflexivity.
      + rewrite wputs_pure. cbn [bind]. rewrite run_app, text_frags. cbn [bind]. rewrite run_one, fm_over by reflexivity.
        cbn [tw_step]. unfold w_text_edge. cbn [w_num]. rewrite wputs_pure, <- !app_assoc. reflexivity.
    - exists false. split; [auto|]. rewrite run_cons, fm_over by reflexivity. cbn [tw_step]. unfold w_open, set_empty, set_num. cbn [w_num w_out w_empty].
      rewrite wputs_pure. cbn [bind]. rewrite run_app, bin_frags, bytes_run. cbn [bind]. rewrite run_one, fm_over by reflexivity.
      cbn [tw_step]. rewrite wputs_pure, <- !app_assoc. reflexivity.
    - exists num. split; [auto|]. rewrite run_one, fm_over by reflexivity. cbn [tw_step]. unfold w_tag, set_empty. cbn [w_num w_out]. apply wputs_pure.
    - rewrite run_cons, fm_hint. cbn [bind]. apply IHt.
    - destruct (IHt false (num || otag_is t NUMBER) (w ++ match l with Some l => [WTupleType (l_text l); WTupleBegin] | None => [] end)) as (n & N & R).
      exists (if otag_is t NUMBER then false else n). split; [intros ->; destruct (otag_is t NUMBER); [reflexivity|apply N; reflexivity]|].
      rewrite run_cons, fm_over by reflexivity. cbn [tw_step]. unfold w_tagged_begin, set_empty, set_num. cbn [w_num w_out w_empty].
      assert (X : (if otag_is t NUMBER then MkWr false true w else MkWr false num w) = MkWr false (num || otag_is t NUMBER) w)
        by (destruct (otag_is t NUMBER), num; reflexivity). rewrite X, wputs_pure. cbn [bind].
      rewrite run_app, R. cbn [bind]. rewrite run_one, fm_over by reflexivity. cbn [tw_step]. unfold w_tagged_end, set_num. cbn [w_num w_out w_empty].
      assert (Y : forall a b, (if otag_is t NUMBER then MkWr a false b else MkWr a n b) = MkWr a (if otag_is t NUMBER then false else n) b)
        by (intros; destruct (otag_is t NUMBER); reflexivity). rewrite Y, wputs_pure, <- !app_assoc.
      destruct l; cbn [app]; rewrite ?app_nil_r; reflexivity.
    - destruct (IHt true num w) as (n & N & R). exists n. split; [exact N|].
      rewrite run_cons, fm_over by reflexivity. cbn [tw_step]. unfold set_empty. cbn [w_num w_out bind].
      rewrite run_app, R. cbn [bind]. rewrite run_one, fm_over by reflexivity. cbn [tw_step]. unfold w_enum_end. cbn [w_empty].
      rewrite echoed_leaves. destruct (echoed t0).
      + unfold w_tag, set_empty. cbn [w_num w_out]. rewrite wputs_pure, <- app_assoc. reflexivity.
      + rewrite app_nil_r. reflexivity.
    - exists false. split; [auto|]. rewrite flat_map_concat_map.
      erewrite (between_run _ (map (fun v first => WSeqValueBegin first :: mcs false v) vs) _ _ [WSeqBegin] (fun e => [WSeqEnd e])).
      + rewrite none_map, <- ?app_assoc. reflexivity.
      + intros s. rewrite fm_over by reflexivity. reflexivity.
      + intros s. rewrite fm_over by reflexivity. reflexivity.
      + apply F2_map. eapply Forall_impl; [|exact H]. intros v Hv e0 w0. apply (item_run v Hv (fun first => [WSeqValueBegin first])).
        * intros s. rewrite fm_over by reflexivity. reflexivity.
        * intros s. rewrite fm_over by reflexivity. reflexivity.
    - exists false. split; [auto|]. rewrite flat_map_concat_map.
      erewrite (between_run _ (map (fun e first => WMapKeyBegin first :: mcs false (fst e) ++ WMapValueBegin (seems_first first (fst e)) :: mcs false (snd e)) es) _ _ [WMapBegin] (fun e => [WMapEnd e])).
      + rewrite none_map, <- ?app_assoc. reflexivity.
      + intros s. rewrite fm_over by reflexivity. reflexivity.
      + intros s. rewrite fm_over by reflexivity. reflexivity.
      + apply F2_map. eapply Forall_impl; [|exact H]. intros [k v] (Hk & Hv) e0 w0. cbn [fst snd] in *.
        rewrite run_cons, fm_over by reflexivity. cbn [tw_step w_empty]. rewrite wputs_pure. cbn [bind]. rewrite run_app.
        destruct (Hk e0 false (w0 ++ [WMapKeyBegin e0])) as (n1 & N1 & R1). rewrite R1, (N1 eq_refl). cbn [bind].
        rewrite run_cons, fm_over by reflexivity. cbn [tw_step w_empty]. rewrite wputs_pure. cbn [bind].
        rewrite run_cons, fm_over by reflexivity. cbn [tw_step bind]. rewrite run_app.
        match goal with |- context [F (MkWr ?a false ?b) (emit v)] => destruct (Hv a false b) as (n2 & N2 & R2) end. rewrite R2, (N2 eq_refl). cbn [bind].
        rewrite run_one, fm_over by reflexivity. rewrite <- !app_assoc. reflexivity.
    - exists false. split; [auto|]. rewrite flat_map_concat_map.
      erewrite (between_run _ (map (fun f => match f with (_, l, v) => fun first => WRecordValueBegin (l_text l) first :: mcs false v end) fs) _ _
        ((match l with Some l => [WRecordType (l_text l)] | None => [] end) ++ [WRecordBegin]) (fun e => [WRecordEnd e])).
      + rewrite none_map, <- ?app_assoc. reflexivity.
      + intros s. rewrite fm_over by reflexivity. reflexivity.
      + intros s. rewrite fm_over by reflexivity. reflexivity.
      + apply F2_map. eapply Forall_impl; [|exact H]. intros [[ft fl] v] Hv e0 w0. cbn [fst snd] in *.
        apply (item_run v Hv (fun first => [WRecordValueBegin (l_text fl) first])).
        * intros s. rewrite fm_over by reflexivity. reflexivity.
        * intros s. rewrite fm_over by reflexivity. reflexivity.
    - exists false. split; [auto|]. rewrite flat_map_concat_map.
      erewrite (between_run _ (map (fun f first => WTupleValueBegin first :: mcs false (snd f)) fs) _ _
        ((match l with Some l => [WTupleType (l_text l)] | None => [] end) ++ [WTupleBegin]) (fun e => [WTupleEnd e])).
      + rewrite none_map, <- ?app_assoc. reflexivity.
      + intros s. rewrite fm_over by reflexivity. reflexivity.
      + intros s. rewrite fm_over by reflexivity. reflexivity.
      + apply F2_map. eapply Forall_impl; [|exact H]. intros [[ft fl] v] Hv e0 w0. cbn [fst snd] in *.
        apply (item_run v Hv (fun first => [WTupleValueBegin first])).
        * intros s. rewrite fm_over by reflexivity. reflexivity.
        * intros s. rewrite fm_over by reflexivity. reflexivity.
    - exists false. split; [auto|]. rewrite flat_map_concat_map.
      erewrite (between_run _ (map (fun f => match f with (_, l, _, v) => fun first => WRecordValueBegin (l_text l) first :: mcs false v end) fs) _ _
        ((match l with Some l => [WRecordType (l_text l)] | None => [] end) ++ [WRecordBegin]) (fun e => [WRecordEnd e])).
      + rewrite none_map, <- ?app_assoc. reflexivity.
      + intros s. rewrite fm_rectup_begin. reflexivity.
      + intros s. rewrite fm_rectup_end. reflexivity.
      + apply F2_map. eapply Forall_impl; [|exact H]. intros [[[ft fl] fi] v] Hv e0 w0. cbn [fst snd] in *.
        apply (item_run v Hv (fun first => [WRecordValueBegin (l_text fl) first])).
        * intros s. rewrite fm_rectup_val_begin. reflexivity.
        * intros s. rewrite fm_rectup_val_end. reflexivity.
  Qed.
End Calls.

(** ** Any implementation *)

(** Making the calls [ms], ending in the flags [e] and [n]. *)
Definition fed {W} (call : W -> tw -> res W) (w : W) (ts : list tw) (e n : bool) (r : res (wst W)) : Prop :=
  match calls call w ts with
  | Ok w' => r = Ok (MkWr W e n w')
  | Err w' => exists e n, r = Err (MkWr W e n w')
  | Panic => r = Panic
  end.
Definition fop (f : forall W, (W -> tw -> res W) -> wst W -> res (wst W)) : Prop :=
  forall e n, exists e' n' ts, forall W call w, fed call w ts e' n' (f W call (MkWr W e n w)).

Lemma calls_app {W} call a b : forall w : W, calls call w (a ++ b) = calls call w a >>= fun w => calls call w b.
Proof.
  induction a as [|m a IH]; intros w; cbn [app calls bind]; [reflexivity|].
  destruct (call w m); cbn [bind]; [apply IH|reflexivity..].
Qed.
Lemma fop_bind f g : fop f -> fop g -> fop (fun W call s => f W call s >>= g W call).
Proof.
  intros A B e n. destruct (A e n) as (e1 & n1 & t1 & A1). destruct (B e1 n1) as (e2 & n2 & t2 & B1).
  exists e2, n2, (t1 ++ t2). intros W call w. specialize (A1 W call w). unfold fed in *. rewrite calls_app.
  destruct (calls call w t1) as [w1|w1|]; cbn [bind].
  - rewrite A1. cbn [bind]. apply B1.
  - destruct A1 as (a & b & ->). exists a, b. reflexivity.
  - rewrite A1. reflexivity.
Qed.
Lemma fop_wputs (ts : bool -> bool -> list tw) (e' n' : bool -> bool -> bool) :
  fop (fun W call s => wputs W call (ts (w_empty W s) (w_num W s)) (MkWr W (e' (w_empty W s) (w_num W s)) (n' (w_empty W s) (w_num W s)) (w_out W s))).
Proof.
  intros e n. exists (e' e n), (n' e n), (ts e n). intros W call w. unfold fed, wputs. cbn [w_empty w_num w_out].
  destruct (calls call w (ts e n)); [reflexivity|eauto|reflexivity].
Qed.
Lemma fop_set (e' n' : bool -> bool -> bool) : fop (fun W call s => Ok (MkWr W (e' (w_empty W s) (w_num W s)) (n' (w_empty W s) (w_num W s)) (w_out W s))).
Proof. intros e n. exists (e' e n), (n' e n), []. intros W call w. reflexivity. Qed.
Lemma fop_ext f g : (forall W call e n w, f W call (MkWr W e n w) = g W call (MkWr W e n w)) -> fop f -> fop g.
Proof. intros E A e n. destruct (A e n) as (e1 & n1 & t1 & A1). exists e1, n1, t1. intros W call w. rewrite <- E. apply A1. Qed.
Lemma fop_bytes v : fop (fun W call s => w_bytes W call v s).
Proof.
  induction v as [|b v IH].
  - apply (fop_ext (fun W call s => Ok (MkWr W (w_empty W s) (w_num W s) (w_out W s)))); [reflexivity|apply (fop_set (fun e _ => e) (fun _ n => n))].
  - cbn [w_bytes]. apply (fop_bind (fun W call s => w_seq_value_begin W call s >>= w_int W call U8 (byte_val b) >>= w_value_end W) (fun W call => w_bytes W call v)); [|exact IH].
    apply (fop_bind (fun W call s => w_seq_value_begin W call s >>= w_int W call U8 (byte_val b)) (fun W call => w_value_end W)).
    + apply (fop_bind (fun W call => w_seq_value_begin W call) (fun W call => w_int W call U8 (byte_val b))).
      * exact (fop_ext _ _ (fun _ _ _ _ _ => eq_refl) (fop_wputs (fun e _ => [WSeqValueBegin e]) (fun e _ => e) (fun _ n => n))).
      * exact (fop_ext _ _ (fun _ _ _ _ _ => eq_refl) (fop_wputs (fun _ _ => [WInt U8 (byte_val b)]) (fun e _ => e) (fun _ n => n))).
    + exact (fop_ext _ _ (fun _ _ _ _ _ => eq_refl) (fop_set (fun _ _ => false) (fun _ n => n))).
Qed.
Lemma fed_wputs W call w ts e n : fed call w ts e n (wputs W call ts (MkWr W e n w)).
Proof. unfold fed, wputs. cbn [w_empty w_num w_out]. destruct (calls call w ts); [reflexivity|eauto|reflexivity]. Qed.
Lemma fed_ok W call w e n : fed call w [] e n (Ok (MkWr W e n w)).
Proof. reflexivity. Qed.
Section Any.
  Lemma fop_step e : fmt_over e = true -> fop (fun W call s => tw_step W call s e).
  Proof.
    intros O. destruct e; try discriminate O; cbn [tw_step]; try apply fop_bytes; intros em nu;
    unfold w_text_edge, w_text_frag, w_open, w_seq_value_begin, w_value_end, w_enum_end, w_tag, w_tagged_begin, w_tagged_end, w_record_begin, w_tuple_begin, w_int, w_open, set_empty, set_num;
    cbn [w_empty w_num w_out]; destruct em, nu; try destruct (otag_is t NUMBER);
    cbn [w_empty w_num w_out]; do 3 eexists; intros W call w; first [apply fed_wputs|apply fed_ok].
  Qed.
  Lemma fop_run es : Forall (fun e => fmt_over e = true) es -> fop (fun W call s => run (tw_step W call) s es).
  Proof.
    induction 1 as [|e es H HF IH].
    - intros e n. do 3 eexists. intros. apply fed_ok.
    - apply (fop_ext (fun W call s => tw_step W call s e >>= fun s => run (tw_step W call) s es)).
      + intros. rewrite run_cons. reflexivity.
      + apply (fop_bind (fun W call s => tw_step W call s e) (fun W call s => run (tw_step W call) s es)); [apply fop_step, H|exact IH].
  Qed.
  Lemma over_all es : Forall (fun e => fmt_over e = true) (lower_all fmt_over es).
  Proof.
    apply Forall_forall. intros x I. unfold lower_all in I. apply in_flat_map in I as (y & _ & I).
    pose proof (lower_done fmt_over depth y (rank_depth y)) as D. rewrite Forall_forall in D. destruct (D x I) as [D1|D1]; [exact D1|].
    destruct x; try reflexivity; discriminate D1.
  Qed.
  (** The tokens are determined by the value; the writer is given them in order until it
      fails, and nothing after. *)
  Lemma feed v : exists ts, forall W call w,
    to_custom W call w v =
    match calls call w ts with
    | Ok w' => if snd (flat v false) then Ok w' else Err w'
    | r => r
    end.
  Proof.
    destruct (fop_run _ (over_all (fst (flat v false))) true false) as (e & n & ts & H). exists ts. intros W call w. specialize (H W call w).
    unfold to_custom, run_impl, wr_new. destruct (flat v false) as [es ok]. cbn [fst snd] in *. unfold fed in H.
    destruct (calls call w ts) as [w'|w'|].
    - rewrite H. cbn [bind]. destruct ok; reflexivity.
    - destruct H as (a & b & H). rewrite H. reflexivity.
    - rewrite H. reflexivity.
  Qed.
End Any.
