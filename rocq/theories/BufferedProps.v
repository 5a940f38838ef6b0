(** * BufferedProps: C59, buffering a value first does not change what is made of it *)

From Verif Require Import Base Event Tree LowerModel FlatProofs MethProofs FragModel BufferModel BufferSpec BufferProofs BufferProps
  JsonModel JsonSpec JsonMethProofs JsonProofs JsonImageProofs JsonProps JsonUtf8Props JsonFragProps
  FmtModel FmtSpec FmtProps TokenSpec TokenProps NestedModel NestedSpec SerdeModel SerdeSpec SerdeProps Utf8 BufferedSpec.

Local Notation replayed t := (rebuilt kept_label t).

(** ** Once more *)
Lemma content_joined b fs : content [(b, content fs)] = content fs.
Proof. unfold content. cbn [map snd List.concat]. apply app_nil_r. Qed.
Lemma kept_kept l : kept_label (kept_label l) = kept_label l.
Proof. destruct l as [x [] g]; reflexivity. Qed.
Lemma okept_okept l : okept (option_map kept_label l) = okept l.
Proof. destruct l as [l|]; cbn; [rewrite kept_kept|]; reflexivity. Qed.

(** The recursive view. *)
Lemma mirror_replayed t : mirror (replayed t) = mirror t.
Proof.
  induction t using tree_ind'; cbn [rebuilt mirror]; rewrite ?content_joined, ?okept_okept, ?IHt, ?map_map; try reflexivity.
  - f_equal. apply map_ext_in. intros v I. rewrite Forall_forall in H. auto.
  - f_equal. apply map_ext_in. intros [k v] I. rewrite Forall_forall in H. destruct (H _ I) as (H1 & H2). cbn [fst snd] in *. rewrite H1, H2. reflexivity.
  - f_equal. apply map_ext_in. intros [[ft fl] v] I. rewrite Forall_forall in H. specialize (H _ I). cbn [fst snd] in *. rewrite H, kept_kept. reflexivity.
  - f_equal. apply map_ext_in. intros [[ft fl] v] I. rewrite Forall_forall in H. specialize (H _ I). cbn [fst snd] in *. rewrite H. reflexivity.
  - f_equal. apply map_ext_in. intros [[[ft fl] fi] v] I. rewrite Forall_forall in H. specialize (H _ I). cbn [fst snd] in *. rewrite H, kept_kept. reflexivity.
Qed.

(** The Debug text. *)
Lemma hollow_replayed t : hollow (replayed t) = hollow t.
Proof.
  induction t using tree_ind'; cbn [rebuilt hollow]; try reflexivity; try assumption.
  - change pieces with content. rewrite content_joined. reflexivity.
  - destruct vs; reflexivity.
  - destruct es; reflexivity.
  - destruct fs; reflexivity.
  - destruct fs; reflexivity.
  - destruct fs; reflexivity.
Qed.
Lemma echoed_replayed t : echoed (replayed t) = echoed t.
Proof. induction t using tree_ind'; try reflexivity; try exact IHt; cbn [rebuilt echoed]; apply (hollow_replayed (TBin n fs)) || apply (hollow_replayed (TTagged _ _ _ _)) || apply (hollow_replayed (TEnum _ _ _ _)) || apply (hollow_replayed (TSeq _ _)) || apply (hollow_replayed (TMap _ _)) || apply (hollow_replayed (TRecord _ _ _ _ _)) || apply (hollow_replayed (TTuple _ _ _ _ _)) || apply (hollow_replayed (TRecTup _ _ _ _ _)).
Qed.
Lemma debug_replayed r32 r64 uni e t : forall num, debug r32 r64 uni e num (replayed t) = debug r32 r64 uni e num t.
Proof.
  assert (P : forall b fs, pieces [(b, content fs)] = pieces fs) by (intros; apply content_joined).
  induction t using tree_ind'; intros num; cbn [debug rebuilt]; rewrite ?P, ?map_map; try reflexivity.
  - destruct l; reflexivity.
  - apply IHt.
  - rewrite IHt. destruct l; reflexivity.
  - rewrite IHt, echoed_replayed. destruct l; reflexivity.
  - do 3 f_equal. apply map_ext_in. intros v I. rewrite Forall_forall in H. auto.
  - f_equal. apply map_ext_in. intros [k v] I. rewrite Forall_forall in H. destruct (H _ I) as (H1 & H2). cbn [fst snd] in *. rewrite H1, H2. reflexivity.
  - f_equal; [destruct l; reflexivity|]. f_equal. apply map_ext_in. intros [[ft fl] v] I. rewrite Forall_forall in H. specialize (H _ I). cbn [fst snd] in *. rewrite H. reflexivity.
  - f_equal; [destruct l; reflexivity|]. do 3 f_equal. apply map_ext_in. intros [[ft fl] v] I. rewrite Forall_forall in H. specialize (H _ I). cbn [fst snd] in *. rewrite H. reflexivity.
  - f_equal; [destruct l; reflexivity|]. f_equal. apply map_ext_in. intros [[[ft fl] fi] v] I. rewrite Forall_forall in H. specialize (H _ I). cbn [fst snd] in *. rewrite H. reflexivity.
Qed.

(** The parts of a buffer. *)
Lemma own_kept l : own (option_map kept_label l) = own l.
Proof. destruct l as [[x [] g]|]; reflexivity. Qed.
Lemma owned_kept l : label_to_owned (kept_label l) = label_to_owned l.
Proof. destruct l as [x [] g]; reflexivity. Qed.
Lemma cow_joined fs : frag_cow [(borrowed_whole fs, content fs)] = frag_cow fs.
Proof. rewrite !frag_cow_spec, content_joined. f_equal. unfold borrowed_whole at 1. cbn [rev app forallb]. rewrite andb_true_r. reflexivity. Qed.
Lemma parts_replayed t : parts_of (replayed t) = parts_of t.
Proof.
  induction t using tree_ind'; cbn [rebuilt parts_of]; cbv zeta; rewrite ?cow_joined, ?own_kept, ?IHt, ?flat_map_map; try reflexivity.
  - assert (X : flat_map (fun a => PNode (List.length (parts_of (replayed a))) NSeqValue :: parts_of (replayed a)) vs =
      flat_map (fun a => PNode (List.length (parts_of a)) NSeqValue :: parts_of a) vs); [|rewrite X; reflexivity].
    apply flat_map_ext_in. intros v I. rewrite Forall_forall in H. rewrite (H _ I). reflexivity.
  - match goal with |- PNode _ _ :: ?a = PNode _ _ :: ?b => assert (X : a = b); [|rewrite X; reflexivity] end.
    apply flat_map_ext_in. intros [k v] I. rewrite Forall_forall in H. destruct (H _ I) as (H1 & H2). cbn [fst snd] in *. rewrite H1, H2. reflexivity.
  - match goal with |- PNode _ _ :: ?a = PNode _ _ :: ?b => assert (X : a = b); [|rewrite X; reflexivity] end.
    apply flat_map_ext_in. intros [[ft fl] v] I. rewrite Forall_forall in H. specialize (H _ I). cbn [fst snd] in *. rewrite H, owned_kept. reflexivity.
  - match goal with |- PNode _ _ :: ?a = PNode _ _ :: ?b => assert (X : a = b); [|rewrite X; reflexivity] end.
    apply flat_map_ext_in. intros [[ft fl] v] I. rewrite Forall_forall in H. specialize (H _ I). cbn [fst snd] in *. rewrite H. reflexivity.
  - match goal with |- PNode _ _ :: ?a = PNode _ _ :: ?b => assert (X : a = b); [|rewrite X; reflexivity] end.
    apply flat_map_ext_in. intros [[[ft fl] fi] v] I. rewrite Forall_forall in H. specialize (H _ I). cbn [fst snd] in *. rewrite H, owned_kept. reflexivity.
Qed.

(** ** The replay *)
Lemma replay_is v t b cs : streams v t -> vbuf_collect v = OOk b -> vbuf_stream b = Some cs ->
  b = MkVB (parts_of t) [] false false /\ plays (parts_of t) cs /\ streams cs (replayed t).
Proof.
  intros H C R. rewrite (collect_streams v t H) in C. injection C as <-. destruct (acts_tree t) as (ds & P & F).
  unfold vbuf_stream in R. cbn [parts] in R. rewrite (stream_parts_plays _ _ P (parts_of_nonempty t)) in R. injection R as <-.
  repeat split; assumption.
Qed.
Lemma plays_whole ps cs : plays ps cs -> NestedSpec.whole cs.
Proof.
  unfold NestedSpec.whole. induction 1 as [|k ps cs _ IH|c ps cs _ IH|c ps cs _ IH|k body ps cb cs _ IH1 _ IH2].
  - constructor.
  - constructor; [constructor|exact IH].
  - apply Forall_app; split; [|exact IH]. unfold text_buf_ref. destruct (frag_borrowed c) as [v|]; repeat constructor.
    apply (whole_value _ (TText (Some (blen v)) [(true, v)])); [repeat constructor|reflexivity].
  - apply Forall_app; split; [|exact IH]. unfold bin_buf_ref. destruct (frag_borrowed c) as [v|]; repeat constructor.
    + apply (whole_value _ (TBin (Some (blen v)) [(true, v)])); [repeat constructor|reflexivity].
    + apply (whole_computed _ (TBin (Some (blen (frag_inner c))) [(true, frag_inner c)])); [repeat constructor|reflexivity].
  - constructor; [constructor|]. apply Forall_app; split; [exact IH1|]. constructor; [constructor|exact IH2].
Qed.

(** A value that does not fail is made of valid strings when its calls are. *)
Lemma flat_utf8_back v : forall comp es, flat v comp = (es, true) -> forallb ev_utf8 es = true -> value_utf8 v = true.
Proof.
  assert (A : forall v, Forall (fun c => forall comp es, flat1 c comp = (es, true) -> forallb ev_utf8 es = true -> call_utf8 c = true) v ->
    forall comp es, flat v comp = (es, true) -> forallb ev_utf8 es = true -> value_utf8 v = true).
  { clear v. induction 1 as [|c v Hc Hv IH]; intros comp es H U; [reflexivity|]. rewrite flat_cons in H.
    destruct (flat1 c comp) as [es1 ok1] eqn:F1, (flat v comp) as [es2 ok2] eqn:F2. destruct ok1; [|discriminate]. injection H as <- ->.
    rewrite forallb_app in U. apply andb_true_iff in U as (U1 & U2). cbn [value_utf8 forallb]. rewrite (Hc comp es1 F1 U1).
    apply (IH comp es2 F2 U2). }
  apply A. apply Forall_forall. intros c _. clear v. induction c using call_ind'; intros comp es F U.
  - cbn in F. injection F as <-. cbn [forallb] in U. rewrite andb_true_r in U. destruct comp; rewrite ?computed_utf8 in U; exact U.
  - rewrite flat1_CV in F. exact (A _ H _ _ F U).
  - rewrite flat1_CVC in F. exact (A _ H _ _ F U).
  - discriminate.
Qed.
Lemma olabel_kept l : olabel_utf8 (option_map kept_label l) = olabel_utf8 l.
Proof. destruct l; reflexivity. Qed.
Lemma frags_utf8 fs : forallb ev_utf8 (map text_frag fs) = true -> utf8 (content fs) = true.
Proof.
  unfold content. induction fs as [|[b s] fs IH]; [reflexivity|]. cbn [map forallb snd List.concat]. intros U.
  apply andb_true_iff in U as (U1 & U2). apply utf8_app; [|apply IH, U2]. destruct b; exact U1.
Qed.

Lemma forallb_flat_map {A B} (p : B -> bool) (f : A -> list B) l : forallb p (flat_map f l) = forallb (fun a => forallb p (f a)) l.
Proof. induction l as [|a l IH]; [reflexivity|]. cbn [flat_map forallb]. rewrite forallb_app, IH. reflexivity. Qed.
Lemma forallb_map {A B} (p : B -> bool) (f : A -> B) l : forallb p (map f l) = forallb (fun a => p (f a)) l.
Proof. induction l as [|a l IH]; [reflexivity|]. cbn [map forallb]. rewrite IH. reflexivity. Qed.
Lemma forallb_imp {A} (p q : A -> bool) l : (forall a, In a l -> p a = true -> q a = true) -> forallb p l = true -> forallb q l = true.
Proof. intros H P. rewrite forallb_forall in *. auto. Qed.
Ltac andbs := repeat match goal with H : andb _ _ = true |- _ => apply andb_true_iff in H as (? & ?) end;
  repeat match goal with |- andb _ _ = true => apply andb_true_iff; split end.
Ltac walk := repeat (cbn [forallb map] in *; rewrite ?forallb_app, ?forallb_flat_map, ?forallb_map in *; andbs).
Lemma emit_replayed_utf8 t : forallb ev_utf8 (emit t) = true -> forallb ev_utf8 (emit (replayed t)) = true.
Proof.
  induction t using tree_ind'; cbn [rebuilt emit]; intros U; try exact U.
  - cbn [forallb map ev_utf8] in *. rewrite forallb_app in U. andbs; [reflexivity|].
    match goal with H : forallb ev_utf8 (map text_frag fs) = true |- _ => apply frags_utf8 in H; destruct (borrowed_whole fs); cbn; rewrite H; reflexivity end.
  - cbn [map app forallb ev_utf8]. destruct (borrowed_whole fs); reflexivity.
  - cbn [forallb ev_utf8] in *. rewrite olabel_kept. exact U.
  - exact (IHt U).
  - walk; auto; cbn [ev_utf8] in *; rewrite ?olabel_kept; auto.
  - walk; auto; cbn [ev_utf8] in *; rewrite ?olabel_kept; auto.
  - walk; auto. eapply forallb_imp; [|eassumption]. intros v I V. rewrite Forall_forall in H. walk; auto.
  - walk; auto. eapply forallb_imp; [|eassumption]. intros [k v] I V. rewrite Forall_forall in H. destruct (H _ I). cbn [fst snd] in *. walk; auto.
  - walk; auto; cbn [ev_utf8] in *; rewrite ?olabel_kept; auto. eapply forallb_imp; [|eassumption]. intros [[ft fl] v] I V. rewrite Forall_forall in H. specialize (H _ I). cbn [fst snd] in *. walk; auto.
  - walk; auto; cbn [ev_utf8] in *; rewrite ?olabel_kept; auto. eapply forallb_imp; [|eassumption]. intros [[ft fl] v] I V. rewrite Forall_forall in H. specialize (H _ I). cbn [fst snd] in *. walk; auto.
  - walk; auto; cbn [ev_utf8] in *; rewrite ?olabel_kept; auto. eapply forallb_imp; [|eassumption]. intros [[[ft fl] fi] v] I V. rewrite Forall_forall in H. specialize (H _ I). cbn [fst snd] in *. walk; auto.
Qed.

(** ** JSON *)
Lemma escape_none c : no_escape_needed c = true -> escape_of c = None.
Proof.
  unfold no_escape_needed, escape_of. cbv zeta. intros H. apply negb_true_iff in H. apply orb_false_iff in H as (H & H3). apply orb_false_iff in H as (H1 & H2).
  rewrite H1, H2, H3. apply N.ltb_ge in H3.
  destruct (N.eqb_spec (N_of_ascii c) 8); [lia|]. destruct (N.eqb_spec (N_of_ascii c) 9); [lia|]. destruct (N.eqb_spec (N_of_ascii c) 10); [lia|].
  destruct (N.eqb_spec (N_of_ascii c) 12); [lia|]. destruct (N.eqb_spec (N_of_ascii c) 13); [lia|]. reflexivity.
Qed.
Lemma escape_plain s : forallb no_escape_needed s = true -> esc s = s.
Proof.
  unfold esc. induction s as [|c s IH]; [reflexivity|]. cbn [forallb]. intros H. andbs. cbn [flat_map]. rewrite IH by assumption.
  unfold escb. rewrite (escape_none c) by assumption. reflexivity.
Qed.

Section Json.
  Variable r32 r64 : float -> bytes.
  Notation step := (json_step bytes string_write r32 r64).
  Notation jm := (meth json_over step).

  Definition honest_ev (e : ev) : bool :=
    match e with ERecordValBegin _ l | ERecTupValBegin _ l _ => honest l | _ => true end.
  Lemma record_value_kept l f : honest l = true ->
    j_record_value_begin bytes string_write (kept_label l) f = j_record_value_begin bytes string_write l f.
  Proof.
    intros H. unfold honest in H. unfold j_record_value_begin. cbn [kept_label l_tag l_text otag_is].
    match goal with |- (?m >>= _) = _ => destruct m; cbn [bind]; [|reflexivity..] end.
    destruct (otag_is (l_tag l) VALUE_IDENT); [|reflexivity]. cbn [negb orb] in H.
    rewrite escape_str_pure, put_pure, (escape_plain _ H). reflexivity.
  Qed.
  Lemma jm_kept f e : honest_ev e = true -> jm f (with_labels kept_label e) = jm f e.
  Proof.
    intros H. destruct e; try reflexivity; cbn [with_labels].
    all: try (rewrite !jm_over by reflexivity; cbn [json_step]).
    all: rewrite ?jm_record_val_end, ?jm_rectup_begin, ?jm_rectup_val_begin, ?jm_rectup_val_end, ?jm_rectup_end.
    all: try reflexivity.
    all: try (apply record_value_kept; exact H).
    all: destruct l; reflexivity.
  Qed.
  Lemma run_kept es : forall f, forallb honest_ev es = true -> run jm f (map (with_labels kept_label) es) = run jm f es.
  Proof.
    induction es as [|e es IH]; intros f H; [reflexivity|]. cbn [forallb] in H. andbs. cbn [map]. rewrite !run_cons, jm_kept by assumption.
    destruct (jm f e); cbn [bind]; auto.
  Qed.
End Json.

Local Notation joined t := (rebuilt (fun l : label => l) t).
Lemma omap_id {A} (o : option A) : option_map (fun x => x) o = o.
Proof. destruct o; reflexivity. Qed.
Lemma rebuilt_relabelled f t : rebuilt f t = relabelled f (joined t).
Proof.
  induction t using tree_ind'; cbn [rebuilt relabelled]; rewrite ?omap_id, ?IHt, ?map_map; try reflexivity.
  - f_equal. apply map_ext_in. intros v I. rewrite Forall_forall in H. auto.
  - f_equal. apply map_ext_in. intros [k v] I. rewrite Forall_forall in H. destruct (H _ I) as (H1 & H2). cbn [fst snd] in *. rewrite H1, H2. reflexivity.
  - f_equal. apply map_ext_in. intros [[ft fl] v] I. rewrite Forall_forall in H. specialize (H _ I). cbn [fst snd] in *. rewrite H. reflexivity.
  - f_equal. apply map_ext_in. intros [[ft fl] v] I. rewrite Forall_forall in H. specialize (H _ I). cbn [fst snd] in *. rewrite H. reflexivity.
  - f_equal. apply map_ext_in. intros [[[ft fl] fi] v] I. rewrite Forall_forall in H. specialize (H _ I). cbn [fst snd] in *. rewrite H. reflexivity.
Qed.
Lemma honest_emit t : honest_fields t = true -> forallb honest_ev (emit (joined t)) = true.
Proof.
  induction t using tree_ind'; cbn [rebuilt emit honest_fields]; intros U; try reflexivity.
  - destruct (borrowed_whole fs); reflexivity.
  - destruct (borrowed_whole fs); reflexivity.
  - exact (IHt U).
  - walk; auto.
  - walk; auto.
  - walk; auto. eapply forallb_imp; [|exact U]. intros v I V. rewrite Forall_forall in H. walk; auto.
  - walk; auto. eapply forallb_imp; [|exact U]. intros [k v] I V. rewrite Forall_forall in H. destruct (H _ I). cbn [fst snd] in *. walk; auto.
  - walk; auto. eapply forallb_imp; [|exact U]. intros [[ft fl] v] I V. rewrite Forall_forall in H. specialize (H _ I). cbn [fst snd] in *. walk; auto.
  - walk; auto. eapply forallb_imp; [|exact U]. intros [[ft fl] v] I V. rewrite Forall_forall in H. specialize (H _ I). cbn [fst snd] in *. walk; auto.
  - walk; auto. eapply forallb_imp; [|exact U]. intros [[[ft fl] fi] v] I V. rewrite Forall_forall in H. specialize (H _ I). cbn [fst snd] in *. walk; auto.
Qed.
Lemma uncut_joined t : forall p, steady p t = true -> uncut p (joined t) = uncut p t.
Proof.
  assert (W : forall b fs, JsonFragProps.whole [(b, content fs)] = JsonFragProps.whole fs) by (intros b fs; unfold JsonFragProps.whole; f_equal; f_equal; apply (content_joined b)).
  assert (O : forall b fs, one_piece fs = true -> owned [(b, content fs)] = owned fs).
  { intros b [|[c s] [|? ?]] H; try discriminate. unfold owned, content. cbn. rewrite app_nil_r. reflexivity. }
  induction t using tree_ind'; intros p S; cbn [rebuilt uncut steady] in *; rewrite ?omap_id, ?W, ?map_map; try reflexivity.
  - f_equal. destruct p; [reflexivity| |apply O, S]. change frags_text with content. rewrite content_joined.
    destruct (cut_safe (content fs)); [reflexivity|]. rewrite orb_false_r in S. apply O, S.
  - rewrite IHt by exact S. reflexivity.
  - rewrite IHt by exact S. reflexivity.
  - rewrite IHt by exact S. reflexivity.
  - f_equal. apply map_ext_in. intros v I. rewrite Forall_forall in H. rewrite forallb_forall in S. auto.
  - f_equal. apply map_ext_in. intros [k v] I. rewrite Forall_forall in H. rewrite forallb_forall in S. specialize (S _ I). destruct (H _ I) as (H1 & H2). cbn [fst snd] in *. andbs. rewrite H1, H2 by assumption. reflexivity.
  - f_equal. apply map_ext_in. intros [[ft fl] v] I. rewrite Forall_forall in H. rewrite forallb_forall in S. specialize (S _ I). specialize (H _ I). cbn [fst snd] in *. rewrite H by assumption. reflexivity.
  - f_equal. apply map_ext_in. intros [[ft fl] v] I. rewrite Forall_forall in H. rewrite forallb_forall in S. specialize (S _ I). specialize (H _ I). cbn [fst snd] in *. rewrite H by assumption. reflexivity.
  - f_equal. apply map_ext_in. intros [[[ft fl] fi] v] I. rewrite Forall_forall in H. rewrite forallb_forall in S. specialize (S _ I). specialize (H _ I). cbn [fst snd] in *. rewrite H by assumption. reflexivity.
Qed.

(** ** C59 *)

(** Buffering what a buffer replays gives the very same buffer. *)
Theorem C59_buffer_again :
  forall v t b cs, streams v t -> vbuf_collect v = OOk b -> vbuf_stream b = Some cs -> vbuf_collect cs = OOk b.
Proof.
  intros v t b cs H C R. destruct (replay_is v t b cs H C R) as (-> & _ & F).
  rewrite (collect_streams _ _ F), parts_replayed. reflexivity.
Qed.

(** The Debug-style text is the same, for every value. *)
Theorem C59_same_debug_text :
  forall r32 r64 uni v t b cs, streams v t -> value_utf8 v = true -> vbuf_collect v = OOk b -> vbuf_stream b = Some cs ->
  fmt_to_string r32 r64 uni cs = fmt_to_string r32 r64 uni v.
Proof.
  intros r32 r64 uni v t b cs H U C R. destruct (replay_is v t b cs H C R) as (_ & _ & F).
  rewrite (C30_text _ _ _ _ _ H U), (C30_text r32 r64 uni cs _ F), debug_replayed; [reflexivity|].
  unfold streams in *. apply (flat_utf8_back cs false _ F). apply emit_replayed_utf8.
  pose proof (flat_utf8 v false U) as X. rewrite H in X. exact X.
Qed.

(** [serde] serializers are made the same calls. *)
Theorem C59_same_serde_calls :
  forall S v t b cs, opaque_children S -> NestedSpec.whole v -> streams v t -> shallow (mirror t) = true ->
  vbuf_collect v = OOk b -> vbuf_stream b = Some cs ->
  forall n, levels (mirror t) <= n -> forall k, to_serialize S n cs k = to_serialize S n v k.
Proof.
  intros S v t b cs OC W H Sh C R n L k. destruct (replay_is v t b cs H C R) as (_ & P & F).
  rewrite (C37_serializes_as S v t OC W H Sh n L k).
  rewrite (C37_serializes_as S cs _ OC (plays_whole _ _ P) F); rewrite ?mirror_replayed; auto.
Qed.

(** The JSON is the same: false for labels that claim not to need escaping but do, since the
    buffer drops that claim, and for numbers in pieces that may not be joined. *)
Definition C59_same_json : Prop :=
  forall r32 r64 v t b cs, streams v t -> vbuf_collect v = OOk b -> vbuf_stream b = Some cs ->
  json_to_string r32 r64 cs = json_to_string r32 r64 v.
Theorem C59_same_json_partial :
  forall r32 r64 v t b cs, streams v t -> honest_fields t = true -> steady Free t = true ->
  vbuf_collect v = OOk b -> vbuf_stream b = Some cs ->
  json_to_string r32 r64 cs = json_to_string r32 r64 v.
Proof.
  intros r32 r64 v t b cs H Ho St C R. destruct (replay_is v t b cs H C R) as (_ & _ & F).
  rewrite (to_string_run _ _ _ _ H), (to_string_run _ _ _ _ F).
  rewrite rebuilt_relabelled, emit_relabelled, run_kept by (apply honest_emit, Ho).
  rewrite (emit_uncut r32 r64 (joined t) Free), (emit_uncut r32 r64 t Free), uncut_joined by (reflexivity || exact St). reflexivity.
Qed.
Definition a_liar : tree := TRecord None None None None [(None, MkLabel (bs "a""b") LStatic (Some VALUE_IDENT), TNull)].
Theorem C59_same_json_refuted : ~ C59_same_json.
Proof.
  intros H. assert (S : streams (map CE (emit a_liar)) a_liar) by reflexivity.
  destruct (C15_round_trip_partial _ _ S) as (b & cs & C & R & _). specialize (H (fun _ => []) (fun _ => []) _ _ b cs S C R).
  vm_compute in C. injection C as <-. vm_compute in R. injection R as <-. vm_compute in H. discriminate.
Qed.

(** Values as the derive macro makes them, with numbers in one piece. *)
Definition sample_value : tree :=
  TRecord None (Some (MkLabel (bs "S") LStatic None)) None (Some 2%N)
    [(None, MkLabel (bs "id") LStatic (Some VALUE_IDENT), TTagged (Some NUMBER) None None (TText (Some 3%N) [(true, bs "012")]));
     (None, MkLabel (bs "tags") LStatic (Some VALUE_IDENT), TSeq (Some 1%N) [TText None [(false, bs "x"); (true, bs """"); (false, bs "y")]])].
Example C59_sample :
  honest_fields sample_value = true /\ steady Free sample_value = true /\ value_utf8 (map CE (emit sample_value)) = true /\
  shallow (mirror sample_value) = true /\ streams (map CE (emit sample_value)) sample_value /\
  exists b cs, vbuf_collect (map CE (emit sample_value)) = OOk b /\ vbuf_stream b = Some cs /\ cs <> map CE (emit sample_value) /\
    json_to_string (fun _ => []) (fun _ => []) cs = SOk (bs "{""id"":12,""tags"":[""x\""y""]}") /\
    fmt_to_string (fun _ => []) (fun _ => []) (fun c => [c]) cs = Some (bs "S { id: 012, tags: [""x\""y""] }").
Proof.
  repeat split. assert (S : streams (map CE (emit sample_value)) sample_value) by reflexivity.
  destruct (C15_round_trip_partial _ _ S) as (b & cs & C & R & _). exists b, cs. split; [exact C|]. split; [exact R|].
  vm_compute in C. injection C as <-. vm_compute in R. injection R as <-. split; [discriminate|]. split; vm_compute; reflexivity.
Qed.

Print Assumptions C59_buffer_again.
Print Assumptions C59_same_debug_text.
Print Assumptions C59_same_serde_calls.
Print Assumptions C59_same_json_partial.
Print Assumptions C59_same_json_refuted.
