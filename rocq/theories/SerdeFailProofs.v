(** * SerdeFailProofs: lemmas about values that give up *)

From Verif Require Import Base Event FlatProofs Tree LowerModel LowerProofs DataModel DataProofs FragModel BufferModel BufferSpec BufferProofs StdModel NestedModel NestedSpec NestedProofs SerdeModel SerdeSpec SerdeProofs SerdeFailModel SerdeFailSpec.

(** ** [sound] in two parts *)
Lemma forallb_and {A} (f g h : A -> bool) l : Forall (fun x => f x = g x && negb (h x)) l ->
  forallb f l = forallb g l && negb (existsb h l).
Proof.
  induction 1 as [|x l E F IH]; [reflexivity|]. cbn. rewrite E, IH. destruct (g x), (h x), (forallb g l), (existsb h l); reflexivity.
Qed.
Lemma sound_parts x : sound x = small_indexes x && negb (gives_up x).
Proof.
  induction x using sdata_ind'; try reflexivity; cbn [sound small_indexes gives_up]; try assumption.
  - rewrite andb_true_r. reflexivity.
  - rewrite IHx. destruct (fits U32 i), (small_indexes x), (gives_up x); reflexivity.
  - apply forallb_and, H.
  - apply forallb_and, H.
  - apply forallb_and, H.
  - rewrite (forallb_and _ _ _ _ H), andb_assoc. reflexivity.
  - apply forallb_and. eapply Forall_impl; [|exact H]. intros [a b] [Ha Hb]. cbn [fst snd] in *. rewrite Ha, Hb.
    destruct (small_indexes a), (small_indexes b), (gives_up a), (gives_up b); reflexivity.
  - rewrite (forallb_and _ (fun f : bytes * sdata => match f with (_, v) => small_indexes v end) (fun f : bytes * sdata => match f with (_, v) => gives_up v end)).
    + rewrite negb_orb, negb_involutive. destruct ok; rewrite ?andb_true_r, ?andb_false_r; reflexivity.
    + eapply Forall_impl; [|exact H]. intros [a b] Hb. exact Hb.
  - rewrite (forallb_and _ (fun f : bytes * sdata => match f with (_, v) => small_indexes v end) (fun f : bytes * sdata => match f with (_, v) => gives_up v end)).
    + rewrite negb_orb, negb_involutive. destruct ok; rewrite ?andb_true_r, ?andb_false_r, ?andb_assoc; reflexivity.
    + eapply Forall_impl; [|exact H]. intros [a b] Hb. exact Hb.
Qed.

(** ** A value that does not give up *)
Lemma items_tuple (f : sdata -> list call) (g : sdata -> atree) vs : Forall (fun v => f v = acalls (g v)) vs -> forall i,
  items (tuple_items i (map f vs)) =
  flat_map (fun fd => match fd with (ft, fi, v) => CE (ETupleValBegin ft fi) :: acalls v ++ [CE (ETupleValEnd ft fi)] end)
           (numbered (fun v => v) i (map (fun v => AVal false (g v)) vs)).
Proof.
  induction 1 as [|v vs E F IH]; intros i; [reflexivity|]. cbn [map tuple_items numbered]. unfold items in *. cbn [flat_map item acalls app].
  rewrite IH, E. reflexivity.
Qed.
Lemma streamed_sound x : gives_up x = false -> streamed x = acalls (valued x).
Proof.
  induction x using sdata_ind'; cbn [gives_up]; intros Hs; try reflexivity; try discriminate Hs.
  - cbn. unfold display_calls. rewrite map_map. reflexivity.
  - cbn. rewrite (IHx Hs). reflexivity.
  - cbn. rewrite (IHx Hs). reflexivity.
  - cbn. rewrite (IHx Hs). reflexivity.
  - cbn [streamed valued acalls]. f_equal. f_equal. unfold items. rewrite !flat_map_map'. 
    induction H as [|v vs Hv _ IH]; [reflexivity|]. cbn [existsb] in Hs. apply orb_false_iff in Hs as [E1 E2]. cbn [flat_map].
    rewrite (IH E2), (Hv E1). reflexivity.
  - cbn [streamed valued acalls]. f_equal. f_equal. apply items_tuple. clear - H Hs.
    induction H as [|v vs Hv _ IH]; [constructor|]. cbn [existsb] in Hs. apply orb_false_iff in Hs as [E1 E2]. constructor; auto.
  - cbn [streamed valued acalls]. f_equal. f_equal. apply items_tuple. clear - H Hs.
    induction H as [|v vs Hv _ IH]; [constructor|]. cbn [existsb] in Hs. apply orb_false_iff in Hs as [E1 E2]. constructor; auto.
  - cbn [streamed valued acalls]. rewrite (items_tuple streamed valued).
    + cbn [app]. rewrite <- app_assoc. reflexivity.
    + clear - H Hs. induction H as [|v vs Hv _ IH]; [constructor|]. cbn [existsb] in Hs. apply orb_false_iff in Hs as [E1 E2]. constructor; auto.
  - cbn [streamed valued acalls]. f_equal. f_equal. unfold items. rewrite flat_map_map'.
    induction H as [|[a b] es [Ha Hb] _ IH]; [reflexivity|]. cbn [existsb] in Hs. apply orb_false_iff in Hs as [E1 E2]. apply orb_false_iff in E1 as [Ea Eb].
    cbn [flat_map]. rewrite flat_map_app, (IH E2). cbn [fst snd] in *. rewrite (Ha Ea), (Hb Eb). reflexivity.
  - apply orb_false_iff in Hs as [Hs Hok]. apply negb_false_iff in Hok. subst ok.
    cbn [streamed valued acalls]. f_equal. f_equal. unfold items. rewrite !flat_map_map'.
    induction H as [|[l' v] vs Hv _ IH]; [reflexivity|]. cbn [existsb] in Hs. apply orb_false_iff in Hs as [E1 E2]. cbn [flat_map].
    rewrite (IH E2). cbn [snd] in Hv. rewrite (Hv E1). reflexivity.
  - apply orb_false_iff in Hs as [Hs Hok]. apply negb_false_iff in Hok. subst ok.
    cbn [streamed valued acalls]. cbn [app]. rewrite <- app_assoc. f_equal. f_equal. f_equal. unfold items. rewrite !flat_map_map'.
    induction H as [|[l' v] vs Hv _ IH]; [reflexivity|]. cbn [existsb] in Hs. apply orb_false_iff in Hs as [E1 E2]. cbn [flat_map].
    rewrite (IH E2). cbn [snd] in Hv. rewrite (Hv E1). reflexivity.
Qed.
Lemma given_some v : given (DSome v) =
  match v with DSome w => DSome (DSome (given w)) | _ => if gives_up v then DFail else DSome (given v) end.
Proof. destruct v; reflexivity. Qed.
Lemma given_sound x : gives_up x = false -> given x = strings x.
Proof.
  enough (H : (gives_up x = false -> given x = strings x) /\ forall w, x = DSome w -> gives_up w = false -> given w = strings w) by exact (proj1 H).
  assert (M : forall vs, Forall (fun x => (gives_up x = false -> given x = strings x) /\ forall w, x = DSome w -> gives_up w = false -> given w = strings w) vs ->
    existsb gives_up vs = false -> map given vs = map strings vs).
  { induction 1 as [|v vs [Hv _] _ IH]; [reflexivity|]. cbn. intros E. apply orb_false_iff in E as [E1 E2]. rewrite (Hv E1), (IH E2). reflexivity. }
  assert (F : forall fs : list (bytes * sdata), Forall (fun f => (gives_up (snd f) = false -> given (snd f) = strings (snd f)) /\ forall w, snd f = DSome w -> gives_up w = false -> given w = strings w) fs ->
    existsb (fun f => match f with (_, v) => gives_up v end) fs = false ->
    map (fun f : bytes * sdata => match f with (a, b) => (a, given b) end) fs = map (fun f : bytes * sdata => match f with (a, b) => (a, strings b) end) fs).
  { induction 1 as [|[l v] fs [Hv _] _ IH]; [reflexivity|]. cbn in *. intros E. apply orb_false_iff in E as [E1 E2]. rewrite (Hv E1), (IH E2). reflexivity. }
  induction x using sdata_ind'; (split; [|try discriminate]); cbn [gives_up]; try reflexivity; try (intros Hs; discriminate Hs).
  - intros Hs. destruct IHx as [I1 I2]. rewrite given_some. destruct x; cbn [strings]; rewrite ?Hs; try (rewrite (I1 Hs); reflexivity).
    rewrite (I2 _ eq_refl Hs). reflexivity.
  - intros w [= <-]. exact (proj1 IHx).
  - intros Hs. cbn. rewrite (proj1 IHx Hs). reflexivity.
  - intros Hs. cbn. rewrite (proj1 IHx Hs). reflexivity.
  - intros Hs. cbn. rewrite (M _ H Hs). reflexivity.
  - intros Hs. cbn. rewrite (M _ H Hs). reflexivity.
  - intros Hs. cbn. rewrite (M _ H Hs). reflexivity.
  - intros Hs. cbn. rewrite (M _ H Hs). reflexivity.
  - intros Hs. cbn. f_equal. induction H as [|[a b] es [[Ha _] [Hb _]] _ IH]; [reflexivity|]. cbn [existsb] in Hs. apply orb_false_iff in Hs as [E1 E2]. apply orb_false_iff in E1 as [Ea Eb].
    cbn [map fst snd] in *. rewrite (IH E2), (Ha Ea), (Hb Eb). reflexivity.
  - intros Hs. apply orb_false_iff in Hs as [Hs _]. cbn. rewrite (F _ H Hs). reflexivity.
  - intros Hs. apply orb_false_iff in Hs as [Hs _]. cbn. rewrite (F _ H Hs). reflexivity.
Qed.

(** ** Buffering a value that gives up *)
Definition stuck (cs : list call) (comp : bool) : Prop :=
  exists es, flat cs comp = (es, false) /\ forall p st er, exists v, run vbuf_step (MkVB p st false er) es = Ok v.
Lemma stuck_fail cs comp : stuck (CFail :: cs) comp.
Proof. exists []. split; [reflexivity|]. intros p st er. eexists. reflexivity. Qed.
Lemma stuck_app cs r comp : stuck cs comp -> stuck (cs ++ r) comp.
Proof. intros (es & E & R). exists es. split; [|exact R]. rewrite flat_app, E. reflexivity. Qed.
Lemma stuck_gives cs r comp ps : gives cs comp ps -> stuck r comp -> stuck (cs ++ r) comp.
Proof.
  intros (es & E & A) (es' & E' & R). exists (es ++ es'). split; [rewrite flat_app, E, E'; reflexivity|].
  intros p st er. destruct (R (p ++ ps) st er) as (v & Rv). exists v. rewrite run_app, A. exact Rv.
Qed.
Lemma stuck_CVC c r comp : stuck c true -> stuck (CVC c :: r) comp.
Proof. intros (es & E & R). exists es. split; [|exact R]. rewrite flat_cons, flat1_CVC, E. reflexivity. Qed.
Lemma stuck_CV c r comp : stuck c comp -> stuck (CV c :: r) comp.
Proof. intros (es & E & R). exists es. split; [|exact R]. rewrite flat_cons, flat1_CV, E. reflexivity. Qed.
Lemma stuck_begin b k r comp : computed b = b -> (forall s, vbuf_step s b = Ok (push_begin s k)) -> stuck r comp -> stuck (CE b :: r) comp.
Proof.
  intros C B (es & E & R). exists (b :: es). split; [rewrite flat_cons, flat1_CE, E; destruct comp; rewrite ?C; reflexivity|].
  intros p st er. cbn [run]. rewrite B. cbn [bind]. apply (R _ (_ :: st) er).
Qed.

(** ** The same through [FlatStream] *)
Section FlatStream.
Context {S : nstream}.
Notation state := (state S).
Definition unfinished (sst : state) : Prop := forall x, sst <> SDone (Some x).
Definition dies (comp : bool) (cs : list call) : Prop :=
  forall p st er (sst : state), st <> [] -> unfinished sst ->
    exists f, fs_calls cs comp (fed_state p st er sst) = Err f /\ finish f = OErr.
Lemma unfinished_finish b sst : unfinished sst -> finish (MkFS (S := S) b sst) = OErr.
Proof. intros U. unfold finish. cbn. destruct sst; try reflexivity. destruct r; [|reflexivity]. destruct (U n eq_refl). Qed.
Lemma dies_fail comp cs : dies comp (CFail :: cs).
Proof. intros p st er sst N U. eexists. split; [reflexivity|]. apply unfinished_finish, U. Qed.
Lemma dies_app comp cs r : dies comp cs -> dies comp (cs ++ r).
Proof. intros D p st er sst N U. destruct (D p st er sst N U) as (f & E & F). exists f. split; [|exact F]. rewrite fs_calls_app, E. reflexivity. Qed.
Lemma dies_feeds comp cs r ps : feeds (S := S) comp cs ps -> dies comp r -> dies comp (cs ++ r).
Proof. intros F D p st er sst N U. rewrite fs_calls_app, F by exact N. apply D; assumption. Qed.
Lemma dies_CVC comp c r : stuck c true -> dies comp (CVC c :: r).
Proof.
  intros (es & E & R) p st er sst N U. destruct (R p st er) as (v & Rv). exists (MkFS (Some (BValue vbuf_new)) (SDone None)). split; [|reflexivity].
  rewrite fs_calls_cons, fs_call_CVC. unfold fs_value, buffer_or_with, fed_state, buf_value, Event.stream_value. cbn [f_buf].
  rewrite flat_cons, flat1_CVC, E. cbn [fst snd]. rewrite Rv. reflexivity.
Qed.

(** The marks around a child. *)
Definition mark (x : ev * list call * ev) : Prop :=
  match x with (b, _, e) =>
    match b, e with
    | ESeqValBegin, ESeqValEnd | EMapKeyBegin, EMapKeyEnd | EMapValBegin, EMapValEnd => True
    | ETupleValBegin t i, ETupleValEnd t' i' => t = t' /\ i = i'
    | ERecordValBegin t l, ERecordValEnd t' l' => t = t' /\ l = l'
    | ETaggedBegin t l i, ETaggedEnd t' l' i' => t = t' /\ l = l' /\ i = i'
    | _, _ => False
    end
  end.
Ltac marks H := match type of H with mark (?b, _, ?e) => destruct b; try contradiction; destruct e; try contradiction; cbn in H;
   repeat match goal with H : _ /\ _ |- _ => destruct H end; subst end.
Lemma gives_CVC c comp ps : gives c true ps -> gives [CVC c] comp ps.
Proof. intros (es & E & A). exists es. split; [|exact A]. rewrite flat_cons, flat1_CVC, E. cbn. rewrite app_nil_r. reflexivity. Qed.
Lemma mark_gives b c e comp ps : mark (b, c, e) -> gives c true ps -> exists qs, gives (item (b, c, e)) comp qs.
Proof.
  intros M G. apply (gives_CVC c comp) in G. marks M; eexists; (eapply (gives_wrap _ _ _ [CVC c]); [reflexivity|reflexivity|reflexivity|reflexivity|exact G]).
Qed.
Lemma mark_stuck b c e comp : mark (b, c, e) -> stuck c true -> stuck (item (b, c, e)) comp.
Proof.
  intros M G. marks M; (eapply stuck_begin; [reflexivity|reflexivity|apply stuck_CVC, G]).
Qed.
Lemma feeds_CVC c comp ps : gives c true ps -> feeds (S := S) comp [CVC c] ps.
Proof. intros G p st er sst N. rewrite fs_calls_one, fs_call_CVC. apply feeds_val, G. Qed.
Ltac buffered_step := intros; unfold fs_step, fs_own, buffer_or_value, buffer_or_with, buffer_or_begin, buffer_or_end, with_buf, put;
  cbn [f_buf f_state vbuf_step]; repeat (match goal with H : push_end _ = _ |- _ => rewrite H; clear H end);
  repeat (match goal with H : is_complete _ = _ |- _ => rewrite H; clear H end); reflexivity.
Ltac feeds_wraps := intros; eapply feeds_wrap; [reflexivity|reflexivity|buffered_step|buffered_step|].
Lemma mark_feeds b c e comp ps : mark (b, c, e) -> gives c true ps -> exists qs, feeds (S := S) comp (item (b, c, e)) qs.
Proof.
  intros M G. apply (feeds_CVC c comp) in G.
  marks M; unfold item; try (eexists; change [CE ?b; CVC c; CE ?e] with (CE b :: [CVC c] ++ [CE e]); feeds_wraps; exact G).
  all: exists ps; intros p st er sst N; rewrite fs_calls_cons, fs_call_CE;
    replace (if comp then computed ESeqValBegin else ESeqValBegin) with ESeqValBegin by (destruct comp; reflexivity);
    cbn [fs_step fs_own bind]; change [CVC c; CE ESeqValEnd] with ([CVC c] ++ [CE ESeqValEnd]); rewrite fs_calls_app, G by exact N;
    cbn [bind]; destruct comp; reflexivity.
Qed.
Lemma mark_dies b c e comp : mark (b, c, e) -> stuck c true -> dies comp (item (b, c, e)).
Proof.
  intros M G p st er sst N U. unfold item. rewrite fs_calls_cons, fs_call_CE.
  pose proof (dies_CVC comp c [CE e] G) as D.
  marks M; destruct comp; cbn [computed];
    unfold fed_state, fs_step, fs_own, buffer_or_value, buffer_or_with, buffer_or_begin, buffer_or_end, with_buf, put; cbn [f_buf f_state vbuf_step try_catch bind];
    first [exact (D p st er sst N U)|apply (D _ (_ :: st) er sst); [discriminate|exact U]].
Qed.

(** Children, one of which gives up, or that are followed by giving up. *)
Definition child_ok (x : ev * list call * ev) : Prop := mark x /\ ((exists ps, gives (snd (fst x)) true ps) \/ stuck (snd (fst x)) true).
Lemma items_stuck comp l r : Forall child_ok l ->
  Exists (fun x => stuck (snd (fst x)) true) l \/ stuck r comp -> stuck (items l ++ r) comp.
Proof.
  induction 1 as [|[[b c] e] l [M H] _ IH]; intros D; [destruct D as [D|D]; [inversion D|exact D]|].
  cbn [items flat_map]. fold (items l). rewrite <- app_assoc. cbn [fst snd] in H. destruct H as [(ps & G)|G].
  - destruct (mark_gives b c e comp ps M G) as (qs & Q). apply (stuck_gives _ _ _ qs Q).
    destruct D as [D|D]; [|apply IH; right; exact D]. inversion D as [? ? X|? ? X]; subst; [|apply IH; left; exact X].
    exfalso. destruct X as (es & E & _). destruct G as (es' & E' & _). cbn [fst snd] in E. congruence.
  - apply stuck_app. apply mark_stuck; assumption.
Qed.
Lemma items_dies comp l r : Forall child_ok l ->
  Exists (fun x => stuck (snd (fst x)) true) l \/ dies comp r -> dies comp (items l ++ r).
Proof.
  induction 1 as [|[[b c] e] l [M H] _ IH]; intros D; [destruct D as [D|D]; [inversion D|exact D]|].
  cbn [items flat_map]. fold (items l). rewrite <- app_assoc. cbn [fst snd] in H. destruct H as [(ps & G)|G].
  - destruct (mark_feeds b c e comp ps M G) as (qs & Q). apply (dies_feeds _ _ _ qs Q).
    destruct D as [D|D]; [|apply IH; right; exact D]. inversion D as [? ? X|? ? X]; subst; [|apply IH; left; exact X].
    exfalso. destruct X as (es & E & _). destruct G as (es' & E' & _). cbn [fst snd] in E. congruence.
  - apply dies_app. apply mark_dies; assumption.
Qed.
End FlatStream.

(** ** The children of a value *)
Lemma sound_gives x comp : gives_up x = false -> exists ps, gives (streamed x) comp ps.
Proof. intros H. rewrite (streamed_sound x H). destruct (gives_tree (valued x) comp) as (ps & G & _). exists ps. exact G. Qed.
Lemma tuple_child_ok vs : Forall (fun x => gives_up x = true -> stuck (streamed x) true) vs -> forall i,
  Forall child_ok (tuple_items i (map streamed vs)) /\ (existsb gives_up vs = true -> Exists (fun x => stuck (snd (fst x)) true) (tuple_items i (map streamed vs))).
Proof.
  induction 1 as [|v vs Hv _ IH]; intros i; cbn; [split; [constructor|discriminate]|]. destruct (IH (i + 1)%Z) as [I1 I2]. split.
  - constructor; [|exact I1]. split; [cbn; auto|]. cbn. destruct (gives_up v) eqn:E; [right; auto|left; apply sound_gives, E].
  - intros E. apply orb_true_iff in E as [E|E]; [left; cbn; auto|right; auto].
Qed.
Lemma seq_child_ok vs : Forall (fun x => gives_up x = true -> stuck (streamed x) true) vs ->
  Forall child_ok (map (fun v => (ESeqValBegin, streamed v, ESeqValEnd)) vs) /\
  (existsb gives_up vs = true -> Exists (fun x => stuck (snd (fst x)) true) (map (fun v => (ESeqValBegin, streamed v, ESeqValEnd)) vs)).
Proof.
  induction 1 as [|v vs Hv _ [I1 I2]]; cbn; [split; [constructor|discriminate]|]. split.
  - constructor; [|exact I1]. split; [cbn; auto|]. cbn. destruct (gives_up v) eqn:E; [right; auto|left; apply sound_gives, E].
  - intros E. apply orb_true_iff in E as [E|E]; [left; cbn; auto|right; auto].
Qed.
Definition field_items (fs : list (bytes * sdata)) :=
  map (fun f : bytes * sdata => match f with (l, v) => (ERecordValBegin None (label_new l), streamed v, ERecordValEnd None (label_new l)) end) fs.
Lemma field_child_ok (fs : list (bytes * sdata)) : Forall (fun f => gives_up (snd f) = true -> stuck (streamed (snd f)) true) fs ->
  Forall child_ok (field_items fs) /\
  (existsb (fun f : bytes * sdata => match f with (_, v) => gives_up v end) fs = true -> Exists (fun x => stuck (snd (fst x)) true) (field_items fs)).
Proof.
  induction 1 as [|[l v] fs Hv _ [I1 I2]]; cbn; [split; [constructor|discriminate]|]. cbn in Hv. split.
  - constructor; [|exact I1]. split; [cbn; auto|]. cbn. destruct (gives_up v) eqn:E; [right; auto|left; apply sound_gives, E].
  - intros E. apply orb_true_iff in E as [E|E]; [left; cbn; auto|right; auto].
Qed.
Definition entry_items (es : list (sdata * sdata)) :=
  flat_map (fun e : sdata * sdata => match e with (a, b) =>
               [(EMapKeyBegin, streamed a, EMapKeyEnd); (EMapValBegin, streamed b, EMapValEnd)] end) es.
Lemma entry_child_ok (es : list (sdata * sdata)) :
  Forall (fun e => (gives_up (fst e) = true -> stuck (streamed (fst e)) true) /\ (gives_up (snd e) = true -> stuck (streamed (snd e)) true)) es ->
  Forall child_ok (entry_items es) /\
  (existsb (fun e : sdata * sdata => match e with (a, b) => gives_up a || gives_up b end) es = true -> Exists (fun x => stuck (snd (fst x)) true) (entry_items es)).
Proof.
  induction 1 as [|[a b] es [Ha Hb] _ [I1 I2]]; cbn; [split; [constructor|discriminate]|]. cbn in Ha, Hb. split.
  - constructor; [|constructor; [|exact I1]].
    + split; [cbn; auto|]. cbn. destruct (gives_up a) eqn:E; [right; auto|left; apply sound_gives, E].
    + split; [cbn; auto|]. cbn. destruct (gives_up b) eqn:E; [right; auto|left; apply sound_gives, E].
  - intros E. apply orb_true_iff in E as [E|E]; [|right; right; auto]. apply orb_true_iff in E as [E|E]; [left|right; left]; cbn; auto.
Qed.

Lemma streamed_stuck x : forall comp, gives_up x = true -> stuck (streamed x) comp.
Proof.
  assert (W : forall vs, Forall (fun x => forall comp, gives_up x = true -> stuck (streamed x) comp) vs ->
     Forall (fun x => gives_up x = true -> stuck (streamed x) true) vs) by (intros vs H; eapply Forall_impl; [|exact H]; auto).
  induction x using sdata_ind'; intros comp Hs; cbn [gives_up] in Hs; try discriminate Hs.
  - cbn. apply stuck_CVC. eapply stuck_begin; [reflexivity|reflexivity|]. apply stuck_CV, IHx, Hs.
  - cbn. eapply stuck_begin; [reflexivity|reflexivity|]. apply stuck_CVC, IHx, Hs.
  - cbn. eapply stuck_begin; [reflexivity|reflexivity|]. eapply stuck_begin; [reflexivity|reflexivity|]. apply stuck_CVC, IHx, Hs.
  - destruct (seq_child_ok vs (W _ H)) as [C1 C2]. cbn [streamed]. eapply stuck_begin; [reflexivity|reflexivity|].
    apply items_stuck; [exact C1|left; apply C2, Hs].
  - destruct (tuple_child_ok vs (W _ H) 0) as [C1 C2]. cbn [streamed]. eapply stuck_begin; [reflexivity|reflexivity|].
    apply items_stuck; [exact C1|left; apply C2, Hs].
  - destruct (tuple_child_ok vs (W _ H) 0) as [C1 C2]. cbn [streamed]. eapply stuck_begin; [reflexivity|reflexivity|].
    apply items_stuck; [exact C1|left; apply C2, Hs].
  - destruct (tuple_child_ok vs (W _ H) 0) as [C1 C2]. cbn [streamed]. eapply stuck_begin; [reflexivity|reflexivity|].
    eapply stuck_begin; [reflexivity|reflexivity|]. apply items_stuck; [exact C1|left; apply C2, Hs].
  - destruct (entry_child_ok es) as [C1 C2].
    { eapply Forall_impl; [|exact H]. intros [a b] [Ha Hb]. split; auto. }
    cbn [streamed]. eapply stuck_begin; [reflexivity|reflexivity|]. apply items_stuck; [exact C1|left; apply C2, Hs].
  - destruct (field_child_ok fs) as [C1 C2]; [eapply Forall_impl; [|exact H]; auto|].
    cbn [streamed]. eapply stuck_begin; [reflexivity|reflexivity|]. apply items_stuck; [exact C1|].
    apply orb_true_iff in Hs as [Hs|Hs]; [left; apply C2, Hs|]. apply negb_true_iff in Hs. subst ok. right. apply stuck_fail.
  - destruct (field_child_ok fs) as [C1 C2]; [eapply Forall_impl; [|exact H]; auto|].
    cbn [streamed]. eapply stuck_begin; [reflexivity|reflexivity|]. eapply stuck_begin; [reflexivity|reflexivity|]. apply items_stuck; [exact C1|].
    apply orb_true_iff in Hs as [Hs|Hs]; [left; apply C2, Hs|]. apply negb_true_iff in Hs. subst ok. right. apply stuck_fail.
  - apply stuck_fail.
Qed.

(** ** A value that gives up where the value of a [Some] is expected *)
Section Inside.
Context {S : nstream}.
Definition stops (cs : list call) : Prop :=
  forall st : state S, positioned st = true -> unfinished st -> exists f, fs_calls cs true (MkFS None st) = Err f /\ finish f = OErr.
Lemma stops_begin b k r : computed b = b ->
  (forall st : state S, positioned st = true -> fs_step (MkFS None st) b = Ok (MkFS (Some (BValue (push_begin vbuf_new k))) st)) ->
  dies (S := S) true r -> stops (CE b :: r).
Proof.
  intros C B D st P U. rewrite fs_calls_cons, fs_call_CE, C, B by exact P. cbn [bind].
  apply (D ([] ++ [PNode 0 k]) [0] false st); [discriminate|exact U].
Qed.
Lemma dies_begin b k r : computed b = b ->
  (forall v (sst : state S), fs_step (MkFS (Some (BValue v)) sst) b = Ok (MkFS (Some (BValue (push_begin v k))) sst)) ->
  dies (S := S) true r -> dies (S := S) true (CE b :: r).
Proof.
  intros C B D p st er sst N U. rewrite fs_calls_cons, fs_call_CE, C. unfold fed_state. rewrite B. cbn [bind].
  apply (D (p ++ [PNode 0 k]) (List.length p :: st) er sst); [discriminate|exact U].
Qed.
Ltac begin_step := let st := fresh "st" in let P := fresh "P" in intros st P; destruct st; try discriminate P; reflexivity.
Lemma streamed_stops x : gives_up x = true -> (forall v, x <> DSome v) -> stops (streamed x).
Proof.
  assert (W : forall vs, Forall (fun x => gives_up x = true -> stuck (streamed x) true) vs)
    by (intros vs; apply Forall_forall; intros y _; apply streamed_stuck).
  destruct x; intros Hs NS; cbn [gives_up] in Hs; try discriminate Hs.
  - destruct (NS x eq_refl).
  - cbn. eapply stops_begin; [reflexivity|begin_step|]. apply dies_CVC, streamed_stuck, Hs.
  - cbn. eapply stops_begin; [reflexivity|begin_step|]. eapply dies_begin; [reflexivity|reflexivity|]. apply dies_CVC, streamed_stuck, Hs.
  - destruct (seq_child_ok vs (W _)) as [C1 C2]. cbn [streamed]. eapply stops_begin; [reflexivity|begin_step|].
    apply items_dies; [exact C1|left; apply C2, Hs].
  - destruct (tuple_child_ok vs (W _) 0) as [C1 C2]. cbn [streamed]. eapply stops_begin; [reflexivity|begin_step|].
    apply items_dies; [exact C1|left; apply C2, Hs].
  - destruct (tuple_child_ok vs (W _) 0) as [C1 C2]. cbn [streamed]. eapply stops_begin; [reflexivity|begin_step|].
    apply items_dies; [exact C1|left; apply C2, Hs].
  - destruct (tuple_child_ok vs (W _) 0) as [C1 C2]. cbn [streamed]. eapply stops_begin; [reflexivity|begin_step|].
    eapply dies_begin; [reflexivity|reflexivity|]. apply items_dies; [exact C1|left; apply C2, Hs].
  - destruct (entry_child_ok es) as [C1 C2].
    { apply Forall_forall. intros [a b] _. split; apply streamed_stuck. }
    cbn [streamed]. eapply stops_begin; [reflexivity|begin_step|]. apply items_dies; [exact C1|left; apply C2, Hs].
  - destruct (field_child_ok fs) as [C1 C2]; [apply Forall_forall; intros y _; apply streamed_stuck|].
    cbn [streamed]. eapply stops_begin; [reflexivity|begin_step|]. apply items_dies; [exact C1|].
    apply orb_true_iff in Hs as [Hs|Hs]; [left; apply C2, Hs|]. apply negb_true_iff in Hs. subst ok. right. apply dies_fail.
  - destruct (field_child_ok fs) as [C1 C2]; [apply Forall_forall; intros y _; apply streamed_stuck|].
    cbn [streamed]. eapply stops_begin; [reflexivity|begin_step|]. eapply dies_begin; [reflexivity|reflexivity|]. apply items_dies; [exact C1|].
    apply orb_true_iff in Hs as [Hs|Hs]; [left; apply C2, Hs|]. apply negb_true_iff in Hs. subst ok. right. apply dies_fail.
  - intros st P U. eexists. split; [reflexivity|]. apply unfinished_finish, U.
Qed.
End Inside.

(** ** A value streamed where anything is expected *)
Section Direct.
Context {S : nstream}.
Notation state := (state S).
Lemma CVC_hand comp c (st : state) : positioned st = true -> fs_calls [CVC c] comp (MkFS None st) = hand st (false, c).
Proof.
  intros P. rewrite fs_calls_one, fs_call_CVC. unfold fs_value, buffer_or_with, hand. cbn [f_buf f_state negb].
  destruct st; try discriminate P; reflexivity.
Qed.
Lemma node_settled {St B} (I : St -> state -> Prop) b cs tail comp st0 beg (op : St -> B -> outcome St) args fin :
  computed b = b -> going I (fs_step (MkFS None st0) b) beg ->
  (forall s st, I s st -> going I (fs_calls cs comp (MkFS None st)) (fold_o op s args)) ->
  (forall s st, I s st -> settled (fs_calls tail comp (MkFS None st)) = fin s) ->
  settled (fs_calls (CE b :: cs ++ tail) comp (MkFS None st0)) = (s <- beg ;; s' <- fold_o op s args ;; fin s').
Proof.
  intros Cb HB HC HE. rewrite fs_calls_cons, fs_call_CE.
  replace (if comp then computed b else b) with b by (destruct comp; congruence).
  destruct beg as [s| |]; cbn [going obind] in *; [destruct HB as (st & HI & ->)|destruct HB as (x & ->)|rewrite HB]; cbn [bind]; try reflexivity.
  rewrite fs_calls_app. specialize (HC _ _ HI). destruct (fold_o op s args) as [s'| |]; cbn [going obind] in *;
    [destruct HC as (st' & HI' & ->)|destruct HC as (x & ->)|rewrite HC]; cbn [bind]; try reflexivity. apply HE, HI'.
Qed.
Lemma tail_end comp e (st : state) o : computed e = e -> fs_step (MkFS None st) e = try_catch (settle (MkFS None st) (x <- o ;; OOk (st, Some x))) ->
  settled (fs_calls [CE e] comp (MkFS None st)) = o.
Proof.
  intros C E. rewrite fs_calls_one, fs_call_CE. replace (if comp then computed e else e) with e by (destruct comp; congruence).
  rewrite E. apply ends_settled, ends_settle.
Qed.
Lemma tail_enum_end comp e t l i (st : state) o : computed e = e -> fs_step (MkFS None st) e = try_catch (settle (MkFS None st) (x <- o ;; OOk (st, Some x))) ->
  settled (fs_calls [CE e; CE (EEnumEnd t l i)] comp (MkFS None st)) = o.
Proof.
  intros C E. rewrite fs_calls_cons, fs_call_CE. replace (if comp then computed e else e) with e by (destruct comp; congruence).
  rewrite E. apply ends_settled, ends_then; [reflexivity|reflexivity|]. apply ends_settle.
Qed.
Lemma tail_fail comp (st : state) : unfinished st -> settled (fs_calls [CFail] comp (MkFS None st)) = OErr.
Proof. intros U. apply unfinished_finish, U. Qed.

Lemma seq_items comp vs : exists args, Forall2 (fun y v => y = (false, streamed v)) args vs /\ forall s (st : state), st = SSeq s ->
  going (fun s st => st = SSeq s) (fs_calls (items (map (fun v => (ESeqValBegin, streamed v, ESeqValEnd)) vs)) comp (MkFS None st)) (fold_o (seq_value S) s args).
Proof.
  destruct (going_list (S := S) (fun v => item (ESeqValBegin, streamed v, ESeqValEnd)) (seq_value S) (fun y v => y = (false, streamed v)) (fun s st => st = SSeq s) comp vs) as (args & F & G).
  - apply Forall_forall. intros v _. exists (false, streamed v). split; [reflexivity|]. intros s st ->.
    apply (going_item _ (fun s' => SSeq s') _ _ [CVC (streamed v)] _ (false, streamed v) (SSeq s) (SSeq s)); try reflexivity.
    apply CVC_hand. reflexivity.
  - exists args. split; [exact F|]. intros s st E. unfold items. rewrite flat_map_map'. apply G, E.
Qed.
Lemma map_items comp es : exists args, Forall2 (fun y (e : sdata * sdata) => y = ((false, streamed (fst e)), (false, streamed (snd e)))) args es /\
  forall s (st : state), (exists b, st = SMap s b) ->
  going (fun s st => exists b, st = SMap s b) (fs_calls (items (entry_items es)) comp (MkFS None st))
    (fold_o (fun s x => match x with (a, b) => s1 <- map_key S s a ;; map_value S s1 b end) s args).
Proof.
  destruct (going_list (S := S) (fun e : sdata * sdata => item (EMapKeyBegin, streamed (fst e), EMapKeyEnd) ++ item (EMapValBegin, streamed (snd e), EMapValEnd))
    (fun s x => match x with (a, b) => s1 <- map_key S s a ;; map_value S s1 b end)
    (fun y (e : sdata * sdata) => y = ((false, streamed (fst e)), (false, streamed (snd e)))) (fun s st => exists b, st = SMap s b) comp es) as (args & F & G).
  - apply Forall_forall. intros [a b] _. eexists. split; [reflexivity|]. intros s st (x & ->). cbn [fst snd]. rewrite fs_calls_app.
    apply (going_then (fun s st => st = SMap s true)).
    + apply (going_item _ (fun s' => SMap s' true) _ _ [CVC (streamed a)] _ (false, streamed a) (SMap s x) (SMap s true)); try reflexivity. apply CVC_hand. reflexivity.
    + intros s1 st ->. apply (going_item _ (fun s' => SMap s' false) _ _ [CVC (streamed b)] _ (false, streamed b) (SMap s1 true) (SMap s1 false)); try reflexivity; [apply CVC_hand; reflexivity|].
      intros s'. exists false. reflexivity.
  - exists args. split; [exact F|]. intros s st E. unfold items, entry_items. rewrite flat_map_flat_map.
    replace (flat_map (fun a : sdata * sdata => flat_map item (let (a0, b) := a in [(EMapKeyBegin, streamed a0, EMapKeyEnd); (EMapValBegin, streamed b, EMapValEnd)])) es)
      with (flat_map (fun e : sdata * sdata => item (EMapKeyBegin, streamed (fst e), EMapKeyEnd) ++ item (EMapValBegin, streamed (snd e), EMapValEnd)) es)
      by (apply flat_map_ext; intros [a b]; reflexivity). apply G, E.
Qed.
Lemma tuple_items_going {St} (mk : St -> option (option tag * index) -> state) (op : St -> option tag -> index -> arg -> outcome St) comp vs :
  (forall s o ft fi, fs_step (MkFS None (mk s o)) (ETupleValBegin ft fi) = Ok (MkFS None (mk s (Some (ft, fi))))) ->
  (forall s o, positioned (mk s o) = true) ->
  (forall s ft fi v, state_value (mk s (Some (ft, fi))) OErr v = (s' <- op s ft fi v ;; OOk (mk s' None, None))) ->
  forall i, exists args, Forall2 (fun y v => exists xt xi, y = (xt, xi, (false, streamed v))) args vs /\ forall s st, st = mk s None ->
  going (fun s st => st = mk s None) (fs_calls (items (tuple_items i (map streamed vs))) comp (MkFS None st))
    (fold_o (fun s x => match x with (xt, xi, a) => op s xt xi a end) s args).
Proof.
  intros HB HP HS. induction vs as [|v vs IH]; intros i.
  - exists []. split; [constructor|]. intros s st E. exists st. split; [exact E|reflexivity].
  - destruct (IH (i + 1)%Z) as (args & F & G). exists ((None, index_new i, (false, streamed v)) :: args).
    split; [constructor; [eexists _, _; reflexivity|exact F]|]. intros s st ->.
    cbn [map tuple_items items flat_map fold_o]. fold (items (tuple_items (i + 1) (map streamed vs))). rewrite fs_calls_app.
    apply (going_then (fun s st => st = mk s None)); [|exact G].
    apply (going_item _ (fun s' => mk s' None) _ _ [CVC (streamed v)] _ (false, streamed v) (mk s None) (mk s (Some (None, index_new i)))); try reflexivity; auto.
    apply CVC_hand, HP.
Qed.
Lemma field_items_going {St} (mk : St -> option (option tag * label) -> state) (op : St -> option tag -> label -> arg -> outcome St) comp fs :
  (forall s o ft fl, fs_step (MkFS None (mk s o)) (ERecordValBegin ft fl) = Ok (MkFS None (mk s (Some (ft, label_to_owned fl))))) ->
  (forall s o, positioned (mk s o) = true) ->
  (forall s ft fl v, state_value (mk s (Some (ft, fl))) OErr v = (s' <- op s ft fl v ;; OOk (mk s' None, None))) ->
  exists args, Forall2 (fun y (f : bytes * sdata) => exists xt, y = (xt, label_to_owned (label_new (fst f)), (false, streamed (snd f)))) args fs /\ forall s st, st = mk s None ->
  going (fun s st => st = mk s None) (fs_calls (items (field_items fs)) comp (MkFS None st))
    (fold_o (fun s x => match x with (xt, xl, a) => op s xt xl a end) s args).
Proof.
  intros HB HP HS. induction fs as [|[l v] fs (args & F & G)].
  - exists []. split; [constructor|]. intros s st E. exists st. split; [exact E|reflexivity].
  - exists ((None, label_to_owned (label_new l), (false, streamed v)) :: args).
    split; [constructor; [eexists; reflexivity|exact F]|]. intros s st ->.
    cbn [map field_items items flat_map fold_o]. fold (field_items fs). fold (items (field_items fs)). rewrite fs_calls_app.
    apply (going_then (fun s st => st = mk s None)); [|exact G].
    apply (going_item _ (fun s' => mk s' None) _ _ [CVC (streamed v)] _ (false, streamed v) (mk s None) (mk s (Some (None, label_to_owned (label_new l))))); try reflexivity; auto.
    apply CVC_hand, HP.
Qed.
End Direct.

Lemma compound_err {K K' X Y B} (inj : K -> K') (beg : outcome K) (beg' : outcome (option K')) (step : K -> X -> outcome K)
    (op : option K' -> Y -> outcome (option K')) (R : Y -> X -> Prop) args xs :
  Forall2 R args xs ->
  beg' = inner (s <- beg ;; OOk (inj s)) ->
  (forall s y x, In x xs -> R y x -> op (Some (inj s)) y = (z <- step s x ;; OOk (Some (inj z)))) ->
  (forall y, op None y = OErr) ->
  fin (s <- beg' ;; s' <- fold_o op s args ;; @OErr (option B)) = (s <- beg ;; s <- each step s xs ;; OErr).
Proof.
  intros F -> H1 H2. destruct beg as [s| |]; cbn [obind inner]; [|destruct args; cbn [fold_o]; [reflexivity|rewrite H2; reflexivity]|reflexivity].
  rewrite (fold_each inj step op R args xs F H1 s), bind_bind, fin_bind. apply bind_ext. intros z. reflexivity.
Qed.

Lemma map_each {A B St} (g : A -> B) (f : St -> B -> outcome St) (h : St -> A -> outcome St) l : (forall s x, f s (g x) = h s x) ->
  forall s, each f s (map g l) = each h s l.
Proof. intros E. induction l as [|x l IH]; intros s; [reflexivity|]. cbn [map each]. rewrite E. apply bind_ext, IH. Qed.

Section Serialize.
Variable S : serializer.
Hypothesis OC : opaque_children S.
Definition same_at (m : nat) (x : sdata) : Prop := same_child (S := S) (to_serialize S m (streamed x)) (ser S (given x)).
Variable m : nat.
Notation Z := (serialize_stream S (to_serialize S m)).

Lemma seq_step n vs : Forall (same_at m) vs -> same_at (Datatypes.S m) (DSeq n vs).
Proof.
  intros H k. rewrite Forall_forall in H. destruct (seq_items (S := Z k) false vs) as (args & F & G).
  change (fin (settled (fs_calls (streamed (DSeq n vs)) false (fs_new (S := Z k)))) = ser S (given (DSeq n vs)) k).
  cbn [streamed]. unfold fs_new. erewrite (node_settled (S := Z k) (fun s st => st = SSeq s) _ _ _ _ SAny _ _ args (seq_end (Z k)));
    [|reflexivity| |exact G|intros s st ->; apply tail_end; reflexivity].
  2:{ apply (begin_going (S := Z k) SAny (n_seq_begin (Z k) n) (fun s => SSeq s)). reflexivity. }
  cbn [given ser]. erewrite (compound (fun x => x) (s_seq S k n) _ (fun s r => k_seq_element S s (ser S (given r))) _ _ (k_seq_end S) _ args vs F).
  - apply bind_ext. intros s. rewrite each_map. reflexivity.
  - cbn. destruct (s_seq S k n); reflexivity.
  - intros s y x I ->. cbn. rewrite (oc_seq S OC s _ _ (H x I)). reflexivity.
  - reflexivity.
  - reflexivity.
  - reflexivity.
Qed.
Lemma map_step n es : Forall (fun e => same_at m (fst e) /\ same_at m (snd e)) es -> same_at (Datatypes.S m) (DMap n es).
Proof.
  intros H k. rewrite Forall_forall in H. destruct (map_items (S := Z k) false es) as (args & F & G).
  change (fin (settled (fs_calls (streamed (DMap n es)) false (fs_new (S := Z k)))) = ser S (given (DMap n es)) k).
  cbn [streamed]. unfold fs_new. fold (entry_items es).
  erewrite (node_settled (S := Z k) (fun s st => exists b, st = SMap s b) _ _ _ _ SAny _ _ args (map_end (Z k)));
    [|reflexivity| |exact G|intros s st (b & ->); apply tail_end; reflexivity].
  2:{ apply (begin_going (S := Z k) SAny (n_map_begin (Z k) n) (fun s => SMap s true)). intros s. exists true. reflexivity. }
  cbn [given ser]. erewrite (compound (fun x => x) (s_map S k n) _
    (fun s e => match e with (a, b) => s <- k_map_key S s (ser S (given a)) ;; k_map_value S s (ser S (given b)) end) _ _ (k_map_end S) _ args es F).
  - apply bind_ext. intros s. erewrite map_each; [reflexivity|]. intros s' [a b]. reflexivity.
  - cbn. destruct (s_map S k n); reflexivity.
  - intros s y [a b] I ->. destruct (H _ I) as [Ha Hb]. cbn [fst snd] in *. cbn. rewrite (oc_map_key S OC s _ _ Ha).
    destruct (k_map_key S s (ser S (given a))); cbn; try reflexivity. rewrite (oc_map_value S OC _ _ _ Hb). reflexivity.
  - intros [a b]. reflexivity.
  - reflexivity.
  - reflexivity.
Qed.
Lemma tuple_step n vs : Forall (same_at m) vs -> same_at (Datatypes.S m) (DTuple n vs).
Proof.
  intros H k. rewrite Forall_forall in H.
  destruct (tuple_items_going (S := Z k) STuple (tuple_value (Z k)) false vs) with (i := 0%Z) as (args & F & G); try reflexivity.
  change (fin (settled (fs_calls (streamed (DTuple n vs)) false (fs_new (S := Z k)))) = ser S (given (DTuple n vs)) k).
  cbn [streamed]. unfold fs_new. erewrite (node_settled (S := Z k) (fun s st => st = STuple s None) _ _ _ _ SAny _ _ args (tuple_end (Z k)));
    [|reflexivity| |exact G|intros s st ->; apply tail_end; reflexivity].
  2:{ apply (begin_going (S := Z k) SAny (n_tuple_begin (Z k) None None None (Some n)) (fun s => STuple s None)). reflexivity. }
  cbn [given ser]. etransitivity; [apply (compound inr (s_tuple S k n) _ (fun s r => k_tuple_element S s (ser S (given r))) _ _ (k_tuple_end S) _ args vs F)|]; cycle -1.
  - apply bind_ext. intros s. rewrite each_map. reflexivity.
  - reflexivity.
  - intros s y x I (xt & xi & ->). cbn. rewrite (oc_tuple S OC s _ _ (H x I)). destruct (k_tuple_element _ _ _); reflexivity.
  - intros [[? ?] ?]. reflexivity.
  - reflexivity.
  - reflexivity.
Qed.
Lemma tuple_struct_step name n vs : Forall (same_at m) vs -> same_at (Datatypes.S m) (DTupleStruct name n vs).
Proof.
  intros H k. rewrite Forall_forall in H.
  destruct (tuple_items_going (S := Z k) STuple (tuple_value (Z k)) false vs) with (i := 0%Z) as (args & F & G); try reflexivity.
  change (fin (settled (fs_calls (streamed (DTupleStruct name n vs)) false (fs_new (S := Z k)))) = ser S (given (DTupleStruct name n vs)) k).
  cbn [streamed]. unfold fs_new. erewrite (node_settled (S := Z k) (fun s st => st = STuple s None) _ _ _ _ SAny _ _ args (tuple_end (Z k)));
    [|reflexivity| |exact G|intros s st ->; apply tail_end; reflexivity].
  2:{ apply (begin_going (S := Z k) SAny (n_tuple_begin (Z k) None (cloned (static name)) None (Some n)) (fun s => STuple s None)). reflexivity. }
  cbn [given ser]. etransitivity; [apply (compound inl (s_tuple_struct S k name n) _ (fun s r => k_tstruct_field S s (ser S (given r))) _ _ (k_tstruct_end S) _ args vs F)|]; cycle -1.
  - apply bind_ext. intros s. rewrite each_map. reflexivity.
  - reflexivity.
  - intros s y x I (xt & xi & ->). cbn. rewrite (oc_tstruct S OC s _ _ (H x I)). destruct (k_tstruct_field _ _ _); reflexivity.
  - intros [[? ?] ?]. reflexivity.
  - reflexivity.
  - reflexivity.
Qed.
Lemma struct_step name n fs ok : Forall (fun f => same_at m (snd f)) fs -> same_at (Datatypes.S m) (DStruct name n fs ok).
Proof.
  intros H k. rewrite Forall_forall in H.
  destruct (field_items_going (S := Z k) SRecord (record_value (Z k)) false fs) as (args & F & G); try reflexivity.
  change (fin (settled (fs_calls (streamed (DStruct name n fs ok)) false (fs_new (S := Z k)))) = ser S (given (DStruct name n fs ok)) k).
  cbn [streamed]. unfold fs_new. fold (field_items fs).
  erewrite (node_settled (S := Z k) (fun s st => st = SRecord s None) _ _ _ _ SAny _ _ args (fun s => if ok then record_end (Z k) s else OErr));
    [|reflexivity| |exact G|intros s st ->; destruct ok; [apply tail_end; reflexivity|apply tail_fail; intros x; discriminate]].
  2:{ apply (begin_going (S := Z k) SAny (n_record_begin (Z k) None (cloned (static name)) None (Some n)) (fun s => SRecord s None)). reflexivity. }
  assert (E : forall (s : k_struct S) (y : option tag * label * arg) (x : bytes * sdata), In x fs -> (exists xt, y = (xt, label_to_owned (label_new (fst x)), (false, streamed (snd x)))) ->
    (fun s y => match y with (xt, xl, a) => record_value (Z k) s xt xl a end) (Some (inl s)) y = (z <- (fun s f => match f with (l, v) => k_struct_field S s l (ser S (given v)) end) s x ;; OOk (Some (inl z)))).
  { intros s y [l v] I (xt & ->). pose proof (H _ I) as Hv. cbn [fst snd] in *. cbn. rewrite (oc_struct S OC s _ _ _ Hv). destruct (k_struct_field _ _ _ _); reflexivity. }
  assert (M : forall s, each (fun s f => match f with (l, v) => k_struct_field S s l (ser S v) end) s (map (fun f : bytes * sdata => match f with (a, b) => (a, given b) end) fs) =
     each (fun s f => match f with (l, v) => k_struct_field S s l (ser S (given v)) end) s fs) by (apply map_each; intros s [l v]; reflexivity).
  cbn [given ser]. destruct ok.
  - etransitivity; [apply (compound inl (s_struct S k name n) _ (fun s f => match f with (l, v) => k_struct_field S s l (ser S (given v)) end) _ _ (k_struct_end S) _ args fs F); [reflexivity|exact E|intros [[? ?] ?]; reflexivity|reflexivity|reflexivity]|].
    apply bind_ext. intros s. rewrite M. reflexivity.
  - etransitivity; [apply (compound_err inl (s_struct S k name n) _ (fun s f => match f with (l, v) => k_struct_field S s l (ser S (given v)) end) _ _ args fs F); [reflexivity|exact E|intros [[? ?] ?]; reflexivity]|].
    apply bind_ext. intros s. rewrite M. reflexivity.
Qed.

(** *** Variants *)
Lemma enum_begin k name r :
  settled (fs_calls (CE (EEnumBegin None (static name) None) :: r) false (fs_new (S := Z k))) =
  settled (fs_calls r false (in_enum (S := Z k) name [])).
Proof. reflexivity. Qed.
Lemma index_need i : fits U32 i = true -> u32_of (Some (index_new i)) = OOk i.
Proof. intros E. cbn. rewrite (index_u32 i E). reflexivity. Qed.
Lemma tuple_variant_step name i w n vs : fits U32 i = true -> Forall (same_at m) vs -> same_at (Datatypes.S m) (DTupleVariant name i w n vs).
Proof.
  intros Hi H k. rewrite Forall_forall in H.
  destruct (tuple_items_going (S := Z k) SVTuple (vtuple_value (Z k)) false vs) with (i := 0%Z) as (args & F & G); try reflexivity.
  change (fin (settled (fs_calls (streamed (DTupleVariant name i w n vs)) false (fs_new (S := Z k)))) = ser S (given (DTupleVariant name i w n vs)) k).
  cbn [streamed]. rewrite enum_begin. unfold in_enum.
  erewrite (node_settled (S := Z k) (fun s st => st = SVTuple s None) _ _ _ _ _ _ _ args (vtuple_end (Z k)));
    [|reflexivity| |exact G|intros s st ->; apply tail_enum_end; reflexivity].
  2:{ apply (begin_going (S := Z k) (SEnum (MkFE (S := Z k) name [])) (enum_tuple_begin (Z k) name None (cloned (static w)) (Some (index_new i)) (Some n)) (fun s => SVTuple s None)). reflexivity. }
  cbn [enum_tuple_begin serialize_stream]. rewrite (index_need i Hi). cbn [static_of cloned static option_map label_clone label_new as_static_str need obind l_kind l_text].
  cbn [given ser]. etransitivity; [apply (compound (fun x => x) (s_tuple_variant S k name i w n) _ (fun s r => k_tvariant_field S s (ser S (given r))) _ _ (k_tvariant_end S) _ args vs F)|]; cycle -1.
  - apply bind_ext. intros s. rewrite each_map. reflexivity.
  - destruct (s_tuple_variant S k name i w n); reflexivity.
  - intros s y x I (xt & xi & ->). cbn. rewrite (oc_tvariant S OC s _ _ (H x I)). reflexivity.
  - intros [[? ?] ?]. reflexivity.
  - reflexivity.
  - reflexivity.
Qed.
Lemma struct_variant_step name i w n fs ok : fits U32 i = true -> Forall (fun f => same_at m (snd f)) fs -> same_at (Datatypes.S m) (DStructVariant name i w n fs ok).
Proof.
  intros Hi H k. rewrite Forall_forall in H.
  destruct (field_items_going (S := Z k) SVRecord (vrecord_value (Z k)) false fs) as (args & F & G); try reflexivity.
  change (fin (settled (fs_calls (streamed (DStructVariant name i w n fs ok)) false (fs_new (S := Z k)))) = ser S (given (DStructVariant name i w n fs ok)) k).
  cbn [streamed]. rewrite enum_begin. unfold in_enum. fold (field_items fs).
  erewrite (node_settled (S := Z k) (fun s st => st = SVRecord s None) _ _ _ _ _ _ _ args (fun s => if ok then vrecord_end (Z k) s else OErr));
    [|reflexivity| |exact G|intros s st ->; destruct ok; [apply tail_enum_end; reflexivity|apply tail_fail; intros x; discriminate]].
  2:{ apply (begin_going (S := Z k) (SEnum (MkFE (S := Z k) name [])) (enum_record_begin (Z k) name None (cloned (static w)) (Some (index_new i)) (Some n)) (fun s => SVRecord s None)). reflexivity. }
  cbn [enum_record_begin serialize_stream]. rewrite (index_need i Hi). cbn [static_of cloned static option_map label_clone label_new as_static_str need obind l_kind l_text].
  assert (E : forall (s : k_svariant S) (y : option tag * label * arg) (x : bytes * sdata), In x fs -> (exists xt, y = (xt, label_to_owned (label_new (fst x)), (false, streamed (snd x)))) ->
    (fun s y => match y with (xt, xl, a) => vrecord_value (Z k) s xt xl a end) (Some s) y = (z <- (fun s f => match f with (l, v) => k_svariant_field S s l (ser S (given v)) end) s x ;; OOk (Some ((fun x => x) z)))).
  { intros s y [l v] I (xt & ->). pose proof (H _ I) as Hv. cbn [fst snd] in *. cbn. rewrite (oc_svariant S OC s _ _ _ Hv). reflexivity. }
  assert (M : forall s, each (fun s f => match f with (l, v) => k_svariant_field S s l (ser S v) end) s (map (fun f : bytes * sdata => match f with (a, b) => (a, given b) end) fs) =
     each (fun s f => match f with (l, v) => k_svariant_field S s l (ser S (given v)) end) s fs) by (apply map_each; intros s [l v]; reflexivity).
  assert (N : forall y : option tag * label * arg, (fun s y => match y with (xt, xl, a) => vrecord_value (Z k) s xt xl a end) None y = OErr)
    by (intros [[? l'] ?]; cbn; destruct (as_static_str l'); reflexivity).
  cbn [given ser]. destruct ok.
  - etransitivity; [apply (compound (fun x => x) (s_struct_variant S k name i w n) _ (fun s f => match f with (l, v) => k_svariant_field S s l (ser S (given v)) end) _ _ (k_svariant_end S) _ args fs F); [destruct (s_struct_variant S k name i w n); reflexivity|exact E|exact N|reflexivity|reflexivity]|].
    apply bind_ext. intros s. rewrite M. reflexivity.
  - etransitivity; [apply (compound_err (fun x => x) (s_struct_variant S k name i w n) _ (fun s f => match f with (l, v) => k_svariant_field S s l (ser S (given v)) end) _ _ args fs F); [destruct (s_struct_variant S k name i w n); reflexivity|exact E|exact N]|].
    apply bind_ext. intros s. rewrite M. reflexivity.
Qed.

(** *** One child *)
Lemma newtype_struct_step name v : same_at m v -> same_at (Datatypes.S m) (DNewtypeStruct name v).
Proof.
  intros H k. change (fin (settled (fs_calls (streamed (DNewtypeStruct name v)) false (fs_new (S := Z k)))) = ser S (given (DNewtypeStruct name v)) k).
  cbn [streamed item given ser]. rewrite <- (oc_newtype_struct S OC k name _ _ H).
  rewrite fs_calls_cons, fs_call_CE. cbn [computed].
  change (fs_step (S := Z k) fs_new (ETaggedBegin None (static name) None)) with (Ok (MkFS (S := Z k) None (STagged None (static name) None))).
  cbn [bind]. change [CVC (streamed v); CE (ETaggedEnd None (static name) None)] with ([CVC (streamed v)] ++ [CE (ETaggedEnd None (static name) None)]).
  rewrite fs_calls_app, CVC_hand by reflexivity.
  rewrite <- (fin_inner (s_newtype_struct S k name _)). f_equal. apply ends_settled, ends_then; [reflexivity|reflexivity|].
  exact (ends_settle (S := Z k) _ _ (inner (s_newtype_struct S k name (to_serialize S m (streamed v))))).
Qed.
Lemma newtype_variant_step name i w v : fits U32 i = true -> same_at m v -> same_at (Datatypes.S m) (DNewtypeVariant name i w v).
Proof.
  intros Hi H k. change (fin (settled (fs_calls (streamed (DNewtypeVariant name i w v)) false (fs_new (S := Z k)))) = ser S (given (DNewtypeVariant name i w v)) k).
  cbn [streamed item given ser app]. rewrite enum_begin, <- (oc_newtype_variant S OC k name i w _ _ H).
  rewrite fs_calls_cons, fs_call_CE. cbn [computed].
  change (fs_step (S := Z k) (in_enum (S := Z k) name []) (ETaggedBegin None (static w) (Some (index_new i)))) with
    (Ok (MkFS (S := Z k) None (SVTagged (MkFE (S := Z k) name []) None (static w) (Some (index_new i))))).
  cbn [bind]. change [CVC (streamed v); CE (ETaggedEnd None (static w) (Some (index_new i))); CE (EEnumEnd None (static name) None)] with
    (([CVC (streamed v)] ++ [CE (ETaggedEnd None (static w) (Some (index_new i)))]) ++ [CE (EEnumEnd None (static name) None)]).
  rewrite fs_calls_app, fs_calls_app, CVC_hand by reflexivity.
  rewrite <- (fin_inner (s_newtype_variant S k name i w _)). f_equal. apply ends_settled, ends_then; [reflexivity|reflexivity|].
  apply ends_then; [reflexivity|reflexivity|].
  assert (E : state_value (S := Z k) (SVTagged (MkFE (S := Z k) name []) None (static w) (Some (index_new i))) OErr (false, streamed v) =
     (x <- inner (s_newtype_variant S k name i w (to_serialize S m (streamed v))) ;; OOk (SVTagged (MkFE (S := Z k) name []) None (static w) (Some (index_new i)), Some x))).
  { cbn [state_value]. unfold fe_tagged. cbn [recurse fe_stream fe_queue enum_tagged serialize_stream]. rewrite (index_need i Hi). reflexivity. }
  unfold hand. rewrite E. exact (ends_settle (S := Z k) _ _ (inner (s_newtype_variant S k name i w (to_serialize S m (streamed v))))).
Qed.

(** *** [Some] *)
Lemma any_CVC k c : settled (fs_calls [CVC c] false (fs_new (S := Z k))) = settled (fs_calls c true (fs_new (S := Z k))).
Proof.
  rewrite fs_calls_one, fs_call_CVC. unfold fs_value, buffer_or_with. cbn [f_buf f_state fs_new state_value].
  exact (ends_settled _ _ (ends_settle (S := Z k) SAny SAny (settled (fs_calls c true (fs_new (S := Z k)))))).
Qed.
Definition some_calls (v : sdata) : list call := calls (RSome (ROther (streamed v) TNull)).
Definition some_state {T : nstream} : state T := STagged (Some RUST_OPTION_SOME) (Some (label_to_owned (ident "Some"))) (Some (offset 1)).
Lemma some_begin k v comp : fs_calls (some_calls v) comp (fs_new (S := Z k)) =
  (fs_calls [CV (streamed v)] comp (MkFS None (some_state (T := Z k))) >>= fs_calls [CE (ETaggedEnd (Some RUST_OPTION_SOME) (Some (ident "Some")) (Some (offset 1)))] comp).
Proof. rewrite <- fs_calls_app. destruct comp; reflexivity. Qed.
Lemma some_fail_step v : gives_up v = true -> (forall w, v <> DSome w) -> same_at (Datatypes.S m) (DSome v).
Proof.
  intros Hs N k. change (fin (settled (fs_calls [CVC (some_calls v)] false (fs_new (S := Z k)))) = ser S (given (DSome v)) k).
  rewrite any_CVC, some_begin, fs_calls_one, fs_call_CV_computed.
  destruct (streamed_stops (S := Z k) v Hs N some_state eq_refl) as (f & E & F); [intros x; discriminate|].
  rewrite E. cbn [bind settled]. rewrite F, given_some. destruct v; try (rewrite Hs; reflexivity). destruct (N v eq_refl).
Qed.
Lemma some_child k v : fin (settled (fs_calls (some_calls v) false (fs_new (S := Z k)))) = s_some S k (to_serialize S m (streamed v)).
Proof.
  rewrite some_begin, fs_calls_one, fs_call_CV. rewrite <- (fin_inner (s_some S k _)). f_equal.
  apply ends_settled, ends_then; [reflexivity|reflexivity|].
  exact (ends_settle (S := Z k) _ _ (inner (s_some S k (to_serialize S m (streamed v))))).
Qed.
Lemma some_handed k v : fin (settled (fs_calls [CVC (some_calls (DSome v))] false (fs_new (S := Z k)))) = s_some S k (to_serialize S m (some_calls v)).
Proof.
  rewrite any_CVC, some_begin, fs_calls_one, fs_call_CV_computed.
  change (streamed (DSome v)) with [CVC (some_calls v)]. rewrite CVC_hand by reflexivity.
  rewrite <- (fin_inner (s_some S k _)). f_equal. apply ends_settled, ends_then; [reflexivity|reflexivity|].
  exact (ends_settle (S := Z k) _ _ (inner (s_some S k (to_serialize S m (some_calls v))))).
Qed.
End Serialize.

Lemma some_some_step S (OC : opaque_children S) m v : same_at S m v -> same_at S (Datatypes.S (Datatypes.S m)) (DSome (DSome v)).
Proof.
  intros H k. transitivity (s_some S k (to_serialize S (Datatypes.S m) (some_calls v))); [exact (some_handed S (Datatypes.S m) k v)|].
  cbn [given ser]. apply (oc_some S OC). intros k'.
  transitivity (s_some S k' (to_serialize S m (streamed v))); [exact (some_child S m k' v)|]. apply (oc_some S OC). exact H.
Qed.

(** ** Every value *)
Definition settles (S : serializer) (x : sdata) : Prop := exists n, forall m, n <= m -> same_at S m x.
Lemma common {A} (f : A -> sdata) S l : Forall (fun x => settles S (f x)) l -> exists n, forall m, n <= m -> Forall (fun x => same_at S m (f x)) l.
Proof.
  induction 1 as [|x l (n & Hn) _ (n' & H')]; [exists 0; constructor|].
  exists (max n n'). intros m L. constructor; [apply Hn; lia|apply H'; lia].
Qed.
Lemma settles_sound S x : opaque_children S -> small_indexes x = true -> gives_up x = false -> settles S x.
Proof.
  intros OC H1 H2. exists (levels (mirror (tree_of (valued x)))). intros m L k. rewrite (streamed_sound x H2), (given_sound x H2).
  assert (Hs : sound x = true) by (rewrite sound_parts, H1, H2; reflexivity).
  rewrite (to_serialize_same S OC m _ k (shallow_valued x) L), as_serde_valued by exact Hs. reflexivity.
Qed.
Lemma settles_step S x y : (forall m, same_at S m y -> same_at S (Datatypes.S m) x) -> settles S y -> settles S x.
Proof. intros St (n & H). exists (Datatypes.S n). intros [|m] L; [lia|]. apply St, H. lia. Qed.
Lemma settles_list {A} (f : A -> sdata) S x l : (forall m, Forall (fun y => same_at S m (f y)) l -> same_at S (Datatypes.S m) x) ->
  Forall (fun y => settles S (f y)) l -> settles S x.
Proof. intros St F. destruct (common f S l F) as (n & H). exists (Datatypes.S n). intros [|m] L; [lia|]. apply St, H. lia. Qed.
Lemma small_settles {A} (f : A -> sdata) S l : Forall (fun x => small_indexes (f x) = true -> settles S (f x)) l ->
  forallb (fun x => small_indexes (f x)) l = true -> Forall (fun x => settles S (f x)) l.
Proof. apply sound_Forall. Qed.

Lemma all_settle S x : opaque_children S -> small_indexes x = true -> settles S x.
Proof.
  intros OC. enough (H : (small_indexes x = true -> settles S x) /\ forall w, x = DSome w -> small_indexes w = true -> settles S w) by exact (proj1 H).
  induction x using sdata_ind'; (split; [|try discriminate]); intros Hs; try (apply settles_sound; [exact OC|exact Hs|reflexivity]); cbn [small_indexes] in Hs.
  - destruct (gives_up x) eqn:E; [|apply settles_sound; [exact OC|exact Hs|exact E]].
    destruct x; try (exists 1; intros [|m] L; [lia|]; apply some_fail_step; [exact E|intros w; discriminate]).
    destruct (proj2 IHx x eq_refl Hs) as (n & H). exists (Datatypes.S (Datatypes.S n)). intros [|[|m]] L; [lia|lia|].
    apply some_some_step; [exact OC|]. apply H. lia.
  - intros [= <-]. exact (proj1 IHx).
  - eapply settles_step; [|exact (proj1 IHx Hs)]. intros m H. apply newtype_struct_step; assumption.
  - apply andb_true_iff in Hs as [Hi Hs]. eapply settles_step; [|exact (proj1 IHx Hs)]. intros m H. apply newtype_variant_step; assumption.
  - apply (settles_list (fun v => v) S _ vs); [intros m Hm; apply seq_step; assumption|].
    apply small_settles; [|exact Hs]. eapply Forall_impl; [|exact H]. intros v [Hv _]. exact Hv.
  - apply (settles_list (fun v => v) S _ vs); [intros m Hm; apply tuple_step; assumption|].
    apply small_settles; [|exact Hs]. eapply Forall_impl; [|exact H]. intros v [Hv _]. exact Hv.
  - apply (settles_list (fun v => v) S _ vs); [intros m Hm; apply tuple_struct_step; assumption|].
    apply small_settles; [|exact Hs]. eapply Forall_impl; [|exact H]. intros v [Hv _]. exact Hv.
  - apply andb_true_iff in Hs as [Hi Hs]. apply (settles_list (fun v => v) S _ vs); [intros m Hm; apply tuple_variant_step; assumption|].
    apply small_settles; [|exact Hs]. eapply Forall_impl; [|exact H]. intros v [Hv _]. exact Hv.
  - assert (F : Forall (fun e => settles S (fst e)) es /\ Forall (fun e => settles S (snd e)) es).
    { induction H as [|[a b] es [[Ha _] [Hb _]] _ IH]; [split; constructor|]. cbn [forallb fst snd] in *. apply andb_true_iff in Hs as [E1 E2].
      apply andb_true_iff in E1 as [Ea Eb]. destruct (IH E2) as [F1 F2]. split; constructor; auto. }
    destruct F as [F1 F2]. destruct (common fst S es F1) as (n1 & C1). destruct (common snd S es F2) as (n2 & C2).
    exists (Datatypes.S (max n1 n2)). intros [|m] L; [lia|]. apply map_step; [exact OC|].
    assert (X1 : Forall (fun e => same_at S m (fst e)) es) by (apply C1; lia). assert (X2 : Forall (fun e => same_at S m (snd e)) es) by (apply C2; lia).
    rewrite Forall_forall in *. auto.
  - apply (settles_list snd S _ fs); [intros m Hm; apply struct_step; assumption|].
    apply small_settles; [|rewrite <- Hs; clear; induction fs as [|[? ?] fs IH]; cbn; rewrite ?IH; reflexivity]. eapply Forall_impl; [|exact H]. intros v [Hv _]. exact Hv.
  - apply andb_true_iff in Hs as [Hi Hs]. apply (settles_list snd S _ fs); [intros m Hm; apply struct_variant_step; assumption|].
    apply small_settles; [|rewrite <- Hs; clear; induction fs as [|[? ?] fs IH]; cbn; rewrite ?IH; reflexivity]. eapply Forall_impl; [|exact H]. intros v [Hv _]. exact Hv.
  - exists 1. intros [|m] L; [lia|]. intros k. reflexivity.
Qed.
