(** * BufferFragProps: buffered values and the way texts are cut (C22) *)

From Verif Require Import Base Event Tree LowerModel LowerSpec FlatProofs FragModel FragSpec BufferModel BufferSpec BufferProofs BufferProps JsonFragProps.

Lemma content_whole fs : content (whole fs) = content fs.
Proof. unfold content, whole. cbn. apply app_nil_r. Qed.
Lemma cflat {A} (f g : A -> list ev) l : (forall a, In a l -> map computed (f a) = map computed (g a)) ->
  map computed (flat_map f l) = map computed (flat_map g l).
Proof.
  induction l as [|a l IH]; intros H; [reflexivity|]. cbn [flat_map]. rewrite !map_app, (H a) by (left; reflexivity).
  rewrite IH by (intros; apply H; right; assumption). reflexivity.
Qed.
Lemma flat_map_map {A B C} (f : B -> list C) (g : A -> B) l : flat_map f (map g l) = flat_map (fun a => f (g a)) l.
Proof. induction l as [|a l IH]; [reflexivity|]. cbn. rewrite IH. reflexivity. Qed.

(** The replay of a buffered value does not depend on the cut, except for what is borrowed. *)
Lemma rebuilt_uncut f t : map computed (emit (rebuilt f (uncut_all t))) = map computed (emit (rebuilt f t)).
Proof.
  induction t using tree_ind'; cbn [rebuilt uncut_all emit]; try reflexivity.
  - rewrite content_whole. cbn. destruct (borrowed_whole fs); reflexivity.
  - rewrite content_whole. cbn. destruct (borrowed_whole fs); reflexivity.
  - cbn [map]. rewrite IHt. reflexivity.
  - cbn [map]. rewrite !map_app, IHt. reflexivity.
  - cbn [map]. rewrite !map_app, IHt. reflexivity.
  - cbn [map]. rewrite !map_app. do 2 f_equal. rewrite !flat_map_map. apply cflat. intros v I. rewrite Forall_forall in H.
    cbn [map]. rewrite !map_app, (H v I). reflexivity.
  - cbn [map]. rewrite !map_app. do 2 f_equal. rewrite !flat_map_map. apply cflat. intros [k v] I. rewrite Forall_forall in H. destruct (H _ I) as (H1 & H2).
    cbn [fst snd] in *. cbn [map]. rewrite !map_app. cbn [map]. rewrite !map_app, H1, H2. reflexivity.
  - cbn [map]. rewrite !map_app. do 2 f_equal. rewrite !flat_map_map. apply cflat. intros [[ft fl] v] I. rewrite Forall_forall in H.
    specialize (H _ I). cbn [fst snd map] in *. rewrite !map_app, H. reflexivity.
  - cbn [map]. rewrite !map_app. do 2 f_equal. rewrite !flat_map_map. apply cflat. intros [[ft fl] v] I. rewrite Forall_forall in H.
    specialize (H _ I). cbn [fst snd map] in *. rewrite !map_app, H. reflexivity.
  - cbn [map]. rewrite !map_app. do 2 f_equal. rewrite !flat_map_map. apply cflat. intros [[[ft fl] fi] v] I. rewrite Forall_forall in H.
    specialize (H _ I). cbn [fst snd map] in *. rewrite !map_app, H. reflexivity.
Qed.

(** Values that differ only in how texts and binaries are cut, borrowed or announced are
    buffered as values with the same replay, up to what is borrowed. *)
Theorem C22_value_buf_any_cut :
  forall v v' t t', streams v t -> streams v' t' -> uncut_all t = uncut_all t' ->
  exists b b' cs cs', vbuf_collect v = OOk b /\ vbuf_collect v' = OOk b' /\ vbuf_stream b = Some cs /\ vbuf_stream b' = Some cs' /\
    snd (flat cs false) = true /\ snd (flat cs' false) = true /\
    map computed (fst (flat cs false)) = map computed (fst (flat cs' false)).
Proof.
  intros v v' t t' H H' E. destruct (C15_round_trip_partial v t H) as (b & cs & C & S & F). destruct (C15_round_trip_partial v' t' H') as (b' & cs' & C' & S' & F').
  exists b, b', cs, cs'. repeat split; try assumption; unfold streams in F, F'; rewrite ?F, ?F'; try reflexivity.
  cbn [fst]. rewrite <- (rebuilt_uncut _ t), <- (rebuilt_uncut _ t'), E. reflexivity.
Qed.
Example C22_value_buf_sample : uncut_all cut_a = uncut_all cut_b /\
  match vbuf_collect (map CE (emit cut_a)), vbuf_collect (map CE (emit cut_b)) with
  | OOk b, OOk b' => option_map (fun cs => map computed (fst (flat cs false))) (vbuf_stream b) = option_map (fun cs => map computed (fst (flat cs false))) (vbuf_stream b')
  | _, _ => False
  end.
Proof. vm_compute. split; reflexivity. Qed.

(** [TextBuf] and [BinaryBuf]: the collected content. *)
Theorem C22_text_buf_any_cut :
  forall v v' t t', streams v t -> streams v' t' -> ranged t = true -> ranged t' = true -> uncut_all t = uncut_all t' ->
  match text_collect v, text_collect v' with
  | OOk c, OOk c' => frag_inner c = frag_inner c'
  | OErr, OErr => True
  | _, _ => False
  end.
Proof.
  intros v v' t t' H H' R R' E. pose proof (C14_text_collect_exact v t H R) as A. pose proof (C14_text_collect_exact v' t' H' R') as A'.
  assert (X : forall t, collected_text (uncut_all t) = collected_text t).
  { clear. induction t using tree_ind'; cbn [collected_text uncut_all]; try reflexivity; try assumption.
    all: try (unfold whole; cbn; rewrite ?app_nil_r; reflexivity). }
  rewrite <- (X t), E, (X t') in A. destruct (collected_text t').
  - destruct A as (c & -> & A). destruct A' as (c' & -> & A'). congruence.
  - rewrite A, A'. exact I.
Qed.

Theorem C22_binary_buf_any_cut :
  forall v v' t t', streams v t -> streams v' t' -> uncut_all t = uncut_all t' ->
  match bin_collect v, bin_collect v' with
  | OOk c, OOk c' => frag_inner c = frag_inner c'
  | OErr, OErr => True
  | _, _ => False
  end.
Proof.
  intros v v' t t' H H' E. pose proof (C14_binary_collect_exact v t H) as A. pose proof (C14_binary_collect_exact v' t' H') as A'.
  assert (X : forall t, collected_bytes (uncut_all t) = collected_bytes t).
  { clear. induction t using tree_ind'; cbn [collected_bytes uncut_all]; try reflexivity; try assumption.
    - unfold whole. cbn. rewrite app_nil_r. reflexivity.
    - induction H as [|v vs H HF IH]; [reflexivity|]. cbn [map]. rewrite H, IH. reflexivity.
    - induction H as [|[[ft fl] v] fs H HF IH]; [reflexivity|]. cbn [map fst snd] in *. rewrite H, IH. reflexivity. }
  rewrite <- (X t), E, (X t') in A. destruct (collected_bytes t').
  - destruct A as (c & -> & A). destruct A' as (c' & -> & A'). congruence.
  - rewrite A, A'. exact I.
Qed.
Example C22_bufs_sample :
  let a := TTagged None None None (TText None [(true, bs "a"); (false, bs "b")]) in let a' := TTagged None None None (TText (Some 2%N) [(true, bs "ab")]) in
  let b := TSeq None [TBin None [(true, bs "a"); (false, bs "b")]; TInt U8 99] in let b' := TSeq None [TBin (Some 2%N) [(true, bs "ab")]; TInt U8 99] in
  uncut_all a = uncut_all a' /\ ranged a = true /\ ranged a' = true /\ uncut_all b = uncut_all b' /\
  text_collect (map CE (emit a)) = OOk (frag_push_computed text_buf_new (bs "ab")) /\
  match bin_collect (map CE (emit b')) with OOk c => frag_inner c = bs "abc" | _ => False end.
Proof. vm_compute. repeat split. Qed.

Print Assumptions C22_value_buf_any_cut.
Print Assumptions C22_text_buf_any_cut.
Print Assumptions C22_binary_buf_any_cut.
