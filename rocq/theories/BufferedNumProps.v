(** * BufferedNumProps: C59, buffering a number that is streamed as text *)

From Verif Require Import Base Event Tree LowerModel FlatProofs FragModel BufferModel BufferSpec BufferProps
  DataModel JsonModel JsonSpec JsonProps Utf8 JsonNumExactSpec JsonNumExactProps JsonNumCutProps BufferedProps.

(** A number that is streamed as text, in any pieces: the buffer puts them together,
    so the JSON is that of the whole text. *)
Theorem C59_number_exactly : forall r32 r64 v l i n fs b cs, streams v (TTagged (Some NUMBER) l i (TText n fs)) ->
  vbuf_collect v = OOk b -> vbuf_stream b = Some cs ->
  json_to_string r32 r64 cs = (match number_becomes [frags_text fs] with Some s => SOk s | None => SPanic end) /\
  (json_to_string r32 r64 cs = json_to_string r32 r64 v <-> number_becomes [frags_text fs] = number_becomes (map snd fs)).
Proof.
  intros r32 r64 v l i n fs b cs H C R. destruct (replay_is v _ b cs H C R) as (_ & _ & F). cbn [rebuilt] in F.
  rewrite (C24_any_text_exactly _ _ _ _ _ _ _ H), (C24_any_text_exactly _ _ _ _ _ _ _ F). cbn [map snd].
  change (content fs) with (frags_text fs). split; [reflexivity|].
  destruct (number_becomes [frags_text fs]), (number_becomes (map snd fs)); split; congruence.
Qed.

(** The texts for which buffering never matters are those that may be cut anywhere. *)
Theorem C59_number_any_cut_exactly : forall r32 r64 l i s, utf8 s = true ->
  ((forall v n fs b cs, streams v (TTagged (Some NUMBER) l i (TText n fs)) -> forallb utf8 (map snd fs) = true -> frags_text fs = s ->
      vbuf_collect v = OOk b -> vbuf_stream b = Some cs -> json_to_string r32 r64 cs = json_to_string r32 r64 v) <->
   cut_free s).
Proof.
  intros r32 r64 l i s U. rewrite <- (C22_number_any_cut_exactly r32 r64 l i s U). split.
  - intros H v v' n n' fs fs' Hv Hv' Uf Uf' E E'.
    destruct (C15_round_trip_partial v _ Hv) as (b & cs & C & R & _). destruct (C15_round_trip_partial v' _ Hv') as (b' & cs' & C' & R' & _).
    rewrite <- (H v n fs b cs Hv Uf E C R), <- (H v' n' fs' b' cs' Hv' Uf' E' C' R').
    destruct (C59_number_exactly r32 r64 v l i n fs b cs Hv C R) as (-> & _). destruct (C59_number_exactly r32 r64 v' l i n' fs' b' cs' Hv' C' R') as (-> & _).
    rewrite E, E'. reflexivity.
  - intros H v n fs b cs Hv Uf E C R. destruct (C59_number_exactly r32 r64 v l i n fs b cs Hv C R) as (-> & _).
    assert (T : frags_text [(true, s)] = s) by apply app_nil_r.
    assert (Us : forallb utf8 (map snd [(true, s)]) = true) by (cbn [map snd forallb]; rewrite U; reflexivity).
    rewrite <- (H (map CE (emit (TTagged (Some NUMBER) l i (TText None [(true, s)])))) v None n [(true, s)] fs (flat_CE_false _) Hv Us Uf T E).
    rewrite (C24_any_text_exactly _ _ _ _ _ _ _ (flat_CE_false _)), E. reflexivity.
Qed.

(** [1n] in two pieces is written as [1null], and as [null] after buffering. *)
Example C59_number_mended :
  let t := TTagged (Some NUMBER) None None (TText None [(true, bs "1"); (true, bs "n")]) in
  json_to_string (fun _ => []) (fun _ => []) (map CE (emit t)) = SOk (bs "1null") /\
  (exists b cs, vbuf_collect (map CE (emit t)) = OOk b /\ vbuf_stream b = Some cs /\
    json_to_string (fun _ => []) (fun _ => []) cs = SOk (bs "null")) /\
  cut_free (bs "-0.5e1").
Proof.
  intros t. split; [vm_compute; reflexivity|]. split; [|right; exists (bs "-0"), [], (bs ".5e1"); vm_compute; intuition].
  destruct (C15_round_trip_partial (map CE (emit t)) t (flat_CE_false _)) as (b & cs & C & R & _).
  exists b, cs. split; [exact C|]. split; [exact R|].
  destruct (C59_number_exactly (fun _ => []) (fun _ => []) _ _ _ _ _ _ _ (flat_CE_false _) C R) as (-> & _). vm_compute. reflexivity.
Qed.

Print Assumptions C59_number_exactly.
Print Assumptions C59_number_any_cut_exactly.
