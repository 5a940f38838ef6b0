(** * BufferedExactProps: C59, exactly when buffering a value first changes its JSON *)

From Verif Require Import Base Event Tree LowerModel FlatProofs MethProofs FragModel BufferModel BufferSpec BufferProofs BufferProps
  DataModel JsonModel JsonSpec JsonMethProofs JsonProofs JsonImageProofs JsonProps JsonFragProps JsonSimProofs JsonLocalProps
  FmtModel FmtSpec TokenSpec TokenProps BufferedSpec BufferedProps.
From Coq Require Import Lia.

(** What escaping adds to a byte: a backslash, or a backslash and [u00] and one more digit. *)
Definition added_byte (c : byte) : nat :=
  let n := N_of_ascii c in
  if (n =? 34)%N || (n =? 92)%N || (n =? 8)%N || (n =? 9)%N || (n =? 10)%N || (n =? 12)%N || (n =? 13)%N then 1
  else if (n <? 32)%N then 5
  else 0.
(** Only labels tagged as identifiers were not escaped before. *)
Definition added_label (l : label) : nat :=
  if otag_is (l_tag l) VALUE_IDENT then list_sum (map added_byte (l_text l)) else 0.
(** What is added to the JSON of a value. *)
Fixpoint added (t : tree) : nat :=
  match t with
  | THint _ v | TTagged _ _ _ v | TEnum _ _ _ v => added v
  | TSeq _ vs => list_sum (map added vs)
  | TMap _ es => list_sum (map (fun e => added (fst e) + added (snd e)) es)
  | TRecord _ _ _ _ fs => list_sum (map (fun f => match f with (_, l, v) => added_label l + added v end) fs)
  | TTuple _ _ _ _ fs => list_sum (map (fun f => added (snd f)) fs)
  | TRecTup _ _ _ _ fs => list_sum (map (fun f => match f with (_, l, _, v) => added_label l + added v end) fs)
  | _ => 0
  end.

(** ** Nothing is added to honest labels *)
Lemma sum_zero {A} (f : A -> nat) (p : A -> bool) xs :
  (forall x, In x xs -> (f x = 0 <-> p x = true)) -> (list_sum (map f xs) = 0 <-> forallb p xs = true).
Proof.
  induction xs as [|x xs IH]; intros H; [split; reflexivity|]. cbn [map list_sum fold_right forallb].
  fold (list_sum (map f xs)). rewrite andb_true_iff, <- (H x (or_introl eq_refl)), <- IH by (intros y I; apply H; right; exact I). lia.
Qed.
Lemma added_byte_zero c : added_byte c = 0 <-> no_escape_needed c = true.
Proof. destruct c as [[] [] [] [] [] [] [] []]; vm_compute; split; congruence. Qed.
Lemma added_label_zero l : added_label l = 0 <-> honest l = true.
Proof.
  unfold added_label, honest. destruct (otag_is (l_tag l) VALUE_IDENT); cbn [negb orb]; [|split; reflexivity].
  apply sum_zero. intros c _. apply added_byte_zero.
Qed.
Lemma added_zero t : added t = 0 <-> honest_fields t = true.
Proof.
  induction t using tree_ind'; cbn [added honest_fields]; try (split; reflexivity); try assumption.
  - apply sum_zero. intros v I. rewrite Forall_forall in H. auto.
  - apply sum_zero. intros [k v] I. rewrite Forall_forall in H. destruct (H _ I) as (H1 & H2). cbn [fst snd] in *.
    rewrite andb_true_iff, <- H1, <- H2. lia.
  - apply sum_zero. intros [[ft fl] v] I. rewrite Forall_forall in H. specialize (H _ I). cbn [fst snd] in *.
    rewrite andb_true_iff, <- H, <- added_label_zero. lia.
  - apply sum_zero. intros [[ft fl] v] I. rewrite Forall_forall in H. specialize (H _ I). cbn [fst snd] in *. exact H.
  - apply sum_zero. intros [[[ft fl] fi] v] I. rewrite Forall_forall in H. specialize (H _ I). cbn [fst snd] in *.
    rewrite andb_true_iff, <- H, <- added_label_zero. lia.
Qed.
Lemma esc_length s : length (esc s) = length s + list_sum (map added_byte s).
Proof.
  induction s as [|c s IH]; [reflexivity|]. cbn [esc flat_map map list_sum fold_right length]. fold (esc s) (list_sum (map added_byte s)).
  rewrite app_length, IH. assert (length (escb c) = 1 + added_byte c) as ->; [|lia].
  clear. destruct c as [[] [] [] [] [] [] [] []]; vm_compute; reflexivity.
Qed.

Section Json.
  Variable r32 r64 : float -> bytes.
  Notation step := (json_step bytes string_write r32 r64).
  Notation jm := (meth json_over step).

  Definition longer (n : nat) (f g : fm bytes) : Prop := fR bytes bytes (fun a b => length b = length a + n) f g.
  Definition alike (n : nat) (a b : res (fm bytes)) : Prop :=
    match a, b with
    | Ok f, Ok g => longer n f g
    | Err f, Err g => f_err f = f_err g
    | Panic, Panic => True
    | _, _ => False
    end.
  Lemma same_step n e f g : longer n f g -> alike n (jm f e) (jm g e).
  Proof.
    intros L. destruct (op_meth bytes bytes string_write string_write r32 r64 (fun a b => length b = length a + n) (fun _ _ => False) False (fun _ => False)
      ltac:(cbn; intros; rewrite !app_length; lia) ltac:(contradiction) ltac:(contradiction) e) as (S & _).
    specialize (S f g L). unfold sim, alike in *. destruct (jm f e), (jm g e); try contradiction; try exact I; try assumption.
    - destruct S as [(_ & _ & _ & _ & E & _)|[]]. exact E.
    - destruct S; [discriminate|contradiction].
    - destruct S; [discriminate|contradiction].
  Qed.
  Definition added_ev (e : ev) : nat :=
    match e with ERecordValBegin _ l | ERecTupValBegin _ l _ => added_label l | _ => 0 end.
  Lemma record_step n l f g : longer n f g ->
    alike (n + added_label l) (j_record_value_begin bytes string_write l f) (j_record_value_begin bytes string_write (kept_label l) g).
  Proof.
    destruct f as [a b c d e o], g as [a' b' c' d' e' o']. intros (E1 & E2 & E3 & E4 & E5 & L).
    cbn [f_it f_cde f_tq f_th f_err f_out] in E1, E2, E3, E4, E5, L. subst a' b' c' d' e'.
    unfold j_record_value_begin. cbn [kept_label l_tag l_text otag_is set_it f_cde f_out].
    unfold added_label. destruct b; rewrite !put_pure; cbn [bind set_out f_out f_it f_cde f_tq f_th f_err];
      rewrite !escape_str_pure; cbn [lift bind set_out f_out f_it f_cde f_tq f_th f_err];
      destruct (otag_is (l_tag l) VALUE_IDENT); rewrite ?put_pure; cbn [lift bind set_out f_out f_it f_cde f_tq f_th f_err];
      rewrite ?put_pure; cbn [alike set_out f_out f_it f_cde f_tq f_th f_err];
      repeat split; cbn [f_out]. all: unfold set_out, set_it; cbn [f_out]; rewrite !app_length, ?esc_length, L; lia.
  Qed.
  Lemma kept_step n e f g : longer n f g -> alike (n + added_ev e) (jm f e) (jm g (with_labels kept_label e)).
  Proof.
    intros L. assert (honest_ev e = true -> added_ev e = 0 -> alike (n + added_ev e) (jm f e) (jm g (with_labels kept_label e))) as H.
    { intros H Z. rewrite Z, Nat.add_0_r, (jm_kept r32 r64 g e H). apply same_step, L. }
    destruct e; try (apply H; reflexivity); cbn [with_labels added_ev].
    - rewrite !jm_over by reflexivity. apply record_step, L.
    - rewrite !jm_rectup_val_begin. apply record_step, L.
  Qed.
  Lemma kept_run es : forall n f g, longer n f g ->
    alike (n + list_sum (map added_ev es)) (run jm f es) (run jm g (map (with_labels kept_label) es)).
  Proof.
    induction es as [|e es IH]; intros n f g L; cbn [map list_sum fold_right].
    - rewrite Nat.add_0_r. exact L.
    - fold (list_sum (map added_ev es)). rewrite !run_cons. pose proof (kept_step n e f g L) as S.
      destruct (jm f e), (jm g (with_labels kept_label e)); cbn [alike bind] in *; try contradiction; try assumption.
      rewrite Nat.add_assoc. apply IH, S.
  Qed.
End Json.

Lemma sum_app xs ys : list_sum (xs ++ ys) = list_sum xs + list_sum ys.
Proof. apply list_sum_app. Qed.
Lemma sum_flat_map {A} (f : ev -> nat) (g : A -> list ev) (h : A -> nat) xs :
  (forall x, In x xs -> list_sum (map f (g x)) = h x) -> list_sum (map f (flat_map g xs)) = list_sum (map h xs).
Proof.
  induction xs as [|x xs IH]; intros H; [reflexivity|]. cbn [flat_map map list_sum fold_right]. fold (list_sum (map h xs)).
  rewrite map_app, sum_app, IH by (intros y I; apply H; right; exact I). rewrite (H x (or_introl eq_refl)). reflexivity.
Qed.
Local Notation joined t := (rebuilt (fun l : label => l) t).
Ltac sums := repeat (cbn [map list_sum fold_right added_ev app]; rewrite ?map_app, ?sum_app, ?Nat.add_0_r, ?Nat.add_0_l;
  repeat match goal with |- context [fold_right Nat.add 0 ?x] => change (fold_right Nat.add 0 x) with (list_sum x) end).
Lemma added_emit t : list_sum (map added_ev (emit (joined t))) = added t.
Proof.
  induction t using tree_ind'; cbn [rebuilt emit added]; try reflexivity.
  - destruct (borrowed_whole fs); reflexivity.
  - destruct (borrowed_whole fs); reflexivity.
  - exact IHt.
  - sums. rewrite IHt. lia.
  - sums. rewrite IHt. lia.
  - sums. rewrite flat_map_map. rewrite (sum_flat_map added_ev _ added); [lia|].
    intros v I. rewrite Forall_forall in H. sums. rewrite H by exact I. lia.
  - sums. rewrite flat_map_map. rewrite (sum_flat_map added_ev _ (fun e => added (fst e) + added (snd e))); [lia|].
    intros [k v] I. rewrite Forall_forall in H. destruct (H _ I) as (H1 & H2). cbn [fst snd] in *. sums. rewrite H1, H2. lia.
  - sums. rewrite flat_map_map. rewrite (sum_flat_map added_ev _ (fun f => match f with (_, l, v) => added_label l + added v end)); [lia|].
    intros [[ft fl] v] I. rewrite Forall_forall in H. specialize (H _ I). cbn [fst snd] in *. sums. rewrite H. lia.
  - sums. rewrite flat_map_map. rewrite (sum_flat_map added_ev _ (fun f => added (snd f))); [lia|].
    intros [[ft fl] v] I. rewrite Forall_forall in H. specialize (H _ I). cbn [fst snd] in *. sums. rewrite H. lia.
  - sums. rewrite flat_map_map. rewrite (sum_flat_map added_ev _ (fun f => match f with (_, l, _, v) => added_label l + added v end)); [lia|].
    intros [[[ft fl] fi] v] I. rewrite Forall_forall in H. specialize (H _ I). cbn [fst snd] in *. sums. rewrite H. lia.
Qed.

(** ** C59 *)
(** If the value has a JSON, it has one after it has been buffered, longer by what escaping
    its labels tagged as identifiers adds; and the same if that is nothing.  If it has none,
    it has none afterwards, for the same reason. *)
Theorem C59_json_exactly :
  forall r32 r64 v t b cs, streams v t -> steady Free t = true -> vbuf_collect v = OOk b -> vbuf_stream b = Some cs ->
  match json_to_string r32 r64 v with
  | SOk s => exists s', json_to_string r32 r64 cs = SOk s' /\ length s' = length s + added t /\ (s' = s <-> honest_fields t = true)
  | r => json_to_string r32 r64 cs = r
  end.
Proof.
  intros r32 r64 v t b cs H St C R.
  pose proof (fun Ho => C59_same_json_partial r32 r64 v t b cs H Ho St C R) as SAME.
  destruct (replay_is v t b cs H C R) as (_ & _ & F).
  assert (alike (added t) (run (meth json_over (json_step bytes string_write r32 r64)) (fm_new bytes []) (emit t))
            (run (meth json_over (json_step bytes string_write r32 r64)) (fm_new bytes []) (emit (rebuilt kept_label t)))) as A.
  { rewrite rebuilt_relabelled, emit_relabelled. change (fm_new bytes []) with (st false true []).
    rewrite (emit_uncut r32 r64 t Free), <- uncut_joined, <- (emit_uncut r32 r64 (joined t) Free) by (reflexivity || exact St).
    rewrite <- added_emit. apply (kept_run r32 r64 _ 0). repeat split. }
  rewrite (to_string_run _ _ _ _ H), (to_string_run _ _ _ _ F) in *.
  change (fm_new bytes []) with (st false true []) in A.
  set (J := run (meth json_over (json_step bytes string_write r32 r64)) (st false true [])) in *.
  destruct (J (emit t)) as [f|f|], (J (emit (rebuilt kept_label t))) as [g|g|]; cbn [alike] in A;
    try contradiction.
  - destruct A as (_ & _ & _ & _ & _ & L). exists (f_out g). split; [reflexivity|]. split; [exact L|]. rewrite <- added_zero. split.
    + intros E. rewrite E in L. lia.
    + intros Z. apply added_zero, SAME in Z. congruence.
  - rewrite A. reflexivity.
  - reflexivity.
Qed.

(** Two labels that say they need no escaping, and do. *)
Definition two_liars : tree :=
  TRecord None None None None
    [(None, MkLabel (bs "a""b") LStatic (Some VALUE_IDENT), TNull);
     (None, MkLabel [ascii_of_N 1] LStatic (Some VALUE_IDENT), TBool true)].
Example C59_exactly_not_vacuous :
  streams (map CE (emit two_liars)) two_liars /\ steady Free two_liars = true /\ added two_liars = 6 /\
  json_to_string (fun _ => []) (fun _ => []) (map CE (emit two_liars)) = SOk (bs "{""a""b"":null,""" ++ ascii_of_N 1 :: bs """:true}").
Proof. repeat split. Qed.

Print Assumptions C59_json_exactly.
