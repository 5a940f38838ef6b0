(** * SerdeErrProps: C76, whose error the caller of [sval_serde::serialize] sees *)

From Verif Require Import Base Event Tree LowerModel DataModel DataProofs FragModel BufferSpec StdModel NestedModel NestedSpec NestedProofs NestedWhole NestedProps SerdeModel SerdeSpec SerdeProofs SerdeProps SerdeErrModel SerdeErrSpec SerdeErrProofs.

(** ** The full claim

    Serializing a [sval] value gives what serializing its [serde] reading
    directly gives, down to the error: when the serializer fails, the caller gets
    the serializer's error. *)
Definition C76_own_error : Prop := forall S v t,
  opaque_echildren S -> whole v -> streams v t -> shallow (mirror t) = true ->
  forall n, levels (mirror t) <= n ->
  forall k, eto_serialize S n v k = direct_ser S (as_serde (mirror t)) k.

(** What happens instead: an error of a child of a container, or of beginning a
    container that has children, is replaced by [S::Error::custom]. *)
Theorem C76_exact : forall S v t,
  opaque_echildren S -> whole v -> streams v t -> shallow (mirror t) = true ->
  forall n, levels (mirror t) <= n ->
  forall k, eto_serialize S n v k = custom_ser S (as_serde (mirror t)) k.
Proof.
  intros S v t OC W F H n L k. destruct (whole_atree v t W F) as (a & -> & _ & <-). rewrite stree_mirror in *.
  apply eto_serialize_same; assumption.
Qed.

(** The claim holds for values that are not containers with children, also inside
    options and newtypes. *)
Theorem C76_own_error_partial : forall S v t,
  opaque_echildren S -> whole v -> streams v t -> shallow (mirror t) = true ->
  partless (as_serde (mirror t)) = true ->
  forall n, levels (mirror t) <= n ->
  forall k, eto_serialize S n v k = direct_ser S (as_serde (mirror t)) k.
Proof. intros S v t OC W F H P n L k. rewrite (C76_exact S v t OC W F H n L). apply partless_mask; assumption. Qed.

(** In a container with children only an error of its [end] call survives. *)
Theorem C76_containers_replace_errors : forall S v t,
  opaque_echildren S -> whole v -> streams v t -> shallow (mirror t) = true ->
  with_parts (as_serde (mirror t)) = true ->
  forall n, levels (mirror t) <= n ->
  forall k e, eto_serialize S n v k = RErr e ->
  e = e_custom S \/ from_end S (as_serde (mirror t)) e.
Proof.
  intros S v t OC W F H P n L k e. rewrite (C76_exact S v t OC W F H n L). revert P. clear.
  assert (C : forall K X B (beg : result (e_err S) K) (step : K -> X -> result (e_err S) K) xs (fin : K -> result (e_err S) B) more,
    more = true -> compound_of (fun _ => e_custom S) more beg step xs fin = RErr e -> e = e_custom S \/ exists s, fin s = RErr e).
  { clear. intros K X B beg step xs fin more -> E. unfold compound_of in E. destruct beg as [s|e0|]; cbn [masked rbind] in E; [|injection E as <-; left; reflexivity|discriminate E].
    destruct (eeach step s xs) as [s'|e0|]; cbn [masked rbind] in E; [right; exists s'; exact E|injection E as <-; left; reflexivity|discriminate E]. }
  unfold custom_ser. destruct (as_serde (mirror t)) as [| | | | | | | | | | | | | | |? vs|? vs|? ? vs|? ? ? ? vs|? es|? ? fs ok|? ? ? ? fs ok|]; cbn [with_parts eser from_end]; try discriminate; intros P E.
  - destruct (C _ _ _ _ _ _ _ _ P E) as [X|X]; auto.
  - destruct (C _ _ _ _ _ _ _ _ P E) as [X|X]; auto.
  - destruct (C _ _ _ _ _ _ _ _ P E) as [X|X]; auto.
  - destruct (C _ _ _ _ _ _ _ _ P E) as [X|X]; auto.
  - destruct (C _ _ _ _ _ _ _ _ P E) as [X|X]; auto.
  - rewrite P in E. destruct (C _ _ _ _ _ _ _ _ eq_refl E) as [X|(s & X)]; [auto|]. destruct ok; [right; exists s; exact X|injection X as <-; auto].
  - rewrite P in E. destruct (C _ _ _ _ _ _ _ _ eq_refl E) as [X|(s & X)]; [auto|]. destruct ok; [right; exists s; exact X|injection X as <-; auto].
Qed.

(** Only the error is affected: with a serializer that does not look at the errors
    of its children, one of the two succeeds when the other does, with the same
    result. *)
Theorem C76_same_but_for_the_error : forall S v t,
  opaque_echildren S -> error_blind S -> whole v -> streams v t -> shallow (mirror t) = true ->
  forall n, levels (mirror t) <= n ->
  forall k, erase (eto_serialize S n v k) = erase (direct_ser S (as_serde (mirror t)) k).
Proof. intros S v t OC EB W F H n L k. rewrite (C76_exact S v t OC W F H n L). apply masks_alike, EB. Qed.

(** With its errors forgotten, this is the model of SerdeModel.v. *)
Theorem C76_refines : forall S v t,
  opaque_echildren S -> error_blind S -> whole v -> streams v t -> shallow (mirror t) = true ->
  forall n, levels (mirror t) <= n ->
  forall k, erase (eto_serialize S n v k) = to_serialize (forget S) n v k.
Proof.
  intros S v t OC EB W F H n L k. rewrite (C76_exact S v t OC W F H n L), (C37_serializes_as (forget S) v t (forget_opaque S EB) W F H n L).
  apply ser_forget, EB.
Qed.

(** ** A serializer that cannot write booleans or end maps

    Its errors are numbers; [0] is [custom]. *)
Definition picky : eserializer :=
  let one := fun c : unit -> result nat unit => c tt in
  {| e_err := nat; e_custom := 0; e_ser := unit; e_ok := unit;
     e_seq := unit; e_tuple := unit; e_tstruct := unit; e_tvariant := unit; e_map := unit; e_struct := unit; e_svariant := unit;
     es_bool _ _ := RErr 1; es_int _ _ _ := ROk tt; es_f32 _ _ := ROk tt; es_f64 _ _ := ROk tt; es_char _ _ := ROk tt;
     es_str _ _ := ROk tt; es_bytes _ _ := ROk tt; es_collect_str _ _ := ROk tt; es_none _ := ROk tt; es_some _ c := one c;
     es_unit _ := ROk tt; es_unit_struct _ _ := ROk tt; es_unit_variant _ _ _ _ := ROk tt; es_newtype_struct _ _ c := one c;
     es_newtype_variant _ _ _ _ c := one c; es_seq _ _ := ROk tt; es_tuple _ _ := ROk tt; es_tuple_struct _ _ _ := ROk tt;
     es_tuple_variant _ _ _ _ _ := ROk tt; es_map _ _ := ROk tt; es_struct _ _ _ := RErr 3; es_struct_variant _ _ _ _ _ := ROk tt;
     e_seq_element _ c := one c; e_seq_end _ := ROk tt; e_tuple_element _ c := one c; e_tuple_end _ := ROk tt;
     e_tstruct_field _ c := one c; e_tstruct_end _ := ROk tt; e_tvariant_field _ c := one c; e_tvariant_end _ := ROk tt;
     e_map_key _ c := one c; e_map_value _ c := one c; e_map_end _ := RErr 2; e_struct_field _ _ c := one c; e_struct_end _ := ROk tt;
     e_svariant_field _ _ c := one c; e_svariant_end _ := ROk tt |}.
Lemma picky_opaque : opaque_echildren picky.
Proof. constructor; intros; cbn; apply H. Qed.
Lemma picky_blind : error_blind picky.
Proof. constructor; intros; cbn; apply H. Qed.

Theorem C76_own_error_refuted : ~ C76_own_error.
Proof.
  intros H. specialize (H picky _ (TSeq None [TBool true]) picky_opaque (whole_events _) (streams_events _) eq_refl 2 (le_n 2) tt).
  vm_compute in H. discriminate H.
Qed.

(** [true] alone and inside an option gives the serializer's error 1, inside a
    sequence it gives [custom]; a map gives the error 2 of its end. *)
Example C76_applies :
  let run t := eto_serialize picky 5 (map CE (emit t)) tt in
  run (TBool true) = RErr 1 /\
  run (TTagged (Some RUST_OPTION_SOME) None None (TBool true)) = RErr 1 /\
  run (TSeq None [TBool true]) = RErr 0 /\
  run (TMap None [(TText None [], TInt U8 1)]) = RErr 2 /\
  run (TMap None []) = RErr 2 /\
  run (TRecord None (Some (label_new (bs "R"))) None (Some 0%N) []) = RErr 3 /\
  run (TRecord None (Some (label_new (bs "R"))) None (Some 1%N) [(None, label_new (bs "a"), TInt U8 1)]) = RErr 0 /\
  run (TSeq None [TInt U8 1]) = ROk tt.
Proof. vm_compute. repeat split. Qed.
Example C76_hypotheses :
  let t := TSeq None [TBool true] in
  opaque_echildren picky /\ error_blind picky /\ whole (map CE (emit t)) /\ streams (map CE (emit t)) t /\ shallow (mirror t) = true /\
  with_parts (as_serde (mirror t)) = true /\ partless (as_serde (mirror (TTagged (Some RUST_OPTION_SOME) None None (TBool true)))) = true.
Proof. split; [apply picky_opaque|]. split; [apply picky_blind|]. split; [apply whole_events|]. split; [apply streams_events|]. repeat split. Qed.

Print Assumptions C76_exact.
Print Assumptions C76_own_error_partial.
Print Assumptions C76_containers_replace_errors.
Print Assumptions C76_same_but_for_the_error.
Print Assumptions C76_refines.
Print Assumptions C76_own_error_refuted.
