(** * SerdeTextProps: C81, what [sval_serde::serialize] says went wrong *)

From Verif Require Import Base Event Tree LowerModel DataModel DataProofs FragModel BufferSpec StdModel NestedModel NestedSpec NestedProofs NestedWhole NestedProps
  NestedErrModel NestedErrSpec NestedErrProofs NestedErrProps SerdeModel SerdeSpec SerdeProofs SerdeProps SerdeErrModel SerdeErrSpec SerdeErrProofs SerdeErrProps
  SerdeTextModel SerdeTextSpec SerdeTextProofs.

(** ** Exactly what is said

    For every serializer and every value that streams something well-formed, through
    whatever calls of [value] and [value_computed]. *)
Theorem C81_exact :
  forall S custom a n k, le (levels (mirror (tree_of a))) n ->
  exists o, tells S custom (hidden_in false a) (mirror (tree_of a)) k o /\ tto_serialize S custom n (acalls a) k = give custom o.
Proof. intros S custom a n k L. apply tto_tells, L. Qed.
(** Values that call the stream directly hide nothing. *)
Theorem C81_direct_values :
  forall S custom t n k, le (levels (mirror t)) n ->
  exists o, tells S custom false (mirror t) k o /\ tto_serialize S custom n (map CE (emit t)) k = give custom o.
Proof.
  intros S custom t n k L. destruct (whole_atree (map CE (emit t)) t (whole_events _) (streams_events _)) as (a & Ea & _ & Ta).
  rewrite Ea. rewrite <- Ta, stree_mirror in L |- *.
  assert (Hd : hidden_in false a = false).
  { apply direct_shown. rewrite <- Ea. apply Forall_forall. intros c I. apply in_map_iff in I. destruct I as (x & <- & _). exists x. reflexivity. }
  rewrite <- Hd. apply tto_tells, L.
Qed.
(** With every message taken for the same error, this is the model of SerdeErrModel.v. *)
Theorem C81_refines : forall S v t,
  opaque_echildren S -> whole v -> streams v t -> shallow (mirror t) = true ->
  forall n, le (levels (mirror t)) n ->
  forall k, tto_serialize S (fun _ => e_custom S) n v k = eto_serialize S n v k.
Proof.
  intros S v t OC W F H n L k. rewrite (C76_exact S v t OC W F H n L). destruct (whole_atree v t W F) as (a & -> & _ & <-). rewrite stree_mirror in *.
  destruct (tto_tells S (fun _ => e_custom S) n a L k) as (o & T & ->). apply (tells_serde S OC n _ _ _ _ L H T).
Qed.

(** ** No other texts *)
Section Texts.
Variable S : eserializer.
Variable custom : bytes -> e_err S.
Variable P : e_err S -> Prop.
Hypothesis G : gives_only S P.
Hypothesis T : forall text, In text texts -> P (custom (bs "the value is invalid: " ++ bs text)%list).
Definition told_in (o : told S) : Prop := match o with Given r => errs_in S P r | Told reason => In reason texts end.
Lemma give_in o : told_in o -> errs_in S P (give custom o).
Proof. destruct o as [r|reason]; cbn [told_in give]; intros H; [exact H|]. intros e Ee. injection Ee as <-. apply T, H. Qed.
Ltac listed := cbn [In texts]; repeat (first [left; reflexivity|right]).
Lemma required_in {A} text (o : option A) f : In text texts -> (forall a, told_in (f a)) -> told_in (required text o f).
Proof. intros I H. destruct o; [apply H|exact I]. Qed.
Lemma hush_in h o : told_in o -> told_in (hush h o).
Proof. destruct o as [r|reason]; cbn [hush]; intros H; [exact H|]. destruct h; [|exact H]. cbn [told_in]. listed. Qed.
Lemma variant_in r : told_in (no_variant r).
Proof. induction r; cbn [no_variant told_in]; try (listed; fail); [exact IHr|intros e E; discriminate E..]. Qed.
Definition part_in {K} (p : part S K) : Prop := In (late p) texts /\ forall s, match act p s with inl _ => True | inr o => told_in o end.
Lemma attempt_in {K} text (r : result (e_err S) K) : In text texts -> match attempt text r with inl _ => True | inr o => told_in o end.
Proof. intros I. destruct r; [exact Logic.I|exact I|]. intros e E. discriminate E. Qed.
Lemma simply_in {K} text (f : K -> result (e_err S) K) : In text texts -> part_in (simply text f).
Proof. intros I. split; [exact I|]. intros s. apply attempt_in, I. Qed.
Lemma all_in {K} (beg : result (e_err S) K) ps fin : errs_in S P beg -> Forall part_in ps -> (forall s, errs_in S P (fin s)) -> told_in (in_all beg ps fin).
Proof.
  intros B F E. destruct beg as [s|e|]; cbn [in_all].
  - clear B. revert s. induction F as [|p ps [Pl Pa] F IH]; intros s; cbn [go_on]; [apply E|]. specialize (Pa s). destruct (act p s); [apply IH|exact Pa].
  - destruct F as [|p ps [Pl _] _]; [intros e' Ee; injection Ee as <-; apply B; reflexivity|exact Pl].
  - intros e E'. discriminate E'.
Qed.
Lemma map_in {A K} (f : A -> part S K) l : (forall x, part_in (f x)) -> Forall part_in (map f l).
Proof. intros H. apply Forall_forall. intros p I. apply in_map_iff in I. destruct I as (x & <- & _). apply H. Qed.

Lemma tells_in : forall n r h k o, le (levels r) n -> tells S custom h r k o -> told_in o.
Proof.
  induction n as [|n IH]; intros r h k o L A; [destruct r; cbn [levels] in L; exfalso; lia|].
  assert (KID : forall c v, le (levels v) n -> (exists h, forall k', exists o', tells S custom h v k' o' /\ c k' = give custom o') -> kid_in S P c).
  { intros c v Lv (h' & H) k'. destruct (H k') as (o' & T' & ->). apply give_in. eapply IH; eassumption. }
  destruct r; cbn [tells] in A.
  - subst o. apply (go_none _ _ G).
  - subst o. apply (go_bool _ _ G).
  - subst o. apply (go_int _ _ G).
  - subst o. apply (go_f32 _ _ G).
  - subst o. apply (go_f64 _ _ G).
  - subst o. apply (go_str _ _ G).
  - subst o. apply (go_bytes _ _ G).
  - subst o. destruct (otag_is t RUST_OPTION_NONE); [apply (go_none _ _ G)|]. destruct (otag_is t RUST_UNIT); [apply (go_unit _ _ G)|].
    apply required_in; [listed|]. intros x. apply (go_unit_struct _ _ G).
  - destruct A as (c & K & ->). cbn [levels] in L. pose proof (KID c r ltac:(lia) K) as Kc. destruct (otag_is t RUST_OPTION_SOME); [apply (go_some _ _ G), Kc|].
    apply required_in; [listed|]. intros x. apply (go_newtype_struct _ _ G), Kc.
  - destruct A as (o' & -> & A). apply required_in; [listed|]. intros x. apply hush_in. specialize (A x). cbn [levels] in L.
    destruct r; try (rewrite A; apply variant_in).
    + rewrite A. apply required_in; [listed|]. intros y. apply required_in; [listed|]. intros z. apply (go_unit_variant _ _ G).
    + destruct A as (c & K & ->). cbn [levels] in L. apply required_in; [listed|]. intros y. apply required_in; [listed|]. intros z. apply (go_newtype_variant _ _ G).
      apply (KID c r ltac:(lia) K).
    + destruct A as (cs & K & ->). apply required_in; [listed|]. intros y. apply required_in; [listed|]. intros z. apply required_in; [listed|]. intros len.
      apply all_in; [apply (go_struct_variant _ _ G)| |apply (go_svariant_end _ _ G)]. apply map_in. intros [fl c].
      destruct (as_static_str fl); [apply simply_in; listed|]. split; [listed|]. intros s. cbn [told_in act]. listed.
    + destruct A as (cs & K & ->). apply required_in; [listed|]. intros y. apply required_in; [listed|]. intros z. apply required_in; [listed|]. intros len.
      apply all_in; [apply (go_tuple_variant _ _ G)| |apply (go_tvariant_end _ _ G)]. apply map_in. intros c. apply simply_in; listed.
  - destruct A as (cs & K & ->). apply all_in; [apply (go_seq _ _ G)| |apply (go_seq_end _ _ G)]. apply map_in. intros c. apply simply_in; listed.
  - destruct A as (cs & K & ->). apply all_in; [apply (go_map _ _ G)| |apply (go_map_end _ _ G)]. apply Forall_forall. intros p I. apply in_flat_map in I.
    destruct I as ([c d] & _ & [<-|[<-|[]]]); apply simply_in; listed.
  - destruct A as (cs & K & ->). apply required_in; [listed|]. intros len. destruct l as [l|].
    + apply required_in; [listed|]. intros x. apply all_in; [apply (go_struct _ _ G)| |apply (go_struct_end _ _ G)]. apply map_in. intros [fl c]. split; [listed|].
      intros s. cbn [act]. destruct (as_static_str fl); [apply attempt_in; listed|]. cbn [told_in]. listed.
    + apply all_in; [apply (go_tuple _ _ G)| |apply (go_tuple_end _ _ G)]. apply map_in. intros c. apply simply_in; listed.
  - destruct A as (cs & K & ->). apply required_in; [listed|]. intros len. destruct l as [l|].
    + apply required_in; [listed|]. intros x. apply all_in; [apply (go_tuple_struct _ _ G)| |apply (go_tstruct_end _ _ G)]. apply map_in. intros c. apply simply_in; listed.
    + apply all_in; [apply (go_tuple _ _ G)| |apply (go_tuple_end _ _ G)]. apply map_in. intros c. apply simply_in; listed.
Qed.
End Texts.
(** Any error is the serializer's own, or [custom] of one of the listed messages. *)
Theorem C81_no_other_texts :
  forall S custom P v t n k e, gives_only S P ->
  (forall text, In text texts -> P (custom (bs "the value is invalid: " ++ bs text)%list)) ->
  whole v -> streams v t -> le (levels (mirror t)) n ->
  tto_serialize S custom n v k = RErr e -> P e.
Proof.
  intros S custom P v t n k e G T W F L E. destruct (whole_atree v t W F) as (a & -> & _ & <-). rewrite stree_mirror in *.
  destruct (tto_tells S custom n a L k) as (o & A & Eo). rewrite Eo in E. eapply (give_in S custom P T); [|exact E].
  eapply tells_in; eassumption.
Qed.

(** ** The message names what failed *)

(** The full claim: of a container no part of which can be serialized, the message names
    the first part. *)
Definition C81_names_the_part : Prop :=
  forall S custom t n k w, refuses_parts S -> le (levels (mirror t)) n -> first_part (mirror t) = Some w ->
  tto_serialize S custom n (map CE (emit t)) k = RErr (custom (bs "the value is invalid: failed to serialize " ++ bs w)%list).
(** What is said instead of "struct field" is "tuple field". *)
Lemma first_told {S K} custom (beg : result (e_err S) K) (p : part S K) ps fin text :
  no_panic beg -> late p = text -> (forall s, act p s = inr (Told text)) ->
  give custom (in_all beg (p :: ps) fin) = give custom (Told text).
Proof. intros N El Ea. destruct beg as [s|e|]; cbn [in_all go_on]; [rewrite Ea; reflexivity|rewrite El; reflexivity|congruence]. Qed.
Lemma attempt_fails {S : eserializer} {K} text (r : result (e_err S) K) : fails r -> attempt text r = inr (Told text).
Proof. intros (e & ->). reflexivity. Qed.
Theorem C81_parts_exact :
  forall S custom t n k w, refuses_parts S -> le (levels (mirror t)) n -> first_part (mirror t) = Some w ->
  tto_serialize S custom n (map CE (emit t)) k =
    RErr (custom (bs "the value is invalid: failed to serialize " ++ bs (if a_struct (mirror t) then "tuple field" else w))%list).
Proof.
  intros S custom t n k w R L W. destruct (C81_direct_values S custom t n k L) as (o & A & ->). clear L. destruct (mirror t); try discriminate W; cbn [tells] in A; cbn [first_part] in W.
  - destruct A as (o' & -> & A). destruct r; try discriminate W.
    + destruct n0 as [len|]; [|discriminate W]. destruct fs as [|[[ft fl] v] fs]; [discriminate W|].
      destruct (name_of l) as [name|]; [|discriminate W]. destruct (name_of l0) as [variant|] eqn:E0; [|discriminate W]. destruct (index_of i0) as [ix|] eqn:E1; [|discriminate W].
      destruct (as_static_str fl) as [f|] eqn:E2; [|discriminate W]. injection W as <-. destruct (A name) as ([|[cl c] cs] & K & E); [contradiction|]. destruct K as [[-> _] _].
      cbn [required]. rewrite E. cbn [required map]. rewrite E2.
      match goal with |- give custom (hush false ?x) = _ => transitivity (give custom x); [destruct x; reflexivity|] end.
      etransitivity; [eapply first_told; [apply (rp_svariant_begin _ R)|reflexivity|intros s; apply attempt_fails, (rp_svariant _ R)]|reflexivity].
    + destruct n0 as [len|]; [|discriminate W]. destruct fs as [|[[ft fl] v] fs]; [discriminate W|].
      destruct (name_of l) as [name|]; [|discriminate W]. destruct (name_of l0) as [variant|] eqn:E0; [|discriminate W]. destruct (index_of i0) as [ix|] eqn:E1; [|discriminate W].
      injection W as <-. destruct (A name) as ([|c cs] & K & E); [contradiction|].
      cbn [required]. rewrite E. cbn [required map].
      match goal with |- give custom (hush false ?x) = _ => transitivity (give custom x); [destruct x; reflexivity|] end.
      etransitivity; [eapply first_told; [apply (rp_tvariant_begin _ R)|reflexivity|intros s; apply attempt_fails, (rp_tvariant _ R)]|reflexivity].
  - destruct vs as [|v vs]; [discriminate W|]. injection W as <-. destruct A as ([|c cs] & K & ->); [contradiction|]. cbn [map].
    etransitivity; [eapply first_told; [apply (rp_seq_begin _ R)|reflexivity|intros s; apply attempt_fails, (rp_seq _ R)]|reflexivity].
  - destruct es as [|v es]; [discriminate W|]. injection W as <-. destruct A as ([|[c d] cs] & K & ->); [contradiction|]. cbn [flat_map app].
    etransitivity; [eapply first_told; [apply (rp_map_begin _ R)|reflexivity|intros s; apply attempt_fails, (rp_map _ R)]|reflexivity].
  - destruct l as [l|], n0 as [len|]; try discriminate W; destruct fs as [|[[ft fl] v] fs]; try discriminate W; destruct A as ([|[cl c] cs] & K & ->); try contradiction; destruct K as [[-> _] _]; cbn [required map].
    + destruct (as_static_str l) as [name|]; [|discriminate W]. destruct (as_static_str fl) as [f|] eqn:Ef; [|discriminate W]. cbn [required a_struct].
      etransitivity; [eapply first_told; [apply (rp_struct_begin _ R)|reflexivity|intros s; apply attempt_fails, (rp_struct _ R)]|reflexivity].
    + injection W as <-. cbn [a_struct]. etransitivity; [eapply first_told; [apply (rp_tuple_begin _ R)|reflexivity|intros s; apply attempt_fails, (rp_tuple _ R)]|reflexivity].
  - destruct l as [l|], n0 as [len|]; try discriminate W; destruct fs as [|[[ft fl] v] fs]; try discriminate W; destruct A as ([|c cs] & K & ->); try contradiction; cbn [required map].
    + destruct (as_static_str l) as [name|]; [|discriminate W]. injection W as <-. cbn [required a_struct].
      etransitivity; [eapply first_told; [apply (rp_tstruct_begin _ R)|reflexivity|intros s; apply attempt_fails, (rp_tstruct _ R)]|reflexivity].
    + injection W as <-. cbn [a_struct]. etransitivity; [eapply first_told; [apply (rp_tuple_begin _ R)|reflexivity|intros s; apply attempt_fails, (rp_tuple _ R)]|reflexivity].
Qed.
(** Missing: structs. *)
Theorem C81_names_the_part_partial :
  forall S custom t n k w, refuses_parts S -> le (levels (mirror t)) n -> first_part (mirror t) = Some w -> a_struct (mirror t) = false ->
  tto_serialize S custom n (map CE (emit t)) k = RErr (custom (bs "the value is invalid: failed to serialize " ++ bs w)%list).
Proof. intros S custom t n k w R L W A. rewrite (C81_parts_exact S custom t n k w R L W), A. reflexivity. Qed.

(** ** A serializer that takes no parts; its errors are texts *)
Definition fussy : eserializer :=
  let no := fun A => @RErr bytes A (bs "no") in
  {| e_err := bytes; e_custom := []; e_ser := unit; e_ok := unit;
     e_seq := unit; e_tuple := unit; e_tstruct := unit; e_tvariant := unit; e_map := unit; e_struct := unit; e_svariant := unit;
     es_bool _ _ := no _; es_int _ _ _ := ROk tt; es_f32 _ _ := ROk tt; es_f64 _ _ := ROk tt; es_char _ _ := ROk tt;
     es_str _ _ := ROk tt; es_bytes _ _ := ROk tt; es_collect_str _ _ := ROk tt; es_none _ := ROk tt; es_some _ c := c tt;
     es_unit _ := ROk tt; es_unit_struct _ _ := ROk tt; es_unit_variant _ _ _ _ := ROk tt; es_newtype_struct _ _ c := c tt;
     es_newtype_variant _ _ _ _ c := c tt; es_seq _ _ := ROk tt; es_tuple _ _ := ROk tt; es_tuple_struct _ _ _ := ROk tt;
     es_tuple_variant _ _ _ _ _ := ROk tt; es_map _ _ := ROk tt; es_struct _ _ _ := no _; es_struct_variant _ _ _ _ _ := ROk tt;
     e_seq_element _ c := no _; e_seq_end _ := ROk tt; e_tuple_element _ c := no _; e_tuple_end _ := ROk tt;
     e_tstruct_field _ c := no _; e_tstruct_end _ := ROk tt; e_tvariant_field _ c := no _; e_tvariant_end _ := ROk tt;
     e_map_key _ c := no _; e_map_value _ c := no _; e_map_end _ := ROk tt; e_struct_field _ _ c := no _; e_struct_end _ := ROk tt;
     e_svariant_field _ _ c := no _; e_svariant_end _ := ROk tt |}.
Lemma fussy_refuses : refuses_parts fussy.
Proof. constructor; intros; try (eexists; reflexivity); discriminate. Qed.
Lemma fussy_gives (P : bytes -> Prop) : P (bs "no") -> gives_only fussy P.
Proof. intros H. constructor; intros; intros e E; cbn in E; try discriminate E; try (injection E as <-; exact H); eapply (H0 tt); exact E. Qed.

Theorem C81_names_the_part_refuted : ~ C81_names_the_part.
Proof.
  intros H. set (t := TRecord None (Some (label_new (bs "R"))) None (Some 1%N) [(None, label_new (bs "a"), TNull)]).
  specialize (H fussy (fun e => e) t 2 tt "struct field"%string fussy_refuses (le_n 2) eq_refl). vm_compute in H. discriminate H.
Qed.

Example C81_applies :
  let run t := tto_serialize fussy (fun e => e) 5 (map CE (emit t)) tt in
  run (TBool true) = RErr (bs "no") /\
  run (TTagged (Some RUST_OPTION_SOME) None None (TBool true)) = RErr (bs "no") /\
  run (TSeq None [TBool true]) = RErr (bs "the value is invalid: failed to serialize sequence element") /\
  run (TMap None [(TNull, TNull)]) = RErr (bs "the value is invalid: failed to serialize map key") /\
  run (TRecord None (Some (label_new (bs "R"))) None (Some 0%N) []) = RErr (bs "no") /\
  run (TRecord None (Some (label_new (bs "R"))) None (Some 1%N) [(None, label_new (bs "a"), TNull)]) =
    RErr (bs "the value is invalid: failed to serialize tuple field") /\
  run (TRecord None (Some (label_new_computed (bs "R"))) None (Some 1%N) []) = RErr (bs "the value is invalid: struct label must be static") /\
  run (TEnum None (Some (label_new (bs "E"))) None (TSeq None [])) = RErr (bs "the value is invalid: sequences cannot be used as enum variants") /\
  run (TEnum None (Some (label_new (bs "E"))) None (TTag None (Some (label_new (bs "V"))) None)) =
    RErr (bs "the value is invalid: unit variant index must a 32bit value") /\
  tto_serialize fussy (fun e => e) 5 (acalls (AEnum None (Some (label_new (bs "E"))) None (AVal true (ATag None (Some (label_new (bs "V"))) None)))) tt =
    RErr (bs "the value is invalid: failed to stream value").
Proof. vm_compute. repeat split. Qed.
Example C81_no_other_texts_applies :
  gives_only fussy (fun e => e = bs "no" \/ exists text, In text texts /\ e = (bs "the value is invalid: " ++ bs text)%list) /\
  whole (map CE (emit (TSeq None [TBool true]))).
Proof. split; [apply fussy_gives; left; reflexivity|apply whole_events]. Qed.
Example C81_refines_applies : opaque_echildren picky /\ shallow (mirror (TSeq None [TBool true])) = true /\
  tto_serialize picky (fun _ => e_custom picky) 2 (map CE (emit (TSeq None [TBool true]))) tt = RErr 0.
Proof. split; [apply picky_opaque|]. split; reflexivity. Qed.

Print Assumptions C81_exact.
Print Assumptions C81_direct_values.
Print Assumptions C81_refines.
Print Assumptions C81_no_other_texts.
Print Assumptions C81_parts_exact.
Print Assumptions C81_names_the_part_partial.
Print Assumptions C81_names_the_part_refuted.
