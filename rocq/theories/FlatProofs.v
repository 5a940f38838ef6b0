(** * FlatProofs: facts about flattening nested value calls *)

From Verif Require Import Base Event.

Lemma flat1_CV cs comp : flat1 (CV cs) comp = flat cs comp.
Proof. reflexivity. Qed.

Lemma flat1_CVC cs comp : flat1 (CVC cs) comp = flat cs true.
Proof. reflexivity. Qed.

Lemma flat_cons c cs comp :
  flat (c :: cs) comp =
  let (es, ok) := flat1 c comp in
  if ok then let (es', ok') := flat cs comp in (es ++ es', ok') else (es, false).
Proof. reflexivity. Qed.

Lemma flat_CE es comp :
  flat (map CE es) comp = (map (fun e => if comp then computed e else e) es, true).
Proof.
  induction es as [|e es IH]; [reflexivity|].
  simpl map. rewrite flat_cons, IH. reflexivity.
Qed.

Lemma flat_CE_false es : flat (map CE es) false = (es, true).
Proof. rewrite flat_CE. f_equal. apply map_id. Qed.

Lemma flat_app a b comp :
  flat (a ++ b) comp =
  let (es, ok) := flat a comp in
  if ok then let (es', ok') := flat b comp in (es ++ es', ok') else (es, false).
Proof.
  induction a as [|c a IH]; simpl app.
  - simpl. destruct (flat b comp); reflexivity.
  - rewrite !flat_cons, IH.
    destruct (flat1 c comp) as [es ok]. destruct ok; [|reflexivity].
    destruct (flat a comp) as [es' ok']. destruct ok'; [|reflexivity].
    destruct (flat b comp) as [es'' ok'']. rewrite app_assoc. reflexivity.
Qed.

(** Induction over calls. *)
Section CallInd.
  Variable P : call -> Prop.
  Hypothesis HE : forall e, P (CE e).
  Hypothesis HV : forall cs, Forall P cs -> P (CV cs).
  Hypothesis HVC : forall cs, Forall P cs -> P (CVC cs).
  Hypothesis HFail : P CFail.
  Fixpoint call_ind' (c : call) : P c :=
    let go := fix go (cs : list call) : Forall P cs :=
        match cs with
        | [] => Forall_nil _
        | c :: cs' => Forall_cons c (call_ind' c) (go cs')
        end in
    match c with
    | CE e => HE e
    | CV cs => HV cs (go cs)
    | CVC cs => HVC cs (go cs)
    | CFail => HFail
    end.
End CallInd.

Lemma computed_idem e : computed (computed e) = computed e.
Proof. destruct e; reflexivity. Qed.

(** Streaming a value through [Computed] gives the same calls with every
    borrowed fragment computed. *)
Lemma flat_computed_both :
  (forall c, flat1 c true = (map computed (fst (flat1 c false)), snd (flat1 c false))) /\
  (forall cs, flat cs true = (map computed (fst (flat cs false)), snd (flat cs false))).
Proof.
  assert (L : forall cs, Forall (fun c => flat1 c true = (map computed (fst (flat1 c false)), snd (flat1 c false))) cs ->
              flat cs true = (map computed (fst (flat cs false)), snd (flat cs false))).
  { induction cs as [|c cs IH]; intros H; [reflexivity|].
    inversion H; subst. specialize (IH H3).
    rewrite !flat_cons, H2, IH.
    destruct (flat1 c false) as [es ok]; simpl. destruct ok; simpl; [|reflexivity].
    destruct (flat cs false) as [es' ok']; simpl. rewrite map_app. reflexivity. }
  assert (C : forall c, flat1 c true = (map computed (fst (flat1 c false)), snd (flat1 c false))).
  { induction c using call_ind'; try reflexivity.
    - rewrite !flat1_CV. apply L; assumption.
    - rewrite !flat1_CVC. rewrite (L _ H). simpl.
      rewrite map_map. f_equal. apply map_ext. intros; symmetry; apply computed_idem. }
  split; [exact C|]. intros cs. apply L. apply Forall_forall. intros; apply C.
Qed.

Lemma flat_computed cs : flat cs true = (map computed (fst (flat cs false)), snd (flat cs false)).
Proof. apply flat_computed_both. Qed.
