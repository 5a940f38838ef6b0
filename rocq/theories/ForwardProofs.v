(** * ForwardProofs *)

From Verif Require Import Base Event FlatProofs ForwardModel.

Lemma fwd_ref_id e : fwd_ref e = e.
Proof. destruct e; reflexivity. Qed.
Lemma fwd_dyn_id e : fwd_dyn e = e.
Proof. destruct e; reflexivity. Qed.
Lemma fwd_computed_spec e : fwd_computed e = computed e.
Proof. destruct e; reflexivity. Qed.

Section P.
  Context {S : Type} (step : S -> ev -> res S).

  Lemma do_ev_spec o : forall e s,
    do_ev step o e s = step s (if has_computed o then computed e else e).
  Proof.
    induction o; intros e s; cbn [do_ev has_computed]; try reflexivity;
      rewrite ?fwd_ref_id, ?fwd_dyn_id, ?fwd_computed_spec; try apply IHo.
    rewrite IHo. destruct (has_computed o); [|reflexivity]. rewrite computed_idem; reflexivity.
  Qed.

  Lemma has_computed_layers n o : has_computed (dyn_layers n o) = has_computed o.
  Proof. revert o; induction n; intros o; simpl; [reflexivity|]. rewrite IHn. reflexivity. Qed.

  Definition run_flat (p : list ev * bool) (s : S) : res S :=
    run step s (fst p) >>= fun s' => if snd p then Ok s' else Err s'.

  Lemma run_flat_seq c cs comp s :
    run_flat (flat (c :: cs) comp) s =
    run_flat (flat1 c comp) s >>= fun s' => run_flat (flat cs comp) s'.
  Proof.
    rewrite flat_cons. destruct (flat1 c comp) as [es ok].
    unfold run_flat. destruct ok; cbn [fst snd].
    - destruct (flat cs comp) as [es' ok']. cbn [fst snd]. rewrite run_app.
      destruct (run step s es); reflexivity.
    - destruct (run step s es); reflexivity.
  Qed.

  Lemma do_call_spec : forall c o s, do_call step c o s = run_flat (flat1 c (has_computed o)) s.
  Proof.
    assert (L : forall cs, Forall (fun c => forall o s, do_call step c o s = run_flat (flat1 c (has_computed o)) s) cs ->
                forall o s,
                ((fix go (cs : list call) (o : obj) (s : S) : res S :=
                    match cs with
                    | [] => Ok s
                    | c :: cs' => do_call step c o s >>= fun s' => go cs' o s'
                    end) cs o s) = run_flat (flat cs (has_computed o)) s).
    { induction cs as [|c cs IH]; intros H o s; [reflexivity|].
      inversion H; subst. rewrite run_flat_seq, H2.
      destruct (run_flat (flat1 c (has_computed o)) s); cbn [bind]; auto. }
    induction c using call_ind'; intros o s.
    - cbn [do_call flat1]. rewrite do_ev_spec. unfold run_flat. cbn [fst snd run].
      destruct (step s _); reflexivity.
    - rewrite flat1_CV. specialize (L cs H).
      induction o; cbn [do_call has_computed].
      + apply (L OBase).
      + apply IHo.
      + apply IHo.
      + apply (L (OComputed o)).
      + apply (L (ODyn o)).
    - rewrite flat1_CVC. specialize (L cs H). cbn [do_call].
      assert (G : forall o n,
        (fix dvc (o : obj) (layers : nat) (s : S) : res S :=
             match o with
             | OBase => (fix go (cs : list call) (o : obj) (s : S) : res S :=
                    match cs with
                    | [] => Ok s
                    | c :: cs' => do_call step c o s >>= fun s' => go cs' o s'
                    end) cs (dyn_layers layers (OComputed OBase)) s
             | OMut o' | OBox o' | OComputed o' => dvc o' layers s
             | ODyn o' => dvc o' (Datatypes.S layers) s
             end) o n s = run_flat (flat cs true) s).
      { induction o0; intros n; try apply IHo0. rewrite L, has_computed_layers. reflexivity. }
      apply G.
    - reflexivity.
  Qed.

  Lemma do_calls_spec cs o s : do_calls step cs o s = run_flat (flat cs (has_computed o)) s.
  Proof.
    revert s; induction cs as [|c cs IH]; intros s; [reflexivity|].
    rewrite run_flat_seq. cbn [do_calls]. rewrite do_call_spec.
    destruct (run_flat (flat1 c (has_computed o)) s); cbn [bind]; auto.
  Qed.

  Lemma do_calls_transparent cs o s : has_computed o = false ->
    do_calls step cs o s = do_calls step cs OBase s.
  Proof. intros H. rewrite !do_calls_spec, H. reflexivity. Qed.

  Lemma do_calls_stream_value cs s : do_calls step cs OBase s = stream_value step s cs.
  Proof. rewrite do_calls_spec. unfold stream_value, run_flat. cbn [has_computed].
         destruct (flat cs false); reflexivity. Qed.
End P.
