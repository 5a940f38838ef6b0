(** * MethProofs: an implementor as a machine over all methods

    [meth O step s e] is what calling the method of [e] does to an implementor
    that overrides [O] with [step]; [meth_unfold] unfolds a default method by
    one call. *)

From Verif Require Import Base Event LowerModel FlatProofs LowerProofs.

Definition meth {S} (O : ev -> bool) (step : S -> ev -> res S) (s : S) (e : ev) : res S :=
  run step s (lower O depth e).

Lemma run_meth {S} O (step : S -> ev -> res S) es : forall s,
  run step s (lower_all O es) = run (meth O step) s es.
Proof.
  induction es as [|e es IH]; intros s; [reflexivity|].
  rewrite lower_all_cons, run_app, run_cons. unfold meth at 1.
  destruct (run step s (lower O depth e)); cbn [bind]; auto.
Qed.

Lemma run_one {S} (step : S -> ev -> res S) s e : run step s [e] = step s e.
Proof. simpl. destruct (step s e); reflexivity. Qed.

Lemma meth_unfold {S} O (step : S -> ev -> res S) s e :
  meth O step s e =
  if O e then step s e
  else match default_evs e with
       | None => step s e
       | Some ds => run (meth O step) s ds
       end.
Proof.
  unfold meth at 1. rewrite (lower_fuel _ depth (Datatypes.S depth)) by (pose proof (rank_depth e); lia).
  rewrite lower_unfold. destruct (O e); [apply run_one|].
  destruct (default_evs e) as [ds|]; [|apply run_one].
  apply (run_meth O step ds).
Qed.

Lemma run_impl_meth {S} O (step : S -> ev -> res S) s v :
  run_impl O step s v =
  run (meth O step) s (fst (flat v false)) >>= fun s' => if snd (flat v false) then Ok s' else Err s'.
Proof. unfold run_impl. destruct (flat v false) as [es ok]. rewrite run_meth. reflexivity. Qed.

Lemma run_ext {S} (f g : S -> ev -> res S) es : (forall s e, In e es -> f s e = g s e) ->
  forall s, run f s es = run g s es.
Proof.
  induction es as [|e es IH]; intros H s; [reflexivity|]. simpl.
  rewrite (H s e) by (left; reflexivity). destruct (g s e); cbn [bind]; auto.
  apply IH. intros; apply H; right; assumption.
Qed.

(** The default bodies as flat call lists. *)
Lemma default_evs_int_big t z : fits I64 z = false -> (t = U128 \/ t = I128) ->
  default_evs (EInt t z) =
  Some (ETaggedBegin (Some NUMBER) None None ::
        (ETextBegin None :: map ETextFragC (dec_frags z) ++ [ETextEnd]) ++
        [ETaggedEnd (Some NUMBER) None None]).
Proof.
  intros F Ht. unfold default_evs. destruct Ht; subst; cbn [default_calls]; rewrite F; cbn [option_map];
  rewrite stream_number_flat; reflexivity.
Qed.
Lemma default_evs_int_small t z : fits I64 z = true -> (t = U128 \/ t = I128) ->
  default_evs (EInt t z) = Some [EInt I64 z].
Proof. intros F Ht. unfold default_evs. destruct Ht; subst; cbn [default_calls]; rewrite F; reflexivity. Qed.
