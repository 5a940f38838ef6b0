(** * JsonMethProofs: every [Stream] method of the JSON formatter

    [jmeth] is what calling a method does, default methods included. *)

From Verif Require Import Base Event Tree LowerModel FlatProofs LowerProofs MethProofs DataModel JsonModel.

Section Meth.
  Variable W : Type.
  Variable wr : W -> bytes -> res W.
  Variable ryu32 ryu64 : float -> bytes.
  Notation step := (json_step W wr ryu32 ryu64).
  Notation jm := (meth json_over step).

  Lemma jm_over f e : json_over e = true -> jm f e = step f e.
  Proof. intros H. rewrite meth_unfold, H. reflexivity. Qed.

  Ltac one := rewrite meth_unfold; cbn [json_over default_evs default_calls option_map flat flat1 fst snd app];
    rewrite run_one, jm_over by reflexivity; reflexivity.
  Lemma jm_text_frag f s : jm f (ETextFrag s) = text_fragment_computed W wr s f.
  Proof. one. Qed.
  Lemma jm_bin_begin f n : jm f (EBinBegin n) = j_seq_begin W wr f.
  Proof. one. Qed.
  Lemma jm_bin_end f : jm f EBinEnd = j_seq_end W wr f.
  Proof. one. Qed.
  Lemma jm_hint f t : jm f (ETagHint t) = Ok f.
  Proof. rewrite meth_unfold. reflexivity. Qed.
  Lemma jm_record_val_end f t l : jm f (ERecordValEnd t l) = Ok f.
  Proof. one. Qed.
  Lemma jm_tuple_val_begin f t i : jm f (ETupleValBegin t i) = j_seq_value_begin W wr f.
  Proof. one. Qed.
  Lemma jm_tuple_val_end f t i : jm f (ETupleValEnd t i) = Ok f.
  Proof. one. Qed.
  Lemma jm_rectup_begin f t l i n : jm f (ERecTupBegin t l i n) = j_record_begin W wr l i f.
  Proof. one. Qed.
  Lemma jm_rectup_val_begin f t l i : jm f (ERecTupValBegin t l i) = j_record_value_begin W wr l f.
  Proof. one. Qed.
  Lemma jm_rectup_val_end f t l i : jm f (ERecTupValEnd t l i) = Ok f.
  Proof. rewrite meth_unfold. cbn [json_over default_evs default_calls option_map flat flat1 fst snd app].
    rewrite run_one. apply jm_record_val_end. Qed.
  Lemma jm_rectup_end f t l i : jm f (ERecTupEnd t l i) = j_record_end W wr l i f.
  Proof. one. Qed.

  Definition bin_bytes_evs (s : bytes) : list ev :=
    flat_map (fun b => [ESeqValBegin; EInt U8 (byte_val b); ESeqValEnd]) s.
  Lemma bin_bytes_flat s :
    fst (flat (flat_map (fun b => [CE ESeqValBegin; CE (EInt U8 (byte_val b)); CE ESeqValEnd]) s) false) = bin_bytes_evs s.
  Proof.
    unfold bin_bytes_evs. induction s as [|b s IH]; [reflexivity|]. cbn [flat_map app].
    rewrite !flat_cons. cbn [flat1]. cbv iota.
    destruct (flat (flat_map _ s) false) as [es ok] eqn:E. cbn [fst] in *. rewrite IH. reflexivity.
  Qed.
  Lemma jm_bin_fragc f s : jm f (EBinFragC s) = run jm f (bin_bytes_evs s).
  Proof.
    rewrite meth_unfold. cbn [json_over]. unfold default_evs. cbn [default_calls option_map].
    rewrite bin_bytes_flat. reflexivity.
  Qed.
  Lemma jm_bin_frag f s : jm f (EBinFrag s) = run jm f (bin_bytes_evs s).
  Proof.
    rewrite meth_unfold. cbn [json_over default_evs default_calls option_map flat flat1 fst snd app].
    rewrite run_one. apply jm_bin_fragc.
  Qed.
End Meth.
