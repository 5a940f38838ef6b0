(** * JsonNumExactProps: what any text tagged as a number becomes in JSON (C24) *)

From Verif Require Import Base Event Tree LowerModel LowerSpec FlatProofs LowerProofs MethProofs DataModel
  JsonModel JsonGrammar JsonSpec JsonMethProofs JsonProofs JsonProps JsonNumExactSpec.

Notation loop := (num_loop bytes string_write).

(** ** Proofs *)
Lemma before_from p s : before p s ++ from p s = s.
Proof. induction s as [|b s IH]; [reflexivity|]. cbn [before from]. destruct (p b); [reflexivity|]. cbn [app]. rewrite IH. reflexivity. Qed.
Lemma before_none p s : existsb p (before p s) = false.
Proof. induction s as [|b s IH]; [reflexivity|]. cbn [before]. destruct (p b) eqn:E; [reflexivity|]. cbn [existsb]. rewrite E. exact IH. Qed.
Lemma from_head p s c r : from p s = c :: r -> p c = true.
Proof. induction s as [|b s IH]; [discriminate|]. cbn [from]. destruct (p b) eqn:E; [intros [= <- _]; exact E|exact IH]. Qed.
Lemma from_nil p s : from p s = [] <-> existsb p s = false.
Proof. induction s as [|b s IH]; [split; reflexivity|]. cbn [from existsb]. destruct (p b) eqn:E; [split; discriminate|exact IH]. Qed.
Lemma before_all p s : existsb p s = false -> before p s = s.
Proof. intros H. apply from_nil in H. rewrite <- (before_from p s) at 2. rewrite H, app_nil_r. reflexivity. Qed.

Definition neg_in (s : bytes) : bool := existsb (fun b => (N_of_ascii b =? 45)%N) s.
Definition zeroes_in (s : bytes) : N := N.of_nat (List.length (filter (fun b => (N_of_ascii b =? 48)%N) s)).

Lemma wordy_is c : wordy c = ((N_of_ascii c =? 115)%N || (N_of_ascii c =? 110)%N || (N_of_ascii c =? 105)%N || (N_of_ascii c =? 83)%N || (N_of_ascii c =? 78)%N || (N_of_ascii c =? 73)%N).
Proof. reflexivity. Qed.

(** Once a digit or point was seen. *)
Lemma loop_reading q : existsb wordy q = false -> forall r h a b w, n_start h = false ->
  loop (q ++ r) h a b w = loop r h a (b + List.length q) w.
Proof.
  induction q as [|c q IH]; intros Wd r h a b w St; cbn [app List.length]; [rewrite Nat.add_0_r; reflexivity|].
  cbn [existsb] in Wd. apply orb_false_iff in Wd as (Wc & Wd). cbn [num_loop]. rewrite wordy_is in Wc. rewrite Wc, St.
  rewrite !andb_false_r. cbn [andb]. cbv zeta.
  assert (E : MkNum false (n_neg h) (n_zeroes h) (n_nan h) = h) by (destruct h; cbn in *; congruence). rewrite E.
  rewrite Nat.add_succ_r. change (S (b + List.length q)) with (S b + List.length q).
  destruct (_ && _); [apply IH; assumption|]. destruct (_ =? 46)%N; apply IH; assumption.
Qed.
(** Before. *)
Lemma loop_waiting z : existsb begins z = false -> existsb wordy z = false -> forall r h a b w, n_start h = true ->
  loop (z ++ r) h a b w =
  loop r (MkNum true (n_neg h || neg_in z) (n_zeroes h + zeroes_in z) (n_nan h)) (a + List.length (filter dropped z)) (b + List.length z) w.
Proof.
  induction z as [|c z IH]; intros B Wd r h a b w St; cbn [app List.length].
  - cbn [neg_in zeroes_in filter existsb List.length]. unfold neg_in, zeroes_in. cbn [existsb filter List.length]. rewrite !Nat.add_0_r, orb_false_r.
    replace (n_zeroes h + N.of_nat 0)%N with (n_zeroes h) by lia. destruct h; cbn in St; subst; reflexivity.
  - cbn [existsb] in B, Wd. apply orb_false_iff in B as (Bc & B). apply orb_false_iff in Wd as (Wc & Wd).
    rewrite wordy_is in Wc. unfold begins in Bc. cbv zeta in Bc. apply orb_false_iff in Bc as (B1 & B2).
    cbn [num_loop]. cbv zeta. rewrite Wc, St, B2, !andb_true_r. unfold neg_in, zeroes_in. cbn [existsb filter]. unfold dropped at 1. cbv zeta.
    destruct (N.eqb_spec (N_of_ascii c) 48) as [E|E].
    { rewrite IH by (auto; reflexivity). rewrite E. cbn [N.eqb Pos.eqb orb n_neg n_zeroes n_nan n_start List.length]. unfold neg_in, zeroes_in.
      f_equal; try lia. f_equal. lia. }
    assert (D : ((48 <=? N_of_ascii c)%N && (N_of_ascii c <=? 57)%N) = false).
    { apply andb_false_iff in B1 as [B1|B1]; apply andb_false_iff; [|auto]. left. apply N.leb_gt. apply N.leb_gt in B1. lia. }
    rewrite D. cbn [orb].
    destruct (N.eqb_spec (N_of_ascii c) 45) as [E2|E2].
    { rewrite IH by (auto; reflexivity). cbn [orb n_neg n_zeroes n_nan n_start List.length]. unfold zeroes_in. rewrite orb_true_r.
      f_equal; lia. }
    destruct (N.eqb_spec (N_of_ascii c) 43) as [E3|E3].
    { rewrite IH by auto. cbn [orb n_neg n_zeroes n_nan n_start List.length]. unfold neg_in, zeroes_in. f_equal; lia. }
    cbn [orb]. rewrite IH by auto. unfold neg_in, zeroes_in. f_equal; lia.
Qed.

Definition at_progress (p : progress) (h : num) : Prop :=
  match p with
  | Waiting m => n_start h = true /\ n_neg h = m /\ n_nan h = false
  | Reading => n_start h = false /\ n_nan h = false
  | Over => n_start h = false /\ n_nan h = true
  end.
Lemma slice_all v a : a <= List.length v ->
  str_slice v a (List.length v) = if char_boundary v a then Some (skipn a v) else None.
Proof.
  intros L. unfold str_slice. apply Nat.leb_le in L as L'. rewrite L'. cbn [andb].
  assert (E : char_boundary v (List.length v) = true).
  { unfold char_boundary. destruct (List.length v) eqn:El; [reflexivity|]. rewrite <- El.
    destruct (nth_error v (List.length v)) eqn:N; [|apply Nat.eqb_refl].
    assert (X : nth_error v (List.length v) = None) by (apply nth_error_None; lia). congruence. }
  rewrite E, andb_true_r. destruct (char_boundary v a); [|reflexivity].
  rewrite <- skipn_length, firstn_all. reflexivity.
Qed.
Lemma slice_none v : str_slice v 0 0 = Some [].
Proof. reflexivity. Qed.
Lemma filter_length_le {A} (p : A -> bool) l : List.length (filter p l) <= List.length l.
Proof. induction l as [|x l IH]; cbn; [lia|]. destruct (p x); cbn; lia. Qed.

(** The word that ends it. *)
Lemma loop_word c r h a b w : wordy c = true -> loop (c :: r) h a b w = Ok (MkNum false (n_neg h) (n_zeroes h) true, 0, 0, w ++ bs "null").
Proof.
  intros Wc. cbn [num_loop]. cbv zeta.
  assert (X : (N_of_ascii c =? 48)%N = false /\ ((48 <=? N_of_ascii c)%N && (N_of_ascii c <=? 57)%N) = false /\ (N_of_ascii c =? 46)%N = false /\
              (N_of_ascii c =? 45)%N = false /\ (N_of_ascii c =? 43)%N = false).
  { rewrite wordy_is in Wc. repeat (apply orb_true_iff in Wc as [Wc|Wc]); apply N.eqb_eq in Wc; rewrite Wc; repeat split. }
  destruct X as (-> & -> & -> & -> & ->). rewrite wordy_is in Wc. rewrite Wc. reflexivity.
Qed.
Lemma loop_begin c r h a b w : begins c = true -> n_start h = true ->
  loop (c :: r) h a b w = loop r (MkNum false (n_neg h) (n_zeroes h) (n_nan h)) a (S b)
    (w ++ (if n_neg h then bs "-" else []) ++ (if (N_of_ascii c =? 46)%N then bs "0" else [])).
Proof.
  intros B St. cbn [num_loop]. cbv zeta. rewrite St. cbn [andb]. unfold begins in B. cbv zeta in B.
  destruct (N.eqb_spec (N_of_ascii c) 46) as [E|E].
  - rewrite E. cbn [N.eqb N.leb N.compare Pos.eqb Pos.compare Pos.compare_cont andb]. destruct (n_neg h); cbn [bind string_write]; unfold string_write; rewrite <- ?app_assoc; reflexivity.
  - rewrite orb_false_r in B. apply andb_true_iff in B as (B1 & B2). apply N.leb_le in B1, B2.
    assert (E0 : (N_of_ascii c =? 48)%N = false) by (apply N.eqb_neq; lia).
    assert (E1 : ((48 <=? N_of_ascii c)%N && (N_of_ascii c <=? 57)%N) = true) by (apply andb_true_iff; split; apply N.leb_le; lia).
    rewrite E0, E1. cbn [andb]. destruct (n_neg h); unfold string_write; rewrite ?app_nil_r; reflexivity.
Qed.

Lemma piece_exact p s h w : at_progress p h ->
  match piece p s with
  | Some (o, p') => exists h', num_fragment bytes string_write s h w = Ok (h', w ++ o) /\ at_progress p' h'
  | None => num_fragment bytes string_write s h w = Panic
  end.
Proof.
  intros A. unfold piece, num_fragment. destruct p as [m| |]; cbn [at_progress] in A.
  - destruct A as (St & Ng & Nn). rewrite Nn. cbv zeta.
    set (q := before wordy s). set (z := before begins q). set (m' := m || existsb _ z).
    assert (Es : s = q ++ from wordy s) by (symmetry; apply before_from).
    assert (Eq : q = z ++ from begins q) by (symmetry; apply before_from).
    assert (Wq : existsb wordy q = false) by apply before_none.
    assert (Bz : existsb begins z = false) by apply before_none.
    assert (Wz : existsb wordy z = false /\ existsb wordy (from begins q) = false).
    { rewrite Eq, existsb_app in Wq. apply orb_false_iff in Wq. exact Wq. }
    destruct Wz as (Wz & Wf).
    assert (L1 : loop s h 0 0 w = loop (from begins q ++ from wordy s) (MkNum true m' (n_zeroes h + zeroes_in z) false) (List.length (filter dropped z)) (List.length z) w).
    { rewrite Es at 1. rewrite Eq at 1. rewrite <- app_assoc, loop_waiting by assumption. rewrite Ng, Nn. reflexivity. }
    rewrite L1. clear L1.
    set (a := List.length (filter dropped z)).
    assert (La : a <= List.length s).
    { rewrite Es, Eq, !app_length. pose proof (filter_length_le dropped z). unfold a. lia. }
    destruct (from begins q) as [|c r] eqn:Fq.
    + cbn [app]. destruct (existsb wordy s) eqn:Wd.
      * destruct (from wordy s) as [|c r] eqn:Fs; [apply from_nil in Fs; congruence|].
        rewrite loop_word by (eapply from_head, Fs). rewrite slice_none. cbn [n_neg n_zeroes string_write].
        unfold string_write. rewrite app_nil_r. eexists. split; [reflexivity|]. split; reflexivity.
      * assert (Fs : from wordy s = []) by (apply from_nil; exact Wd). rewrite Fs. cbn [num_loop].
        assert (Ez : s = z) by (rewrite Es, Fs, app_nil_r, Eq, app_nil_r; reflexivity).
        assert (Lz : List.length z = List.length s) by (symmetry; f_equal; exact Ez). rewrite Lz, slice_all by exact La.
        destruct (char_boundary s a); [|reflexivity]. unfold string_write. eexists. split; [reflexivity|]. repeat split.
    + assert (Bc : begins c = true) by (eapply from_head, Fq).
      assert (Wc : existsb wordy r = false) by (cbn [existsb] in Wf; apply orb_false_iff in Wf; apply Wf).
      cbn [app]. rewrite loop_begin by (auto; reflexivity). rewrite loop_reading by (auto; reflexivity). cbn [n_neg n_zeroes n_nan].
      destruct (existsb wordy s) eqn:Wd.
      * destruct (from wordy s) as [|d r'] eqn:Fs; [apply from_nil in Fs; congruence|].
        rewrite loop_word by (eapply from_head, Fs). rewrite slice_none. unfold string_write. rewrite app_nil_r, <- !app_assoc.
        eexists. split; [reflexivity|]. split; reflexivity.
      * assert (Fs : from wordy s = []) by (apply from_nil; exact Wd). rewrite Fs. cbn [num_loop].
        assert (Ez : S (List.length z) + List.length r = List.length s).
        { rewrite Es, Fs, app_nil_r, Eq, app_length. cbn [List.length]. lia. }
        rewrite Ez. rewrite slice_all by exact La.
        destruct (char_boundary s a); [|reflexivity]. unfold string_write. rewrite <- !app_assoc. eexists. split; [reflexivity|]. split; reflexivity.
  - destruct A as (St & Nn). rewrite Nn. cbv zeta. destruct (existsb wordy s) eqn:Wd.
    + assert (L : loop s h 0 0 w = loop (from wordy s) h 0 (List.length (before wordy s)) w).
      { transitivity (loop (before wordy s ++ from wordy s) h 0 0 w); [rewrite before_from; reflexivity|]. rewrite loop_reading by (auto; apply before_none). reflexivity. }
      rewrite L. clear L.
      destruct (from wordy s) as [|c r] eqn:Fs; [apply from_nil in Fs; congruence|].
      rewrite loop_word by (eapply from_head, Fs). rewrite slice_none. unfold string_write. rewrite app_nil_r.
      eexists. split; [reflexivity|]. split; reflexivity.
    + assert (L : loop s h 0 0 w = Ok (h, 0, List.length s, w)).
      { transitivity (loop (s ++ []) h 0 0 w); [rewrite app_nil_r; reflexivity|]. rewrite loop_reading by auto. reflexivity. }
      rewrite L, slice_all by lia.
      cbn [char_boundary skipn]. unfold string_write. eexists. split; [reflexivity|]. split; assumption.
  - destruct A as (St & Nn). rewrite Nn. exists h. rewrite app_nil_r. split; [reflexivity|split; assumption].
Qed.
Section Run.
  Variable r32 r64 : float -> bytes.
  Notation step := (json_step bytes string_write r32 r64).
  Notation jm := (meth json_over step).
  Notation J := (run jm).

  Lemma pieces_exact fs : forall p f h, f_th f = Some (HNumber h) -> at_progress p h ->
    match pieces p (map snd fs) with
    | Some (o, p') => exists h', J f (map text_frag fs) = Ok (set_th bytes (Some (HNumber h')) (set_out bytes (f_out f ++ o) f)) /\ at_progress p' h'
    | None => J f (map text_frag fs) = Panic
    end.
  Proof.
    induction fs as [|[b s] fs IH]; intros p f h T A; cbn [map pieces snd].
    - exists h. split; [|exact A]. cbn. rewrite app_nil_r. destruct f; cbn in *. rewrite T. reflexivity.
    - assert (Y : jm f (text_frag (b, s)) = text_fragment_computed bytes string_write s f)
        by (unfold text_frag; destruct b; cbn [fst snd]; [apply jm_text_frag|rewrite jm_over by reflexivity; reflexivity]).
      rewrite run_cons, Y. unfold text_fragment_computed. rewrite T. pose proof (piece_exact p s h (f_out f) A) as P.
      destruct (piece p s) as [[o p']|]; [|rewrite P; reflexivity]. destruct P as (h' & -> & A'). cbn [bind].
      match goal with |- context [J ?g (map text_frag fs)] => specialize (IH p' g h' eq_refl A') end.
      destruct (pieces p' (map snd fs)) as [[o' p'']|]; [|exact IH]. destruct IH as (h'' & -> & A''). exists h''. split; [|exact A''].
      cbn. rewrite app_assoc. reflexivity.
  Qed.
End Run.

(** ** C24, exactly *)

(** Any text whatever under [NUMBER], however it is cut: what is written, and when the
    formatter panics. *)
Theorem C24_any_text_exactly :
  forall r32 r64 v l i n fs, streams v (TTagged (Some NUMBER) l i (TText n fs)) ->
  json_to_string r32 r64 v = match number_becomes (map snd fs) with Some o => SOk o | None => SPanic end.
Proof.
  intros r32 r64 v l i n fs H. rewrite (to_string_run r32 r64 v _ H). cbn [emit].
  rewrite run_cons, jm_over by reflexivity. cbn [json_step]. unfold j_tagged_begin. cbn [otag_is]. cbv zeta.
  change (tag_eqb NUMBER JSON_TEXT) with false. change (tag_eqb NUMBER JSON_VALUE) with false. change (tag_eqb NUMBER NUMBER) with true. cbv iota.
  cbn [f_th set_tq st]. rewrite itb_skip by (left; reflexivity). cbn [bind].
  rewrite run_app, run_cons, jm_over by reflexivity. cbn [json_step]. unfold j_text_begin. cbv zeta.
  cbn [f_tq set_cde set_it set_th set_tq st bind]. rewrite run_app.
  match goal with |- context [run _ ?g (map text_frag fs)] => pose proof (pieces_exact r32 r64 fs (Waiting false) g (MkNum true false 0 false) eq_refl ltac:(repeat split)) as P end.
  unfold number_becomes. destruct (pieces (Waiting false) (map snd fs)) as [[o p]|]; [|rewrite P; reflexivity].
  destruct P as (h' & -> & A). cbn [bind]. rewrite run_one, jm_over by reflexivity. cbn [json_step]. unfold j_text_end.
  cbn [f_tq set_th set_out set_cde set_it set_tq st bind]. rewrite run_one, jm_over by reflexivity. cbn [json_step]. unfold j_tagged_end. cbn [otag_is].
  change (tag_eqb NUMBER JSON_TEXT) with false. change (tag_eqb NUMBER JSON_VALUE) with false. change (tag_eqb NUMBER NUMBER) with true. cbv iota zeta.
  cbn [f_th set_tq set_th set_out set_cde set_it st f_out]. unfold num_end.
  destruct p as [m| |]; cbn [at_progress] in A; destruct A as (St & _); rewrite St; reflexivity.
Qed.

(** Text in ASCII never makes it panic. *)
Theorem C24_ascii_never_panics :
  forall r32 r64 v l i n fs, streams v (TTagged (Some NUMBER) l i (TText n fs)) ->
  Forall (fun f => forallb (fun b => (N_of_ascii b <? 128)%N) (snd f) = true) fs ->
  json_to_string r32 r64 v <> SPanic.
Proof.
  intros r32 r64 v l i n fs H A. rewrite (C24_any_text_exactly r32 r64 v l i n fs H). unfold number_becomes.
  assert (X : forall s p, forallb (fun b => (N_of_ascii b <? 128)%N) s = true -> piece p s <> None).
  { intros s [m| |] As; unfold piece; cbv zeta; [|destruct (existsb wordy s); discriminate|discriminate].
    destruct (match from begins (before wordy s) with [] => _ | _ => _ end) as [hd p'].
    destruct (existsb wordy s); [discriminate|].
    assert (B : forall k, k <= List.length s -> char_boundary s k = true).
    { intros k L. unfold char_boundary. destruct k as [|k]; [reflexivity|]. destruct (nth_error s (S k)) eqn:E.
      - rewrite forallb_forall in As. apply nth_error_In in E. specialize (As _ E). apply N.ltb_lt in As. unfold is_cont. cbv zeta.
        apply negb_true_iff, andb_false_iff. left. apply N.leb_gt. exact As.
      - apply nth_error_None in E. apply Nat.eqb_eq. lia. }
    rewrite B; [discriminate|]. pose proof (filter_length_le dropped (before begins (before wordy s))).
    pose proof (f_equal (@List.length byte) (before_from wordy s)) as E1. pose proof (f_equal (@List.length byte) (before_from begins (before wordy s))) as E2.
    unfold bytes in *. rewrite app_length in E1, E2. lia. }
  assert (Y : forall fs p, Forall (fun f : bool * bytes => forallb (fun b => (N_of_ascii b <? 128)%N) (snd f) = true) fs -> pieces p (map snd fs) <> None).
  { clear A H. intros fs'. induction fs' as [|[b s] fs' IH]; intros p F; [discriminate|]. cbn [map pieces snd]. inversion F as [|? ? F1 F2]; subst. cbn [snd] in F1.
    specialize (X s p F1). destruct (piece p s) as [[o p']|]; [|congruence]. specialize (IH p' F2). destruct (pieces p' (map snd fs')) as [[o' p'']|]; congruence. }
  specialize (Y fs (Waiting false) A). destruct (pieces (Waiting false) (map snd fs)) as [[o p]|]; [|congruence]. destruct p; discriminate.
Qed.

Definition number_of (ss : list string) : sresult :=
  json_to_string exact_print exact_print (map CE (emit (TTagged (Some NUMBER) (lab "N") None (TText None (map (fun s => (true, bs s)) ss))))).
Example C24_any_text_samples :
  map number_of [["-00.5"]; ["0-5"]; ["x-"]; ["-1nan"]; ["1"; "inf"]; ["1 "; "2"]; []; ["0e5"]; ["0"; "0x1"]]%string =
  map (fun s => SOk (bs s)) ["-0.5"; "-5"; "-0"; "-null"; "1null"; "1 2"; "0"; "e5"; "x1"]%string.
Proof. vm_compute. reflexivity. Qed.

Print Assumptions C24_any_text_exactly.
Print Assumptions C24_ascii_never_panics.
