(** * JsonParse: a parser for the grammar of JsonGrammar.v

    It reads every JSON text and returns the value the grammar gives it, so the
    value of a text is unique, and a text it rejects is not JSON.  Nothing here
    mentions sval. *)

From Verif Require Import Base LowerSpec JsonGrammar JsonNumProofs.

(** Values up to equality of numbers. *)
Inductive jv_eq : jv -> jv -> Prop :=
| jq_null : jv_eq JNull JNull
| jq_bool : forall b, jv_eq (JBool b) (JBool b)
| jq_num : forall m e m' e', dec_eq m e m' e' -> jv_eq (JNum m e) (JNum m' e')
| jq_str : forall s, jv_eq (JStr s) (JStr s)
| jq_arr : forall vs vs', Forall2 jv_eq vs vs' -> jv_eq (JArr vs) (JArr vs')
| jq_obj : forall ms ms', Forall2 (fun a b => fst a = fst b /\ jv_eq (snd a) (snd b)) ms ms' -> jv_eq (JObj ms) (JObj ms').

Fixpoint skip_ws (s : bytes) : bytes :=
  match s with b :: s' => if is_ws b then skip_ws s' else s | [] => [] end.

(** The longest prefix of bytes satisfying a test. *)
Fixpoint span (p : byte -> bool) (s : bytes) : bytes * bytes :=
  match s with
  | b :: s' => if p b then let (a, r) := span p s' in (b :: a, r) else ([], s)
  | [] => ([], [])
  end.

Definition num_byte (b : byte) : bool :=
  is_digit b || is_byte 43 b || is_byte 45 b || is_byte 46 b || is_byte 69 b || is_byte 101 b.

Definition take_sign (s : bytes) : sgn * bytes :=
  match s with
  | b :: s' => if is_byte 43 b then (Plus, s') else if is_byte 45 b then (Minus, s') else (NoSign, s)
  | [] => (NoSign, [])
  end.
Definition take_frac (s : bytes) : option bytes * bytes :=
  match s with
  | b :: s' => if is_byte 46 b then let (d, r) := span is_digit s' in (Some d, r) else (None, s)
  | [] => (None, [])
  end.
Definition take_exp (s : bytes) : option (byte * sgn * bytes) * bytes :=
  match s with
  | b :: s' => if is_byte 69 b || is_byte 101 b then
                 let (sg, s') := take_sign s' in
                 let (d, r) := span is_digit s' in (Some (b, sg, d), r)
               else (None, s)
  | [] => (None, [])
  end.
(** A literal; [None] when the bytes are not one. *)
Definition parse_lit (s : bytes) : option literal :=
  let (sg, s) := take_sign s in
  let (ip, s) := span is_digit s in
  let (fp, s) := take_frac s in
  let (ep, s) := take_exp s in
  match s with [] => Some (MkLit sg ip fp ep) | _ => None end.

Definition nonempty (s : bytes) : bool := match s with [] => false | _ => true end.
Definition json_litb (l : literal) : bool :=
  nonempty (lt_int l) &&
  (match lt_frac l with Some d => nonempty d | None => true end) &&
  (match lt_exp l with Some (_, _, d) => nonempty d | None => true end) &&
  (match lt_sign l with Plus => false | _ => true end) &&
  (match lt_int l with b :: _ :: _ => negb (is_byte 48 b) | _ => true end).

(** The body of a string up to its closing quote. *)
Fixpoint scan (s : bytes) : option (bytes * bytes) :=
  match s with
  | [] => None
  | b :: s' =>
      if is_byte 34 b then Some ([], s')
      else if is_byte 92 b then
        match s' with
        | c :: s'' => match scan s'' with Some (x, r) => Some (b :: c :: x, r) | None => None end
        | [] => None
        end
      else match scan s' with Some (x, r) => Some (b :: x, r) | None => None end
  end.

Fixpoint expect (w s : bytes) : option bytes :=
  match w, s with
  | [], s => Some s
  | a :: w, b :: s => if Ascii.eqb a b then expect w s else None
  | _, [] => None
  end.

Definition parse_string (s : bytes) : option (bytes * bytes) :=
  match scan s with
  | Some (x, r) => match unescape x with Some k => Some (k, r) | None => None end
  | None => None
  end.

Definition parse_number (s : bytes) : option (jv * bytes) :=
  let (x, r) := span num_byte s in
  match parse_lit x with
  | Some l => if json_litb l then Some (JNum (lit_m l) (lit_e l), r) else None
  | None => None
  end.

Definition after_ws {A} (x : option (A * bytes)) : option (A * bytes) :=
  match x with Some (v, r) => Some (v, skip_ws r) | None => None end.

Fixpoint pv (n : nat) (s : bytes) : option (jv * bytes) :=
  match n with
  | 0 => None
  | S n =>
      match s with
      | [] => None
      | b :: s' =>
          if is_byte 34 b then match parse_string s' with Some (k, r) => Some (JStr k, r) | None => None end
          else if is_byte 110 b then match expect (bs "null") s with Some r => Some (JNull, r) | None => None end
          else if is_byte 116 b then match expect (bs "true") s with Some r => Some (JBool true, r) | None => None end
          else if is_byte 102 b then match expect (bs "false") s with Some r => Some (JBool false, r) | None => None end
          else if is_byte 91 b then
            match skip_ws s' with
            | c :: r => if is_byte 93 c then Some (JArr [], r)
                        else match pe n s' with Some (vs, r) => Some (JArr vs, r) | None => None end
            | [] => None
            end
          else if is_byte 123 b then
            match skip_ws s' with
            | c :: r => if is_byte 125 c then Some (JObj [], r)
                        else match pm n s' with Some (ms, r) => Some (JObj ms, r) | None => None end
            | [] => None
            end
          else
            parse_number s
      end
  end
with pe (n : nat) (s : bytes) : option (list jv * bytes) :=
  match n with
  | 0 => None
  | S n =>
      match after_ws (pv n (skip_ws s)) with
      | Some (v, b :: r) =>
          if is_byte 44 b then match pe n r with Some (vs, r) => Some (v :: vs, r) | None => None end
          else if is_byte 93 b then Some ([v], r) else None
      | _ => None
      end
  end
with pm (n : nat) (s : bytes) : option (list (bytes * jv) * bytes) :=
  match n with
  | 0 => None
  | S n =>
      match skip_ws s with
      | b :: s =>
          if is_byte 34 b then
            match after_ws (parse_string s) with
            | Some (k, c :: s) =>
                if is_byte 58 c then
                  match after_ws (pv n (skip_ws s)) with
                  | Some (v, b :: r) =>
                      if is_byte 44 b then match pm n r with Some (ms, r) => Some ((k, v) :: ms, r) | None => None end
                      else if is_byte 125 b then Some ([(k, v)], r) else None
                  | _ => None
                  end
                else None
            | _ => None
            end
          else None
      | [] => None
      end
  end.

(** A whole text. *)
Definition parse (s : bytes) : option jv :=
  match after_ws (pv (2 * List.length s + 1) (skip_ws s)) with
  | Some (v, []) => Some v
  | _ => None
  end.

(** ** The parser reads every JSON text *)
Lemma is_byte_eq n b : (n < 256)%N -> is_byte n b = true -> b = ascii_of_N n.
Proof. intros _ H. unfold is_byte in H. apply N.eqb_eq in H. rewrite <- H. symmetry. apply ascii_N_embedding. Qed.

(** What may follow a value inside a text. *)
Definition stops (r : bytes) : Prop :=
  match r with [] => True | b :: _ => is_ws b = false /\ num_byte b = false end.
Definition stops_num (r : bytes) : Prop := match r with [] => True | b :: _ => num_byte b = false end.

Lemma skip_ws_app w s : ws w -> skip_ws (w ++ s) = skip_ws s.
Proof.
  unfold ws. induction w as [|b w IH]; [reflexivity|]. cbn [forallb app skip_ws]. intros H.
  apply andb_true_iff in H as [-> H]. auto.
Qed.
Lemma skip_ws_head b s : is_ws b = false -> skip_ws (b :: s) = b :: s.
Proof. intros H. cbn [skip_ws]. rewrite H. reflexivity. Qed.
Lemma skip_ws_stops r : stops r -> skip_ws r = r.
Proof. destruct r as [|b r]; [reflexivity|]. intros (H & _). apply skip_ws_head, H. Qed.
Lemma ws_not_num b : is_ws b = true -> num_byte b = false.
Proof. destruct b as [[] [] [] [] [] [] [] []]; (reflexivity || discriminate). Qed.
Lemma ws_stops w r : ws w -> stops r -> stops_num (w ++ r).
Proof.
  destruct w as [|b w]; cbn [app].
  - destruct r; [trivial|]. intros _ (_ & H). exact H.
  - intros H _. unfold ws in H. cbn [forallb] in H. apply andb_true_iff in H as [H _]. apply ws_not_num, H.
Qed.

Lemma span_all p s r : forallb p s = true -> match r with [] => True | b :: _ => p b = false end -> span p (s ++ r) = (s, r).
Proof.
  intros H R. induction s as [|b s IH]; cbn [app span].
  - destruct r as [|b r]; [reflexivity|]. cbn [span]. rewrite R. reflexivity.
  - cbn [forallb] in H. apply andb_true_iff in H as [-> H]. rewrite IH by exact H. reflexivity.
Qed.

Lemma digit_num b : is_digit b = true -> num_byte b = true.
Proof. intros H. unfold num_byte. rewrite H. reflexivity. Qed.
Lemma digits_num s : forallb is_digit s = true -> forallb num_byte s = true.
Proof.
  induction s as [|b s IH]; [reflexivity|]. cbn [forallb]. intros H. apply andb_true_iff in H as [H1 H2].
  rewrite digit_num, IH by assumption. reflexivity.
Qed.
Lemma lit_num l : lit_ok l -> forallb num_byte (lit_text l) = true.
Proof.
  intros ((_ & A) & B & C). unfold lit_text. rewrite !forallb_app.
  assert (S : forall s, forallb num_byte (sgn_text s) = true) by (intros []; reflexivity).
  repeat (apply andb_true_iff; split).
  - apply S.
  - apply digits_num, A.
  - destruct (lt_frac l) as [d|]; [|reflexivity]. exact (digits_num _ (proj2 B)).
  - destruct (lt_exp l) as [[[e s] d]|]; [|reflexivity]. cbn [exp_text forallb].
    destruct C as (E & D). apply andb_true_iff; split; [destruct E as [->| ->]; reflexivity|].
    rewrite forallb_app. apply andb_true_iff; split; [apply S|apply digits_num, D].
Qed.

Lemma take_sign_sgn s d : digits1 d -> forall r, take_sign (sgn_text s ++ d ++ r) = (s, d ++ r).
Proof.
  intros (N & D) r. destruct s; cbn [sgn_text app]; [|reflexivity..].
  destruct d as [|b d]; [congruence|]. cbn [forallb] in D. apply andb_true_iff in D as [D _]. cbn [app take_sign].
  destruct b as [[] [] [] [] [] [] [] []]; (reflexivity || discriminate).
Qed.
Lemma parse_lit_text l : lit_ok l -> parse_lit (lit_text l) = Some l.
Proof.
  intros (A & B & C). destruct l as [sg ip fp ep]. cbn [lt_sign lt_int lt_frac lt_exp] in *.
  unfold parse_lit, lit_text. cbn [lt_sign lt_int lt_frac lt_exp].
  rewrite (take_sign_sgn sg ip A).
  assert (X : forall (e : option (byte * sgn * bytes)),
    match e with None => True | Some (e, _, d) => (e = "e"%char \/ e = "E"%char) /\ digits1 d end ->
    match exp_text e with [] => True | b :: _ => is_digit b = false /\ is_byte 46 b = false end).
  { intros [[[e s] d]|]; [|trivial]. intros ([->| ->] & _); cbn; auto. }
  assert (F : match frac_text fp ++ exp_text ep with [] => True | b :: _ => is_digit b = false end).
  { destruct fp; cbn [frac_text app]; [reflexivity|]. specialize (X ep C). destruct (exp_text ep); [trivial|apply X]. }
  rewrite (span_all is_digit ip) by (exact F || exact (proj2 A)).
  assert (G : take_frac (frac_text fp ++ exp_text ep) = (fp, exp_text ep)).
  { specialize (X ep C). destruct fp as [d|]; cbn [frac_text app].
    - change ((bs "." ++ d) ++ exp_text ep) with ("."%char :: d ++ exp_text ep). cbn [take_frac].
      change (is_byte 46 "."%char) with true. cbv iota.
      rewrite (span_all is_digit d); [reflexivity|exact (proj2 B)|]. destruct (exp_text ep); [trivial|apply X].
    - destruct (exp_text ep) as [|b x]; [reflexivity|]. cbn [take_frac]. rewrite (proj2 X). reflexivity. }
  rewrite G. destruct ep as [[[e s] d]|]; cbn [exp_text]; [|reflexivity].
  destruct C as (E & D).
  assert (Eb : is_byte 69 e || is_byte 101 e = true) by (destruct E as [->| ->]; reflexivity).
  cbn [take_exp]. rewrite Eb. pose proof (take_sign_sgn s d D []) as T. rewrite app_nil_r in T. rewrite T.
  pose proof (span_all is_digit d [] (proj2 D) I) as P. rewrite app_nil_r in P. rewrite P. reflexivity.
Qed.
Lemma json_lit_b l : json_lit l -> json_litb l = true.
Proof.
  intros ((A & B & C) & Sg & Z). unfold json_litb. repeat (apply andb_true_iff; split).
  - destruct A as (N & _). destruct (lt_int l); [congruence|reflexivity].
  - destruct (lt_frac l); [|reflexivity]. destruct B as (N & _). destruct b; [congruence|reflexivity].
  - destruct (lt_exp l) as [[[e s] d]|]; [|reflexivity]. destruct C as (_ & N & _). destruct d; [congruence|reflexivity].
  - destruct (lt_sign l); congruence.
  - destruct Z as [->|Z]; [reflexivity|]. destruct (lt_int l) as [|b [|c r]]; [reflexivity..|].
    destruct (is_byte 48 b) eqn:E; [|reflexivity]. apply is_byte_eq in E; [|reflexivity]. contradiction.
Qed.

Lemma scan_escaped b c t : is_byte 34 b = false -> is_byte 92 b = true ->
  scan (b :: c :: t) = match scan t with Some (x, r) => Some (b :: c :: x, r) | None => None end.
Proof. intros E1 E2. cbn [scan]. rewrite E1, E2. reflexivity. Qed.
Lemma scan_unescape s : forall k r, unescape s = Some k -> scan (s ++ ascii_of_N 34 :: r) = Some (s, r).
Proof.
  assert (Ind : forall n s k r, List.length s <= n -> unescape s = Some k -> scan (s ++ ascii_of_N 34 :: r) = Some (s, r)).
  2: { intros k r. apply (Ind (List.length s)). apply le_n. }
  clear s. induction n as [|n IH]; intros s k r L U.
  - destruct s; [reflexivity|simpl in L; lia].
  - destruct s as [|b s]; [reflexivity|]. cbn [List.length] in L. cbn [unescape] in U. cbn [app scan].
    destruct (is_byte 34 b) eqn:Q; [discriminate|]. destruct (is_byte 92 b) eqn:B.
    + destruct s as [|e s]; [discriminate|]. cbn [app]. cbn [List.length] in L.
      assert (G : forall k', unescape s = Some k' -> match scan (s ++ ascii_of_N 34 :: r) with Some (x, r0) => Some (b :: e :: x, r0) | None => None end = Some (b :: e :: s, r)).
      { intros k' U'. rewrite (IH s k' r) by (assumption || lia). reflexivity. }
      assert (Gp : forall p t k', s = p ++ t -> forallb (fun c => negb (is_byte 34 c) && negb (is_byte 92 c)) p = true -> unescape t = Some k' ->
                scan (s ++ ascii_of_N 34 :: r) = Some (s, r)).
      { intros p t k' -> Hp U'. rewrite <- app_assoc.
        assert (Lt : List.length t <= n) by (rewrite app_length in L; lia).
        pose proof (IH t k' r Lt U') as S0. clear - Hp S0.
        induction p as [|c p IHp]; [exact S0|]. cbn [forallb] in Hp. apply andb_true_iff in Hp as [Hc Hp].
        apply andb_true_iff in Hc as [H1 H2]. cbn [app scan].
        destruct (is_byte 34 c); [discriminate|]. destruct (is_byte 92 c); [discriminate|].
        rewrite (IHp Hp). reflexivity. }
      assert (Hx : forall c, hex_val c <> None -> negb (is_byte 34 c) && negb (is_byte 92 c) = true).
      { intros c. destruct c as [[] [] [] [] [] [] [] []]; cbn; congruence. }
      destruct (is_byte 117 e).
      * destruct s as [|a1 [|a2 [|a3 [|a4 s4]]]]; try discriminate.
        unfold hex4 in U. destruct (hex_val a1) eqn:E1; [|discriminate]. destruct (hex_val a2) eqn:E2; [|discriminate].
        destruct (hex_val a3) eqn:E3; [|discriminate]. destruct (hex_val a4) eqn:E4; [|discriminate].
        assert (H4 : forallb (fun c => negb (is_byte 34 c) && negb (is_byte 92 c)) [a1; a2; a3; a4] = true).
        { cbn [forallb]. rewrite !Hx by congruence. reflexivity. }
        match type of U with context [high_surrogate ?c] => destruct (high_surrogate c) end.
        -- destruct s4 as [|b1 [|b2 [|c1 [|c2 [|c3 [|c4 s10]]]]]]; try discriminate.
           destruct (is_byte 92 b1) eqn:B1; [|discriminate]. destruct (is_byte 117 b2) eqn:B2; [|discriminate]. cbn [andb] in U.
           destruct (hex_val c1) eqn:F1; [|discriminate]. destruct (hex_val c2) eqn:F2; [|discriminate].
           destruct (hex_val c3) eqn:F3; [|discriminate]. destruct (hex_val c4) eqn:F4; [|discriminate].
           match type of U with context [low_surrogate ?c] => destruct (low_surrogate c); [|discriminate] end.
           destruct (unescape s10) as [k'|] eqn:U10; [|discriminate].
           assert (S10 : scan (s10 ++ ascii_of_N 34 :: r) = Some (s10, r)) by (apply (IH s10 k' r); [cbn [List.length] in L; lia|exact U10]).
           assert (Ne : is_byte 34 b1 = false) by (apply is_byte_eq in B1; [subst b1; reflexivity|reflexivity]).
           assert (Sk : forall p t x, forallb (fun c => negb (is_byte 34 c) && negb (is_byte 92 c)) p = true ->
                     scan t = Some (x, r) -> scan (p ++ t) = Some (p ++ x, r)).
           { clear. induction p as [|c p IHp]; intros t x Hp St; [exact St|]. cbn [forallb] in Hp.
             apply andb_true_iff in Hp as [Hc Hp]. apply andb_true_iff in Hc as [H1 H2]. cbn [app scan].
             destruct (is_byte 34 c); [discriminate|]. destruct (is_byte 92 c); [discriminate|].
             rewrite (IHp _ _ Hp St). reflexivity. }
           assert (H5 : forallb (fun c => negb (is_byte 34 c) && negb (is_byte 92 c)) [c1; c2; c3; c4] = true).
           { cbn [forallb]. rewrite !Hx by congruence. reflexivity. }
           pose proof (Sk _ _ _ H5 S10) as S6.
           assert (S4 : scan (b1 :: b2 :: [c1; c2; c3; c4] ++ s10 ++ ascii_of_N 34 :: r) = Some (b1 :: b2 :: c1 :: c2 :: c3 :: c4 :: s10, r)).
           { exact (eq_trans (scan_escaped b1 b2 _ Ne B1) (f_equal (fun o => match o with Some (x, r) => Some (b1 :: b2 :: x, r) | None => None end) S6)). }
           pose proof (Sk _ _ _ H4 S4) as S0.
           exact (f_equal (fun o => match o with Some (x, r) => Some (b :: e :: x, r) | None => None end) S0).
        -- match type of U with context [low_surrogate ?c] => destruct (low_surrogate c); [discriminate|] end.
           destruct (unescape s4) as [k'|] eqn:U4; [|discriminate].
           rewrite (Gp [a1; a2; a3; a4] s4 k' eq_refl H4 U4). reflexivity.
      * destruct (simple_escape e); [|discriminate]. destruct (unescape s) as [k'|] eqn:U'; [|discriminate]. apply (G k' eq_refl).
    + destruct (N_of_ascii b <? 32)%N; [discriminate|]. destruct (unescape s) as [k'|] eqn:U'; [|discriminate].
      rewrite (IH s k' r) by (assumption || lia). reflexivity.
Qed.
Lemma parse_string_ok b k r : unescape b = Some k -> parse_string (b ++ [ascii_of_N 34] ++ r) = Some (k, r).
Proof. intros U. cbn [app]. unfold parse_string. rewrite (scan_unescape b k r U), U. reflexivity. Qed.

(** The first byte of a value. *)
Lemma value_head s v : json_value s v -> exists b s', s = b :: s' /\ is_ws b = false /\ is_byte 93 b = false /\ is_byte 125 b = false.
Proof.
  intros H. destruct H as [| | |s m e N|b s U|w W|s vs E|w W|s ms M]; try (eexists _, _; split; [reflexivity|]; repeat split; reflexivity).
  destruct N as (l & ((A & _) & Sg & _) & -> & _). destruct A as (N & D). unfold lit_text.
  destruct (lt_int l) as [|b ip]; [congruence|]. cbn [forallb] in D. apply andb_true_iff in D as [D _].
  destruct (lt_sign l); [|congruence|].
  - cbn [sgn_text app]. eexists _, _. split; [reflexivity|].
    destruct b as [[] [] [] [] [] [] [] []]; try discriminate D; repeat split; reflexivity.
  - eexists _, _. split; [reflexivity|]. repeat split; reflexivity.
Qed.

Definition reads_value (s : bytes) (v : jv) : Prop := forall n r, 2 * List.length s + 1 <= n -> stops_num r ->
  exists v', pv n (s ++ r) = Some (v', r) /\ jv_eq v' v.
Definition reads_text (s : bytes) (v : jv) : Prop := forall n r, 2 * List.length s + 1 <= n -> stops r ->
  exists v', after_ws (pv n (skip_ws (s ++ r))) = Some (v', r) /\ jv_eq v' v.
Definition reads_elems (s : bytes) (vs : list jv) : Prop := forall n r, 2 * List.length s + 2 <= n ->
  exists vs', pe n (s ++ bs "]" ++ r) = Some (vs', r) /\ Forall2 jv_eq vs' vs.
Definition reads_members (s : bytes) (ms : list (bytes * jv)) : Prop := forall n r, 2 * List.length s + 2 <= n ->
  exists ms', pm n (s ++ bs "}" ++ r) = Some (ms', r) /\ Forall2 (fun a b => fst a = fst b /\ jv_eq (snd a) (snd b)) ms' ms.

Lemma elems_head s vs r : json_elems s vs -> exists b s', skip_ws (s ++ r) = b :: s' /\ is_byte 93 b = false.
Proof.
  intros H.
  assert (G : forall s v r, json_text s v -> exists b s', skip_ws (s ++ r) = b :: s' /\ is_byte 93 b = false).
  { intros s0 v r0 [w1 x w2 v0 W1 W2 V]. destruct (value_head _ _ V) as (b & s' & -> & Hw & Hb & _).
    rewrite <- app_assoc, skip_ws_app by exact W1. cbn [app]. rewrite skip_ws_head by exact Hw. eauto. }
  destruct H as [s v T|s v r0 vs T E].
  - eapply G, T.
  - rewrite <- app_assoc. eapply G, T.
Qed.
Lemma members_head s ms r : json_members s ms -> exists b s', skip_ws (s ++ r) = b :: s' /\ is_byte 125 b = false.
Proof.
  intros H. destruct H as [w1 w2 b k s v W1 W2 U T|w1 w2 b k s v r0 ms W1 W2 U T M];
    rewrite <- app_assoc, skip_ws_app by exact W1; unfold quoted; cbn [app]; rewrite skip_ws_head by reflexivity;
    eexists _, _; (split; [reflexivity|]); reflexivity.
Qed.

Lemma reads_all : forall s v, json_text s v -> reads_text s v.
Proof.
  apply (json_text_mind
    (fun s v _ => reads_value s v) (fun s v _ => reads_text s v)
    (fun s vs _ => reads_elems s vs) (fun s ms _ => reads_members s ms)).
  - intros n r L St. destruct n; [lia|]. exists JNull. split; [reflexivity|constructor].
  - intros n r L St. destruct n; [lia|]. exists (JBool true). split; [reflexivity|constructor].
  - intros n r L St. destruct n; [lia|]. exists (JBool false). split; [reflexivity|constructor].
  - intros s m e (l & J & -> & Q) n r L St. destruct n; [lia|]. pose proof J as (Lo & Sg & _).
    exists (JNum (lit_m l) (lit_e l)). split; [|constructor; exact Q].
    pose proof (lit_num _ Lo) as Nb.
    assert (Hd : exists b x, lit_text l = b :: x /\ (is_digit b = true \/ b = "-"%char)).
    { destruct Lo as ((N & D) & _). unfold lit_text. destruct (lt_int l) as [|b ip]; [congruence|].
      cbn [forallb] in D. apply andb_true_iff in D as [D _]. destruct (lt_sign l); [|congruence|]; cbn [sgn_text app];
        (eexists _, _; split; [reflexivity|]); [left; exact D|right; reflexivity]. }
    assert (Pn : parse_number (lit_text l ++ r) = Some (JNum (lit_m l) (lit_e l), r)).
    { unfold parse_number. rewrite (span_all num_byte (lit_text l) r Nb St), (parse_lit_text _ Lo), (json_lit_b _ J). reflexivity. }
    destruct Hd as (b & x & E & Hb).
    assert (Hp : forall b x, is_digit b = true \/ b = "-"%char -> pv (S n) (b :: x) = parse_number (b :: x)).
    { clear. intros b x [D| ->]; [|reflexivity]. destruct b as [[] [] [] [] [] [] [] []]; try discriminate D; reflexivity. }
    rewrite <- Pn, E. exact (Hp b (x ++ r) Hb).
  - intros b s U n r L St. destruct n; [lia|]. exists (JStr s). split; [|constructor].
    unfold quoted. rewrite <- !app_assoc. change ([ascii_of_N 34] ++ b ++ [ascii_of_N 34] ++ r) with (ascii_of_N 34 :: b ++ [ascii_of_N 34] ++ r).
    cbn [pv]. change (is_byte 34 (ascii_of_N 34)) with true. cbv iota.
    rewrite (parse_string_ok b s r U). reflexivity.
  - intros w W n r L St. destruct n; [lia|]. exists (JArr []). split; [|constructor; constructor].
    rewrite <- !app_assoc. cbn [app bs list_ascii_of_string pv]. change (is_byte 34 "["%char) with false. cbv iota.
    rewrite skip_ws_app by exact W. reflexivity.
  - intros s vs E IH n r L St. destruct n; [lia|].
    rewrite !app_length in L. cbn in L.
    destruct (IH n r ltac:(lia)) as (vs' & R & Q). exists (JArr vs'). split; [|constructor; exact Q].
    rewrite <- !app_assoc. change (bs "[" ++ ?x) with ("["%char :: x). cbn [pv].
    change (is_byte 34 "["%char) with false. change (is_byte 110 "["%char) with false. change (is_byte 116 "["%char) with false.
    change (is_byte 102 "["%char) with false. change (is_byte 91 "["%char) with true. cbv iota.
    destruct (elems_head s vs (bs "]" ++ r) E) as (b & s' & Hs & Hb). rewrite Hs, Hb, R. reflexivity.
  - intros w W n r L St. destruct n; [lia|]. exists (JObj []). split; [|constructor; constructor].
    rewrite <- !app_assoc. cbn [app bs list_ascii_of_string pv]. change (is_byte 34 "{"%char) with false. cbv iota.
    rewrite skip_ws_app by exact W. reflexivity.
  - intros s ms M IH n r L St. destruct n; [lia|].
    rewrite !app_length in L. cbn in L.
    destruct (IH n r ltac:(lia)) as (ms' & R & Q). exists (JObj ms'). split; [|constructor; exact Q].
    rewrite <- !app_assoc. change (bs "{" ++ ?x) with ("{"%char :: x). cbn [pv].
    change (is_byte 34 "{"%char) with false. change (is_byte 110 "{"%char) with false. change (is_byte 116 "{"%char) with false.
    change (is_byte 102 "{"%char) with false. change (is_byte 91 "{"%char) with false. change (is_byte 123 "{"%char) with true. cbv iota.
    destruct (members_head s ms (bs "}" ++ r) M) as (b & s' & Hs & Hb). rewrite Hs, Hb, R. reflexivity.
  - intros w1 s w2 v W1 W2 V IH n r L St. rewrite !app_length in L.
    destruct (IH n (w2 ++ r) ltac:(lia) (ws_stops _ _ W2 St)) as (v' & R & Q). exists v'. split; [|exact Q].
    rewrite <- !app_assoc, skip_ws_app by exact W1. destruct (value_head _ _ V) as (b & s' & -> & Hw & _).
    cbn [app] in *. rewrite skip_ws_head by exact Hw. rewrite R. cbn [after_ws]. rewrite skip_ws_app by exact W2.
    rewrite skip_ws_stops by exact St. reflexivity.
  - intros s v T IH n r L. destruct n; [lia|].
    destruct (IH n (bs "]" ++ r) ltac:(lia)) as (v' & R & Q); [split; reflexivity|].
    exists [v']. split; [|constructor; [exact Q|constructor]]. cbn [pe]. rewrite R. reflexivity.
  - intros s v r0 vs T IHt E IHe n r L. destruct n; [lia|]. rewrite !app_length in L. cbn [bs list_ascii_of_string List.length] in L.
    destruct (IHt n (bs "," ++ r0 ++ bs "]" ++ r) ltac:(lia)) as (v' & R & Q); [split; reflexivity|].
    destruct (IHe n r ltac:(lia)) as (vs' & R' & Q'). exists (v' :: vs'). split; [|constructor; assumption].
    cbn [pe]. rewrite <- !app_assoc, R. change (bs "," ++ ?x) with (","%char :: x). cbv iota.
    change (is_byte 44 ","%char) with true. cbv iota. rewrite R'. reflexivity.
  - intros w1 w2 b k s v W1 W2 U T IH n r L. destruct n; [lia|]. rewrite !app_length in L.
    destruct (IH n (bs "}" ++ r) ltac:(lia)) as (v' & R & Q); [split; reflexivity|].
    exists [(k, v')]. split; [|constructor; [split; [reflexivity|exact Q]|constructor]].
    cbn [pm]. unfold quoted. rewrite <- !app_assoc, skip_ws_app by exact W1.
    match goal with |- context [skip_ws ([ascii_of_N 34] ++ ?x)] => change ([ascii_of_N 34] ++ x) with (ascii_of_N 34 :: x) end. rewrite skip_ws_head by reflexivity.
    change (is_byte 34 (ascii_of_N 34)) with true. cbv iota.
    rewrite (parse_string_ok b k _ U). cbn [after_ws]. rewrite skip_ws_app by exact W2.
    change (bs ":" ++ ?x) with (":"%char :: x). rewrite skip_ws_head by reflexivity.
    change (is_byte 58 ":"%char) with true. cbv iota. rewrite R. reflexivity.
  - intros w1 w2 b k s v r0 ms W1 W2 U T IHt M IHm n r L. destruct n; [lia|]. rewrite !app_length in L. cbn [bs list_ascii_of_string List.length] in L.
    destruct (IHt n (bs "," ++ r0 ++ bs "}" ++ r) ltac:(lia)) as (v' & R & Q); [split; reflexivity|].
    destruct (IHm n r ltac:(lia)) as (ms' & R' & Q').
    exists ((k, v') :: ms'). split; [|constructor; [split; [reflexivity|exact Q]|exact Q']].
    cbn [pm]. unfold quoted. rewrite <- !app_assoc, skip_ws_app by exact W1.
    match goal with |- context [skip_ws ([ascii_of_N 34] ++ ?x)] => change ([ascii_of_N 34] ++ x) with (ascii_of_N 34 :: x) end. rewrite skip_ws_head by reflexivity.
    change (is_byte 34 (ascii_of_N 34)) with true. cbv iota.
    rewrite (parse_string_ok b k _ U). cbn [after_ws]. rewrite skip_ws_app by exact W2.
    change (bs ":" ++ ?x) with (":"%char :: x). rewrite skip_ws_head by reflexivity.
    change (is_byte 58 ":"%char) with true. cbv iota. rewrite R. change (bs "," ++ ?x) with (","%char :: x). cbv iota.
    change (is_byte 44 ","%char) with true. cbv iota. rewrite R'. reflexivity.
Qed.

Theorem parse_complete s v : json_text s v -> exists v', parse s = Some v' /\ jv_eq v' v.
Proof.
  intros H. destruct (reads_all s v H (2 * List.length s + 1) [] (le_n _) I) as (v' & R & Q).
  rewrite app_nil_r in R. exists v'. split; [|exact Q]. unfold parse. rewrite R. reflexivity.
Qed.

(** ** A text has one value *)
Section JvInd.
  Variable P : jv -> Prop.
  Hypothesis HN : P JNull.
  Hypothesis HB : forall b, P (JBool b).
  Hypothesis HM : forall m e, P (JNum m e).
  Hypothesis HS : forall s, P (JStr s).
  Hypothesis HA : forall vs, Forall P vs -> P (JArr vs).
  Hypothesis HO : forall ms, Forall (fun m => P (snd m)) ms -> P (JObj ms).
  Fixpoint jv_ind' (v : jv) : P v :=
    match v with
    | JNull => HN
    | JBool b => HB b
    | JNum m e => HM m e
    | JStr s => HS s
    | JArr vs => HA vs ((fix go vs : Forall P vs :=
                           match vs with [] => Forall_nil _ | v :: vs' => Forall_cons v (jv_ind' v) (go vs') end) vs)
    | JObj ms => HO ms ((fix go ms : Forall (fun m => P (snd m)) ms :=
                           match ms with
                           | [] => Forall_nil _
                           | m :: ms' => Forall_cons m (match m as m return P (snd m) with (_, v) => jv_ind' v end) (go ms')
                           end) ms)
    end.
End JvInd.

Lemma jv_eq_refl v : jv_eq v v.
Proof.
  induction v using jv_ind'; constructor.
  - reflexivity.
  - induction H; constructor; assumption.
  - induction H; constructor; [split; [reflexivity|assumption]|assumption].
Qed.
Lemma jv_eq_euclid v : forall a b, jv_eq v a -> jv_eq v b -> jv_eq a b.
Proof.
  induction v using jv_ind'; intros va vb A B; inversion A; inversion B; subst; try constructor.
  - eapply dec_eq_trans; [apply dec_eq_sym|]; eassumption.
  - clear A B. revert vs' vs'0 H1 H4. induction H as [|v vs Hv Hvs IH]; intros x y X Y; inversion X; inversion Y; subst; constructor; eauto.
  - clear A B. revert ms' ms'0 H1 H4. induction H as [|v vs Hv Hvs IH]; intros x y X Y; inversion X; inversion Y; subst; constructor; eauto.
    repeat match goal with H : _ /\ _ |- _ => destruct H end. split; [congruence|eauto].
Qed.

Theorem text_value_unique s v v' : json_text s v -> json_text s v' -> jv_eq v v'.
Proof.
  intros A B. apply parse_complete in A as (x & Px & Ex). apply parse_complete in B as (y & Py & Ey).
  rewrite Px in Py. injection Py as <-. eapply jv_eq_euclid; eassumption.
Qed.
Lemma not_json s : parse s = None -> forall v, ~ json_text s v.
Proof. intros H v T. apply parse_complete in T as (x & Px & _). congruence. Qed.
