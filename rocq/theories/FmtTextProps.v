(** * FmtTextProps: text literals in Debug-style output can be read back (C50) *)

From Verif Require Import Base Event Tree LowerModel FlatProofs Utf8 JsonUtf8Props FmtModel FmtSpec FmtProofs FmtProps.

(** ** Specification: reading a Rust string literal *)

(** The UTF-8 encoding of a scalar value. *)
Definition encode (n : N) : bytes :=
  map ascii_of_N
    (if (n <? 128)%N then [n]
     else if (n <? 2048)%N then [192 + n / 64; 128 + n mod 64]%N
     else if (n <? 65536)%N then [224 + n / 4096; 128 + n / 64 mod 64; 128 + n mod 64]%N
     else [240 + n / 262144; 128 + n / 4096 mod 64; 128 + n / 64 mod 64; 128 + n mod 64]%N).
Definition hex_val (c : byte) : option N :=
  if between 48 57 c then Some (N_of_ascii c - 48)%N
  else if between 97 102 c then Some (N_of_ascii c - 87)%N
  else None.
Definition is_char (n : N) (c : byte) : bool := (N_of_ascii c =? n)%N.
(** Between escapes; after a backslash; after [\u]; among the digits of [\u{..}]. *)
Inductive reading := Plain | Backslash | Brace | Digits (n : N).
Definition unescape_byte (c : byte) : option byte :=
  if is_char 48 c then Some (ascii_of_N 0)
  else if is_char 116 c then Some (ascii_of_N 9)
  else if is_char 114 c then Some (ascii_of_N 13)
  else if is_char 110 c then Some (ascii_of_N 10)
  else if is_char 39 c || is_char 34 c || is_char 92 c then Some c
  else None.
(** What is between the quotes, decoded; [None] if it is not a literal. *)
Fixpoint unescape (r : reading) (s : bytes) : option bytes :=
  match s with
  | [] => match r with Plain => Some [] | _ => None end
  | c :: s' =>
      match r with
      | Plain =>
          if is_char 92 c then unescape Backslash s'
          else if is_char 34 c then None
          else option_map (cons c) (unescape Plain s')
      | Backslash =>
          if is_char 117 c then unescape Brace s'
          else match unescape_byte c with
               | Some b => option_map (cons b) (unescape Plain s')
               | None => None
               end
      | Brace => if is_char 123 c then unescape (Digits 0) s' else None
      | Digits n =>
          if is_char 125 c then option_map (app (encode n)) (unescape Plain s')
          else match hex_val c with
               | Some d => unescape (Digits (16 * n + d)) s'
               | None => None
               end
      end
  end.

(** [core]'s escapes of the characters it escapes beyond ASCII are right. *)
Definition uni_ok (uni : bytes -> list bytes) : Prop :=
  forall c rest, utf8_char c = true -> 1 < List.length (uni c) ->
  unescape Plain (List.concat (uni c) ++ rest) = option_map (app c) (unescape Plain rest).

(** ** Proofs *)
Lemma concat_chars s : List.concat (chars s) = s.
Proof.
  induction s as [|c s IH]; [reflexivity|]. cbn [chars]. destruct s as [|d s]; [reflexivity|]. destruct (tail_byte d).
  - destruct (chars (d :: s)) as [|ch rest] eqn:E; [discriminate IH|]. cbn [List.concat app] in *. rewrite IH. reflexivity.
  - cbn [List.concat app]. rewrite IH. reflexivity.
Qed.
Lemma om_om {A} (f g : A -> A) o : option_map f (option_map g o) = option_map (fun x => f (g x)) o.
Proof. destruct o; reflexivity. Qed.
Lemma om_id {A} (o : option A) : option_map (fun x => x) o = o. Proof. destruct o; reflexivity. Qed.
Lemma ascii_back c rest : (N_of_ascii c <? 128)%N = true ->
  unescape Plain ((if Nat.ltb 1 (List.length (esc_ascii c)) then List.concat (esc_ascii c) else [c]) ++ rest) = option_map (cons c) (unescape Plain rest).
Proof. destruct c as [[] [] [] [] [] [] [] []]; intros H; try discriminate H; reflexivity. Qed.
Lemma high_back c rest : forallb (fun b => negb (N_of_ascii b <? 128)%N) c = true -> unescape Plain (c ++ rest) = option_map (app c) (unescape Plain rest).
Proof.
  induction c as [|b c IH]; cbn [forallb app]; intros H; [destruct (unescape Plain rest); reflexivity|]. apply andb_true_iff in H as (H1 & H2).
  cbn [unescape]. rewrite IH by exact H2. unfold is_char. apply negb_true_iff, N.ltb_ge in H1.
  destruct (N.eqb_spec (N_of_ascii b) 92); [lia|]. destruct (N.eqb_spec (N_of_ascii b) 34); [lia|]. apply om_om.
Qed.
Lemma tail_high b : tail_byte b = true -> negb (N_of_ascii b <? 128)%N = true.
Proof. unfold tail_byte, between. intros H. apply andb_true_iff in H as (H & _). apply N.leb_le in H. apply negb_true_iff, N.ltb_ge, H. Qed.
Lemma between_high lo hi b : (128 <=? lo)%N = true -> between lo hi b = true -> negb (N_of_ascii b <? 128)%N = true.
Proof. unfold between. intros L H. apply andb_true_iff in H as (H & _). apply N.leb_le in H, L. apply negb_true_iff, N.ltb_ge. lia. Qed.
Lemma high_char a b c : utf8_char (a :: b :: c) = true -> forallb (fun b => negb (N_of_ascii b <? 128)%N) (a :: b :: c) = true.
Proof.
  intros H. cbn [forallb]. apply andb_true_iff. split.
  - destruct c as [|d [|e [|? ?]]]; cbn [utf8_char] in H; try discriminate.
    + apply andb_true_iff in H as (H & _). eapply between_high; [|exact H]; reflexivity.
    + apply andb_true_iff in H as (H & _). repeat (apply orb_true_iff in H as [H|H]); apply andb_true_iff in H as (H & _); (eapply between_high; [|exact H]; reflexivity).
    + apply andb_true_iff in H as (H & _). apply andb_true_iff in H as (H & _).
      repeat (apply orb_true_iff in H as [H|H]); apply andb_true_iff in H as (H & _); (eapply between_high; [|exact H]; reflexivity).
  - change (forallb (fun b => negb (N_of_ascii b <? 128)%N) (b :: c) = true). rewrite forallb_forall. intros x I. apply tail_high. exact (char_tail _ _ _ H I).
Qed.
Lemma char_back uni c rest : uni_ok uni -> utf8_char c = true ->
  unescape Plain (esc_char uni c ++ rest) = option_map (app c) (unescape Plain rest).
Proof.
  intros U C. unfold esc_char. cbv zeta. destruct (char_cases c C) as [(a & ->)|L].
  - unfold escape_debug. assert (A : (N_of_ascii a <? 128)%N = true).
    { cbn [utf8_char] in C. unfold between in C. apply andb_true_iff in C as (_ & C). apply N.leb_le in C. apply N.ltb_lt. lia. }
    rewrite A. apply ascii_back, A.
  - assert (X : exists a b d, c = a :: b :: d) by (destruct L as [(a & b & ->)|[(a & b & d & ->)|(a & b & d & e & ->)]]; eauto).
    destruct X as (a & b & d & ->). change (escape_debug uni (a :: b :: d)) with (uni (a :: b :: d)).
    destruct (Nat.ltb 1 (List.length (uni (a :: b :: d)))) eqn:E; [apply U; [exact C|apply Nat.ltb_lt, E]|].
    apply high_back, high_char, C.
Qed.
Lemma chars_back uni cs : uni_ok uni -> forallb utf8_char cs = true ->
  unescape Plain (List.concat (map (esc_char uni) cs)) = Some (List.concat cs).
Proof.
  intros U. induction cs as [|c cs IH]; cbn [forallb map List.concat]; intros H; [reflexivity|]. apply andb_true_iff in H as (H1 & H2).
  rewrite (char_back _ _ _ U H1), (IH H2). reflexivity.
Qed.

(** ** C50 *)

(** The Debug-style output of a text is a literal, between quotes, that reads back as the
    text. *)
Theorem C50_text_literal_reads_back :
  forall r32 r64 uni v n fs, uni_ok uni -> streams v (TText n fs) -> value_utf8 v = true ->
  exists lit, fmt_to_string r32 r64 uni v = Some (bs """" ++ lit ++ bs """") /\ unescape Plain lit = Some (pieces fs).
Proof.
  intros r32 r64 uni v n fs U H V. rewrite (C30_text _ _ _ _ _ H V). exists (esc_text uni (pieces fs)). split; [reflexivity|].
  unfold esc_text. rewrite chars_back, concat_chars; [reflexivity|exact U|]. apply chars_utf8. apply frags_utf8.
  apply (flat_utf8 v false) in V. unfold streams in H. rewrite H in V. cbn [fst emit forallb] in V. rewrite forallb_app in V.
  apply andb_true_iff in V as (_ & V). apply andb_true_iff in V as (V & _). exact V.
Qed.
(** So distinct texts are written differently. *)
Theorem C50_distinct_texts :
  forall r32 r64 uni v v' n n' fs fs', uni_ok uni -> streams v (TText n fs) -> streams v' (TText n' fs') -> value_utf8 v = true -> value_utf8 v' = true ->
  fmt_to_string r32 r64 uni v = fmt_to_string r32 r64 uni v' -> pieces fs = pieces fs'.
Proof.
  intros r32 r64 uni v v' n n' fs fs' U H H' V V' E.
  destruct (C50_text_literal_reads_back r32 r64 uni v n fs U H V) as (l & A & B).
  destruct (C50_text_literal_reads_back r32 r64 uni v' n' fs' U H' V') as (l' & A' & B').
  assert (X : bs """" ++ l ++ bs """" = bs """" ++ l' ++ bs """") by congruence. cbn [bs app] in X. injection X as X. apply app_inj_tail in X as (-> & _). congruence.
Qed.

(** The ASCII characters that are written as they are: the printable ones but quotes and
    backslash; and no escape has more digits than it needs. *)
Theorem C50_ascii_escapes :
  forall uni c, (N_of_ascii c < 128)%N ->
  (esc_char uni [c] = [c] <->
   (32 <= N_of_ascii c < 127)%N /\ ~ In c [ascii_of_N 34; ascii_of_N 39; ascii_of_N 92]) /\
  forall rest, esc_char uni [c] <> bs "\u{0" ++ rest.
Proof.
  intros uni c H. split.
  - destruct c as [[] [] [] [] [] [] [] []]; try (exfalso; revert H; vm_compute; discriminate);
      vm_compute; (split; [intros E; try discriminate E|intros ((A & B) & D); try reflexivity; exfalso]);
      first [split; [split; [discriminate|reflexivity]|intros F; repeat (destruct F as [F|F]; [discriminate F|]); exact F]
            |apply A; reflexivity|discriminate B|apply D; auto].
  - intros rest. destruct c as [[] [] [] [] [] [] [] []]; try (exfalso; revert H; vm_compute; discriminate);
      cbn; discriminate.
Qed.

(** A stand-in for [core]'s tables: the zero width space is escaped. *)
Definition zwsp : bytes := map ascii_of_N [226; 128; 139]%N.
Definition some_uni (c : bytes) : list bytes := if bytes_eqb c zwsp then map (fun b => [b]) (bs "\u{200b}") else [c].
Example C50_sample : uni_ok some_uni /\
  let v := [CE (ETextBegin None); CE (ETextFrag (bs "a\""" ++ [ascii_of_N 1; ascii_of_N 127])); CE (ETextFragC (zwsp ++ map ascii_of_N [195; 169; 10]%N)); CE ETextEnd] in
  value_utf8 v = true /\
  fmt_to_string (fun _ => []) (fun _ => []) some_uni v = Some (bs """a\\\""\u{1}\u{7f}\u{200b}" ++ map ascii_of_N [195; 169]%N ++ bs "\n""").
Proof.
  split; [|vm_compute; split; reflexivity]. intros c rest C. unfold some_uni. destruct (bytes_eqb c zwsp) eqn:E; [|cbn; lia]. intros _.
  apply bytes_eqb_eq in E. subst c. destruct (unescape Plain rest) eqn:R; cbn; rewrite R; reflexivity.
Qed.

Print Assumptions C50_text_literal_reads_back.
Print Assumptions C50_distinct_texts.
Print Assumptions C50_ascii_escapes.
