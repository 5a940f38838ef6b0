(** * StdProps: C40 and C51, the values of standard library types *)

From Verif Require Import Base Event Tree FlatProofs Utf8 ExtractModel ExtractSpec ExtractProps StdModel StdSpec.

(** Induction over values. *)
Section RvalInd.
  Variable P : rval -> Prop.
  Hypothesis HNull : P RNull.
  Hypothesis HUnit : P RUnit.
  Hypothesis HBool : forall b, P (RBool b).
  Hypothesis HInt : forall t z, P (RInt t z).
  Hypothesis HF32 : forall f, P (RF32 f).
  Hypothesis HF64 : forall f, P (RF64 f).
  Hypothesis HChar : forall c, P (RChar c).
  Hypothesis HStr : forall s, P (RStr s).
  Hypothesis HString : forall s, P (RString s).
  Hypothesis HDisplay : forall fs ok, P (RDisplay fs ok).
  Hypothesis HNumber : forall fs ok, P (RNumber fs ok).
  Hypothesis HShown : forall fs ok, P (RShown fs ok).
  Hypothesis HBinarySlice : forall s, P (RBinarySlice s).
  Hypothesis HBinaryArray : forall s, P (RBinaryArray s).
  Hypothesis HNone : P RNone.
  Hypothesis HSome : forall v, P v -> P (RSome v).
  Hypothesis HSlice : forall vs, Forall P vs -> P (RSlice vs).
  Hypothesis HVec : forall vs, Forall P vs -> P (RVec vs).
  Hypothesis HArray : forall vs, Forall P vs -> P (RArray vs).
  Hypothesis HTuple : forall vs, Forall P vs -> P (RTuple vs).
  Hypothesis HMapSlice : forall es, Forall (fun kv => P (fst kv) /\ P (snd kv)) es -> P (RMapSlice es).
  Hypothesis HBTreeMap : forall es, Forall (fun kv => P (fst kv) /\ P (snd kv)) es -> P (RBTreeMap es).
  Hypothesis HHashMap : forall es, Forall (fun kv => P (fst kv) /\ P (snd kv)) es -> P (RHashMap es).
  Hypothesis HRef : forall v, P v -> P (RRef v).
  Hypothesis HBox : forall v, P v -> P (RBox v).
  Hypothesis HDyn : forall v, P v -> P (RDyn v).
  Hypothesis HRefAdapter : forall v, P v -> P (RRefAdapter v).
  Hypothesis HOther : forall cs t, P (ROther cs t).
  Fixpoint rval_ind' (v : rval) : P v :=
    let elems := fix go (vs : list rval) : Forall P vs :=
      match vs with [] => Forall_nil _ | v :: vs' => Forall_cons v (rval_ind' v) (go vs') end in
    let pairs := fix go (es : list (rval * rval)) : Forall (fun kv => P (fst kv) /\ P (snd kv)) es :=
      match es with
      | [] => Forall_nil _
      | kv :: es' =>
          Forall_cons kv
            (match kv as kv return P (fst kv) /\ P (snd kv) with (k, v) => conj (rval_ind' k) (rval_ind' v) end)
            (go es')
      end in
    match v with
    | RNull => HNull | RUnit => HUnit | RBool b => HBool b | RInt t z => HInt t z
    | RF32 f => HF32 f | RF64 f => HF64 f | RChar c => HChar c | RStr s => HStr s | RString s => HString s
    | RDisplay fs ok => HDisplay fs ok | RNumber fs ok => HNumber fs ok | RShown fs ok => HShown fs ok
    | RBinarySlice s => HBinarySlice s | RBinaryArray s => HBinaryArray s
    | RNone => HNone | RSome v => HSome v (rval_ind' v)
    | RSlice vs => HSlice vs (elems vs) | RVec vs => HVec vs (elems vs) | RArray vs => HArray vs (elems vs)
    | RTuple vs => HTuple vs (elems vs)
    | RMapSlice es => HMapSlice es (pairs es) | RBTreeMap es => HBTreeMap es (pairs es)
    | RHashMap es => HHashMap es (pairs es)
    | RRef v => HRef v (rval_ind' v) | RBox v => HBox v (rval_ind' v) | RDyn v => HDyn v (rval_ind' v) | RRefAdapter v => HRefAdapter v (rval_ind' v)
    | ROther cs t => HOther cs t
    end.
End RvalInd.

Lemma all_in {A} (f : A -> Prop) l : fold_right and True (map f l) -> forall x, In x l -> f x.
Proof. induction l as [|a l IH]; cbn; [tauto|]. intros [H1 H2] x [->|I]; auto. Qed.

(** ** What is streamed *)

Definition does (cs : list call) (es : list ev) : Prop := flat cs false = (es, true).
Lemma does_app a b x y : does a x -> does b y -> does (a ++ b) (x ++ y).
Proof. unfold does. intros H1 H2. rewrite flat_app, H1, H2. reflexivity. Qed.
Lemma does_nil : does [] [].
Proof. reflexivity. Qed.
Lemma does_ce e cs es : does cs es -> does (CE e :: cs) (e :: es).
Proof. unfold does. intros H. rewrite flat_cons, H. reflexivity. Qed.
Lemma does_cv c cs x es : does c x -> does cs es -> does (CV c :: cs) (x ++ es).
Proof. unfold does. intros H1 H2. rewrite flat_cons, flat1_CV, H1, H2. reflexivity. Qed.
Lemma does_cvc c cs x es : does c x -> does cs es -> does (CVC c :: cs) (map computed x ++ es).
Proof. unfold does. intros H1 H2. rewrite flat_cons, flat1_CVC, flat_computed, H1, H2. reflexivity. Qed.
Lemma does_flat_map {A B} (f : A -> list call) (g : B -> list ev) la lb :
  Forall2 (fun a b => does (f a) (g b)) la lb -> does (flat_map f la) (flat_map g lb).
Proof. induction 1; [reflexivity|]. cbn. apply does_app; assumption. Qed.

Lemma does_display fs : does (display_calls fs true) (emit (TText None (map (fun s => (false, s)) fs))).
Proof.
  unfold display_calls. apply does_ce. apply does_app; [|reflexivity].
  induction fs; [reflexivity|]. apply does_ce. assumption.
Qed.
Lemma computed_display fs : map computed (emit (TText None (map (fun s => (false, s)) fs))) = emit (TText None (map (fun s => (false, s)) fs)).
Proof.
  cbn [emit map computed]. f_equal. rewrite map_app. f_equal. rewrite !map_map. apply map_ext. reflexivity.
Qed.

Lemma does_seq vs : Forall (fun v => does (calls v) (emit (shape v))) vs ->
  does (seq_calls (fun c => [CV c]) (map calls vs)) (emit (TSeq (Some (len vs)) (map shape vs))).
Proof.
  intros H. unfold seq_calls. rewrite map_length. apply does_ce. cbn [emit]. apply does_app; [|reflexivity].
  apply does_flat_map. induction H as [|v vs D H IH]; constructor; auto.
  apply does_ce. apply does_cv; [exact D|reflexivity].
Qed.
Lemma does_map es : Forall (fun kv => does (calls (fst kv)) (emit (shape (fst kv))) /\ does (calls (snd kv)) (emit (shape (snd kv)))) es ->
  does (map_calls (map (fun kv => match kv with (k, v) => (calls k, calls v) end) es))
       (emit (TMap (Some (len es)) (map (fun kv => match kv with (k, v) => (shape k, shape v) end) es))).
Proof.
  intros H. unfold map_calls. rewrite map_length. apply does_ce. cbn [emit]. apply does_app; [|reflexivity].
  apply does_flat_map. induction H as [|[k v] es [Dk Dv] H IH]; constructor; auto.
  cbn [fst snd] in *. apply does_ce. apply does_cv; [exact Dk|].
  apply does_ce. apply does_ce. apply does_cv; [exact Dv|]. reflexivity.
Qed.

(** The table of tuple implementations. *)
Lemma tuple_impl_spec n : (1 <= n <= 16)%nat -> tuple_impl n = Some (N.of_nat n, map Z.of_nat (seq 0 n)).
Proof.
  intros H. do 17 (destruct n as [|n]; [solve [reflexivity|exfalso; lia]|]). exfalso; lia.
Qed.
Lemma from_combine {A} (l : list A) : forall i, from (Z.of_nat i) l = combine (map Z.of_nat (seq i (List.length l))) l.
Proof.
  induction l as [|a l IH]; intros i; [reflexivity|]. cbn [from List.length seq map combine]. f_equal.
  rewrite <- IH. f_equal. lia.
Qed.
Lemma combine_map_r {A B C} (f : B -> C) (a : list A) (b : list B) :
  combine a (map f b) = map (fun p => (fst p, f (snd p))) (combine a b).
Proof. revert b. induction a as [|x a IH]; intros [|y b]; cbn; rewrite ?IH; reflexivity. Qed.
Lemma flat_map_map' {A B C} (f : A -> B) (g : B -> list C) l : flat_map g (map f l) = flat_map (fun x => g (f x)) l.
Proof. induction l; cbn; rewrite ?IHl; reflexivity. Qed.

Lemma does_tuple vs : (1 <= List.length vs <= 16)%nat -> Forall (fun v => does (calls v) (emit (shape v))) vs ->
  does (calls (RTuple vs)) (emit (shape (RTuple vs))).
Proof.
  intros L H. cbn [calls shape]. unfold tuple_calls. rewrite map_length, (tuple_impl_spec _ L).
  change 0%Z with (Z.of_nat 0). rewrite from_combine, map_length, !combine_map_r. cbn [emit]. apply does_ce.
  apply does_app; [|reflexivity]. rewrite map_map, !flat_map_map'. apply does_flat_map.
  generalize (map Z.of_nat (seq 0 (List.length vs))) as is. clear L.
  induction H as [|v vs D H IH]; intros [|i is]; cbn [combine]; constructor.
  - cbn [fst snd]. apply does_ce. apply does_cv; [exact D|reflexivity].
  - apply IH.
Qed.

(** Every value of these types, however nested, streams exactly the calls of its
    tree. *)
Theorem C40_streams_its_shape : forall v, sound v -> streams (calls v) (shape v).
Proof.
  change (forall v, sound v -> does (calls v) (emit (shape v))).
  assert (L : forall vs, Forall (fun v => sound v -> does (calls v) (emit (shape v))) vs ->
    fold_right and True (map sound vs) -> Forall (fun v => does (calls v) (emit (shape v))) vs).
  { intros vs H S. rewrite Forall_forall in *. intros v I. apply H; [exact I|]. apply (all_in sound vs S v I). }
  assert (M : forall es, Forall (fun kv => (sound (fst kv) -> does (calls (fst kv)) (emit (shape (fst kv)))) /\
                                           (sound (snd kv) -> does (calls (snd kv)) (emit (shape (snd kv))))) es ->
    fold_right and True (map (fun kv => match kv with (k, v) => sound k /\ sound v end) es) ->
    Forall (fun kv => does (calls (fst kv)) (emit (shape (fst kv))) /\ does (calls (snd kv)) (emit (shape (snd kv)))) es).
  { intros es H S. rewrite Forall_forall in *. intros [k v] I. destruct (H _ I) as [A B].
    destruct (all_in (fun kv => match kv with (k, v) => sound k /\ sound v end) es S _ I). cbn in *. auto. }
  induction v using rval_ind'; cbn [sound calls shape]; intros S; try reflexivity; auto.
  - subst ok. apply does_display.
  - subst ok. cbn [emit]. apply does_ce. change (ETextBegin None :: ?a ++ [ETextEnd]) with (emit (TText None (map (fun s => (false, s)) fs))).
    rewrite <- computed_display. apply does_cvc; [apply does_display|reflexivity].
  - subst ok. rewrite <- computed_display, <- (app_nil_r (map computed _)). apply does_cvc; [apply does_display|reflexivity].
  - cbn [emit]. apply does_ce. apply does_cv; [auto|reflexivity].
  - apply does_seq. auto.
  - apply does_seq. auto.
  - unfold constant_size. apply does_ce. apply does_cv; [apply does_seq; auto|reflexivity].
  - destruct S as [S1 S2]. apply does_tuple; auto.
  - apply does_map. auto.
  - apply does_map. auto.
  - apply does_map. auto.
Qed.

Lemma forallb_map' {A B} (p : B -> bool) (f : A -> B) l : forallb p (map f l) = forallb (fun x => p (f x)) l.
Proof. induction l; cbn; rewrite ?IHl; reflexivity. Qed.
Lemma forallb_in {A} (p : A -> bool) l : (forall x, In x l -> p x = true) -> forallb p l = true.
Proof. intros H. apply forallb_forall. exact H. Qed.
Lemma len_map {A B} (f : A -> B) l : len (map f l) = len l.
Proof. unfold len. rewrite map_length. reflexivity. Qed.
Lemma len_from {A} (l : list A) : forall i, len (from i l) = len l.
Proof. unfold len. induction l as [|a l IH]; intros i; [reflexivity|]. cbn [from List.length]. rewrite !Nat2N.inj_succ, IH. reflexivity. Qed.
Lemma in_from {A} (l : list A) p : forall i, In p (from i l) -> In (snd p) l.
Proof. induction l as [|a l IH]; intros i; cbn; [tauto|]. intros [<-|I]; [left; reflexivity|right; eapply IH; exact I]. Qed.
Lemma says_same n : says (Some n) n = true.
Proof. apply N.eqb_refl. Qed.
Lemma total_one b s : (blen s =? total [(b, s)])%N = true.
Proof. unfold total. cbn. rewrite app_nil_r. apply N.eqb_refl. Qed.

(** Its size hints are exact. *)
Theorem C40_exact_hints : forall v, others (fun t => exact_hints t = true) v -> exact_hints (shape v) = true.
Proof.
  set (O := others (fun t => exact_hints t = true)).
  assert (L : forall vs, Forall (fun v => O v -> exact_hints (shape v) = true) vs -> fold_right and True (map O vs) ->
    forall t, In t (map shape vs) -> exact_hints t = true).
  { intros vs H S t I. apply in_map_iff in I as (v & <- & I). rewrite Forall_forall in H. apply H; [exact I|].
    apply (all_in O vs S v I). }
  assert (M : forall es, Forall (fun kv => (O (fst kv) -> exact_hints (shape (fst kv)) = true) /\
                                           (O (snd kv) -> exact_hints (shape (snd kv)) = true)) es ->
    fold_right and True (map (fun kv => match kv with (k, v) => O k /\ O v end) es) ->
    exact_hints (TMap (Some (len es)) (map (fun kv => match kv with (k, v) => (shape k, shape v) end) es)) = true).
  { intros es H S. cbn [exact_hints]. rewrite len_map, says_same. apply forallb_in. intros t I.
    apply in_map_iff in I as ([k v] & <- & I). rewrite Forall_forall in H. destruct (H _ I) as [A B].
    destruct (all_in (fun kv => match kv with (k, v) => O k /\ O v end) es S _ I). cbn [fst snd] in *.
    rewrite A, B by assumption. reflexivity. }
  induction v using rval_ind'; cbn [shape]; intros S; try reflexivity; auto; try (apply total_one).
  - cbn [exact_hints]. rewrite len_map, says_same. apply forallb_in. apply L; assumption.
  - cbn [exact_hints]. rewrite len_map, says_same. apply forallb_in. apply L; assumption.
  - cbn [constant_size exact_hints]. rewrite len_map, says_same. apply forallb_in. apply L; assumption.
  - cbn [exact_hints]. rewrite len_map, len_from, len_map, says_same. apply forallb_in. intros [[a b] t] I.
    apply in_map_iff in I as (p & E & I). injection E as <- <- <-. apply in_from in I. apply (L vs H S _ I).
Qed.

(** Its integers are in range. *)
Theorem C40_integers_in_range : forall v, sound v -> others (fun t => ranged t = true) v -> ranged (shape v) = true.
Proof.
  set (O := others (fun t => ranged t = true)).
  assert (L : forall vs, Forall (fun v => sound v -> O v -> ranged (shape v) = true) vs -> fold_right and True (map sound vs) ->
    fold_right and True (map O vs) -> forall t, In t (map shape vs) -> ranged t = true).
  { intros vs H S S' t I. apply in_map_iff in I as (v & <- & I). rewrite Forall_forall in H. apply H; [exact I| |].
    apply (all_in sound vs S v I). apply (all_in O vs S' v I). }
  assert (M : forall es, Forall (fun kv => (sound (fst kv) -> O (fst kv) -> ranged (shape (fst kv)) = true) /\
                                           (sound (snd kv) -> O (snd kv) -> ranged (shape (snd kv)) = true)) es ->
    fold_right and True (map (fun kv => match kv with (k, v) => sound k /\ sound v end) es) ->
    fold_right and True (map (fun kv => match kv with (k, v) => O k /\ O v end) es) ->
    ranged (TMap (Some (len es)) (map (fun kv => match kv with (k, v) => (shape k, shape v) end) es)) = true).
  { intros es H S S'. cbn [ranged]. apply forallb_in. intros t I.
    apply in_map_iff in I as ([k v] & <- & I). rewrite Forall_forall in H. destruct (H _ I) as [A B].
    destruct (all_in (fun kv => match kv with (k, v) => O k /\ O v end) es S' _ I).
    destruct (all_in (fun kv => match kv with (k, v) => sound k /\ sound v end) es S _ I). cbn [fst snd] in *.
    rewrite A, B by assumption. reflexivity. }
  induction v using rval_ind'; cbn [shape sound]; intros S S'; try reflexivity; auto.
  - cbn [ranged]. apply forallb_in. apply L; assumption.
  - cbn [ranged]. apply forallb_in. apply L; assumption.
  - cbn [constant_size ranged]. apply forallb_in. apply L; assumption.
  - destruct S as [_ S]. cbn [ranged]. apply forallb_in. intros [[a b] t] I.
    apply in_map_iff in I as (p & E & I). injection E as <- <- <-. apply in_from in I. apply (L vs H S S' _ I).
Qed.

(** A tuple's fields are numbered 0, 1, 2, ... *)
Theorem C40_tuple_indexes : forall vs k v,
  sound (RTuple vs) -> nth_error vs k = Some v -> exists fs,
  shape (RTuple vs) = TTuple None None None (Some (len vs)) fs /\
  nth_error fs k = Some (None, MkIndex (Z.of_nat k) (Some VALUE_OFFSET), shape v).
Proof.
  intros vs k v _ H. cbn [shape]. eexists. split; [reflexivity|].
  assert (G : forall (l : list tree) i k t, nth_error l k = Some t -> nth_error (from (Z.of_nat i) l) k = Some (Z.of_nat (i + k), t)).
  { induction l as [|a l IH]; intros i [|j] t E; cbn in E; try discriminate.
    - injection E as <-. cbn. rewrite Nat.add_0_r. reflexivity.
    - cbn [from nth_error]. replace (Z.of_nat i + 1)%Z with (Z.of_nat (Datatypes.S i)) by lia. rewrite (IH (Datatypes.S i) j t E).
      do 3 f_equal. lia. }
  rewrite nth_error_map. change 0%Z with (Z.of_nat 0). rewrite (G _ 0 k (shape v)).
  - reflexivity.
  - rewrite nth_error_map, H. reflexivity.
Qed.

(** A character is streamed as the UTF-8 encoding of itself. *)
Theorem C40_char_encoding : forall c, scalar c ->
  utf8_char (encode_utf8 c) = true /\ decode_utf8 (encode_utf8 c) = Some c /\ (1 <= blen (encode_utf8 c) <= 4)%N.
Proof.
  intros c S. unfold scalar in S. unfold encode_utf8.
  assert (E : forall x, (x < 256)%N -> N_of_ascii (ascii_of_N x) = x) by (intros; apply N_ascii_embedding; assumption).
  assert (B : forall lo hi x, (x < 256 -> lo <= x <= hi -> between lo hi (ascii_of_N x) = true)%N).
  { intros lo hi x Hx H. unfold between. rewrite E by exact Hx. apply andb_true_iff; split; apply N.leb_le; lia. }
  assert (T : forall x, (x < 64 -> tail_byte (ascii_of_N (128 + x)) = true)%N) by (intros; apply B; lia).
  pose proof (N.mod_upper_bound c 64 ltac:(lia)) as M0.
  pose proof (N.mod_upper_bound (c / 64) 64 ltac:(lia)) as M1.
  pose proof (N.mod_upper_bound (c / 4096) 64 ltac:(lia)) as M2.
  pose proof (N.div_mod c 64 ltac:(lia)) as D0.
  pose proof (N.div_mod (c / 64) 64 ltac:(lia)) as D1.
  pose proof (N.div_mod (c / 4096) 64 ltac:(lia)) as D2.
  rewrite N.div_div in D1 by lia. rewrite N.div_div in D2 by lia. change (64 * 64)%N with 4096%N in D1. change (4096 * 64)%N with 262144%N in D2.
  remember (c mod 64)%N as r0 eqn:E0. remember ((c / 64) mod 64)%N as r1 eqn:E1. remember ((c / 4096) mod 64)%N as r2 eqn:E2.
  clear E0 E1 E2. remember (c / 64)%N as q1 eqn:E1. remember (c / 4096)%N as q2 eqn:E2. remember (c / 262144)%N as q3 eqn:E3.
  clear E1 E2 E3.
  destruct (N.ltb_spec c 128) as [H|H]; [|destruct (N.ltb_spec c 2048) as [H'|H']; [|destruct (N.ltb_spec c 65536) as [H''|H'']]];
    (split; [|split; [|cbn; lia]]); cbn [utf8_char decode_utf8].
  - apply B; lia.
  - rewrite E by lia. reflexivity.
  - rewrite T by lia. rewrite (B 194 223)%N by lia. reflexivity.
  - rewrite !E by lia. f_equal. lia.
  - rewrite !T by lia. rewrite !andb_true_r.
    destruct (N.eq_dec q2 0) as [X|X]; [|destruct (N.eq_dec q2 13) as [X'|X'];
      [|destruct (N.leb_spec q2 12)]].
    + rewrite (B 224 224)%N by lia. rewrite (B 160 191)%N by lia. reflexivity.
    + rewrite (B 237 237 (224 + _))%N by lia. rewrite (B 128 159)%N by lia. rewrite !orb_true_r. reflexivity.
    + rewrite (B 225 236 (224 + _))%N by lia. rewrite !orb_true_r. reflexivity.
    + rewrite (B 238 239 (224 + _))%N by lia. rewrite !orb_true_r. reflexivity.
  - rewrite !E by lia. f_equal. lia.
  - rewrite !T by lia. rewrite !andb_true_r.
    destruct (N.eq_dec q3 0) as [X|X]; [|destruct (N.eq_dec q3 4) as [X'|X']].
    + rewrite (B 240 240)%N by lia. rewrite (B 144 191)%N by lia. reflexivity.
    + rewrite (B 244 244 (240 + _))%N by lia. rewrite (B 128 143)%N by lia. rewrite !orb_true_r. reflexivity.
    + rewrite (B 241 243 (240 + _))%N by lia. rewrite !orb_true_r. reflexivity.
  - rewrite !E by lia. f_equal. lia.
Qed.

(** A value that fails to display stops its container there, with an error. *)
Theorem C40_failing_display : forall fs,
  flat (calls (RSome (RDisplay fs false))) false =
  (ETaggedBegin (Some RUST_OPTION_SOME) (Some (MkLabel (bs "Some") LStatic (Some VALUE_IDENT)))
     (Some (MkIndex 1 (Some VALUE_OFFSET))) :: ETextBegin None :: map ETextFragC fs, false).
Proof.
  intros fs. cbn [calls]. rewrite flat_cons. cbn [flat1]. rewrite flat_cons, flat1_CV. unfold display_calls.
  rewrite flat_cons, flat_app. cbn [flat1]. rewrite <- (map_map ETextFragC CE), flat_CE_false. cbn.
  rewrite app_nil_r. reflexivity.
Qed.

(** ** [sval_ref] streams the same calls *)

Lemma flat_flat_map_ext {A B} (f : A -> list call) (g : B -> list call) comp la lb :
  Forall2 (fun a b => flat (f a) comp = flat (g b) comp) la lb -> flat (flat_map f la) comp = flat (flat_map g lb) comp.
Proof. induction 1 as [|a b la lb E H IH]; [reflexivity|]. cbn. rewrite !flat_app, E, IH. reflexivity. Qed.
Lemma all_some_spec {A} (os : list (option A)) l : all_some os = Some l -> os = map Some l.
Proof.
  revert l. induction os as [|[a|] os IH]; intros l H; cbn in H; try discriminate.
  - injection H as <-. reflexivity.
  - destruct (all_some os) as [l'|]; [|discriminate]. injection H as <-. cbn. rewrite (IH l' eq_refl). reflexivity.
Qed.
Lemma flat_each c comp : flat [CV c] comp = flat c comp.
Proof. rewrite flat_cons, flat1_CV. destruct (flat c comp) as [es []]; cbn; rewrite ?app_nil_r; reflexivity. Qed.
Lemma refs_forall vs cs : Forall (fun v => forall cs, ref_calls v = Some cs -> forall comp, flat cs comp = flat (calls v) comp) vs ->
  all_some (map ref_calls vs) = Some cs -> forall comp, Forall2 (fun c v => flat c comp = flat (calls v) comp) cs vs.
Proof.
  intros H A comp. apply all_some_spec in A. revert cs A. induction H as [|v vs D H IH]; intros [|c cs] A; try discriminate; constructor.
  - injection A as A1 A2. apply D. exact A1.
  - injection A as A1 A2. apply IH. exact A2.
Qed.
Lemma flat_wrap a b x y comp : flat x comp = flat y comp -> flat (CE a :: x ++ [CE b]) comp = flat (CE a :: y ++ [CE b]) comp.
Proof. intros H. rewrite !flat_cons, !flat_app, H. reflexivity. Qed.
Lemma ref_seq cs vs comp : Forall2 (fun c v => flat c comp = flat (calls v) comp) cs vs ->
  flat (seq_calls (fun c => c) cs) comp = flat (seq_calls (fun c => [CV c]) (map calls vs)) comp.
Proof.
  intros H. unfold seq_calls. rewrite map_length.
  replace (List.length cs) with (List.length vs) by (induction H; cbn; congruence).
  apply flat_wrap. rewrite flat_map_map'. apply flat_flat_map_ext.
  induction H as [|c v cs vs E H IH]; constructor; auto. apply flat_wrap. rewrite flat_each. exact E.
Qed.

(** Streaming by reference makes exactly the calls of streaming the value, for
    every value and through [Computed] as well, whether it fails or not. *)
Theorem C40_refs_stream_like_values :
  forall v cs, ref_calls v = Some cs -> forall comp, flat cs comp = flat (calls v) comp.
Proof.
  induction v using rval_ind'; cbn [ref_calls calls]; intros cs' E comp; try discriminate; auto.
  - destruct (all_some (map ref_calls vs)) as [cs|] eqn:A; [|discriminate]. injection E as <-.
    apply ref_seq. apply refs_forall; assumption.
  - destruct (all_some (map ref_calls vs)) as [cs|] eqn:A; [|discriminate]. injection E as <-.
    apply ref_seq. apply refs_forall; assumption.
  - destruct (all_some (map ref_calls vs)) as [cs|] eqn:A; [|discriminate]. injection E as <-.
    refine (flat_wrap _ _ (seq_calls (fun c => c) cs) [CV (seq_calls (fun c => [CV c]) (map calls vs))] comp _). rewrite flat_each.
    apply ref_seq. apply refs_forall; assumption.
  - destruct (all_some (map ref_calls vs)) as [cs|] eqn:A; [|discriminate]. injection E as <-.
    pose proof (refs_forall vs cs H A comp) as F. unfold tuple_calls. rewrite map_length.
    replace (List.length cs) with (List.length vs) by (clear -F; induction F; cbn; congruence).
    destruct (tuple_impl (List.length vs)) as [[n is]|]; [|reflexivity]. apply flat_wrap.
    rewrite combine_map_r, flat_map_map'. apply flat_flat_map_ext. clear - F. revert is.
    induction F as [|c v cs vs E F IH]; intros [|i is]; cbn [combine]; constructor; auto.
    cbn [fst snd]. apply flat_wrap. rewrite flat_each. exact E.
  - injection E as <-. reflexivity.
Qed.

(** ** C51: the conversions agree with what is streamed *)

(** [tag], [to_bool], [to_f32], [to_f64], [to_text] and [to_binary] return what the
    tree of the value holds, whether the type overrides them or not. *)
Theorem C51_conversions_match_the_stream : forall v, sound v ->
  r_tag v = tag_of (shape v) /\ r_to_bool v = bool_of (shape v) /\
  r_to_f32 v = f32_of (shape v) /\ r_to_f64 v = f64_of (shape v) /\
  r_to_text v = text_of (shape v) /\ r_to_binary v = bin_of (shape v).
Proof.
  intros v S.
  assert (D : forall v, sound v -> value_tag (calls v) = tag_of (shape v) /\ to_bool (calls v) = bool_of (shape v) /\
    to_f32 (calls v) = f32_of (shape v) /\ to_f64 (calls v) = f64_of (shape v) /\
    to_text (calls v) = text_of (shape v) /\ to_binary (calls v) = bin_of (shape v)).
  { intros w Sw. pose proof (C40_streams_its_shape w Sw) as H.
    rewrite (C09_tag_exact_on_trees _ _ H), (C09_to_bool_exact_on_trees _ _ H), (C09_to_f32_exact_on_trees _ _ H),
      (C09_to_f64_exact_on_trees _ _ H), (C08_to_text_exact_on_trees _ _ H), (C08_to_binary_exact_on_trees _ _ H). auto 10. }
  pose proof (D v S) as Dv. revert S Dv.
  induction v using rval_ind'; intros S Dv; try exact Dv; try (apply IHv; [exact S|apply D; exact S]).
  - destruct Dv as (A & _). split; [exact A|]. destruct (IHv S (D v S)) as (_ & R). exact R.
Qed.

(** Integers: a conversion returns the integer inside and only if it fits. *)
Theorem C51_integers_sound : forall ty v z, sound v -> others (fun t => ranged t = true) v ->
  r_to_int ty v = Some z -> (exists src, int_of (shape v) = Some (src, z)) /\ fits ty z = true.
Proof.
  assert (V : forall ty t z, visible_int ty t = Some z -> (exists src, int_of t = Some (src, z)) /\ fits ty z = true).
  { intros ty t z H. unfold visible_int in H. destruct (int_of t) as [[src x]|]; [|discriminate].
    destruct (if unsigned ty then _ else _); [|discriminate]. destruct (fits ty x) eqn:F; [|discriminate].
    injection H as <-. eauto. }
  assert (D : forall ty v z, sound v -> others (fun t => ranged t = true) v -> to_int ty (calls v) = Some z ->
    (exists src, int_of (shape v) = Some (src, z)) /\ fits ty z = true).
  { intros ty v z S O H. rewrite (C06_int_extraction_exact_on_trees ty _ _ (C40_streams_its_shape v S)) in H; [apply V; exact H|].
    apply C40_integers_in_range; assumption. }
  intros ty v. induction v using rval_ind'; intros x S O H'; try (apply D; [exact S|exact O|exact H']); try (apply IHv; assumption).
  - cbn [r_to_int] in H'. cbn [sound] in S. rewrite (C07_complete_across_widths_partial t ty z S) in H'.
    destruct (convertible t ty); [|discriminate]. destruct (fits ty z) eqn:F; [|discriminate]. injection H' as <-.
    split; [|exact F]. exists t. reflexivity.
  - discriminate.
Qed.
(** For an integer inside options and references, exactly when. *)
Theorem C51_integers_exact : forall ty v src z, sound v -> inside v = RInt src z ->
  r_to_int ty v = if convertible src ty && fits ty z then Some z else None.
Proof.
  intros ty v src z. induction v using rval_ind'; cbn [inside sound r_to_int]; intros S E; try discriminate; auto.
  injection E as -> ->. rewrite (C07_complete_across_widths_partial src ty z S). destruct (convertible src ty); reflexivity.
Qed.

(** ** Non-vacuity *)

(** [Some(&("é", [1u8, 2]))], a map with an option key, a number. *)
Definition std_sample : rval :=
  RSome (RRef (RTuple [RChar 233; RArray [RInt U8 1; RInt U8 2];
    RBTreeMap [(RNone, RNumber [bs "-"; bs "15"] true)]; RBox (RDyn (RVec [RF64 (S754_zero true)]))])).
Example C40_sample : sound std_sample /\ others (fun t => exact_hints t = true) std_sample /\
  others (fun t => ranged t = true) std_sample /\
  List.length (emit (shape std_sample)) = 43 /\ calls std_sample <> [].
Proof. repeat split; try reflexivity; try (cbn; lia); try discriminate. all: try (left; reflexivity). Qed.
Example C40_sample_ref :
  ref_calls (RArray [RTuple [RRefAdapter (RStr (bs "a")); RBox (RRefAdapter (RInt I32 5))]]) <> None.
Proof. discriminate. Qed.
Example C51_sample :
  r_to_int I32 (RSome (RRef (RInt I32 (-5)))) = Some (-5)%Z /\ r_to_int I64 (RInt I32 (-5)) = None /\
  r_to_int U8 (RInt U64 300) = None /\ r_to_text (RSome (RBox (RDyn (RStr (bs "ab"))))) = Some (bs "ab") /\
  r_to_text (RChar 97) = None /\ r_to_binary (RBinaryArray (bs "x")) = Some (bs "x") /\
  r_tag (RSome (RBool true)) = Some RUST_OPTION_SOME /\ r_tag (RRef (RStr (bs "a"))) = None.
Proof. repeat split; vm_compute; reflexivity. Qed.

Print Assumptions C40_streams_its_shape.
Print Assumptions C40_exact_hints.
Print Assumptions C40_integers_in_range.
Print Assumptions C40_tuple_indexes.
Print Assumptions C40_char_encoding.
Print Assumptions C40_failing_display.
Print Assumptions C40_refs_stream_like_values.
Print Assumptions C51_conversions_match_the_stream.
Print Assumptions C51_integers_sound.
Print Assumptions C51_integers_exact.
