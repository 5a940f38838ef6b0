(** * RustFmtProps: plain Rust data as Debug text (C65) *)

From Verif Require Import Base Event Tree FlatProofs Utf8 JsonUtf8Props FmtModel FmtSpec FmtProofs FmtProps BufferedProps
  StdModel StdSpec StdProps RustModel RustSpec RustProofs RustFmtSpec.

Lemma in_all {A} (f : A -> list ev) l : (forall a, In a l -> forallb ev_utf8 (f a) = true) -> forallb ev_utf8 (flat_map f l) = true.
Proof. induction l as [|a l IH]; intros H; [reflexivity|]. cbn [flat_map]. rewrite forallb_app, H, IH; [reflexivity| |left; reflexivity]. intros b I. apply H. right. exact I. Qed.
Lemma identifier_utf8 s : identifier s = true -> utf8 s = true.
Proof. destruct s as [|b s]; [reflexivity|]. unfold identifier. rewrite andb_true_iff. tauto. Qed.
Lemma bracket_utf8 b m e : ev_utf8 b = true -> forallb ev_utf8 m = true -> ev_utf8 e = true -> forallb ev_utf8 (b :: m ++ [e]) = true.
Proof. intros B M E. cbn [forallb]. rewrite forallb_app, B, M. cbn [forallb]. rewrite E. reflexivity. Qed.

Definition good (t : tree) : Prop := forallb ev_utf8 (emit t) = true.
Lemma from_in {A} (l : list A) : forall z k x, In (k, x) (from z l) -> In x l.
Proof. induction l as [|a l IH]; intros z k x I; [destruct I|]. cbn [from] in I. destruct I as [E|I]; [injection E as _ <-; left; reflexivity|right; eapply IH; exact I]. Qed.
Lemma plain_good name i s ts : identifier name = true -> style_ok s = true -> Forall good ts -> List.length ts = arity s -> good (plain_tree name i s ts).
Proof.
  intros N S H L. apply identifier_utf8 in N. rewrite Forall_forall in H. unfold good.
  destruct s as [|[|[|n]]|names]; cbn [plain_tree].
  - cbn. rewrite N. reflexivity.
  - cbn [emit]. destruct ts; [|discriminate]. cbn. rewrite N. reflexivity.
  - destruct ts as [|t [|? ?]]; try discriminate. cbn [nth emit]. apply bracket_utf8; [exact N| |exact N]. apply H. left. reflexivity.
  - cbn [emit]. apply bracket_utf8; [exact N| |exact N]. apply in_all. intros [[ft fi] v] I. apply in_map_iff in I as ([k x] & E & I).
    injection E as <- <- <-. apply bracket_utf8; [reflexivity| |reflexivity]. apply H. eapply from_in. exact I.
  - unfold style_ok in S. apply andb_true_iff in S as (_ & S). cbn [field_names] in S. rewrite forallb_forall in S.
    cbn [emit]. apply bracket_utf8; [exact N| |exact N]. apply in_all. intros [[[ft fl] fi] v] I. apply in_map_iff in I as ([n [k x]] & E & I).
    injection E as <- <- <- <-. assert (U : utf8 n = true) by (apply identifier_utf8, S; eapply in_combine_l; exact I).
    apply bracket_utf8; [exact U| |exact U]. apply H. eapply from_in. eapply in_combine_r. exact I.
Qed.
Lemma all_good p32 p64 d32 d64 v : typed v -> same_text p32 p64 d32 d64 v -> good (dtree v).
Proof.
  assert (F : forall vs, Forall (fun v => typed v -> same_text p32 p64 d32 d64 v -> good (dtree v)) vs ->
    fold_right and True (map typed vs) -> fold_right and True (map (same_text p32 p64 d32 d64) vs) -> Forall good (map dtree vs)).
  { clear v. induction 1 as [|v vs Hv _ IH]; cbn; intros T S; [constructor|]. constructor; [apply Hv; tauto|apply IH; tauto]. }
  induction v using datum_ind'; intros T S; cbn [typed same_text] in T, S; try reflexivity; try contradiction.
  - unfold good. cbn. rewrite T. reflexivity.
  - unfold good. cbn [dtree shape emit]. apply bracket_utf8; [reflexivity| |reflexivity]. apply IHv; assumption.
  - specialize (F _ H T S). unfold good. cbn [dtree emit]. apply bracket_utf8; [reflexivity| |reflexivity]. apply in_all. intros x I.
    apply bracket_utf8; [reflexivity| |reflexivity]. rewrite Forall_forall in F. apply F. exact I.
  - specialize (F _ H T S). unfold good. cbn [dtree constant_size emit]. apply bracket_utf8; [reflexivity| |reflexivity].
    apply bracket_utf8; [reflexivity| |reflexivity]. apply in_all. intros x I.
    apply bracket_utf8; [reflexivity| |reflexivity]. rewrite Forall_forall in F. apply F. exact I.
  - specialize (F _ H (proj2 T) (proj2 S)). unfold good. cbn [dtree emit]. apply bracket_utf8; [reflexivity| |reflexivity]. apply in_all. intros [[ft fi] x] I.
    apply in_map_iff in I as ([k y] & E & I). injection E as <- <- <-.
    apply bracket_utf8; [reflexivity| |reflexivity]. rewrite Forall_forall in F. apply F. eapply from_in. exact I.
  - subst es. reflexivity.
  - apply IHv; assumption.
  - destruct T as (D & L & T). destruct S as (_ & S). specialize (F _ H T S). cbn [dtree]. unfold data_tree.
    destruct (variant_of d i) as [[name s]|] eqn:V; [|contradiction]. destruct (style_of_decl _ _ _ _ D V) as (Sk & N).
    assert (P : forall j, good (plain_tree name j s (map dtree fs))) by (intros j; apply plain_good; try assumption; rewrite map_length; exact L).
    destruct d as [n s'|n vs]; [apply P|]. unfold good. cbn [emit]. cbn [decl_ok] in D. apply andb_true_iff in D as (D & _). apply andb_true_iff in D as (D & _).
    apply identifier_utf8 in D. apply bracket_utf8; [exact D|apply P|exact D].
Qed.

Section Text.
  Variable p32 p64 d32 d64 : float -> bytes.
  Variable uni : bytes -> list bytes.
  Notation debug := (debug p32 p64 uni true false).
  Notation debug_of := (debug_of d32 d64 uni).

  Lemma chars_in s : forall ch, In ch (chars s) -> forall b, In b ch -> In b s.
  Proof.
    induction s as [|c s IH]; intros ch I b B; [destruct I|]. cbn [chars] in I. destruct s as [|d s].
    - destruct I as [<-|[]]. exact B.
    - destruct (tail_byte d).
      + destruct (chars (d :: s)) as [|ch' rest] eqn:E.
        * destruct I as [<-|[]]. destruct B as [<-|[]]. left. reflexivity.
        * destruct I as [<-|I]; [destruct B as [<-|B]; [left; reflexivity|]|]; right; (eapply IH; [|exact B]); [left; reflexivity|right; exact I].
      + destruct I as [<-|I]; [destruct B as [<-|[]]; left; reflexivity|]. right. eapply IH; eassumption.
  Qed.
  Lemma str_same s : ~ In quote s -> debug (TText (Some (blen s)) [(true, s)]) = debug_str uni s.
  Proof.
    intros N. cbn [FmtSpec.debug pieces map snd List.concat]. unfold pieces. cbn [map snd List.concat]. rewrite app_nil_r. unfold debug_str, esc_text, dquote. do 3 f_equal.
    apply map_ext_in. intros ch I. destruct (is_char quote ch) eqn:Q; [|reflexivity]. exfalso. apply N.
    unfold is_char in Q. destruct ch as [|c [|]]; try discriminate. apply Ascii.eqb_eq in Q. subst c. eapply chars_in; [exact I|left; reflexivity].
  Qed.
  Definition agrees (v : datum) : Prop := debug (dtree v) = debug_of v /\ (hollow (dtree v) = true -> empty_inside v = true).

  Lemma tuple_same fs : Forall agrees fs -> forall z,
    map (fun f : option tag * index * tree => debug (snd f)) (map (fun p => (None, place (fst p), snd p)) (from z (map dtree fs))) = map debug_of fs.
  Proof. induction 1 as [|f fs (E & _) _ IH]; intros z; [reflexivity|]. cbn [map from fst snd]. rewrite E, IH. reflexivity. Qed.
  Lemma record_same fs : Forall agrees fs -> forall names z,
    map (fun f : option tag * label * index * tree => match f with (_, l, _, v) => l_text l ++ bs ": " ++ debug v end)
      (map (fun p => let '(n, (k, t)) := p in (None, name_label n, place k, t)) (combine names (from z (map dtree fs)))) =
    map (fun nx => fst nx ++ bs ": " ++ snd nx) (combine names (map debug_of fs)).
  Proof. induction 1 as [|f fs (E & _) _ IH]; intros [|n names] z; try reflexivity. cbn [map from combine fst snd name_label l_text]. rewrite E, IH. reflexivity. Qed.

  Lemma fields_same name i s fs : Forall agrees fs -> List.length fs = arity s ->
    match s with PTuple 0 | PNamed [] => False | _ => True end ->
    debug (plain_tree name i s (map dtree fs)) = debug_fields name s (map debug_of fs) /\
    (echoed (plain_tree name i s (map dtree fs)) = true -> s = PTuple 1 /\ existsb empty_inside fs = true).
  Proof.
    intros H L N. destruct s as [|[|[|n]]|names]; try contradiction.
    - split; [reflexivity|discriminate].
    - destruct fs as [|f [|? ?]]; try discriminate. inversion H as [|? ? (E & Ho) _]; subst. cbn [plain_tree map nth FmtSpec.debug debug_fields otag_is orb].
      cbn [name_label l_text]. rewrite E. split; [reflexivity|]. cbn [echoed hollow existsb]. intros X. rewrite (Ho X). auto.
    - destruct fs as [|f fs]; [discriminate|]. split; [|discriminate]. cbn [plain_tree FmtSpec.debug debug_fields FmtSpec.name name_label l_text].
      rewrite (tuple_same _ H). reflexivity.
    - destruct names as [|n names]; [contradiction|]. destruct fs as [|f fs]; [discriminate|]. split; [|discriminate].
      cbn [plain_tree FmtSpec.debug]. rewrite (record_same _ H (n :: names) 0%Z). cbn [debug_fields name_label l_text combine map in_braces]. rewrite <- !app_assoc. reflexivity.
  Qed.

  Lemma all_agree v : typed v -> same_text p32 p64 d32 d64 v -> agrees v.
  Proof.
    assert (F : forall vs, Forall (fun v => typed v -> same_text p32 p64 d32 d64 v -> agrees v) vs ->
      fold_right and True (map typed vs) -> fold_right and True (map (same_text p32 p64 d32 d64) vs) -> Forall agrees vs).
    { clear v. induction 1 as [|v vs Hv _ IH]; cbn; intros T S; [constructor|]. constructor; [apply Hv; tauto|apply IH; tauto]. }
    induction v using datum_ind'; intros T S; cbn [typed same_text] in T, S; try contradiction; try (split; [reflexivity|discriminate]).
    - split; [exact S|discriminate].
    - split; [exact S|discriminate].
    - split; [apply str_same, S|discriminate].
    - destruct (IHv T S) as (E & Ho). split; [cbn; cbn in E; rewrite E; reflexivity|exact Ho].
    - specialize (F _ H T S). split; [|destruct vs; [reflexivity|discriminate]]. cbn [dtree FmtSpec.debug RustFmtSpec.debug_of]. do 3 f_equal. rewrite map_map.
      apply map_ext_in. rewrite Forall_forall in F. intros a I. apply F. exact I.
    - specialize (F _ H T S). split; [|destruct vs; [reflexivity|discriminate]]. cbn [dtree constant_size FmtSpec.debug RustFmtSpec.debug_of otag_is orb]. do 3 f_equal. rewrite map_map.
      apply map_ext_in. rewrite Forall_forall in F. intros a I. apply F. exact I.
    - destruct T as (L & T). destruct S as (L1 & S). specialize (F _ H T S). split; [|destruct vs; [cbn in L; lia|discriminate]].
      cbn [dtree FmtSpec.debug FmtSpec.name]. rewrite (tuple_same _ F). cbn [app]. destruct vs as [|a [|b vs]]; [reflexivity|cbn in L1; lia|reflexivity].
    - subst es. split; reflexivity.
    - exact (IHv T S).
    - destruct T as (D & L & T). destruct S as (N & S). specialize (F _ H T S). unfold agrees. cbn [dtree RustFmtSpec.debug_of]. unfold data_tree.
      destruct (variant_of d i) as [[name s]|] eqn:V; [|contradiction].
      assert (N' : match s with PTuple 0 | PNamed [] => False | _ => True end) by (destruct s as [|[|[|]]|[|]]; tauto).
      destruct d as [n s'|n vs].
      + destruct (fields_same name None s fs F L N') as (E & Ho). split; [exact E|]. intros X.
        assert (Y : echoed (plain_tree name None s (map dtree fs)) = true).
        { destruct s as [|[|[|]]|]; try discriminate X; exact X. }
        destruct (Ho Y) as (-> & Z). cbn [variant_of] in V. destruct i; [|discriminate]. injection V as -> ->.
        destruct fs as [|f [|? ?]]; try discriminate. cbn [existsb] in Z. rewrite orb_false_r in Z. exact Z.
      + destruct (fields_same name (Some (place (Z.of_nat i))) s fs F L N') as (E & Ho). split; [|discriminate].
        cbn [FmtSpec.debug]. rewrite E. destruct (echoed _) eqn:X; [|apply app_nil_r]. destruct (Ho eq_refl) as (-> & Z). rewrite Z in N. discriminate.
  Qed.
End Text.

(** ** C65 *)

(** [{:?}] of [ToFmt(v)] is [{:?}] of [v] ([p32], [p64]: [Display] of floats; [d32],
    [d64]: their [Debug]). *)
Definition C65_like_debug (p32 p64 d32 d64 : float -> bytes) : Prop :=
  forall uni v, typed v -> to_fmt_string p32 p64 uni (rust v) = Some (debug_of d32 d64 uni v).

Lemma no_failure v t : streams v t -> value_fails v = false.
Proof. intros H. pose proof (flat_ok v false) as F. unfold streams in H. rewrite H in F. cbn in F. destruct (value_fails v); [discriminate|reflexivity]. Qed.

Theorem C65_like_debug_partial :
  forall p32 p64 d32 d64 uni v, typed v -> same_text p32 p64 d32 d64 v ->
  to_fmt_string p32 p64 uni (rust v) = Some (debug_of d32 d64 uni v) /\
  fmt_to_string p32 p64 uni (rust v) = Some (debug_of d32 d64 uni v).
Proof.
  intros p32 p64 d32 d64 uni v T S. destruct (all_agree p32 p64 d32 d64 uni v T S) as (E & _). destruct (rust_holds v T) as (St & _).
  assert (U : value_utf8 (rust v) = true).
  { pose proof St as X. unfold streams in X. eapply flat_utf8_back; [exact X|]. eapply all_good; eassumption. }
  assert (R : fmt_to_string p32 p64 uni (rust v) = Some (debug_of d32 d64 uni v)) by (rewrite (C30_text _ _ _ _ _ St U), E; reflexivity).
  split; [|exact R]. destruct (C48_to_string_never_panics p32 p64 uni (rust v)) as (s & A & B). rewrite A. rewrite (B (no_failure _ _ St)) in R. exact R.
Qed.

(** Each of the exclusions is needed: what is printed, and what [Debug] prints. *)
Section Differences.
  Let put (_ : float) : bytes := bs "1".
  Let dbg (_ : float) : bytes := bs "1.0".
  Let uni (c : bytes) : list bytes := [c].
  Definition one : float := S754_finite false 1 0.
  Definition differs (v : datum) (shown expected : bytes) : Prop :=
    typed v /\ to_fmt_string put put uni (rust v) = Some shown /\ debug_of dbg dbg uni v = expected /\ shown <> expected.
  Definition tagged_decl : decl := PEnum (bs "E") [(bs "A", PTuple 1); (bs "B", PTuple 0); (bs "C", PNamed [])].
  Theorem C65_differences :
    differs (VF64 one) (bs "1") (bs "1.0") /\
    differs (VChar 97) (bs """a""") (bs "'a'") /\
    differs (VStr (bs "it's")) (bs """it\'s""") (bs """it's""") /\
    differs (VTup [VUnit]) (bs "(())") (bs "((),)") /\
    differs (VMap [(VInt U8 1, VBool true)]) (bs "{ 1: true }") (bs "{1: true}") /\
    differs (VData (PStruct (bs "S") (PTuple 0)) 0 []) (bs "S()") (bs "S") /\
    differs (VData (PStruct (bs "S") (PNamed [])) 0 []) (bs "S {}") (bs "S") /\
    differs (VData tagged_decl 1 []) (bs "B()E") (bs "B") /\
    differs (VData tagged_decl 2 []) (bs "C {}E") (bs "C") /\
    differs (VData tagged_decl 0 [VVec []]) (bs "A([])E") (bs "A([])").
  Proof.
    repeat match goal with |- _ /\ _ => split end; (split; [|split; [vm_compute; reflexivity|split; [vm_compute; reflexivity|discriminate]]]);
      cbn; repeat match goal with |- _ /\ _ => split end; try exact I; try lia; try reflexivity. left. reflexivity.
  Qed.
End Differences.

(** The full statement, for every way to print floats. *)
Theorem C65_like_debug_refuted : forall p32 p64 d32 d64, ~ C65_like_debug p32 p64 d32 d64.
Proof.
  intros p32 p64 d32 d64 H. specialize (H (fun c => [c]) (VMap [(VInt U8 1, VBool true)])). vm_compute in H.
  assert (X : (true = true /\ True) /\ True) by auto. specialize (H X). discriminate H.
Qed.

Definition fmt_shape : decl := PEnum (bs "Shape") [(bs "Empty", PUnit); (bs "Circle", PTuple 1); (bs "Rect", PNamed [bs "w"; bs "h"]); (bs "Tri", PTuple 3)].
Definition fmt_rust_sample : datum :=
  VData (PStruct (bs "All") (PNamed [bs "id"; bs "opt"; bs "shapes"; bs "pair"; bs "map"; bs "unit"])) 0
    [ VData (PStruct (bs "Id") (PTuple 1)) 0 [VInt U64 7];
      VSome VNone;
      VVec [VData fmt_shape 0 []; VData fmt_shape 1 [VBool true]; VData fmt_shape 2 [VInt I8 (-1); VUnit]; VData fmt_shape 3 [VUnit; VArray []; VStr (bs "s""")]];
      VTup [VInt I32 (-5); VF64 one];
      VMap [];
      VData (PStruct (bs "U") PUnit) 0 [] ].
Lemma fmt_rust_sample_typed : typed fmt_rust_sample.
Proof. cbn; repeat (split || apply I || apply conj); try (vm_compute; reflexivity); lia. Qed.
Example C65_sample : forall r, let r1 := fun f : float => r f in typed fmt_rust_sample /\ same_text r1 r1 r1 r1 fmt_rust_sample /\
  debug_of (fun _ => bs "1.0") (fun _ => bs "1.0") (fun c => [c]) fmt_rust_sample =
  bs "All { id: Id(7), opt: Some(None), shapes: [Empty, Circle(true), Rect { w: -1, h: () }, Tri((), [], ""s\"""")], pair: (-5, 1.0), map: {}, unit: U }".
Proof.
  intros r r1. split; [exact fmt_rust_sample_typed|]. split; [|vm_compute; reflexivity].
  cbn; repeat (split || apply I || apply conj); try discriminate; try reflexivity. intros [X|[X|[]]]; discriminate.
Qed.

Print Assumptions C65_like_debug_partial.
Print Assumptions C65_differences.
Print Assumptions C65_like_debug_refuted.
